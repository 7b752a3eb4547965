(** Specification of what the HTTP parsers recognise: a grammar after RFC 2616 (2.2, 3.6, 3.7), RFC 2109 and RFC 1766, over the
    units a parser sees from a position on.  [tok v w r]: [v] is [w], which is a token, and then [r]. *)
From Verif Require Import Base StringSpec HtmlTagModel HttpModel.

(** units of char *)
Definition chars (l : list Z) : Prop := Forall (fun c => -128 <= c <= 127) l.
(** the first unit of [r], if any, is not in [p] *)
Definition stops (p : Z -> Prop) (r : list Z) : Prop := match r with c :: _ => ~ p c | [] => True end.
(** [w] is the longest start of [v] made of units in [p]; [r] is what follows *)
Definition longest (p : Z -> Prop) (v w r : list Z) : Prop := v = w ++ r /\ Forall p w /\ stops p r.

(** parentheses, brackets, braces, angle brackets, at, comma, semicolon, colon, backslash, quotation mark, slash, question mark, equals *)
Definition separators : list Z := [40; 41; 60; 62; 64; 44; 59; 58; 92; 34; 47; 91; 93; 63; 61; 123; 125].
(** printable units other than separators, and the units of other character sets *)
Definition token_char (c : Z) : Prop := (c < 0 \/ 32 < c < 127) /\ ~ In c separators.
Definition is_white (c : Z) : Prop := white c = true.
Definition tok (v w r : list Z) : Prop := longest token_char v w r /\ w <> [].
(** White space between tokens: all there is, unless that is a single line break. *)
Definition single_break (w : list Z) : Prop := w = [10] \/ w = [13; 10].
Definition gap (v w r : list Z) : Prop := exists u t, longest is_white v u t /\ (single_break u /\ w = [] /\ r = v \/ ~ single_break u /\ w = u /\ r = t).
(** Linear white space of RFC 2616: blanks, possibly behind one line break *)
Definition lws (w : list Z) : Prop := exists u b, w = u ++ b /\ (u = [] \/ u = [13; 10]) /\ b <> [] /\ Forall (fun c => c = 32 \/ c = 9) b.

(** What may be between the quotation marks of a quoted string: pairs of a backslash and a unit, and other units that are not
    control characters, or are white space; a line feed must be followed by white space (a folded line). *)
Inductive quoted_body : list Z -> Prop :=
| qb_nil : quoted_body []
| qb_pair : forall c b, quoted_body b -> quoted_body (92 :: c :: b)
| qb_char : forall c b, 32 <= c -> c <> 34 -> c <> 92 -> quoted_body b -> quoted_body (c :: b)
| qb_white : forall c b, is_white c -> (c = 10 -> exists d t, b = d :: t /\ is_white d) -> quoted_body b -> quoted_body (c :: b).
(** A value that starts at position [i]: a quoted string or a token *)
Definition value_at (i : nat) (v : list Z) (x : hvalue) (r : list Z) : Prop :=
  (exists b, v = 34 :: b ++ 34 :: r /\ quoted_body b /\ x = HQuoted (i, i + length b + 2)%nat (i + 1, i + 1 + length b)%nat) \/
  (exists w, tok v w r /\ x = HToken (i, i + length w)%nat).

(** name = value, no white space behind the sign; or, without the sign, name value *)
Definition parameter_at (i : nat) (v : list Z) (p : hparam) (r : list Z) : Prop :=
  exists n v1 g v2 x, tok v n v1 /\ gap v1 g v2 /\
    ((exists v3, v2 = 61 :: v3 /\ value_at (i + length n + length g + 1) v3 x r) \/ (hd 0 v2 <> 61 /\ value_at (i + length n + length g) v2 x r)) /\
    p = HParam i (i, i + length n)%nat x (hv_end x).
(** name = value, white space on both sides of the sign; the name is at [i], the interval starts at [s] *)
Definition assignment_at (s i : nat) (v : list Z) (p : hparam) (r : list Z) : Prop :=
  exists n v1 g v2 h v3 x, tok v n v1 /\ gap v1 g (61 :: v2) /\ gap v2 h v3 /\ value_at (i + length n + length g + 1 + length h) v3 x r /\
    p = HParam s (i, i + length n)%nat x (hv_end x).
Definition cookie_parameter_at (i : nat) (v : list Z) (p : hparam) (r : list Z) : Prop := exists v1, v = 36 :: v1 /\ assignment_at i (i + 1) v1 p r.
(** type / subtype *)
Definition media_range_at (i : nat) (v : list Z) (m : hmedia) (r : list Z) : Prop :=
  exists t v1 g v2 h v3 u, tok v t v1 /\ gap v1 g (47 :: v2) /\ gap v2 h v3 /\ tok v3 u r /\
    let k := (i + length t + length g + 1 + length h)%nat in m = HMedia (i, i + length t)%nat (k, k + length u)%nat [] (k + length u).
(** As many parameters as there are, each behind a semicolon *)
Inductive params_at (item : nat -> list Z -> hparam -> list Z -> Prop) : nat -> list Z -> list hparam -> Prop :=
| pa_item : forall i v g v1 h v2 p r l, gap v g (59 :: v1) -> gap v1 h v2 -> item (i + length g + 1 + length h)%nat v2 p r ->
    params_at item (i + length v - length r) r l -> params_at item i v (p :: l)
| pa_end : forall i v, (forall g v1 h v2 k p r, gap v g (59 :: v1) -> gap v1 h v2 -> ~ item k v2 p r) -> params_at item i v [].
(** where a list of parameters ends *)
Definition last_end (x : nat) (l : list hparam) : nat := last (map hp_end l) x.
