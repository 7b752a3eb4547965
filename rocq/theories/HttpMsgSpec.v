(** Specification of languages, weights, agents, protocols, requests, headers and lists of values of HTTP. *)
From Verif Require Import Base StringSpec HtmlTagModel HttpModel HttpSpec HttpUrlSpec.

Definition alpha (c : Z) : Prop := 65 <= c <= 90 \/ 97 <= c <= 122.
(** letters, and further letters each time behind a hyphen *)
Inductive language_at : nat -> list Z -> list itv -> list Z -> Prop :=
| lang_last : forall i v w r, longest alpha v w r -> w <> [] -> (forall c t, r = 45 :: c :: t -> ~ alpha c) -> language_at i v [(i, i + length w)%nat] r
| lang_more : forall i v w t l r, longest alpha v w (45 :: t) -> w <> [] -> language_at (i + length w + 1) t l r -> language_at i v ((i, i + length w)%nat :: l) r.

(** A weight: digits, and possibly a point and more digits; at least one unit.  The numbers are those of size_t. *)
Definition weight_at (i : nat) (v : list Z) (w : hweight) (r : list Z) : Prop :=
  exists ds t, longest digit_char v ds t /\
    ((exists fs, t = 46 :: fs ++ r /\ longest digit_char (fs ++ r) fs r /\
        w = HWeight (i, i + length ds + 1 + length fs)%nat (u64 (numeral_value 10 ds)) (u64 (numeral_value 10 fs)) (u64 (10 ^ Z.of_nat (length fs)))) \/
     (~ first_is 46 t /\ r = t /\ ds <> [] /\ w = HWeight (i, i + length ds)%nat (u64 (numeral_value 10 ds)) 0 1)).
(** ; q = in front of a weight, with white space; [n] units *)
Definition quality (v : list Z) (n : nat) (r : list Z) : Prop :=
  exists a b c d q, v = a ++ 59 :: b ++ q :: c ++ 61 :: d ++ r /\ Forall is_white (a ++ b ++ c ++ d) /\ (q = 113 \/ q = 81) /\ stops is_white r /\ n = length (a ++ 59 :: b ++ q :: c ++ 61 :: d).

(** An asterisk or a value, and possibly its quality *)
Definition weighted_at {V : Type} (star : list Z -> list Z -> list Z -> Prop) (value : nat -> list Z -> V -> list Z -> Prop) (i : nat) (v : list Z)
    (x : itv + V) (w : option hweight) (y : nat) : Prop :=
  exists r, ((exists u, star v u r /\ x = inl (i, i + length u)%nat) \/ ((forall u t, ~ star v u t) /\ exists b, value i v b r /\ x = inr b)) /\
    ((exists n t f z, quality r n t /\ weight_at (i + length v - length t) t f z /\ w = Some f /\ y = (i + length v - length z)%nat) \/
     ((forall n t k f z, quality r n t -> ~ weight_at k t f z) /\ w = None /\ y = (i + length v - length r)%nat)).
(** an asterisk; for media types possibly with a slash and an asterisk behind it *)
Definition star_at (v u r : list Z) : Prop := v = u ++ r /\ u = [42].
Definition any_at (v u r : list Z) : Prop := v = u ++ r /\ (u = [42; 47; 42] \/ (u = [42] /\ forall t, r <> 47 :: 42 :: t)).

Definition nonwhite (c : Z) : Prop := ~ is_white c.
(** type, or type/version *)
Definition agent_at (i : nat) (v : list Z) (ty : itv) (ver : option itv) (y : nat) : Prop :=
  exists n t, longest (fun c => nonwhite c /\ c <> 47) v n t /\ ty = (i, i + length n)%nat /\
    ((exists u x r, t = 47 :: u /\ longest nonwhite u x r /\ let k := (i + length n + 1)%nat in ver = Some (k, k + length x)%nat /\ y = (k + length x)%nat) \/
     (~ first_is 47 t /\ n <> [] /\ ver = None /\ y = (i + length n)%nat)).
(** type/major or type/major.minor, followed by white space; [maj] and [min] are the texts of the numbers *)
Definition protocol_at (v n maj : list Z) (min : option (list Z)) (r : list Z) : Prop :=
  Forall (fun c => nonwhite c /\ c <> 47) n /\ Forall (fun c => nonwhite c /\ c <> 46) maj /\ (exists c t, r = c :: t /\ is_white c) /\
  match min with Some m => Forall nonwhite m /\ v = n ++ 47 :: maj ++ 46 :: m ++ r | None => v = n ++ 47 :: maj ++ r end.

(** what is told about it: where the parts are, and the version, if the parts are numbers (the object holds it in 16 bits) *)
Definition proto_is (s : nat) (n maj : list Z) (min : option (list Z)) (p : hproto) : Prop :=
  let k := (s + length n + 1)%nat in let j := (k + length maj)%nat in
  pr_type p = (s, s + length n)%nat /\ pr_maj p = (k, j) /\
  pr_min p = match min with Some m => (j + 1, j + 1 + length m)%nat | None => no_itv end /\
  pr_end p = match min with Some m => (j + 1 + length m)%nat | None => j end /\
  (Forall digit_char maj -> numeral_value 10 maj < 2 ^ 64 ->
   match min with
   | Some m => Forall digit_char m -> numeral_value 10 m < 2 ^ 64 -> pr_version p = u16 (numeral_value 10 maj * 256 + numeral_value 10 m)
   | None => pr_version p = u16 (numeral_value 10 maj * 256)
   end).

(** a line break here *)
Definition at_break (v : list Z) : Prop := first_is 10 v \/ exists r, v = 13 :: 10 :: r.
Definition break_of (v w r : list Z) : Prop := v = w ++ r /\ (w = [10] \/ w = [13; 10]).
(** [h] is what is in front of the first place where a line breaks or a unit in [p] stands; [r] follows *)
Definition line_until (p : Z -> Prop) (v h r : list Z) : Prop :=
  v = h ++ r /\ (forall a c b, h = a ++ c :: b -> ~ at_break (c :: b ++ r) /\ ~ p c) /\ (r = [] \/ at_break r \/ exists c t, r = c :: t /\ p c).

(** The request line: white space, the method, white space, the address, and possibly white space and the protocol; the rest of the
    line is skipped.  [y] is where the next line starts, or where something that is not a protocol stands. *)
Definition after_url (k : nat) (v : list Z) (proto : option hproto) (y : nat) : Prop :=
  exists h r, line_until nonwhite v h r /\
    ((r = [] /\ proto = None /\ y = (k + length v)%nat) \/
     (exists b t, break_of r b t /\ proto = None /\ y = (k + length v - length t)%nat) \/
     (exists c t, r = c :: t /\ nonwhite c /\
        ((proto = None /\ y = (k + length h)%nat /\ forall n maj min x, ~ protocol_at r n maj min x) \/
         (exists p n maj min x h2 r2, proto = Some p /\ protocol_at r n maj min x /\ proto_is (k + length h) n maj min p /\ line_until (fun _ => False) x h2 r2 /\
            ((r2 = [] /\ y = (k + length v)%nat) \/ (exists b2 t2, break_of r2 b2 t2 /\ y = (k + length v - length t2)%nat)))))).

Definition request_at (tolow : Z -> Z) (s : nat) (v : list Z) (q : hrequest) : Prop :=
  exists a m g u r, v = a ++ m ++ g ++ u /\ Forall is_white a /\ ~ In 10 a /\ Forall nonwhite m /\ m <> [] /\ Forall is_white g /\ ~ In 10 g /\ g <> [] /\
    (exists c t, u = c :: t /\ nonwhite c) /\ rq_verb q = (s + length a, s + length a + length m)%nat /\
    url_at tolow (s + length a + length m + length g) u (rq_url q) r /\ after_url (ur_end (rq_url q)) r (rq_proto q) (rq_end q).

(** the next line continues this one: it starts with white space, but is not empty *)
Definition folded (v : list Z) : Prop := (exists c t, v = c :: t /\ is_white c) /\ ~ at_break v.
(** [b] is the body of a header with its line breaks, up to the line break that is not followed by a folded line *)
Inductive field : list Z -> list Z -> list Z -> Prop :=
| field_end : field [] [] []
| field_stop : forall v w r, break_of v w r -> ~ folded r -> field v w r
| field_fold : forall v w c t b r, break_of v w (c :: t) -> folded (c :: t) -> field t b r -> field v (w ++ c :: b) r
| field_char : forall c t b r, ~ at_break (c :: t) -> field t b r -> field (c :: t) (c :: b) r.
(** the part of [b], which starts at [j], from the first to the last unit that is not white space *)
Definition trimmed (j : nat) (b : list Z) (x : option itv) : Prop :=
  (Forall is_white b /\ x = None) \/
  (exists l m t, b = l ++ m ++ t /\ Forall is_white l /\ Forall is_white t /\ (exists c r, m = c :: r /\ nonwhite c) /\ (exists c r, m = r ++ [c] /\ nonwhite c) /\
     x = Some (j + length l, j + length l + length m)%nat).
(** name, possibly white space, colon, value *)
Definition header_at (s : nat) (v : list Z) (h : hheader) : Prop :=
  exists n g u b r, v = n ++ g ++ 58 :: u /\ Forall (fun c => nonwhite c /\ c <> 58) n /\ Forall is_white g /\ ~ In 10 g /\ (n = [] -> g = []) /\ field u b r /\
    hh_name h = (s, s + length n)%nat /\ hh_end h = (s + length v - length r)%nat /\ trimmed (s + length n + length g + 1) b (hh_value h).

(** The elements of a list: each may have one comma in front of it, and white space around that *)
Definition comma (v w r : list Z) : Prop :=
  exists a b c, longest is_white v a b /\ ((exists t, b = 44 :: t /\ longest is_white t c r /\ w = a ++ 44 :: c) \/ (~ first_is 44 b /\ r = b /\ w = a)).
Inductive items_at {V : Type} (item : nat -> list Z -> V -> list Z -> Prop) : nat -> list Z -> list V -> Prop :=
| items_more : forall i v w r x t l, comma v w r -> item (i + length w)%nat r x t -> items_at item (i + length v - length t) t l -> items_at item i v (x :: l)
| items_end : forall i v, (forall w r x t, comma v w r -> ~ item (i + length w)%nat r x t) -> items_at item i v [].

(** A strict weak order, as the standard library asks for; [same]: neither comes before the other *)
Definition weak_order {V : Type} (more : V -> V -> bool) : Prop :=
  (forall a, more a a = false) /\ (forall a b c, more a b = true -> more b c = true -> more a c = true) /\
  (forall a b c, more a b = false -> more b a = false -> more b c = false -> more c b = false -> more a c = false /\ more c a = false).
Definition same {V : Type} (more : V -> V -> bool) (a b : V) : bool := negb (more a b) && negb (more b a).

(** what http_token, http_language and a weighted value give, as an element of a list *)
Definition token_item (i : nat) (v : list Z) (y : nat) (r : list Z) : Prop := exists w, tok v w r /\ y = (i + length w)%nat.
Definition language_item (i : nat) (v : list Z) (x : list itv * nat) (r : list Z) : Prop := language_at i v (fst x) r /\ snd x = (i + length v - length r)%nat.
Definition weighted_item {V : Type} (star : list Z -> list Z -> list Z -> Prop) (value : nat -> list Z -> V -> list Z -> Prop) (i : nat) (v : list Z) (x : (itv + V) * option hweight * nat) (r : list Z) : Prop :=
  weighted_at star value i v (fst (fst x)) (snd (fst x)) (snd x) /\ r = skipn (snd x - i) v.
