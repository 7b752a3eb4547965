(** What a MIME type is, over the units a parser sees from a position [i] on; [r] is what follows it. *)
From Verif Require Import Base HtmlTagModel HttpSpec HttpUrlSpec MimeModel.

Section Mime.
Context (sp : Z -> bool).
Definition blank (c : Z) : Prop := sp c = true.
Definition type_char (c : Z) : Prop := c <> 47 /\ c <> 59 /\ ~ blank c.
(** charset= in capital and small letters *)
Definition key (k : list Z) : Prop := Forall2 (fun c d => c = d \/ (97 <= d <= 122 /\ c = d - 32)) k str_charset.
Definition is_quote (q : Z) : Prop := q = 34 \/ q = 39.
(** What follows the equals sign: a quoted string, a quoted string that does not end, or units up to a blank *)
Inductive charset_at (i : nat) : list Z -> itv -> list Z -> Prop :=
| cs_quoted : forall q x r, is_quote q -> ~ In q x -> charset_at i (q :: x ++ q :: r) (i + 1, i + 1 + length x)%nat r
| cs_open : forall q x, is_quote q -> ~ In q x -> charset_at i (q :: x) no_itv []
| cs_plain : forall v x r, (forall q, first_is q v -> ~ is_quote q) -> longest (fun c => ~ blank c) v x r -> charset_at i v (i, i + length x)%nat r.
(** What follows the subtype *)
Inductive options_at (i : nat) : list Z -> itv -> list Z -> Prop :=
| op_none : forall v, ~ first_is 59 v -> options_at i v no_itv v
| op_other : forall v w r, longest blank v w r -> (forall k t, r = k ++ t -> ~ key k) -> options_at i (59 :: v) no_itv r
| op_charset : forall v w k t c r, longest blank v w (k ++ t) -> key k -> charset_at (i + 1 + length w + length k) t c r -> options_at i (59 :: v) c r.
(** base/sub and the options *)
Definition mime_at (i : nat) (v : list Z) (m : mime) (r : list Z) : Prop :=
  exists b x u t c, longest type_char v b (47 :: x) /\ b <> [] /\ longest type_char x u t /\ u <> [] /\
    options_at (i + length b + 1 + length u) t c r /\
    m = Mime (i, i + length b)%nat (i + length b + 1, i + length b + 1 + length u)%nat c (i + length v - length r).
End Mime.
