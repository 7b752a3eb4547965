(** Specification vocabulary for uuid texts (C62).  Nothing here refers to the model. *)
From Verif Require Import Base StringSpec.

(** Hexadecimal digits, of either case, and the number they denote. *)
Definition hexd (c : Z) : Prop := 48 <= c <= 57 \/ 65 <= c <= 70 \/ 97 <= c <= 102.
Definition hexv (ds : list Z) : Z := numeral_value 16 ds.
Definition group (n : nat) (ds : list Z) : Prop := length ds = n /\ Forall hexd ds.

(** The documented form {xxxxxxxx-xxxx-xxxx-xxxx-xxxxxxxxxxxx}. *)
Definition documented (t g1 g2 g3 g4 g5 : list Z) : Prop :=
  group 8 g1 /\ group 4 g2 /\ group 4 g3 /\ group 4 g4 /\ group 12 g5 /\
  t = [123] ++ g1 ++ [45] ++ g2 ++ [45] ++ g3 ++ [45] ++ g4 ++ [45] ++ g5 ++ [125].

(** The big-endian bytes of a number. *)
Fixpoint be_bytes (n : nat) (v : Z) : list Z :=
  match n with O => [] | S k => be_bytes k (v / 256) ++ [v mod 256] end.
(** The uuid_t with those groups: the first three numbers are stored in the (little-endian) byte order
    of the machine, the rest are plain bytes. *)
Definition uuid_of (a b c d e : Z) : list Z :=
  rev (be_bytes 4 a) ++ rev (be_bytes 2 b) ++ rev (be_bytes 2 c) ++ be_bytes 2 d ++ be_bytes 6 e.
Definition is_uuid (id : list Z) : Prop := length id = 16%nat /\ Forall (fun x => 0 <= x < 256) id.

(** What the parser takes for a number: a sign, a prefix 0x, digits; each may be missing. *)
Definition loose_number (t : list Z) (neg : bool) (ds : list Z) : Prop :=
  exists sign prefix, t = sign ++ prefix ++ ds /\ Forall hexd ds /\
    (neg = false /\ (sign = [] \/ sign = [43]) \/ neg = true /\ sign = [45]) /\
    (prefix = [] \/ prefix = [48; 120] \/ prefix = [48; 88]).
(** its value, as the 64-bit reader gives it *)
Definition loose_value (neg : bool) (ds : list Z) : Z :=
  if neg then Z.max 0 (2 ^ 64 - 1 - hexv ds) else Z.min (2 ^ 64 - 1) (hexv ds).
Definition all_white (w : list Z) : Prop := Forall (fun c => white c = true) w.
Definition loose_field (t : list Z) (v : Z) : Prop :=
  exists w1 n w2 neg ds, t = w1 ++ n ++ w2 /\ all_white w1 /\ all_white w2 /\ loose_number n neg ds /\ v = loose_value neg ds.
