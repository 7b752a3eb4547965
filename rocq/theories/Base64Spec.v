(** RFC 4648 base64, independent of the code. *)
From Verif Require Import Base.

(** RFC 4648 table 1: A-Z a-z 0-9 + / *)
Definition digit (v : Z) : Z :=
  if v <? 26 then 65 + v
  else if v <? 52 then 97 + (v - 26)
  else if v <? 62 then 48 + (v - 52)
  else if v =? 62 then 43 else 47.
Definition eq_sign : Z := 61.
Definition lf : Z := 10.

(** A 24-bit group and its four 6-bit parts, most significant first. *)
Definition group24 (a b c : Z) : Z := a * 65536 + b * 256 + c.
Definition sextet (n i : Z) : Z := n / 64 ^ (3 - i) mod 64.

Fixpoint rfc4648 (l : list Z) : list Z :=
  match l with
  | a :: b :: c :: r =>
      let n := group24 a b c in
      [digit (sextet n 0); digit (sextet n 1); digit (sextet n 2); digit (sextet n 3)] ++ rfc4648 r
  | [a; b] =>
      let n := group24 a b 0 in [digit (sextet n 0); digit (sextet n 1); digit (sextet n 2); eq_sign]
  | [a] => let n := group24 a 0 0 in [digit (sextet n 0); digit (sextet n 1); eq_sign; eq_sign]
  | [] => []
  end.

(** Characters of base64 text: the alphabet and the padding character. *)
Definition between (a b x : Z) : bool := (a <=? x) && (x <=? b).
Definition is_b64 (c : Z) : bool :=
  between 65 90 c || between 97 122 c || between 48 57 c || (c =? 43) || (c =? 47) || (c =? 61).

Definition byte (x : Z) : Prop := 0 <= x < 256.
Definition bytes (l : list Z) : Prop := Forall byte l.

(** Lines joined with line feeds. *)
Fixpoint join_lines (l : list (list Z)) : list Z :=
  match l with
  | [] => []
  | [x] => x
  | x :: r => x ++ lf :: join_lines r
  end.
(** All lines have length n except the last, which is shorter or equal. *)
Fixpoint full_lines (n : Z) (l : list (list Z)) : Prop :=
  match l with
  | [] => True
  | [x] => 0 < Z.of_nat (length x) <= n
  | x :: r => Z.of_nat (length x) = n /\ full_lines n r
  end.

Example rfc_ex : rfc4648 [77; 97; 110; 77; 97; 77] = [84;87;70;117; 84;87;70;78].  (* "ManMaM" -> "TWFuTWFN" *)
Proof. reflexivity. Qed.
Example rfc_ex1 : rfc4648 [102; 111; 111; 98] = [90;109;57;118; 89;103;61;61]. (* "foob" -> "Zm9vYg==" *)
Proof. reflexivity. Qed.
