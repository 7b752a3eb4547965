(** Specification of Roman numerals (property C112). *)
From Verif Require Import Base.

(** The digits I V X L C D M and the ones for 5000 and 10000. *)
Definition roman_digits : list Z := [1; 5; 10; 50; 100; 500; 1000; 5000; 10000].
(** A numeral is a row of tokens: a digit, or a power of ten before the digit five or ten times it (IV, IX, XL, XC, ...). *)
Inductive token := One (d : Z) | Two (a b : Z).
Definition tok_ok (t : token) : Prop :=
  match t with One d => In d roman_digits | Two a b => In a [1; 10; 100; 1000] /\ (b = 5 * a \/ b = 10 * a) end.
Definition tok_digits (t : token) : list Z := match t with One d => [d] | Two a b => [a; b] end.
Definition tok_value (t : token) : Z := match t with One d => d | Two a b => b - a end.
Definition tok_big (t : token) : Z := match t with One d => d | Two a b => b end.
(** Each token's digits are at most the value of the token before it. *)
Fixpoint chain (ts : list token) : Prop :=
  match ts with
  | t :: (u :: _) as r => tok_big u <= tok_value t /\ chain r
  | _ => True
  end.
(** No digit but the numeral's first stands four times in a row. *)
Definition no_four (ds : list Z) : Prop := forall p d q, ds = p ++ d :: d :: d :: d :: q -> d = hd 0 ds.
Definition roman (ds : list Z) : Prop := exists ts, ds = flat_map tok_digits ts /\ Forall tok_ok ts /\ chain ts /\ no_four ds.
(** The number it reads as: a digit before a bigger one is subtracted, the others are added. *)
Fixpoint roman_value (ds : list Z) : Z :=
  match ds with
  | d :: (c :: _) as r => (if d <? c then - d else d) + roman_value r
  | [d] => d
  | [] => 0
  end.

(** The usual numeral of a number: as many M as there are thousands, then the hundreds, tens and units from a table. *)
Definition places (one five ten : Z) (k : Z) : list Z :=
  match k with
  | 1 => [one] | 2 => [one; one] | 3 => [one; one; one] | 4 => [one; five]
  | 5 => [five] | 6 => [five; one] | 7 => [five; one; one] | 8 => [five; one; one; one] | 9 => [one; ten]
  | _ => []
  end.
Definition numeral_of (n : Z) : list Z :=
  repeat 1000 (Z.to_nat (n / 1000)) ++ places 100 500 1000 (n / 100 mod 10) ++ places 10 50 100 (n / 10 mod 10) ++ places 1 5 10 (n mod 10).
