(** Specification of SI references, the reference numbers of Slovenian payment orders (properties C208, C209 and C210). *)
From Verif Require Import Base StringSpec ParserModel ParserSpec ParserPeg ParserInt ParserRefSpec SiModel.

(** ** The parts.  Up to [n] runs of digits with one '-' between two of them, as far as they go, at the head of [v] *)
Fixpoint split_parts (n : nat) (v : list Z) : list (list Z) :=
  match n with
  | O => []
  | S k =>
      match take_while is_dec v with
      | [] => []
      | d => d :: match skipn (length d) v with 45 :: r => split_parts k r | _ => [] end
      end
  end.
(** the intervals of parts that start at [x] *)
Fixpoint part_ivs (x : nat) (ps : list (list Z)) : list (nat * nat) :=
  match ps with [] => [] | p :: r => (x, (x + length p)%nat) :: part_ivs (x + length p + 1) r end.
(** the last position: that of the last part, or [d] without parts *)
Definition last_end (d : nat) (ivs : list (nat * nat)) : nat := last (map snd ivs) d.

(** ** The control digit: the digits times 2, 3, 4, ... from the right, 11 less the remainder modulo 11; 10 and 11 become 0 *)
Fixpoint weigh (w : Z) (l : list Z) : Z := match l with [] => 0 | c :: r => (c - 48) * w + weigh (w + 1) r end.
Definition control_digit (ds : list Z) : Z := let k := 11 - weigh 2 (rev ds) mod 11 in if 10 <=? k then 0 else k.
(** the last digit is the control digit of those before it *)
Definition checks (l : list Z) : Prop := exists ds k, l = ds ++ [k] /\ k - 48 = control_digit ds.

(** ** What each model demands: which of the parts, joined, must check; [None]: it does not allow this number of parts *)
Definition groups (m : Z) (ps : list (list Z)) : option (list (list Z)) :=
  match ps with
  | [p; q; r] =>
      match m with
      | 0 => Some [] | 1 => Some [p ++ q ++ r] | 2 => Some [q; r] | 3 => Some [p; q; r] | 4 => Some [p; r] | 5 | 55 => Some [p]
      | 6 => Some [q ++ r] | 7 => Some [q] | 8 => Some [p ++ q; r] | 9 => Some [p ++ q] | 10 => Some [p; q ++ r]
      | 11 | 18 | 19 | 28 | 38 | 40 | 41 | 48 | 49 | 51 | 58 => Some [p; q] | _ => None
      end
  | [p; q] =>
      match m with
      | 0 => Some [] | 1 => Some [p ++ q] | 5 | 55 => Some [p] | 6 => Some [q] | 7 => Some [q] | 9 => Some [p ++ q] | 10 => Some [p; q]
      | 11 | 18 | 19 | 28 | 38 | 40 | 41 | 48 | 49 | 51 | 58 => Some [p; q] | 21 | 31 => Some [p] | _ => None
      end
  | [p] => match m with 0 => Some [] | 1 => Some [p] | 5 | 55 => Some [p] | 9 => Some [p] | 12 => Some [p] | _ => None end
  | _ => None
  end.
(** at most twelve digits in a part and twenty in all; thirteen for model 12 *)
Definition sizes_ok (m : Z) (ps : list (list Z)) : Prop :=
  if m =? 12 then Forall (fun p => (length p <= 13)%nat) ps else Forall (fun p => (length p <= 12)%nat) ps /\ (length (concat ps) <= 20)%nat.
(** the models that are looked at; the others are taken as valid *)
Definition known (m : Z) : Prop := In m [0; 1; 2; 3; 4; 5; 6; 7; 8; 9; 10; 11; 12; 18; 19; 21; 28; 31; 38; 40; 41; 48; 49; 51; 55; 58].
Definition si_ok (m : Z) (ps : list (list Z)) : Prop :=
  known m -> exists gs, groups m ps = Some gs /\ sizes_ok m ps /\ Forall checks gs.
(** a check over joined parts *)
Definition joined (m : Z) (n : nat) : Prop := (m = 1 \/ m = 9) /\ (2 <= n)%nat \/ (m = 6 \/ m = 8 \/ m = 10) /\ n = 3%nat.

Section At.
Context (txt : list Z) (toup : Z -> Z) (sp : pfun) (e : nat) (fl : pflags).
(** "SI" and the two digits of the model *)
Definition si_head (s : nat) (a b : Z) : Prop :=
  (exists u v r, vis txt s e = u :: v :: a :: b :: r /\ seen toup fl u = 83 /\ seen toup fl v = 73) /\ is_dec a = true /\ is_dec b = true.
(** the parts behind it, and where they start: what the space parser takes is left out once; model 99 has none *)
Definition si_from (s : nat) : nat := skip_space sp e fl (s + 4).
Definition si_list (s : nat) (a b : Z) : list (list Z) := if (a =? 57) && (b =? 57) then [] else split_parts 3 (vis txt (si_from s) e).
Definition model_no (a b : Z) : Z := 10 * (a - 48) + (b - 48).
End At.
(** the object holds these *)
Definition si_holds (o : si_obj) (mo : list Z) (ivs : list (nat * nat)) (i : nat * nat) : Prop :=
  zstring (si_model o) = mo /\ [si_p1 o; si_p2 o; si_p3 o] = ivs ++ repeat no_iv (3 - length ivs) /\ si_itv o = i.
