(** Specification of the account number and reference parsers (properties C66 and C114). *)
From Coq Require Import ZifyBool ZifyNat.
From Verif Require Import Base StringSpec ParserModel ParserSpec ParserPeg ParserInt ParserRefModel.

(** ISO 7064: read as a decimal number with every letter replaced by two digits, 'A' by 10 ... 'Z' by 35 *)
Definition iso_number (l : list Z) : Z := fold_left (fun v c => v * (if is_dec c then 10 else 100) + digit_value c) l 0.
(** a capital letter or a digit *)
Definition capital (c : Z) : bool := (65 <=? c) && (c <=? 90).
Definition cap_or_dec (c : Z) : bool := is_dec c || capital c.
Definition letters (l : list Z) : nat := length (filter capital l).
(** what an array of characters holds as a zero-terminated string *)
Definition zstring (l : list Z) : list Z := take_while (fun c => negb (c =? 0)) l.

Section Spec.
Context (txt : list Z) (toup : Z -> Z) (sp : pfun) (e : nat) (fl : pflags).
(** the unit as the parser sees it *)
Definition seen (c : Z) : Z := if fl_ci fl then toup c else c.
(** [n] letters or digits from [s] to [y], with what the space parser takes left out before each of them *)
Inductive chars_at : nat -> nat -> list Z -> nat -> Prop :=
| chars_done : forall s, chars_at 0 s [] s
| chars_space : forall n s x cs y, vis txt s e <> [] -> sp s e fl = Some x -> chars_at (S n) x cs y -> chars_at (S n) s cs y
| chars_char : forall n s c r cs y, vis txt s e = c :: r -> sp s e fl = None -> cap_or_dec (seen c) = true -> chars_at n (S s) cs y -> chars_at (S n) s (seen c :: cs) y.
(** An IBAN from [s] to [y]: the code of the country [d], two check digits (those the country prescribes), and so many characters
    that there are [len d] in all *)
Definition iban_at (d : country) (k l : Z) (cs : list Z) (s y : nat) : Prop :=
  In d countries /\
  (exists a b r, vis txt s e = a :: b :: k :: l :: r /\ seen a = c0 d /\ seen b = c1 d) /\
  is_dec k = true /\ is_dec l = true /\ (k0 d <> 0 -> k = k0 d) /\ (k1 d <> 0 -> l = k1 d) /\
  chars_at (Z.to_nat (len d - 4)) (s + 4) cs y.
(** The characters of a creditor reference: blocks of four, the space parser tried once before each block; ends at the first
    unit that is neither letter nor digit *)
Definition skip_space (s : nat) : nat := match sp s e fl with Some x => x | None => s end.
Definition ends_at (s : nat) : Prop := match vis txt s e with c :: _ => cap_or_dec (seen c) = false | [] => True end.
Fixpoint run_at (cs : list Z) (s y : nat) : Prop :=
  match cs with
  | [] => s = y
  | k :: r => exists c t, vis txt s e = c :: t /\ k = seen c /\ cap_or_dec k = true /\ run_at r (S s) y
  end.
Inductive blocks_at : nat -> list Z -> nat -> Prop :=
| blocks_last : forall s cs y, (length cs < 4)%nat -> run_at cs (skip_space s) y -> ends_at y -> blocks_at s cs y
| blocks_more : forall s cs x ds y, length cs = 4%nat -> run_at cs (skip_space s) x -> blocks_at x ds y -> blocks_at s (cs ++ ds) y.
(** A creditor reference: "RF", two check digits, 1 to 21 characters *)
Definition reference_at (k l : Z) (cs : list Z) (s y : nat) : Prop :=
  (exists a b r, vis txt s e = a :: b :: k :: l :: r /\ seen a = 82 /\ seen b = 70) /\
  is_dec k = true /\ is_dec l = true /\ (1 <= length cs <= 21)%nat /\ blocks_at (s + 4) cs y.
End Spec.

(** the members of an iban object *)
Definition iban_country (st : pst) : list Z := zstring (firstn 3 (vals st)).
Definition iban_check (st : pst) : list Z := zstring (firstn 3 (skipn 3 (vals st))).
Definition iban_bban (st : pst) : list Z := zstring (firstn 31 (skipn 6 (vals st))).
Definition iban_valid (st : pst) : bool := nth 37 (vals st) 0 =? 1.
(** the members of a creditor_reference object *)
Definition ref_check (st : pst) : list Z := zstring (firstn 3 (vals st)).
Definition ref_reference (st : pst) : list Z := zstring (firstn 22 (skipn 3 (vals st))).
Definition ref_valid (st : pst) : bool := nth 25 (vals st) 0 =? 1.
