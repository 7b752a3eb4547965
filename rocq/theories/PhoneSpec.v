(** Specification of phone numbers and chemical formulas (properties C223-C226), in terms of what the held parsers recognise. *)
From Verif Require Import Base StringModel ParserModel ParserSpec ParserNumModel ParserNumProps ParserPeg DateSpec.

(** ** Phone numbers *)
Inductive tok : Type := TDigit | TLeft | TRight | TSep | TSpace.
(** a piece of a phone number, from [it_from] to [it_to] *)
Record item : Type := Item { it_tok : tok; it_from : nat; it_to : nat }.
Definition has (t : tok) (l : list item) : Prop := In t (map it_tok l).
Definition last_is (t : tok) (l : list item) : Prop := exists l' a b, l = l' ++ [Item t a b].
(** behind [l] one is inside of the parentheses *)
Definition inside (l : list item) : Prop := has TLeft l /\ ~ has TRight l.
Section Phone.
Context (txt : list Z) (e : nat) (fl : pflags).
Context (D L R : espec) (Pl Se Sp : option espec).
(** what a piece looks like; spaces have no line breaks *)
Definition looks (t : tok) : pfun :=
  match t with TDigit => es_f D | TLeft => es_f L | TRight => es_f R | TSep => o_f Se | TSpace => fun s e fl => o_f Sp s e (one_line fl) end.
(** which piece may be at [x], behind the pieces [l] *)
Definition may (l : list item) (x : nat) (t : tok) : Prop :=
  match t with
  | TDigit => True
  | TLeft => ~ has TLeft l
  | TRight => inside l /\ exists a b, In (Item TLeft a b) l /\ num (Some L) a e fl = num (Some R) x e fl
  | TSep => last_is TDigit l /\ ~ inside l
  | TSpace => last_is TDigit l \/ last_is TRight l
  end.
Definition rank (t : tok) : nat := match t with TDigit => 0 | TLeft => 1 | TRight => 2 | TSep => 3 | TSpace => 4 end.
(** the piece at [x]: the first of those that may be there *)
Definition next_at (l : list item) (x : nat) (t : tok) (y : nat) : Prop :=
  may l x t /\ looks t x e fl = Some y /\ forall t', (rank t' < rank t)%nat -> may l x t' -> looks t' x e fl = None.
(** [z]: [l] and all pieces there are from [x] on *)
Inductive pieces : list item -> nat -> list item -> Prop :=
| PNone : forall l x, (forall t y, ~ next_at l x t y) -> pieces l x l
| PMore : forall l x t y z, next_at l x t y -> pieces (l ++ [Item t x y]) y z -> pieces l x z.
(** behind the piece [i], which is behind [l], the number may end: a digit outside of the parentheses, or the right one *)
Definition sure (l : list item) (i : item) : Prop := it_tok i = TDigit /\ ~ inside l \/ it_tok i = TRight.
Definition outer_digit (l : list item) : Prop := exists a i b, l = a ++ i :: b /\ it_tok i = TDigit /\ ~ inside a.
Definition slice (a b : nat) : list Z := firstn (b - a) (skipn a txt).
(** the text without separators and spaces *)
Definition written (l : list item) : list Z := flat_map (fun i => match it_tok i with TSep | TSpace => [] | _ => slice (it_from i) (it_to i) end) l.
Definition plus_at (s x : nat) (v : list Z) : Prop := match o_f Pl s e fl with Some y => x = y /\ v = slice s y | None => x = s /\ v = [] end.
(** a phone number from [s] to [y], normalised [v]: an optional plus sign and the pieces up to the last behind which it may end *)
Definition phone_at (s y : nat) (v : list Z) : Prop :=
  exists x p l a i b, plus_at s x p /\ pieces [] x l /\ outer_digit l /\ l = a ++ i :: b /\ sure a i /\
    (forall c j d, b = c ++ j :: d -> ~ sure (a ++ i :: c) j) /\ y = it_to i /\ v = p ++ written (a ++ [i]).
End Phone.

(** ** Chemical formulas *)
Section Chem.
Context (e : nat) (fl : pflags) (El Di Si : espec).
(** capital and small letters of elements are different *)
Definition sensitive (fl : pflags) : pflags := PFlags false (fl_ml fl).
(** an element at [x] and all digits behind it, [n] of them *)
Definition group_at (x n y : nat) : Prop := exists a, es_f El x e (sensitive fl) = Some a /\ reps (es_f Di) n a y e fl /\ es_f Di y e fl = None.
(** all groups there are from [x] to [y], with so many digits each *)
Inductive groups : nat -> list nat -> nat -> Prop :=
| GNone : forall x, es_f El x e (sensitive fl) = None -> groups x [] x
| GMore : forall x n a l y, group_at x n a -> groups a l y -> groups x (n :: l) y.
(** a formula from [s] to [y]: at least one group, then a sign if there is one; with or without digits and sign *)
Definition formula_at (s y : nat) (digits charge : bool) : Prop :=
  exists l x, l <> [] /\ groups s l x /\ (digits = true <-> exists n, In n l /\ n <> O) /\
    if charge then es_f Si x e fl = Some y else es_f Si x e fl = None /\ y = x.
End Chem.
