(** Specification vocabulary for the parsers: what a parser does to a text, seen from outside. *)
From Verif Require Import Base StringModel StringSpec ParserModel.

Section Spec.
Context (txt : list Z).
(** The caller's side: start does not pass end, and the text can be read up to end or up to its terminator. *)
Definition text_ok (s e : nat) : Prop := (s <= e)%nat /\ (s <= length txt)%nat /\ readable (e - s) (skipn s txt).
(** what a parser may look at from position [s] on: the units before end and before the terminator *)
Definition vis (s e : nat) : list Z := zstr (e - s) (skipn s txt).

(** What a parser recognises: from [s], with the text ending at [e], the end of the match. *)
Definition pfun : Type := nat -> nat -> pflags -> option nat.
Definition iv (p : pst) : nat * nat := (i_start p, i_end p).
Definition found (r : option nat) : bool := match r with Some _ => true | None => false end.

(** The parser [P] recognises [f]: whatever was done with it before, match tells true exactly when [f] does, the interval is
    then that of the match, which starts at start and stays within end and terminator; otherwise the interval is invalid.
    [wf] are the states the object can be in, [g] the values of its members after a match. *)
Record element (P : pcls) (wf : pst -> Prop) (f : pfun) (g : nat -> nat -> pflags -> list Z) : Prop := {
  el_init : wf (p_init P);
  el_match : forall st s e fl, wf st -> text_ok s e -> exists st', p_match P st s e fl = Ret (st', found (f s e fl)) /\ wf st' /\
    match f s e fl with Some x => iv st' = (s, x) /\ vals st' = g s e fl | None => iv st' = (1, 0)%nat end;
  el_within : forall s e fl x, text_ok s e -> f s e fl = Some x -> (s <= x <= s + length (vis s e))%nat;
  el_inval : forall st, wf st -> wf (p_inval P st) /\ iv (p_inval P st) = (1, 0)%nat }.
(** ... bundled, for lists *)
Record espec : Type := ESpec { es_P : pcls; es_wf : pst -> Prop; es_f : pfun; es_g : nat -> nat -> pflags -> list Z }.
Definition good (x : espec) : Prop := element (es_P x) (es_wf x) (es_f x) (es_g x).
(** the states of the held parsers *)
Definition kids_ok (es : list espec) (ks : list pst) : Prop := Forall2 es_wf es ks.

(** One after another: from [s] to [y] *)
Fixpoint chain (fs : list pfun) (s y e : nat) (fl : pflags) : Prop :=
  match fs with [] => s = y | f :: r => exists x, f s e fl = Some x /\ chain r x y e fl end.
(** ... with the intervals *)
Fixpoint ichain (l : list (pfun * (nat * nat))) (s y e : nat) (fl : pflags) : Prop :=
  match l with [] => s = y | (f, (a, b)) :: r => a = s /\ f a e fl = Some b /\ ichain r b y e fl end.
(** [n] non-empty matches of [f] one after another *)
Fixpoint reps (f : pfun) (n : nat) (s y e : nat) (fl : pflags) : Prop :=
  match n with O => s = y | S k => exists x, f s e fl = Some x /\ x <> s /\ reps f k x y e fl end.

(** What the combinators recognise, as functions. *)
Fixpoint seq_fn (fs : list pfun) (s e : nat) (fl : pflags) : option nat :=
  match fs with [] => Some s | f :: r => match f s e fl with Some x => seq_fn r x e fl | None => None end end.
Fixpoint branch_fn (fs : list pfun) (s e : nat) (fl : pflags) : option nat :=
  match fs with [] => None | f :: r => match f s e fl with Some x => Some x | None => branch_fn r s e fl end end.
(** the place of the first alternative that matches *)
Fixpoint first_fn (fs : list pfun) (s e : nat) (fl : pflags) : nat :=
  match fs with [] => 0%nat | f :: r => match f s e fl with Some x => 0%nat | None => S (first_fn r s e fl) end end.

(** The conditions under which a repetition stops after [n] non-empty matches at [y], successfully or not *)
Definition iter_stops (f : pfun) (mn mx : nat) (greedy : bool) (n y e : nat) (fl : pflags) : Prop :=
  (* enough *) (greedy = false /\ (mn <= n)%nat) \/ (mx <= n)%nat \/
  (* no more, but enough *) (f y e fl = None /\ (mn <= n)%nat) \/
  (* an empty match, which could be repeated for ever *) f y e fl = Some y.
End Spec.
