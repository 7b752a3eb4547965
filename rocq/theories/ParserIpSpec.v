(** Specification of the IP address parsers (properties C65 and C113). *)
From Coq Require Import ZifyBool ZifyNat.
From Verif Require Import Base ParserModel ParserSpec ParserNumProps ParserPeg.

(** A parser with component intervals: [F] gives, for a start, an end and flags, where the match ends (None: no match), the
    values and the intervals of the first [n] held; they do not depend on what the parser matched before. *)
Definition parses (txt : list Z) (P : pcls) (wf : pst -> Prop) (n : nat) (F : nat -> nat -> pflags -> option nat * list Z * list (nat * nat)) : Prop :=
  element txt P wf (fun s e fl => fst (fst (F s e fl))) (fun s e fl => snd (fst (F s e fl))) /\
  forall st s e fl, wf st -> text_ok txt s e ->
    exists st', p_match P st s e fl = Ret (st', found (fst (fst (F s e fl)))) /\ vals st' = snd (fst (F s e fl)) /\ firstn n (map iv (kids st')) = snd (F s e fl).

Section Spec.
Context (fs : list pfun) (sep : pfun) (base max : Z) (e : nat) (fl : pflags).
(** A group: digits whose number is at most [max]; all there are, or so many that the next one would go beyond [max]. *)
Definition group (s y : nat) (v : Z) : Prop :=
  exists ds, ds <> [] /\ digits_read fs ds s y e fl /\ v = of_digits base ds /\ v <= max /\
    forall z, branch_fn fs y e fl = Some z -> max < of_digits base (ds ++ [first_fn fs y e fl]).
(** A row of groups with one separator between each two; a group is its interval and its number. *)
Fixpoint row (gs : list (nat * nat * Z)) (s y : nat) : Prop :=
  match gs with
  | [] => False
  | (a, b, v) :: r => a = s /\ group a b v /\ match r with [] => b = y | _ => exists x, sep b e fl = Some x /\ row r x y end
  end.
Definition row0 (gs : list (nat * nat * Z)) (s y : nat) : Prop := match gs with [] => s = y | _ => row gs s y end.
(** Four groups *)
Definition ipv4_at (gs : list (nat * nat * Z)) (s y : nat) : Prop := length gs = 4%nat /\ row gs s y.
(** IPv6: eight groups; or at most seven, two separators (the second from [p1] to [p2]) and more groups, not more than eight
    in all, ending where no further group comes; a separator behind the last group is taken even if no group follows it. *)
Definition ipv6_full (gs : list (nat * nat * Z)) (s y : nat) : Prop := length gs = 8%nat /\ row gs s y.
Definition no_group (x : nat) : Prop := branch_fn fs x e fl = None.
Definition ipv6_short (pre post : list (nat * nat * Z)) (p1 s y : nat) : Prop :=
  (length pre <= 7)%nat /\ (length pre + length post <= 8)%nat /\
  exists p p2 q, row0 pre s p /\ sep p e fl = Some p1 /\ sep p1 e fl = Some p2 /\ row0 post p2 q /\
    ((length pre + length post = 8)%nat /\ y = q \/
     (length pre + length post < 8)%nat /\
       match post with
       | [] => no_group q /\ y = q
       | _ => match sep q e fl with None => y = q | Some q1 => y = q1 /\ (sep q1 e fl <> None \/ no_group q1) end
       end).
End Spec.
Definition g_iv (g : nat * nat * Z) : nat * nat := fst g.
Definition g_val (g : nat * nat * Z) : Z := snd g.
