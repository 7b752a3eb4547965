(** C56: stdex::pool. *)
From Coq Require Import Permutation.
From Verif Require Import Base PoolModel PoolSpec.

Section Proofs.
Context {T : Type}.
Notation pool := (@pool T). Notation pevent := (@pevent T).

(** Every schedule behaves like one stack per node. *)
Theorem pool_linearizable : forall s : pool, preach s -> stacks (plog s) (items s).
Proof.
  induction 1 as [|i s s' R IH S]; [constructor; reflexivity|].
  destruct S; cbn [plog items]; auto.
  - destruct (items s n) as [|x r] eqn:E; cbn [hd_error tl].
    + eapply sk_pop_empty; eauto. intros m. unfold setz. destruct (Z.eqb_spec m n); congruence.
    + eapply sk_pop; eauto.
      * rewrite E. unfold setz. rewrite Z.eqb_refl. reflexivity.
      * intros m Hm. unfold setz. destruct (Z.eqb_spec m n); congruence.
  - eapply sk_push; eauto.
  - eapply sk_begin; eauto.
  - eapply sk_dropped; eauto.
  - eapply sk_end; eauto.
Qed.

Lemma fm_snoc : forall A B (f : A -> list B) l x, flat_map f (l ++ [x]) = flat_map f l ++ f x.
Proof. intros. rewrite flat_map_app. cbn. rewrite app_nil_r. reflexivity. Qed.

Lemma stacks_conserve : forall l f, @stacks T l f -> forall n, Permutation (pushes n l) (pops n l ++ drops n l ++ f n).
Proof.
  induction 1; intros k; unfold pushes, pops, drops in *; rewrite ?fm_snoc, ?app_nil_r; cbn [app].
  - cbn. rewrite H. constructor.
  - rewrite H0. specialize (IHstacks k). destruct (Z.eqb_spec n k).
    + subst k. rewrite Z.eqb_refl. rewrite IHstacks.
      rewrite <- !app_assoc. apply Permutation_app_head, Permutation_app_head. symmetry. apply Permutation_cons_append.
    + destruct (Z.eqb_spec k n); [congruence|]. rewrite !app_nil_r. auto.
  - specialize (IHstacks k). destruct (Z.eqb_spec n k).
    + subst k. rewrite IHstacks, H0, <- app_assoc. apply Permutation_app_head.
      cbn [app]. symmetry. apply Permutation_middle.
    + rewrite app_nil_r, H1 by auto. auto.
  - rewrite H1. auto.
  - rewrite H0. auto.
  - rewrite H0. auto.
  - rewrite H1. specialize (IHstacks k). destruct (Z.eqb_spec n k).
    + subst k. rewrite Z.eqb_refl, app_nil_r. rewrite IHstacks, H0. reflexivity.
    + destruct (Z.eqb_spec k n); [congruence|]. rewrite app_nil_r. auto.
Qed.

(** Nothing is lost or duplicated: what was pushed to a node was handed out, or dropped by clear, or
    is still there, each exactly once. *)
Theorem pool_conservation : forall (s : pool) n, preach s ->
  Permutation (pushes n (plog s)) (pops n (plog s) ++ drops n (plog s) ++ items s n).
Proof. intros. apply stacks_conserve. apply pool_linearizable. auto. Qed.

(** So an item that was pushed k times has been handed out at most k times: an owner keeps it to
    itself until it pushes it back; what is still in the pool counts too. *)
Theorem pool_one_owner : forall (dec : forall x y : T, {x = y} + {x <> y}) (s : pool) n x, preach s ->
  (count_occ dec (pops n (plog s)) x + count_occ dec (items s n) x <= count_occ dec (pushes n (plog s)) x)%nat.
Proof.
  intros dec s n x R. pose proof (pool_conservation s n R) as P.
  rewrite (proj1 (Permutation_count_occ dec _ _) P x), !count_occ_app. lia.
Qed.

(** pop gives the default value only when its node is empty at that moment, else the item pushed to
    the node last (of those still there). *)
Theorem pool_pop : forall (s s' : pool) i n, preach s -> pth s i = PoPop n -> pstep i s s' ->
  match items s n with
  | [] => plog s' = plog s ++ [EvPop n None] /\ items s' n = []
  | x :: r => plog s' = plog s ++ [EvPop n (Some x)] /\ items s' n = r
  end.
Proof.
  intros s s' i n R E S. inversion S; subst; try congruence.
  assert (n0 = n) by congruence. subst n0. cbn [plog items]. unfold setz. rewrite Z.eqb_refl.
  destruct (items s n); auto.
Qed.

(** clear *)
Definition known (s : pool) (n : Z) : Prop := In n (keys s).
Lemma with_key_in : forall ks n m, In m (with_key ks n) <-> m = n \/ In m ks.
Proof.
  intros. unfold with_key. destruct (existsb (Z.eqb n) ks) eqn:E; cbn; [|intuition].
  apply existsb_exists in E. destruct E as (y & Hy & E). apply Z.eqb_eq in E. subst y. intuition congruence.
Qed.

Record CI (s : pool) : Prop := {
  c_keys : forall n, items s n <> [] -> known s n;
  c_th : forall i, match pth s i with PoPop n | PoPush n _ => known s n | _ => True end;
  c_one : forall i rest, pth s i = PoClear rest -> mutex s = true /\
     forall j rest', pth s j = PoClear rest' -> j = i;
  c_mtx : mutex s = true -> exists i rest, pth s i = PoClear rest;
  c_clear : forall i rest, pth s i = PoClear rest ->
     exists pre mid, plog s = pre ++ EvClearBegin i :: mid /\
       (forall j, ~ In (EvClearEnd j) mid) /\
       forall n x, ~ In n rest -> In x (items s n) -> In (EvPush n x) mid }.

Lemma set_eq : forall A (f : nat -> A) i x, set f i x i = x.
Proof. intros. unfold set. rewrite Nat.eqb_refl. reflexivity. Qed.
Lemma set_ne : forall A (f : nat -> A) i j x, j <> i -> set f i x j = f j.
Proof. intros. unfold set. destruct (Nat.eqb_spec j i); [contradiction|reflexivity]. Qed.
Ltac cases j i := let E := fresh "E" in destruct (Nat.eq_dec j i) as [E|E]; [subst j; rewrite ?set_eq in *|rewrite ?(set_ne _ _ _ _ _ E) in *].
Lemma setz_eq : forall A (f : Z -> A) i x, setz f i x i = x.
Proof. intros. unfold setz. rewrite Z.eqb_refl. reflexivity. Qed.
Lemma setz_ne : forall A (f : Z -> A) i j x, j <> i -> setz f i x j = f j.
Proof. intros. unfold setz. destruct (Z.eqb_spec j i); [contradiction|reflexivity]. Qed.

Lemma CI_init : CI pool_init.
Proof. constructor; cbn; intros; try discriminate; try contradiction; auto. Qed.

(** steps of the other threads during a clear *)
Lemma clear_more : forall (s : pool) i rest e its,
  (exists pre mid, plog s = pre ++ EvClearBegin i :: mid /\ (forall j, ~ In (EvClearEnd j) mid) /\
     forall n x, ~ In n rest -> In x (items s n) -> In (EvPush n x) mid) ->
  (forall j, e <> EvClearEnd j) -> (forall n x, In x (its n) -> In x (items s n) \/ e = EvPush n x) ->
  exists pre mid, plog s ++ [e] = pre ++ EvClearBegin i :: mid /\ (forall j, ~ In (EvClearEnd j) mid) /\
     forall n x, ~ In n rest -> In x (its n) -> In (EvPush n x) mid.
Proof.
  intros s i rest e its (pre & mid & A & B & C) He Hi. exists pre, (mid ++ [e]). rewrite A, <- app_assoc. split; [reflexivity|]. split.
  - intros j Hj. apply in_app_or in Hj. destruct Hj as [Hj|[Hj|[]]]; [eapply B; eauto|eapply He; eauto].
  - intros n x Hn Hx. apply in_or_app. destruct (Hi n x Hx) as [Hx'|Hx']; [left; auto|right; left; auto].
Qed.

Lemma CI_step : forall i (s s' : pool), CI s -> pstep i s s' -> CI s'.
Proof.
  intros i s s' [K Th O M C] S. destruct S.
  - constructor; cbn [keys items pth mutex plog]; auto.
    + intros j. specialize (Th j). cases j i; auto. destruct t; auto; contradiction.
    + intros j rest Hj. cases j i; [subst t; contradiction|]. destruct (O _ _ Hj) as [O1 O2]. split; auto.
      intros k rest' Hk. cases k i; [subst t; contradiction|]. eauto.
    + intros Hm. destruct (M Hm) as (j & rest & Hj). exists j, rest. cases j i; auto. congruence.
    + intros j rest Hj. cases j i; [subst t; contradiction|]. eauto.
  - constructor; cbn [keys items pth mutex plog]; unfold known in *; cbn [keys].
    + intros m Hm. apply with_key_in. auto.
    + intros j. specialize (Th j). cases j i; [apply with_key_in; auto|]. destruct (pth s j); auto; apply with_key_in; auto.
    + intros j rest Hj. cases j i; [discriminate|]. destruct (O _ _ Hj). congruence.
    + congruence.
    + intros j rest Hj. cases j i; [discriminate|]. eauto.
  - constructor; cbn [keys items pth mutex plog]; unfold known in *; cbn [keys].
    + intros m Hm. apply with_key_in. auto.
    + intros j. specialize (Th j). cases j i; [apply with_key_in; auto|]. destruct (pth s j); auto; apply with_key_in; auto.
    + intros j rest Hj. cases j i; [discriminate|]. destruct (O _ _ Hj). congruence.
    + congruence.
    + intros j rest Hj. cases j i; [discriminate|]. eauto.
  - constructor; cbn [keys items pth mutex plog]; unfold known in *; cbn [keys].
    + intros m Hm. destruct (Z.eq_dec m n) as [->|Em]; [specialize (Th i); rewrite H in Th; auto|]. rewrite setz_ne in Hm by auto. auto.
    + intros j. specialize (Th j). cases j i; auto.
    + intros j rest Hj. cases j i; [discriminate|]. destruct (O _ _ Hj) as [O1 O2]. split; auto.
      intros k rest' Hk. cases k i; [discriminate|]. eauto.
    + intros Hm. destruct (M Hm) as (j & rest & Hj). exists j, rest. cases j i; auto. congruence.
    + intros j rest Hj. cases j i; [discriminate|]. apply clear_more; [eauto|discriminate|].
      intros m x Hx. left. destruct (Z.eq_dec m n) as [->|Em]; [rewrite setz_eq in Hx; destruct (items s n); [contradiction|right; auto]|rewrite setz_ne in Hx by auto; auto].
  - constructor; cbn [keys items pth mutex plog]; unfold known in *; cbn [keys].
    + intros m Hm. destruct (Z.eq_dec m n) as [->|Em]; [specialize (Th i); rewrite H in Th; auto|]. rewrite setz_ne in Hm by auto. auto.
    + intros j. specialize (Th j). cases j i; auto.
    + intros j rest Hj. cases j i; [discriminate|]. destruct (O _ _ Hj) as [O1 O2]. split; auto.
      intros k rest' Hk. cases k i; [discriminate|]. eauto.
    + intros Hm. destruct (M Hm) as (j & rest & Hj). exists j, rest. cases j i; auto. congruence.
    + intros j rest Hj. cases j i; [discriminate|]. apply clear_more; [eauto|discriminate|].
      intros m y Hy. destruct (Z.eq_dec m n) as [->|Em]; [rewrite setz_eq in Hy; destruct Hy as [->|Hy]; auto|rewrite setz_ne in Hy by auto; auto].
  - constructor; cbn [keys items pth mutex plog]; unfold known in *; cbn [keys]; auto.
    + intros j. specialize (Th j). cases j i; auto.
    + intros j rest Hj. split; auto. intros k rest' Hk. cases j i.
      * cases k i; auto. destruct (O _ _ Hk). congruence.
      * destruct (O _ _ Hj). congruence.
    + intros _. exists i, (keys s). rewrite set_eq. auto.
    + intros j rest Hj. cases j i.
      * injection Hj as <-. exists (plog s), []. split; [reflexivity|]. split; [auto|]. intros n x Hn Hx. exfalso. apply Hn, K.
        intros E. rewrite E in Hx. contradiction.
      * destruct (O _ _ Hj). congruence.
  - constructor; cbn [keys items pth mutex plog]; unfold known in *; cbn [keys].
    + intros m Hm. destruct (Z.eq_dec m n) as [->|Em]; [rewrite setz_eq in Hm; congruence|]. rewrite setz_ne in Hm by auto. auto.
    + intros j. specialize (Th j). cases j i; auto.
    + intros j rest' Hj. destruct (O _ _ H) as [O1 O2]. split; auto.
      assert (j = i) by (cases j i; auto; eapply O2; eauto). subst j.
      intros k rest'' Hk. cases k i; auto. eapply O2; eauto.
    + intros _. exists i, rest. rewrite set_eq. auto.
    + intros j rest' Hj. destruct (O _ _ H) as [O1 O2]. assert (j = i) by (cases j i; auto; eapply O2; eauto). subst j.
      rewrite set_eq in Hj. injection Hj as <-. destruct (C _ _ H) as (pre & mid & A & B & D).
      exists pre, (mid ++ [EvDropped n (items s n)]). rewrite A, <- app_assoc. split; [reflexivity|]. split.
      * intros j Hj. apply in_app_or in Hj. destruct Hj as [Hj|[Hj|[]]]; [eapply B; eauto|discriminate].
      * intros m x Hm Hx. destruct (Z.eq_dec m n) as [->|Em]; [rewrite setz_eq in Hx; contradiction|]. rewrite setz_ne in Hx by auto.
        apply in_or_app. left. apply D; auto. intros [E|E]; [congruence|contradiction].
  - constructor; cbn [keys items pth mutex plog]; unfold known in *; cbn [keys]; auto; try discriminate.
    + intros j. specialize (Th j). cases j i; auto.
    + intros j rest' Hj. cases j i; [discriminate|]. exfalso. apply E. destruct (O _ _ H) as [O1 O2]. eauto.
    + intros j rest' Hj. cases j i; [discriminate|]. exfalso. apply E. destruct (O _ _ H) as [O1 O2]. eauto.
Qed.
Lemma CI_reach : forall s : pool, preach s -> CI s.
Proof. induction 1; [apply CI_init|eapply CI_step; eauto]. Qed.

(** When clear returns, whatever is in the pool was pushed while clear was running: everything that
    was there when it began is gone. *)
Theorem pool_clear : forall (s s' : pool) i, preach s -> pth s i = PoClear [] -> pstep i s s' ->
  exists pre mid, plog s' = pre ++ EvClearBegin i :: mid ++ [EvClearEnd i] /\
    forall n x, In x (items s' n) -> In (EvPush n x) mid.
Proof.
  intros s s' i R E S. destruct (c_clear _ (CI_reach s R) i [] E) as (pre & mid & A & B & C).
  inversion S; subst; try congruence. exists pre, mid. cbn [plog items]. rewrite A, <- app_assoc. split; [reflexivity|].
  intros n x Hx. apply C; auto.
Qed.

(** No call hangs: as long as a call is running, a running call can go on ... *)
Theorem pool_no_deadlock : forall (s : pool) i, preach s -> pth s i <> PoOut -> exists j s', pth s j <> PoOut /\ pstep j s s'.
Proof.
  intros s i R H. pose proof (CI_reach s R) as I.
  assert (Q : mutex s = true -> exists j s', pth s j <> PoOut /\ pstep j s s').
  { intros Hm. destruct (c_mtx _ I Hm) as (j & rest & Hj). exists j. destruct rest as [|n rest]; eexists; (split; [congruence|]); [eapply ps_clear_end; eauto|eapply ps_clear_entry; eauto]. }
  destruct (mutex s) eqn:Em; auto. exists i.
  destruct (pth s i) eqn:E; try congruence.
  - eexists. split; [congruence|]. eapply ps_pop_entry; eauto.
  - eexists. split; [congruence|]. eapply ps_pop; eauto.
  - eexists. split; [congruence|]. eapply ps_push_entry; eauto.
  - eexists. split; [congruence|]. eapply ps_push; eauto.
  - eexists. split; [congruence|]. eapply ps_clear_begin; eauto.
  - destruct (c_one _ I _ _ E). congruence.
Qed.

(** ... and each thread makes only finitely many steps in a call: [left s i] bounds them (the size of
    the map counts when a clear begins). *)
Definition left (s : pool) (i : nat) : nat :=
  match pth s i with PoOut => 0 | PoPop0 _ | PoPush0 _ _ => 2 | PoPop _ | PoPush _ _ => 1
  | PoClear0 => 2 + length (keys s) | PoClear rest => 1 + length rest end.
Theorem pool_steps_bounded : forall (s s' : pool) i, pstep i s s' -> pth s i <> PoOut ->
  (left s' i < left s i)%nat /\ (length (keys s') <= S (length (keys s)))%nat.
Proof.
  intros s s' i S H. unfold left, with_key. destruct S; cbn [pth keys]; rewrite set_eq; try congruence; rewrite H0; cbn [length];
    unfold with_key; try (destruct (existsb _ _); cbn [length]); lia.
Qed.
End Proofs.

Tactic Notation "pgo" constr(i) uconstr(c) := lazymatch goal with H : preach ?s |- _ =>
  let b := fresh in let S := fresh in evar (b : @pool Z);
  assert (S : pstep i s b) by (subst b; eapply c; first [reflexivity|exact Logic.I]);
  apply (pr_step _ _ _ H) in S; subst b; clear H; rename S into H;
  cbn [mutex keys items pth plog app with_key existsb Z.eqb orb setz hd_error tl] in H end.

(** A concrete schedule: 10 and 20 pushed on node 0, 20 popped, a clear interleaved with a push of 30
    that already has its entry. *)
Example pool_ex : exists s : @pool Z, preach s /\ items s 0 = [30] /\
  plog s = [EvPush 0 10; EvPush 0 20; EvPop 0 (Some 20); EvClearBegin 2; EvDropped 0 [10]; EvPush 0 30; EvClearEnd 2].
Proof.
  pose proof (@pr_init Z) as H. unfold pool_init in H.
  pgo 0%nat (ps_call _ _ (PoPush0 0 10)).
  pgo 0%nat ps_push_entry.
  pgo 0%nat ps_push.
  pgo 1%nat (ps_call _ _ (PoPush0 0 20)).
  pgo 1%nat ps_push_entry.
  pgo 1%nat ps_push.
  pgo 0%nat (ps_call _ _ (PoPop0 0)).
  pgo 0%nat ps_pop_entry.
  pgo 0%nat ps_pop.
  pgo 1%nat (ps_call _ _ (PoPush0 0 30)).
  pgo 1%nat ps_push_entry.
  pgo 2%nat (ps_call _ _ PoClear0).
  pgo 2%nat ps_clear_begin.
  pgo 2%nat ps_clear_entry.
  pgo 1%nat ps_push.
  pgo 2%nat ps_clear_end.
  eexists. split; [exact H|split; reflexivity].
Qed.

Print Assumptions pool_linearizable.
Print Assumptions pool_conservation.
Print Assumptions pool_one_owner.
Print Assumptions pool_pop.
Print Assumptions pool_clear.
Print Assumptions pool_no_deadlock.
Print Assumptions pool_steps_bounded.
Print Assumptions pool_ex.
