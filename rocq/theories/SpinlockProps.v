(** C55: stdex::spinlock. *)
From Verif Require Import Base SpinlockModel.

(** Between the return of lock() (or of a successful try_lock()) and unlock(). *)
Definition holds (s : st) (i : nat) : Prop := match th s i with TIn | TRead _ => True | _ => False end.
(** In lock(). *)
Definition waits (s : st) (i : nat) : Prop := th s i = TExch \/ th s i = TSpin.

Record Inv (s : st) : Prop := {
  v_lock : locked s = true <-> exists i, holds s i;
  v_mutex : forall i j, holds s i -> holds s j -> i = j;
  v_hist : hist s = seq 0 (length (hist s));
  v_len : (0 < length (hist s))%nat;
  v_seen : forall i, (seen s i <= length (hist s) - 1)%nat;
  v_rel : (rel s <= length (hist s) - 1)%nat;
  v_free : locked s = false -> rel s = (length (hist s) - 1)%nat;
  v_cur : forall i, holds s i -> seen s i = (length (hist s) - 1)%nat;
  v_read : forall i v, th s i = TRead v -> v = (length (hist s) - 1)%nat }.

Lemma upd_eq : forall A (f : nat -> A) i x, upd f i x i = x.
Proof. intros. unfold upd. rewrite Nat.eqb_refl. reflexivity. Qed.
Lemma upd_ne : forall A (f : nat -> A) i j x, j <> i -> upd f i x j = f j.
Proof. intros. unfold upd. destruct (Nat.eqb_spec j i); [contradiction|reflexivity]. Qed.

Ltac cases j i := let E := fresh "E" in destruct (Nat.eq_dec j i) as [E|E]; [subst j; rewrite ?upd_eq in *|rewrite ?(upd_ne _ _ _ _ _ E) in *].

(** a step by which nobody gets or gives up the lock, nor writes *)
Lemma Inv_quiet : forall s i t, Inv s -> (match t with TIn | TRead _ => True | _ => False end <-> holds s i) ->
  (forall v, t = TRead v -> v = (length (hist s) - 1)%nat) ->
  Inv (St (locked s) (rel s) (upd (th s) i t) (seen s) (hist s)).
Proof.
  intros s i t I Ht Hv. destruct I as [A B C D E F G H K].
  assert (Hh : forall j, holds (St (locked s) (rel s) (upd (th s) i t) (seen s) (hist s)) j <-> holds s j).
  { intros j. unfold holds at 1. cbn [th]. cases j i; [tauto|]. unfold holds. reflexivity. }
  constructor; cbn [locked rel seen hist th]; auto.
  - rewrite A. split; intros [j Hj]; exists j; apply Hh; auto.
  - intros j k Hj Hk. apply Hh in Hj, Hk. auto.
  - intros j Hj. apply Hh in Hj. auto.
  - intros j v Hj. cases j i; eauto.
Qed.

Lemma Inv_exchange : forall s i lost, Inv s -> ~ holds s i -> match lost with TIn | TRead _ => False | _ => True end ->
  Inv (exchange s i TIn lost).
Proof.
  intros s i lost I Hn Hl. destruct I as [A B C D E F G H K]. unfold exchange.
  destruct (locked s) eqn:El.
  - assert (Hh : forall j, holds (St true (rel s) (upd (th s) i lost) (upd (seen s) i (Nat.max (seen s i) (rel s))) (hist s)) j <-> holds s j).
    { intros j. unfold holds at 1. cbn [th]. cases j i; [destruct lost; try contradiction; tauto|]. unfold holds. reflexivity. }
    constructor; cbn [locked rel seen hist th]; auto; try discriminate.
    + split; auto. intros _. destruct (proj1 A eq_refl) as [j Hj]. exists j. apply Hh. auto.
    + intros j k Hj Hk. apply Hh in Hj, Hk. auto.
    + intros j. pose proof (E j). pose proof (E i). cases j i; lia.
    + intros j Hj. apply Hh in Hj. cases j i; auto. contradiction.
    + intros j v Hj. cases j i; eauto. subst lost. contradiction.
  - assert (Hf : forall j, ~ holds s j) by (intros j Hj; assert (false = true) by (apply A; eauto); discriminate).
    assert (Hh : forall j, holds (St true (rel s) (upd (th s) i TIn) (upd (seen s) i (Nat.max (seen s i) (rel s))) (hist s)) j <-> j = i).
    { intros j. unfold holds. cbn [th]. cases j i; [tauto|]. split; [|contradiction]. intros X. destruct (Hf j X). }
    constructor; cbn [locked rel seen hist th]; auto; try discriminate.
    + split; auto. intros _. exists i. apply Hh. auto.
    + intros j k Hj Hk. apply Hh in Hj, Hk. congruence.
    + intros j. pose proof (E j). pose proof (E i). cases j i; lia.
    + intros j Hj. apply Hh in Hj. subst j. rewrite upd_eq. pose proof (E i). rewrite (G eq_refl). lia.
    + intros j v Hj. cases j i; [discriminate|eauto].
Qed.

Lemma Inv_step : forall i s s', Inv s -> step i s s' -> Inv s'.
Proof.
  intros i s s' I S.
  destruct S as [H|H|b H|b H|H|k v H Hk Hv|v H|H].
  - apply Inv_quiet; auto; [unfold holds; rewrite H; tauto|discriminate].
  - apply Inv_exchange; auto. unfold holds. rewrite H. tauto.
  - apply Inv_quiet; auto; [unfold holds; rewrite H; destruct b; tauto|destruct b; discriminate].
  - apply Inv_quiet; auto; [unfold holds; rewrite H; destruct b; tauto|destruct b; discriminate].
  - apply Inv_exchange; auto. unfold holds. rewrite H. tauto.
  - apply Inv_quiet; auto; [unfold holds; rewrite H; tauto|]. intros v' E. injection E as <-.
    assert (Hi : holds s i) by (unfold holds; rewrite H; exact Logic.I).
    rewrite (v_cur _ I i Hi) in Hk. assert (k < length (hist s))%nat by (apply nth_error_Some; congruence).
    rewrite (v_hist _ I) in Hv. rewrite (nth_error_nth' _ 0%nat) in Hv by (rewrite seq_length; lia). rewrite seq_nth in Hv by lia. injection Hv as <-. lia.
  - assert (Hi : holds s i) by (unfold holds; rewrite H; exact Logic.I).
    destruct I as [A B C D E F G H' K].
    assert (Hh : forall j, holds (St (locked s) (rel s) (upd (th s) i TIn) (upd (seen s) i (length (hist s))) (hist s ++ [Datatypes.S v])) j <-> holds s j).
    { intros j. unfold holds at 1. cbn [th]. cases j i; [tauto|]. unfold holds. reflexivity. }
    constructor; cbn [locked rel seen hist th]; rewrite ?app_length; cbn [length]; try lia.
    + rewrite A. split; intros [j Hj]; exists j; apply Hh; auto.
    + intros j k Hj Hk. apply Hh in Hj, Hk. auto.
    + rewrite seq_app, <- C. cbn [seq]. f_equal. f_equal. rewrite (K _ _ H). lia.
    + intros j. pose proof (E j). cases j i; lia.
    + intros El. assert (locked s = true) by (apply A; eauto). congruence.
    + intros j Hj. apply Hh in Hj. rewrite (B j i Hj Hi), upd_eq. lia.
    + intros j w Hj. cases j i; [discriminate|]. exfalso. apply E0. apply B; auto. unfold holds. rewrite Hj. exact Logic.I.
  - assert (Hi : holds s i) by (unfold holds; rewrite H; exact Logic.I).
    destruct I as [A B C D E F G H' K].
    assert (Hh : forall j, ~ holds (St false (seen s i) (upd (th s) i TOut) (seen s) (hist s)) j).
    { intros j. unfold holds. cbn [th]. cases j i; [tauto|]. intros X. apply E0. apply B; auto. }
    constructor; cbn [locked rel seen hist th]; auto.
    + split; [discriminate|]. intros [j Hj]. destruct (Hh j Hj).
    + intros j k Hj. destruct (Hh j Hj).
    + intros j Hj. destruct (Hh j Hj).
    + intros j v Hj. cases j i; [discriminate|eauto].
Qed.

Lemma Inv_reach : forall s, reachable s -> Inv s.
Proof.
  induction 1; [|eapply Inv_step; eauto].
  constructor; cbn; auto; try discriminate; try contradiction; try lia.
  split; [discriminate|]. intros [i []].
Qed.

(** At most one thread holds the lock. *)
Theorem spinlock_mutual_exclusion : forall s i j, reachable s -> holds s i -> holds s j -> i = j.
Proof. intros s i j R. apply (v_mutex _ (Inv_reach _ R)). Qed.

(** lock() and try_lock() give the lock only when nobody holds it. *)
Theorem spinlock_acquired_when_free : forall s s' i j, reachable s -> step i s s' -> ~ holds s j -> holds s' j ->
  j = i /\ forall k, ~ holds s k.
Proof.
  intros s s' i j R S Hn Hh. pose proof (Inv_reach _ R) as I.
  destruct S; unfold exchange, holds in Hh; cbn [th] in Hh; cases j i; try (destruct (Hn Hh); fail);
    try (destruct b; contradiction); try contradiction;
    try (exfalso; apply Hn; unfold holds; rewrite H; exact Logic.I);
    (destruct (locked s) eqn:El; [contradiction|]; split; [reflexivity|];
     intros k Hk; assert (false = true) by (rewrite <- El; apply (v_lock _ I); eauto); discriminate).
Qed.

(** try_lock() fails only when somebody may hold the lock: if its exchange finds the lock taken,
    somebody holds it. *)
Theorem spinlock_try_exchange_fails_when_held : forall s i, reachable s -> th s i = TTry ->
  holds (exchange s i TIn TOut) i \/ exists j, holds s j.
Proof.
  intros s i R H. destruct (locked s) eqn:E.
  - right. apply (v_lock _ (Inv_reach _ R)). auto.
  - left. unfold holds, exchange. cbn [th]. rewrite upd_eq, E. exact Logic.I.
Qed.

(** try_lock() never waits: whatever the others do, its next step is its last one; it ends with the lock held, when nobody
    held it, or without the lock, when somebody did.  It can always take that step. *)
Theorem spinlock_try_ends : forall s i, reachable s -> th s i = TTry ->
  (exists s', step i s s') /\
  (forall s', step i s s' -> (holds s' i /\ forall j, ~ holds s j) \/ (th s' i = TOut /\ exists j, holds s j)).
Proof.
  intros s i R H. pose proof (Inv_reach _ R) as I. split; [eexists; apply s_tryx; auto|].
  intros s' S. destruct S; try congruence. unfold exchange, holds at 1. cbn [th]. rewrite upd_eq. destruct (locked s) eqn:E.
  - right. split; auto. apply (v_lock _ I). auto.
  - left. split; [exact Logic.I|]. intros j Hj. assert (false = true) by (rewrite <- E; apply (v_lock _ I); eauto). discriminate.
Qed.

(** What is done under the lock is seen by everybody who gets the lock later: increments of a plain
    variable are never lost (the variable has had the values 0, 1, 2, ..., one more by each
    increment), and a thread holding the lock can read nothing but the newest value. *)
Theorem spinlock_no_lost_update : forall s, reachable s ->
  (exists n, hist s = seq 0 (S n)) /\
  forall i k v, holds s i -> (seen s i <= k)%nat -> nth_error (hist s) k = Some v -> k = (length (hist s) - 1)%nat.
Proof.
  intros s R. pose proof (Inv_reach _ R) as I. split.
  - exists (length (hist s) - 1)%nat. rewrite (v_hist _ I) at 1. f_equal. pose proof (v_len _ I). lia.
  - intros i k v Hi Hk Hv. rewrite (v_cur _ I i Hi) in Hk. assert (k < length (hist s))%nat by (apply nth_error_Some; congruence). lia.
Qed.

(** A thread in lock() gets the lock by its own steps as soon as nobody holds it. *)
Inductive alone (i : nat) : st -> st -> Prop :=
| al_refl : forall s, alone i s s
| al_step : forall s s' s'', step i s s' -> alone i s' s'' -> alone i s s''.
Theorem spinlock_free_lock_is_taken : forall s i, reachable s -> waits s i -> (forall j, ~ holds s j) ->
  exists s', alone i s s' /\ holds s' i.
Proof.
  intros s i R W F. pose proof (Inv_reach _ R) as I.
  assert (El : locked s = false) by (destruct (locked s) eqn:E; auto; apply (v_lock _ I) in E; destruct E as [j Hj]; destruct (F j Hj)).
  destruct W as [W|W].
  - eexists. split; [eapply al_step; [apply s_exch; auto|apply al_refl]|]. unfold holds, exchange. cbn [th]. rewrite upd_eq, El. exact Logic.I.
  - eexists. split; [eapply al_step; [apply (s_spin i s false); auto|eapply al_step; [apply s_exch; cbn [th]; apply upd_eq|apply al_refl]]|].
    unfold holds, exchange. cbn [th locked]. rewrite upd_eq, El. exact Logic.I.
Qed.

(** Two threads: thread 1 finds the lock taken and spins; thread 0 increments and unlocks; thread 1
    gets the lock and increments; the variable is 2. *)
Example spinlock_ex : exists s, reachable s /\ holds s 1 /\ ~ holds s 0 /\ hist s = [0; 1; 2]%nat.
Proof.
  assert (H : reachable spin_init) by constructor.
  eexists. split.
  - eapply (reach_step 1); [eapply (reach_step 1); [eapply (reach_step 1); [eapply (reach_step 1); [
    eapply (reach_step 0); [eapply (reach_step 0); [eapply (reach_step 0); [
    eapply (reach_step 1); [eapply (reach_step 1); [
    eapply (reach_step 0); [eapply (reach_step 0); [exact H|apply s_lock; reflexivity]|apply s_exch; reflexivity]
    |apply s_lock; reflexivity]|apply s_exch; reflexivity]
    |apply (s_read _ _ 0 0); [reflexivity|cbn; lia|reflexivity]]|eapply s_write; reflexivity]|apply s_unlock; reflexivity]
    |apply (s_spin _ _ false); reflexivity]|apply s_exch; reflexivity]
    |apply (s_read _ _ 1 1); [reflexivity|cbn; lia|reflexivity]]|eapply s_write; reflexivity].
  - cbn. auto.
Qed.

Print Assumptions spinlock_mutual_exclusion.
Print Assumptions spinlock_acquired_when_free.
Print Assumptions spinlock_try_exchange_fails_when_held.
Print Assumptions spinlock_no_lost_update.
Print Assumptions spinlock_free_lock_is_taken.
Print Assumptions spinlock_ex.
