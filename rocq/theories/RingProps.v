(** Final theorems about stdex::ring: properties C04, C05, C06, C07. *)
From Verif Require Import Base RingModel RingProofs.
From Coq Require Import ZifyBool ZifyNat.

(** Specification vocabulary. *)
(* Storage positions of the elements pushed and not yet popped, oldest first. *)
Definition pending_pos {T} (N : Z) (s : state T) (j : Z) : Z := (head s + j) mod N.
(* No thread is inside a call except threads asleep on a condition variable. *)
Definition quiescent {T} (s : state T) : Prop :=
  match prod s with PAwakeB | PAwakeS | PNotify => False | _ => True end /\
  match cons s with CAwake | CNotify => False | _ => True end /\
  q1 s = O /\ q2 s = O /\ ~ In SAwake (syncers s).

(** C04.  The region back() hands out: inside the buffer, not empty, free of pending elements
    and disjoint from the region the consumer holds, in every reachable state. *)
Theorem ring_back_region : forall (T : Type) (N : Z) (junk : Z -> T) (ns : nat) (s : state T) t n ws,
  1 <= N -> reachable N junk ns s -> prod s = PHas t n ws ->
  0 <= t /\ 1 <= n /\ t + n <= N /\
  (forall i j, 0 <= i < n -> 0 <= j < Z.of_nat (length (pushed s)) - Z.of_nat (length (popped s)) ->
     t + i <> pending_pos N s j) /\
  (forall h m rs, cons s = CHas h m rs -> t + n <= h \/ h + m <= t).
Proof.
  intros T N junk ns s t n ws HN Hr Ep.
  destruct (Inv_reachable N HN _ _ _ Hr) as (pend & (Hh & Hs & Hl & Hp & Hd) & P & C).
  unfold PInv in P. rewrite Ep in P. destruct P as (Pt & Pn & Ptn & Pns & Pl & Pw).
  assert (Ht : 0 <= t) by (subst t; unfold wrap; apply Z.mod_pos_bound; lia).
  assert (Hd2 : forall i j, 0 <= i < n -> 0 <= j < size s -> t + i <> pending_pos N s j).
  { intros i j Hi Hj. subst t. unfold pending_pos. fold (wrap N (head s + j)).
    apply free_disjoint with (n := n); lia. }
  repeat split; try lia.
  - intros i j Hi Hj. apply Hd2; auto. rewrite Hp, app_length in Hj. lia.
  - intros h m rs Ec. unfold CInv in C. rewrite Ec in C. destruct C as (C1 & C2 & C3 & C4 & C5 & C6).
    destruct (Z.lt_ge_cases h (t + n)) as [A|A]; [|auto].
    destruct (Z.lt_ge_cases t (h + m)) as [B|B]; [|auto].
    exfalso. destruct (Z.lt_ge_cases t h) as [D|D].
    + apply (Hd2 (h - t) 0); try lia. unfold pending_pos. rewrite Z.mod_small; lia.
    + apply (Hd2 0 (t - h)); try lia. unfold pending_pos. rewrite Z.mod_small; lia.
Qed.

(** C04.  The region front() hands out: inside the buffer, not empty, and made of the oldest
    elements pushed and not yet popped. *)
Theorem ring_front_region : forall (T : Type) (N : Z) (junk : Z -> T) (ns : nat) (s : state T) h n rs,
  1 <= N -> reachable N junk ns s -> cons s = CHas h n rs ->
  0 <= h /\ 1 <= n /\ h + n <= N /\
  n <= Z.of_nat (length (pushed s)) - Z.of_nat (length (popped s)) /\
  (forall i, 0 <= i < n ->
     nth_error (pushed s) (length (popped s) + Z.to_nat i) = Some (data s (h + i))).
Proof.
  intros T N junk ns s h n rs HN Hr Ec.
  destruct (Inv_reachable N HN _ _ _ Hr) as (pend & (Hh & Hs & Hl & Hp & Hd) & P & C).
  unfold CInv in C. rewrite Ec in C. destruct C as (C1 & C2 & C3 & C4 & C5 & C6).
  rewrite Hp. repeat split; try lia.
  - rewrite app_length. lia.
  - intros i Hi. rewrite nth_error_app2 by lia.
    replace (length (popped s) + Z.to_nat i - length (popped s))%nat with (Z.to_nat i) by lia.
    destruct (nth_error pend (Z.to_nat i)) as [x|] eqn:E.
    + f_equal. apply Hd in E. rewrite <- E. f_equal. rewrite wrap_eq by lia. dif; lia.
    + apply nth_error_None in E. lia.
Qed.

(** C04.  A null region is only handed out after quit(): to the producer when the buffer is
    full, to the consumer when nothing is left to read. *)
Theorem ring_null_only_after_quit : forall (T : Type) (N : Z) (junk : Z -> T) (ns : nat) (s s' : state T),
  1 <= N -> reachable N junk ns s -> step N s s' ->
  (prod s <> PGotNull -> prod s' = PGotNull ->
     quit s = true) /\
  (cons s <> CGotNull -> cons s' = CGotNull -> quit s = true /\ popped s = pushed s).
Proof.
  intros T N junk ns s s' HN Hr St.
  destruct (Inv_reachable N HN _ _ _ Hr) as (pend & (Hh & Hs & Hl & Hp & Hd) & P & C).
  assert (Hz : size s = 0 -> popped s = pushed s).
  { intros E. rewrite Hp. destruct pend; [rewrite app_nil_r; auto|cbn in Hl; lia]. }
  assert (Hfr : front_resume N s = CGotNull -> quit s = true /\ popped s = pushed s).
  { unfold front_resume, front_region, empty. intros E.
    destruct (quit s), (Z.eqb_spec (size s) 0); cbn in E; try discriminate; auto. }
  inversion St; subst; clear St; cbn; split; intros A B;
    try discriminate; try contradiction.
  - unfold back_enter, back_region in B. destruct (space N s =? 0), (quit s); cbn in B; congruence.
  - unfold back_resume, back_region in B. destruct (space N s =? 0), (quit s); cbn in B; congruence.
  - exfalso. apply A. unfold notify_tail in B. destruct (cons s) eqn:E; cbn in B; congruence.
  - destruct (sync_done s); discriminate.
  - destruct (sync_done s); discriminate.
  - unfold front_enter in B. destruct (empty s); [auto|discriminate].
  - auto.
  - inversion H0; subst; cbn in B; congruence.
  - inversion H0; subst; cbn in B; congruence.
  - inversion H0; subst; cbn in B; congruence.
  - exfalso. apply A. unfold notify_tail in B. destruct (cons s) eqn:E; cbn in B; congruence.
  - exfalso. apply A. unfold notify_tail in B. destruct (cons s) eqn:E; cbn in B; congruence.
Qed.

(** The debug assertions of push and pop (ring.hpp:66, 101) hold for every amount within the
    region handed out earlier, whatever the other thread did in between. *)
Theorem ring_assertions_hold : forall (T : Type) (N : Z) (junk : Z -> T) (ns : nat) (s : state T),
  1 <= N -> reachable N junk ns s ->
  let tail := (head s + size s) mod N in
  (forall t n ws k, prod s = PHas t n ws -> (k <= length ws)%nat ->
     Z.of_nat k <= (if head s <=? tail then N - tail else head s - tail)) /\
  (forall h n rs k, cons s = CHas h n rs -> (k <= length rs)%nat ->
     Z.of_nat k <= (if head s <? tail then size s else N - head s)).
Proof.
  intros T N junk ns s HN Hr tail.
  destruct (Inv_reachable N HN _ _ _ Hr) as (pend & (Hh & Hs & Hl & Hp & Hd) & P & C).
  unfold tail. fold (wrap N (head s + size s)).
  pose proof (wrap_eq N (head s + size s) ltac:(lia) ltac:(lia)) as Ew.
  split.
  - intros t n ws k Ep Hk. unfold PInv in P. rewrite Ep in P. destruct P as (Pt & Pn & Ptn & Pns & Pl & Pw).
    destruct (Z.ltb_spec (head s + size s) N); dif; lia.
  - intros h n rs k Ec Hk. unfold CInv in C. rewrite Ec in C. destruct C as (C1 & C2 & C3 & C4 & C5 & C6).
    destruct (Z.ltb_spec (head s + size s) N); dif; lia.
Qed.

(** C05.  Under every interleaving the elements taken out are a prefix of the elements put in,
    the rest is what the ring holds, and what the consumer reads from its region is the next
    part of what was put in. *)
Theorem ring_fifo : forall (T : Type) (N : Z) (junk : Z -> T) (ns : nat) (s : state T),
  1 <= N -> reachable N junk ns s ->
  exists rest, pushed s = popped s ++ rest /\ Z.of_nat (length rest) = size s /\
    (forall h n rs, cons s = CHas h n rs -> exists rest', pushed s = popped s ++ rs ++ rest').
Proof.
  intros T N junk ns s HN Hr.
  destruct (Inv_reachable N HN _ _ _ Hr) as (pend & (Hh & Hs & Hl & Hp & Hd) & P & C).
  exists pend. repeat split; auto. intros h n rs Ec. unfold CInv in C. rewrite Ec in C.
  destruct C as (C1 & C2 & C3 & C4 & C5 & C6). exists (skipn (length rs) pend).
  rewrite C6 at 1. rewrite firstn_skipn. exact Hp.
Qed.

(** C06.  One producer (the only caller of sync) and one consumer: whenever no call is in
    progress other than calls asleep, each sleeping call has a reason to sleep, and they are
    not all asleep. *)
Theorem ring_no_lost_wakeup : forall (T : Type) (N : Z) (junk : Z -> T) (s : state T),
  1 <= N -> reachable N junk 0 s -> quiescent s ->
  let pending := Z.of_nat (length (pushed s)) - Z.of_nat (length (popped s)) in
  (prod s = PAsleepB -> pending = N /\ quit s = false) /\
  (prod s = PAsleepS -> pending > 0 /\ quit s = false) /\
  (cons s = CAsleep -> pending = 0 /\ quit s = false) /\
  ~ (prod_asleep s /\ cons s = CAsleep).
Proof.
  intros T N junk s HN Hr (Q1 & Q2 & Q3 & Q4 & Q5) pending.
  destruct (Inv_reachable N HN _ _ _ Hr) as (pend & (Hh & Hs & Hl & Hp & Hd) & P & C).
  destruct (WInv_reachable N HN _ _ Hr) as (W0 & W1 & W2 & W3).
  assert (E : pending = size s) by (unfold pending; rewrite Hp, app_length; lia).
  rewrite E.
  assert (A1 : prod s = PAsleepB -> size s = N /\ quit s = false).
  { intros F. destruct (W1 F) as [?|[F'|?]]; auto; [rewrite F' in Q2; contradiction|lia]. }
  assert (A2 : prod s = PAsleepS -> size s > 0 /\ quit s = false).
  { intros F. destruct (W2 F) as [[? ?]|[F'|?]]; [split; auto; lia|rewrite F' in Q2; contradiction|lia]. }
  assert (A3 : cons s = CAsleep -> size s = 0 /\ quit s = false).
  { intros F. destruct (W3 F) as [?|[F'|[?|?]]]; auto; try lia. rewrite F' in Q1; contradiction. }
  repeat split; auto; try (apply A1; assumption); try (apply A2; assumption); try (apply A3; assumption).
  intros [[F|F] G]; [apply A1 in F|apply A2 in F]; apply A3 in G; lia.
Qed.

(** C06.  Whatever the schedule, a sleeping thread whose condition is true has a notification
    on its way. *)
Theorem ring_wakeup_pending : forall (T : Type) (N : Z) (junk : Z -> T) (s : state T),
  1 <= N -> reachable N junk 0 s ->
  (prod s = PAsleepB -> (quit s = true \/ size s < N) -> cons s = CNotify \/ (0 < q1 s)%nat) /\
  (prod s = PAsleepS -> (quit s = true \/ size s = 0) -> cons s = CNotify \/ (0 < q1 s)%nat) /\
  (cons s = CAsleep -> (quit s = true \/ size s > 0) -> prod s = PNotify \/ (0 < q1 s)%nat \/ (0 < q2 s)%nat).
Proof.
  intros T N junk s HN Hr. destruct (WInv_reachable N HN _ _ Hr) as (W0 & W1 & W2 & W3).
  repeat split; intros F G.
  - destruct (W1 F) as [[? ?]|?]; auto. destruct G; [congruence|lia].
  - destruct (W2 F) as [[? ?]|?]; auto. destruct G; [congruence|lia].
  - destruct (W3 F) as [[? ?]|?]; auto. destruct G; [congruence|lia].
Qed.

(** and delivering that notification does wake the sleeper. *)
Theorem ring_notification_wakes : forall (T : Type) (N : Z) (junk : Z -> T) (s s' : state T),
  1 <= N -> reachable N junk 0 s -> notify_head s s' -> prod_asleep s ->
  prod s' = PAwakeB \/ prod s' = PAwakeS.
Proof.
  intros T N junk s s' HN Hr H A. destruct (WInv_reachable N HN _ _ Hr) as (W0 & _).
  destruct (notify_head_cases _ _ W0 H) as [[-> E]|[[-> E]|(-> & E & F)]]; cbn; auto.
  destruct A; contradiction.
Qed.

(** A concrete execution meeting the hypotheses of C04-C06: capacity 2; put in 7 and 8, take 7
    out, put 9 in at the wrapped position, the producer then falls asleep on the full ring. *)
Tactic Notation "go" uconstr(L) := lazymatch goal with H : reachable _ _ _ ?s, cur := _ |- _ =>
  let H' := fresh in
  pose proof (reach_step _ _ _ _ _ H L) as H'; clear H; subst cur; cbn in H';
  match type of H' with reachable _ _ _ ?s' => set (cur := s') in H' end end.
Tactic Notation "start" constr(H0) := let H := fresh in
  pose proof H0 as H; match type of H with reachable _ _ _ ?s' => set (cur := s') in H end.
Tactic Notation "finish" := lazymatch goal with H : reachable _ _ _ ?s |- _ => exists s; split; [exact H|]; clear H end.
Ltac nobody := apply nh_none; cbn; unfold prod_asleep; cbn; intuition discriminate.
Ltac small := cbn; lia.

Lemma pop_notify_nobody : forall (s : state Z), cons s = CNotify -> prod s = PIdle -> syncers s = [] -> step 2 s (set_cons s CIdle).
Proof.
  intros s A B C. apply (st_pop_notify 2 s s A). apply nh_none; [unfold prod_asleep; intuition congruence|].
  rewrite C. intros [].
Qed.

Example ring_run_ex : exists s : state Z, reachable 2 (fun _ => 0) 0 s /\ quiescent s /\ prod s = PAsleepB /\ pushed s = [7; 8; 9] /\ popped s = [7] /\ head s = 1 /\ cons s = CHas 1 1 [8].
Proof.
  start (reach_init 2 (fun _ => 0) 0).
  go (st_back 2 cur eq_refl).
  go (st_write 2 cur _ _ _ 7 eq_refl eq_refl).
  go (st_write 2 cur _ _ _ 8 eq_refl eq_refl).
  go (st_push 2 cur _ _ _ 2%nat eq_refl (le_n _)).
  go (st_push_notify 2 cur eq_refl).
  go (st_front 2 cur eq_refl).
  go (st_read 2 cur _ _ _ eq_refl eq_refl).
  go (st_pop 2 cur _ _ _ 1%nat eq_refl (le_n _)).
  go (pop_notify_nobody cur eq_refl eq_refl eq_refl).
  go (st_back 2 cur eq_refl).
  go (st_write 2 cur _ _ _ 9 eq_refl eq_refl).
  go (st_push 2 cur _ _ _ 1%nat eq_refl (le_n _)).
  go (st_push_notify 2 cur eq_refl).
  go (st_back 2 cur eq_refl).
  go (st_front 2 cur eq_refl).
  go (st_read 2 cur _ _ _ eq_refl eq_refl).
  finish. vm_compute. repeat split; auto.
Qed.

(** C07 is violated: a thread in sync() and the producer in back() sleep on the same condition
    variable; quit() notifies one of them only.  In the final state nobody is inside a call
    except the producer, which stays asleep in back() although quit() was called. *)
Theorem ring_two_waiters_refuted :
  exists (s : state Z), reachable 1 (fun _ => 0) 1 s /\ quiescent s /\ prod s = PAsleepB /\ quit s = true /\ syncers s = [SDone].
Proof.
  start (reach_init 1 (fun _ => 0) 1).
  go (st_back 1 cur eq_refl).
  go (st_write 1 cur _ _ _ 7 eq_refl eq_refl).
  go (st_push 1 cur _ _ _ 1%nat eq_refl (le_n _)).
  go (st_push_notify 1 cur eq_refl).
  go (st_back 1 cur eq_refl).
  go (st_syncer 1 cur 0 (or_introl eq_refl)).
  go (st_quit 1 cur).
  go (st_quit_head 1 cur _ 0 eq_refl (nh_syncer cur 0 eq_refl)).
  go (st_quit_tail 1 cur 0 eq_refl).
  go (st_syncer 1 cur 0 (or_intror eq_refl)).
  finish. vm_compute. repeat split; auto. intros [E|[]]; discriminate E.
Qed.

(** The same with pop(): the ring becomes empty, which satisfies both the producer waiting in
    back() and the thread waiting in sync(), yet the latter stays asleep. *)
Theorem ring_two_waiters_pop_refuted :
  exists (s : state Z), reachable 1 (fun _ => 0) 1 s /\ quiescent s /\ pushed s = popped s /\ syncers s = [SAsleep].
Proof.
  start (reach_init 1 (fun _ => 0) 1).
  go (st_back 1 cur eq_refl).
  go (st_write 1 cur _ _ _ 7 eq_refl eq_refl).
  go (st_push 1 cur _ _ _ 1%nat eq_refl (le_n _)).
  go (st_push_notify 1 cur eq_refl).
  go (st_back 1 cur eq_refl).
  go (st_syncer 1 cur 0 (or_introl eq_refl)).
  go (st_front 1 cur eq_refl).
  go (st_read 1 cur _ _ _ eq_refl eq_refl).
  go (st_pop 1 cur _ _ _ 1%nat eq_refl (le_n _)).
  go (st_pop_notify 1 cur _ eq_refl (nh_back cur eq_refl)).
  go (st_back_wake 1 cur eq_refl).
  finish. vm_compute. repeat split; auto. intros [E|[]]; discriminate E.
Qed.

Print Assumptions ring_back_region.
Print Assumptions ring_front_region.
Print Assumptions ring_null_only_after_quit.
Print Assumptions ring_assertions_hold.
Print Assumptions ring_fifo.
Print Assumptions ring_no_lost_wakeup.
Print Assumptions ring_wakeup_pending.
Print Assumptions ring_notification_wakes.
Print Assumptions ring_two_waiters_refuted.
Print Assumptions ring_two_waiters_pop_refuted.
