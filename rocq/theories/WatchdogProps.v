(** C57: stdex::watchdog. *)
From Coq Require Import ZifyBool ZifyNat.
From Verif Require Import Base WatchdogModel.

Definition is_reset (e : Z * wevent) : bool := match snd e with Reset => true | Call => false end.
Definition is_call (e : Z * wevent) : bool := match snd e with Call => true | Reset => false end.
Definition resets (l : list (Z * wevent)) : nat := length (filter is_reset l).
Definition calls (l : list (Z * wevent)) : nat := length (filter is_call l).

Lemma resets_app : forall a b, resets (a ++ b) = (resets a + resets b)%nat.
Proof. intros. unfold resets. rewrite filter_app, app_length. reflexivity. Qed.
Lemma calls_app : forall a b, calls (a ++ b) = (calls a + calls b)%nat.
Proof. intros. unfold calls. rewrite filter_app, app_length. reflexivity. Qed.

Section Proofs.
Variables (timeout t00 : Z).
Notation wstep := (wstep timeout). Notation reach := (wreach timeout t00).

Definition upto (t : Z) (l : list (Z * wevent)) : Prop := Forall (fun e => fst e <= t) l.
Definition from (t : Z) (l : list (Z * wevent)) : Prop := Forall (fun e => t <= fst e) l.

(** when p was read from m_phase, at t0, the log was l1; l2 has happened since *)
Definition armed (a : wdog) (p t0 : Z) (l1 l2 : list (Z * wevent)) : Prop :=
  events a = l1 ++ l2 /\ upto t0 l1 /\ from t0 l2 /\ phase a = u64 (p + Z.of_nat (resets l2)) /\ t0 <= now a.
(** the decision to fire: a whole timeout, up to t1, without the phase changing; l3 is what came later *)
Definition decided (l1 l2 l3 : list (Z * wevent)) (t0 t1 : Z) : Prop :=
  upto t0 l1 /\ from t0 l2 /\ upto t1 l2 /\ from t1 l3 /\ t0 + timeout <= t1 /\ u64 (Z.of_nat (resets l2)) = 0.
Definition call_ok (pre : list (Z * wevent)) (t : Z) : Prop :=
  exists l1 l2 l3 t0 t1, pre = l1 ++ l2 ++ l3 /\ decided l1 l2 l3 t0 t1 /\ t1 <= t.

Definition pos_ok (a : wdog) : Prop :=
  match pos a with
  | WTop => (calls (events a) <= resets (events a))%nat
  | WAsleep p dl => 0 <= p < M64 /\ exists l1 l2, armed a p (dl - timeout) l1 l2 /\ (calls (events a) <= resets l1)%nat
  | WAwake p dl e => 0 <= p < M64 /\ (exists l1 l2, armed a p (dl - timeout) l1 l2 /\ (calls (events a) <= resets l1)%nat) /\ (e = true -> dl <= now a)
  | WFire p => 0 <= p < M64 /\ call_ok (events a) (now a) /\
      exists t0 l1 l2, armed a p t0 l1 l2 /\ (calls (events a) <= resets l1)%nat
  | WCall p | WTop2 p | WAsleep2 p | WAwake2 p => 0 <= p < M64 /\
      exists t0 l1 l2 l3 t, armed a p t0 l1 (l2 ++ (t, Call) :: l3) /\ (calls (events a) <= S (resets l1))%nat
  | WDone => wquit a = true /\ (calls (events a) <= S (resets (events a)))%nat
  end.

Record WdI (a : wdog) : Prop := {
  w_phase : 0 <= phase a < M64;
  w_times : upto (now a) (events a);
  w_pos : pos_ok a;
  w_calls : forall pre t post, events a = pre ++ (t, Call) :: post -> call_ok pre t;
  w_quit : wquit a = true <-> dtor a <> DAlive;
  w_pend : dtor a <> DAlive -> resets_pending a = 0%nat;
  w_join : dtor a = DGone -> pos a = WDone;
  w_wake : match pos a with
    | WAsleep p _ => wquit a = true \/ p <> phase a -> (0 < resets_pending a)%nat \/ dtor a = DNotify
    | WAsleep2 p => wquit a = true \/ p <> phase a -> (0 < resets_pending a)%nat \/ dtor a = DNotify
    | _ => True end }.

Lemma WdI_init : WdI (wdog_init t00).
Proof.
  constructor; cbn; auto; try lia; try discriminate.
  - constructor.
  - intros [] ? ? E; discriminate.
  - split; [discriminate|congruence].
Qed.

Lemma upto_le : forall t t' l, upto t l -> t <= t' -> upto t' l.
Proof. intros t t' l H L. eapply Forall_impl; [|exact H]. cbn. intros; lia. Qed.

(** time passing *)
Lemma armed_tick : forall a p t0 l1 l2 b, armed a p t0 l1 l2 -> events b = events a -> phase b = phase a -> now a <= now b -> armed b p t0 l1 l2.
Proof. intros a p t0 l1 l2 b (A & B & C & D & E) E1 E2 E3. repeat split; auto; try congruence; lia. Qed.

Lemma armed_reset : forall a b p t0 l1 l2, armed a p t0 l1 l2 -> events b = events a ++ [(now a, Reset)] -> phase b = u64 (phase a + 1) -> now b = now a ->
  armed b p t0 l1 (l2 ++ [(now a, Reset)]).
Proof.
  intros a b p t0 l1 l2 (A & B & C & D & E) E1 E2 E3. unfold armed. rewrite E1, E2, E3, A, D, <- app_assoc. split; auto. split; auto. split; [|split; auto].
  - apply Forall_app. split; auto.
  - rewrite resets_app. cbn. unfold u64. rewrite Zplus_mod_idemp_l. f_equal. lia.
Qed.
Lemma call_ok_app : forall pre t e, call_ok pre t -> t <= fst e -> call_ok (pre ++ [e]) (fst e).
Proof.
  intros pre t e (l1 & l2 & l3 & t0 & t1 & A & (B1 & B2 & B3 & B4 & B5 & B6) & C) H.
  exists l1, l2, (l3 ++ [e]), t0, t1. rewrite A, <- !app_assoc. split; auto. split; [|lia]. unfold decided. repeat (split; auto).
  apply Forall_app. split; auto. constructor; auto. lia.
Qed.
Lemma call_ok_le : forall pre t t', call_ok pre t -> t <= t' -> call_ok pre t'.
Proof. intros pre t t' (l1 & l2 & l3 & t0 & t1 & A & B & C) H. exists l1, l2, l3, t0, t1. split; auto. split; auto. lia. Qed.

Lemma snoc_split : forall (A : Type) (l : list A) x pre y post, l ++ [x] = pre ++ y :: post ->
  (post = [] /\ pre = l /\ y = x) \/ exists post', post = post' ++ [x] /\ l = pre ++ y :: post'.
Proof.
  intros A l x pre y post E. destruct post as [|z post] using rev_ind.
  - left. apply app_inj_tail in E. destruct E; auto.
  - right. exists post. clear IHpost. change (l ++ [x] = pre ++ (y :: post) ++ [z]) in E. rewrite app_assoc in E. apply app_inj_tail in E. destruct E. subst. auto.
Qed.

Lemma phase_diff : forall p n, 0 <= p < M64 -> p <> u64 (p + Z.of_nat n) -> (0 < n)%nat.
Proof. intros p n Hp H. destruct n; [|lia]. exfalso. apply H. cbn [Z.of_nat]. rewrite Z.add_0_r. unfold u64. rewrite Z.mod_small by lia. reflexivity. Qed.
Lemma phase_same : forall p n, 0 <= p < M64 -> p = u64 (p + Z.of_nat n) -> u64 (Z.of_nat n) = 0.
Proof. intros p n Hp H. unfold u64 in *. Z.div_mod_to_equations. lia. Qed.

Ltac wb := cbn [phase wquit now pos resets_pending dtor events] in *.

Lemma pos_tick : forall ph q t w n d l dt n' d', 0 <= dt -> pos_ok (Wd ph q t w n d l) -> pos_ok (Wd ph q (t + dt) w n' d' l).
Proof.
  intros ph q t w n d l dt n' d' H P. unfold pos_ok in *. wb.
  destruct w; auto.
  - destruct P as (A & l1 & l2 & B & C). split; auto. exists l1, l2. split; auto. eapply armed_tick; eauto; wb; lia.
  - destruct P as (A & (l1 & l2 & B & C) & D). split; auto. split; [|lia]. exists l1, l2. split; auto. eapply armed_tick; eauto; wb; lia.
  - destruct P as (A & B & t0 & l1 & l2 & C & D). split; auto. split; [eapply call_ok_le; eauto; lia|]. exists t0, l1, l2. split; auto. eapply armed_tick; eauto; wb; lia.
  - destruct P as (A & t0 & l1 & l2 & l3 & t1 & C & D). split; auto. exists t0, l1, l2, l3, t1. split; auto. eapply armed_tick; eauto; wb; lia.
  - destruct P as (A & t0 & l1 & l2 & l3 & t1 & C & D). split; auto. exists t0, l1, l2, l3, t1. split; auto. eapply armed_tick; eauto; wb; lia.
  - destruct P as (A & t0 & l1 & l2 & l3 & t1 & C & D). split; auto. exists t0, l1, l2, l3, t1. split; auto. eapply armed_tick; eauto; wb; lia.
  - destruct P as (A & t0 & l1 & l2 & l3 & t1 & C & D). split; auto. exists t0, l1, l2, l3, t1. split; auto. eapply armed_tick; eauto; wb; lia.
Qed.
Lemma pos_same : forall ph q q' t w n d l n' d', (q = true -> q' = true) -> pos_ok (Wd ph q t w n d l) -> pos_ok (Wd ph q' t w n' d' l).
Proof.
  intros ph q q' t w n d l n' d' Hq P. replace t with (t + 0) at 1 by lia. 
  assert (P' : pos_ok (Wd ph q t w n' d' l)) by (replace t with (t + 0) by lia; eapply pos_tick; eauto; lia).
  rewrite Z.add_0_r. destruct w; auto. destruct P' as [A B]. split; auto.
Qed.
Lemma pos_reset : forall ph q t w n d l n', pos_ok (Wd ph q t w n d l) -> pos_ok (Wd (u64 (ph + 1)) q t w n' d (l ++ [(t, Reset)])).
Proof.
  intros ph q t w n d l n' P. unfold pos_ok in *. wb.
  assert (Ec : calls (l ++ [(t, Reset)]) = calls l) by (rewrite calls_app; cbn; lia).
  assert (Er : resets (l ++ [(t, Reset)]) = S (resets l)) by (rewrite resets_app; cbn; lia).
  rewrite ?Ec, ?Er.
  destruct w; auto.
  - destruct P as (A & l1 & l2 & B & C). split; auto. exists l1, (l2 ++ [(t, Reset)]). split; auto. eapply armed_reset in B; [exact B| | |]; reflexivity.
  - destruct P as (A & (l1 & l2 & B & C) & D). split; auto. split; auto. exists l1, (l2 ++ [(t, Reset)]). split; auto. eapply armed_reset in B; [exact B| | |]; reflexivity.
  - destruct P as (A & B & t0 & l1 & l2 & C & D). split; auto. split; [eapply (call_ok_app _ _ (t, Reset)); eauto; cbn; lia|]. exists t0, l1, (l2 ++ [(t, Reset)]). split; auto. eapply armed_reset in C; [exact C| | |]; reflexivity.
  - destruct P as (A & t0 & l1 & l2 & l3 & t1 & C & D). split; auto. exists t0, l1, l2, (l3 ++ [(t, Reset)]), t1. split; auto. eapply armed_reset in C; [rewrite <- app_assoc in C; exact C| | |]; reflexivity.
  - destruct P as (A & t0 & l1 & l2 & l3 & t1 & C & D). split; auto. exists t0, l1, l2, (l3 ++ [(t, Reset)]), t1. split; auto. eapply armed_reset in C; [rewrite <- app_assoc in C; exact C| | |]; reflexivity.
  - destruct P as (A & t0 & l1 & l2 & l3 & t1 & C & D). split; auto. exists t0, l1, l2, (l3 ++ [(t, Reset)]), t1. split; auto. eapply armed_reset in C; [rewrite <- app_assoc in C; exact C| | |]; reflexivity.
  - destruct P as (A & t0 & l1 & l2 & l3 & t1 & C & D). split; auto. exists t0, l1, l2, (l3 ++ [(t, Reset)]), t1. split; auto. eapply armed_reset in C; [rewrite <- app_assoc in C; exact C| | |]; reflexivity.
  - destruct P. split; auto.
Qed.
Lemma pos_wake : forall ph q t w n d l n' d', pos_ok (Wd ph q t w n d l) -> pos_ok (Wd ph q t (wake w) n' d' l).
Proof.
  intros ph q t w n d l n' d' P. apply (pos_same ph q q t w n d l n' d') in P; auto. unfold pos_ok in *. wb.
  destruct w; auto. cbn [wake]. destruct P as (A & B). split; auto. split; auto. discriminate.
Qed.
(** leaving the second wait *)
Lemma pos_top2 : forall ph q t n d l p w', pos_ok (Wd ph q t w' n d l) -> w' = WTop2 p \/ w' = WAwake2 p -> pos_ok (Wd ph q t (top2 q ph p) n d l).
Proof.
  intros ph q t n d l p w' P Hw. 
  assert (P' : 0 <= p < M64 /\ exists t0 l1 l2 l3 t1, armed (Wd ph q t (WTop2 p) n d l) p t0 l1 (l2 ++ (t1, Call) :: l3) /\ (calls l <= S (resets l1))%nat) by (destruct Hw; subst w'; exact P).
  clear P. destruct P' as (A & t0 & l1 & l2 & l3 & t1 & C & D). pose proof C as (C1 & C2 & C3 & C4 & C5). wb.
  unfold top2, pos_ok. wb. destruct (q || negb (p =? ph)) eqn:E; [|split; auto; exists t0, l1, l2, l3, t1; auto].
  destruct q.
  - split; auto. rewrite C1 at 2. rewrite resets_app. lia.
  - cbn in E. assert (p <> ph) by lia. rewrite C4 in H. apply phase_diff in H; auto. rewrite C1 at 2. rewrite resets_app. lia.
Qed.

Lemma WdI_step : forall k a b, WdI a -> wstep k a b -> WdI b.
Proof.
  intros k a b [H T P C Q N J W] S. inversion S; subst; wb.
  - (* tick *) constructor; wb; auto; [eapply upto_le; eauto; lia|eapply pos_tick; eauto; lia].
  - (* reset *)
    constructor; wb; auto; try congruence.
    + unfold u64. apply Z.mod_pos_bound. lia.
    + apply Forall_app. split; auto. constructor; auto. cbn. lia.
    + eapply pos_reset. eauto.
    + intros pre tc post E. apply snoc_split in E. destruct E as [(_ & _ & E)|(post' & _ & E)]; [discriminate|eauto].
    + destruct w; auto; intros _; left; lia.
  - (* reset: notify *)
    assert (Hd : d = DAlive) by (destruct d; auto; specialize (N ltac:(discriminate)); discriminate).
    subst d. constructor; wb; auto; try congruence.
    + eapply pos_wake; eauto.
    + destruct w; cbn [wake]; auto.
  - (* dtor *)
    constructor; wb; auto; try discriminate.
    + eapply pos_same; [|eauto]. auto.
    + split; auto; discriminate.
    + destruct w; auto.
  - (* dtor: notify *)
    constructor; wb; auto; try discriminate.
    + eapply pos_wake; eauto.
    + rewrite Q. split; discriminate.
    + intros _. apply N. discriminate.
    + destruct w; cbn [wake]; auto.
  - (* join *)
    constructor; wb; auto; try discriminate.
    + rewrite Q. split; discriminate.
    + intros _. apply N. discriminate.
  - (* top *)
    constructor; wb; auto.
    + unfold pos_ok, top in *. wb. destruct q; [split; auto; lia|]. split; auto. exists l, []. split; auto. replace (t + timeout - timeout) with t by lia.
      unfold armed. wb. rewrite app_nil_r. cbn. rewrite Z.add_0_r. repeat split; auto; try lia; [constructor|]. unfold u64. rewrite Z.mod_small by lia. reflexivity.
    + intros E. specialize (J E). discriminate.
    + unfold top. destruct q; auto. intros [|]; [discriminate|congruence].
  - (* expire *)
    constructor; wb; auto.
    + unfold pos_ok in *. wb. destruct P as (A & B). auto.
    + intros E. specialize (J E). discriminate.
  - (* spurious *)
    constructor; wb; auto.
    + unfold pos_ok in *. wb. destruct P as (A & B). split; auto. split; auto. discriminate.
    + intros E. specialize (J E). discriminate.
  - (* late *)
    constructor; wb; auto.
    + unfold pos_ok in *. wb. destruct P as (A & B & _). auto.
    + intros E. specialize (J E). discriminate.
  - (* resume *)
    assert (J' : d = DGone -> False) by (intros E; specialize (J E); discriminate).
    constructor; wb; auto; [|intros E; destruct (J' E)|].
    + unfold pos_ok, resume in *. wb. destruct P as (A & (l1 & l2 & B & D) & F). pose proof B as (B1 & B2 & B3 & B4 & B5). wb.
      destruct (q || negb (p =? ph)) eqn:E.
      * destruct q.
        -- split; auto. rewrite B1 at 2. rewrite resets_app. lia.
        -- rewrite B1 at 2. rewrite resets_app. lia.
      * destruct e; [|split; auto; exists l1, l2; auto].
        split; auto. split; [|exists (dl - timeout), l1, l2; auto].
        exists l1, l2, [], (dl - timeout), t. rewrite app_nil_r. split; auto. split; [|lia].
        unfold decided. repeat split; auto.
        -- rewrite B1 in T. apply Forall_app in T. apply T.
        -- constructor.
        -- specialize (F eq_refl). lia.
        -- destruct q; [discriminate|]. cbn in E. eapply (phase_same p); auto. lia.
    + unfold resume. destruct q; cbn [orb]; [exact Logic.I|]. destruct (Z.eqb_spec p ph); cbn [negb]; [|exact Logic.I]. destruct e; auto. intros [|]; [discriminate|contradiction].
  - (* call *)
    constructor; wb; auto.
    + apply Forall_app. split; auto. constructor; auto. cbn. lia.
    + unfold pos_ok in *. wb. destruct P as (A & B & t0 & l1 & l2 & D & F). split; auto. exists t0, l1, l2, [], t. 
      destruct D as (D1 & D2 & D3 & D4 & D5). wb. rewrite calls_app. cbn [calls filter is_call snd length].
      split; [|change (calls [(t, Call)]) with 1%nat; lia]. unfold armed. wb. rewrite D1, <- app_assoc. repeat split; auto.
      * apply Forall_app. split; auto.
      * rewrite resets_app. change (resets [(t, Call)]) with 0%nat. rewrite Nat.add_0_r. auto.
    + intros pre tc post E. apply snoc_split in E. destruct E as [(_ & -> & E)|(post' & _ & E)]; [|eauto]. injection E as ->. apply P.
    + intros E. specialize (J E). discriminate.
  - (* return *) constructor; wb; auto. intros E. specialize (J E). discriminate.
  - (* top2 *)
    constructor; wb; auto; [eapply pos_top2; eauto|intros E; specialize (J E); discriminate|].
    unfold top2. destruct q; cbn [orb]; [exact Logic.I|]. destruct (Z.eqb_spec p ph); cbn [negb]; [|exact Logic.I]. intros [|]; [discriminate|contradiction].
  - (* spurious2 *) constructor; wb; auto. intros E. specialize (J E). discriminate.
  - (* resume2 *)
    constructor; wb; auto; [eapply pos_top2; eauto|intros E; specialize (J E); discriminate|].
    unfold top2. destruct q; cbn [orb]; [exact Logic.I|]. destruct (Z.eqb_spec p ph); cbn [negb]; [|exact Logic.I]. intros [|]; [discriminate|contradiction].
Qed.
Lemma WdI_reach : forall a, reach a -> WdI a.
Proof. induction 1; [apply WdI_init|eapply WdI_step; eauto]. Qed.

(** The callback is called only when a whole timeout, ending before the call, has passed without a
    reset (as long as there were fewer than 2^64 resets). *)
Theorem watchdog_fires_only_after_timeout : forall a t, reach a -> In (t, Call) (events a) -> Z.of_nat (resets (events a)) < M64 ->
  exists t0 t1, t0 + timeout <= t1 /\ t1 <= t /\ forall t', In (t', Reset) (events a) -> t' <= t0 \/ t1 <= t'.
Proof.
  intros a t R Hi Hr. pose proof (WdI_reach a R) as I. apply in_split in Hi. destruct Hi as (pre & post & E).
  destruct (w_calls _ I _ _ _ E) as (l1 & l2 & l3 & t0 & t1 & A & (B1 & B2 & B3 & B4 & B5 & B6) & C).
  exists t0, t1. split; auto. split; auto. intros t' Hi.
  assert (R2 : resets l2 = 0%nat).
  { rewrite E, A, !resets_app in Hr. unfold u64 in B6. rewrite Z.mod_small in B6 by lia. lia. }
  assert (Tp : from t ((t, Call) :: post)).
  { clear -R E. revert pre post E. induction R as [|k a b R IH S]; intros pre post E; [destruct pre; discriminate|].
    pose proof (w_times _ (WdI_reach a R)) as T.
    assert (Q : forall e l, l ++ [e] = pre ++ (t, Call) :: post -> (forall pre post, l = pre ++ (t, Call) :: post -> from t ((t, Call) :: post)) -> upto (fst e) l -> from t ((t, Call) :: post)).
    { intros e l E2 IH2 T2. apply snoc_split in E2. destruct E2 as [(-> & _ & _)|(post' & -> & E2)].
      - constructor; [cbn; lia|constructor].
      - change ((t, Call) :: post' ++ [e]) with (((t, Call) :: post') ++ [e]). apply Forall_app. split; [eapply IH2; eauto|]. constructor; [|constructor].
        rewrite E2 in T2. apply Forall_app in T2. destruct T2 as [_ T2]. inversion T2; subst. auto. }
    inversion S; subst; cbn [events now] in *; eauto; eapply Q; eauto; cbn; auto. }
  unfold upto, from in B1, B4, Tp. rewrite E, A in Hi. repeat (apply in_app_or in Hi; destruct Hi as [Hi|Hi]).
  - left. rewrite Forall_forall in B1. apply B1 in Hi. auto.
  - exfalso. assert (In (t', Reset) (filter is_reset l2)) by (apply filter_In; auto). unfold resets in R2. destruct (filter is_reset l2); [contradiction|discriminate].
  - right. rewrite Forall_forall in B4. apply B4 in Hi. auto.
  - right. rewrite Forall_forall in Tp. apply Tp in Hi. cbn in Hi. lia.
Qed.

(** Between two firings there is a reset: up to any moment the callback was called at most once more
    than reset(). *)
Lemma events_prefix : forall a l l', reach a -> events a = l ++ l' -> exists b, reach b /\ events b = l.
Proof.
  intros a l l' R. revert l l'. induction R as [|k a b R IH S]; intros l l' E.
  - destruct l; [|discriminate]. exists (wdog_init t00). split; [constructor|reflexivity].
  - destruct (list_eq_dec (fun x y : Z * wevent => ltac:(decide equality; [decide equality|apply Z.eq_dec])) l (events b)) as [->|Ne].
    { exists b. split; auto. econstructor; eauto. }
    assert (exists l2, events a = l ++ l2) as [l2 E2]; [|eapply IH; eauto].
    assert (Q : forall e, events b = events a ++ [e] -> exists l2, events a = l ++ l2).
    { intros e Eb. destruct l' as [|x l'] using rev_ind; [rewrite app_nil_r in E; congruence|]. rewrite Eb, app_assoc in E. apply app_inj_tail in E. destruct E. eauto. }
    inversion S; subst; cbn [events] in *; eauto; eapply Q; eauto.
Qed.
Theorem watchdog_calls_bounded_by_resets : forall a l l', reach a -> events a = l ++ l' -> (calls l <= S (resets l))%nat.
Proof.
  intros a l l' R E. destruct (events_prefix a l l' R E) as (b & Rb & <-). pose proof (w_pos _ (WdI_reach b Rb)) as P.
  unfold pos_ok in P. destruct (pos b); try lia;
   repeat match goal with H : _ /\ _ |- _ => destruct H | H : exists _, _ |- _ => destruct H end; auto;
   match goal with H : armed _ _ _ _ _ |- _ => destruct H as (E1 & _) end; rewrite E1 at 2; rewrite resets_app; lia.
Qed.

(** After the destructor has returned the callback is not called (nothing happens any more). *)
Theorem watchdog_destroyed : forall a k b, reach a -> dtor a = DGone -> wstep k a b -> events b = events a /\ dtor b = DGone.
Proof.
  intros a k b R E S. pose proof (w_join _ (WdI_reach a R) E) as J. pose proof (w_pend _ (WdI_reach a R)) as N.
  inversion S; subst; cbn [dtor pos events resets_pending] in *; try discriminate; auto.
Qed.

(** The destructor does not hang (if the callback returns): some thread can go on, without spurious
    wake-ups and without waiting for the timeout, ... *)
Definition instant (a b : wdog) : Prop := wstep KWork a b /\ match pos a, pos b with WAsleep _ _, WAwake _ _ true => False | _, _ => True end.
Theorem watchdog_destructor_progress : forall a, reach a -> dtor a <> DAlive -> dtor a <> DGone -> exists b, instant a b.
Proof.
  intros a R A G. pose proof (WdI_reach a R) as I. pose proof (proj2 (w_quit _ I) A) as Q. pose proof (w_pend _ I A) as N. pose proof (w_wake _ I) as W.
  destruct a as [ph q t w n d l]; wb. subst q n.
  destruct d; try congruence.
  - eexists. split; [apply wd_dtor_notify|]. cbn. destruct w; exact Logic.I.
  - destruct w; try (eexists; split; [constructor|exact Logic.I]).
    + destruct (W (or_introl eq_refl)); [lia|discriminate].
    + destruct (W (or_introl eq_refl)); [lia|discriminate].
Qed.
(** ... and only finitely many steps can be made before it has returned. *)
Definition dweight (a : wdog) : nat :=
  (match dtor a with DAlive => 0 | DNotify => 2 | DJoin => 1 | DGone => 0 end +
   match pos a with WTop => 1 | WAsleep _ _ => 3 | WAwake _ _ false => 2 | WAwake _ _ true => 1 | WFire _ => 6 | WCall _ => 5 | WTop2 _ => 1
   | WAsleep2 _ => 2 | WAwake2 _ => 1 | WDone => 0 end)%nat.
Theorem watchdog_destructor_bounded : forall a b, reach a -> dtor a <> DAlive -> wstep KWork a b -> (dweight b < dweight a)%nat.
Proof.
  intros a b R A S. pose proof (WdI_reach a R) as I. pose proof (proj2 (w_quit _ I) A) as Q. pose proof (w_pend _ I A) as N.
  inversion S; subst; wb; subst; unfold dweight; wb; cbn [top resume top2 orb]; try discriminate; try lia; try (destruct w; cbn [wake]; lia).
  destruct e; lia.
Qed.

(** The watchdog does fire: when it has been started or reset and nobody resets it, the passing of
    time and the steps of the running threads lead to a call of the callback. *)
Inductive unattended : wdog -> wdog -> Prop :=
| ua_refl : forall a, unattended a a
| ua_step : forall k a b c, (k = KTick \/ k = KWork) -> wstep k a b -> unattended b c -> unattended a c.
Lemma ua_trans : forall a b c, unattended a b -> unattended b c -> unattended a c.
Proof. induction 1; auto. intros. econstructor; eauto. Qed.
Lemma ua_one : forall k a b, (k = KTick \/ k = KWork) -> wstep k a b -> unattended a b.
Proof. intros. econstructor; eauto. constructor. Qed.

Lemma fire_from_top : forall ph t n l, 0 <= ph < M64 -> exists t', unattended (Wd ph false t WTop n DAlive l) (Wd ph false t' (WCall ph) n DAlive (l ++ [(t', Call)])).
Proof.
  intros ph t n l H. set (t' := t + Z.max 1 timeout). exists t'.
  eapply ua_step; [right; reflexivity|apply wd_top|]. cbn [top].
  eapply ua_step; [left; reflexivity|apply (wd_tick timeout _ _ _ _ _ _ _ (Z.max 1 timeout)); lia|]. fold t'.
  eapply ua_step; [right; reflexivity|apply wd_expire; lia|].
  eapply ua_step; [right; reflexivity|apply wd_resume|]. unfold resume. rewrite Z.eqb_refl. cbn [orb negb].
  eapply ua_one; [right; reflexivity|]. apply wd_call.
Qed.

Theorem watchdog_fires : forall a, reach a -> dtor a = DAlive -> Z.of_nat (resets (events a)) < M64 ->
  (events a = [] \/ exists l t, events a = l ++ [(t, Reset)]) ->
  exists b t, unattended a b /\ events b = events a ++ [(t, Call)].
Proof.
  intros a R A Hr Hl. pose proof (WdI_reach a R) as I.
  pose proof (w_phase _ I) as Hp. pose proof (w_quit _ I) as Q. pose proof (w_pos _ I) as P. pose proof (w_wake _ I) as W.
  destruct a as [ph q t w n d l]; wb. subst d.
  assert (q = false) by (destruct q; auto; destruct (proj1 Q eq_refl eq_refl)). subst q.
  assert (F : exists t' n', unattended (Wd ph false t w n DAlive l) (Wd ph false t' WTop n' DAlive l) \/
    exists p, unattended (Wd ph false t w n DAlive l) (Wd ph false t' (WCall p) n' DAlive (l ++ [(t', Call)]))).
  2:{ destruct F as (t' & n' & [F|[p F]]); [|eexists; eexists; split; [exact F|reflexivity]].
      destruct (fire_from_top ph t' n' l Hp) as [t2 F2]. eexists. exists t2. split; [eapply ua_trans; [exact F|exact F2]|reflexivity]. }
  assert (Aw : forall p dl t n, dl <= t -> 
     (exists t' n', unattended (Wd ph false t (WAwake p dl true) n DAlive l) (Wd ph false t' WTop n' DAlive l) \/
      exists p2, unattended (Wd ph false t (WAwake p dl true) n DAlive l) (Wd ph false t' (WCall p2) n' DAlive (l ++ [(t', Call)])))).
  { intros p dl t' n' H. exists t', n'. destruct (Z.eq_dec p ph) as [->|Ne].
    - right. exists ph. eapply ua_step; [right; reflexivity|apply wd_resume|]. unfold resume. rewrite Z.eqb_refl. cbn [orb negb]. eapply ua_one; [right; reflexivity|]. apply wd_call.
    - left. pose proof (wd_resume timeout ph false t' n' DAlive l p dl true) as S. unfold resume in S. destruct (Z.eqb_spec p ph); [contradiction|]. eapply ua_one; [right; reflexivity|exact S]. }
  assert (Aw2 : forall p n w', 0 <= p < M64 -> w' = WTop2 p \/ w' = WAwake2 p -> p <> ph -> unattended (Wd ph false t w' n DAlive l) (Wd ph false t WTop n DAlive l)).
  { intros p n' w' _ Hw Ne. eapply ua_one; [right; reflexivity|].
    assert (top2 false ph p = WTop) by (unfold top2; destruct (Z.eqb_spec p ph); [contradiction|reflexivity]).
    rewrite <- H. destruct Hw; subst w'; constructor. }
  (* after a call, the last event being a reset, the phase has changed *)
  assert (Ch : forall p, 0 <= p < M64 -> (exists t0 l1 l2 l3 t1, armed (Wd ph false t w n DAlive l) p t0 l1 (l2 ++ (t1, Call) :: l3) /\ (calls l <= S (resets l1))%nat) -> p <> ph).
  { intros p Hp' (t0 & l1 & l2 & l3 & t1 & (C1 & _ & _ & C4 & _) & _). wb.
    assert (0 < resets l3)%nat.
    { destruct Hl as [Hl|(l' & t' & Hl)]; [rewrite Hl in C1; destruct l1; [destruct l2|]; discriminate|].
      rewrite Hl in C1. destruct l3 as [|x l3] using rev_ind.
      - assert (l' ++ [(t', Reset)] = (l1 ++ l2) ++ [(t1, Call)]) by (rewrite C1, <- app_assoc; reflexivity). apply app_inj_tail in H. destruct H. discriminate.
      - assert (l' ++ [(t', Reset)] = (l1 ++ l2 ++ (t1, Call) :: l3) ++ [x]) by (rewrite C1, <- !app_assoc; reflexivity). apply app_inj_tail in H. destruct H as [_ <-]. rewrite resets_app. cbn. lia. }
    intros ->. rewrite C1 in Hr. rewrite !resets_app in Hr; rewrite !resets_app in C4.
    replace (resets ((t1, Call) :: l3)) with (resets l3) in * by reflexivity.
    assert (u64 (Z.of_nat (resets l2 + resets l3)) = 0) by (eapply (phase_same ph); auto). unfold u64 in H0. rewrite Z.mod_small in H0 by lia. lia. }
  unfold pos_ok in P; wb. destruct w.
  - exists t, n. left. constructor.
  - set (t' := t + Z.max 1 (dl - t)). destruct (Aw p dl t' n ltac:(lia)) as (t2 & n2 & X). exists t2, n2.
    assert (Y : unattended (Wd ph false t (WAsleep p dl) n DAlive l) (Wd ph false t' (WAwake p dl true) n DAlive l)).
    { eapply ua_step; [left; reflexivity|apply (wd_tick timeout _ _ _ _ _ _ _ (Z.max 1 (dl - t))); lia|]. eapply ua_one; [right; reflexivity|]. apply wd_expire. lia. }
    destruct X as [X|[p' X]]; [left|right; exists p']; (eapply ua_trans; [exact Y|exact X]).
  - set (t' := t + Z.max 1 (dl - t)). destruct (Aw p dl t' n ltac:(lia)) as (t2 & n2 & X). exists t2, n2.
    assert (Y : unattended (Wd ph false t (WAwake p dl expired) n DAlive l) (Wd ph false t' (WAwake p dl true) n DAlive l)).
    { eapply ua_step; [left; reflexivity|apply (wd_tick timeout _ _ _ _ _ _ _ (Z.max 1 (dl - t))); lia|]. destruct expired; [constructor|]. eapply ua_one; [right; reflexivity|]. apply wd_late. lia. }
    destruct X as [X|[p' X]]; [left|right; exists p']; (eapply ua_trans; [exact Y|exact X]).
  - exists t, n. right. exists p. eapply ua_one; [right; reflexivity|]. apply wd_call.
  - exists t, n. left. destruct P as [P1 P2]. eapply ua_step; [right; reflexivity|apply wd_return|]. apply (Aw2 p); auto.
  - exists t, n. left. destruct P as [P1 P2]. apply (Aw2 p); auto.
  - destruct P as [P1 P2]. pose proof (Ch p P1 P2) as Ne. destruct (W (or_intror Ne)) as [Hn|]; [|discriminate]. destruct n as [|n]; [lia|].
    exists t, n. left. eapply ua_step; [right; reflexivity|apply wd_reset_notify|]. cbn [wake]. apply (Aw2 p); auto.
  - exists t, n. left. destruct P as [P1 P2]. apply (Aw2 p); auto.
  - destruct P; discriminate.
Qed.
End Proofs.

Tactic Notation "wdgo" uconstr(L) := lazymatch goal with H : wreach 10 0 ?a |- _ =>
  let S := fresh in let k := fresh in let b := fresh in
  evar (k : wkind); evar (b : wdog);
  assert (S : wstep 10 k a b) by (subst k b; eapply L; lia);
  apply (wr_step _ _ _ _ _ H) in S; subst k b; clear H; rename S into H;
  lazymatch type of H with wreach _ _ ?x => let y := eval vm_compute in x in change (wreach 10 0 y) in H end end.

(** A run: reset in time at 5, no reset until 15: called at 16; reset at 20; destroyed at 21. *)
Example watchdog_ex : exists a, wreach 10 0 a /\ dtor a = DGone /\ events a = [(5, Reset); (16, Call); (20, Reset)].
Proof.
  pose proof (wr_init 10 0) as H. unfold wdog_init in H.
  wdgo wd_top. wdgo (wd_tick 10 0 false 0 (WAsleep 0 10) 0 DAlive [] 5). wdgo wd_reset. wdgo wd_reset_notify. wdgo wd_resume. wdgo wd_top.
  wdgo (wd_tick 10 1 false 5 (WAsleep 1 15) 0 DAlive [(5, Reset)] 11). wdgo wd_expire. wdgo wd_resume. wdgo wd_call. wdgo wd_return. wdgo wd_top2.
  wdgo (wd_tick 10 1 false 16 (WAsleep2 1) 0 DAlive [(5, Reset); (16, Call)] 4). wdgo wd_reset. wdgo wd_reset_notify. wdgo wd_resume2. wdgo wd_top.
  wdgo (wd_tick 10 2 false 20 (WAsleep 2 30) 0 DAlive [(5, Reset); (16, Call); (20, Reset)] 1). wdgo wd_dtor. wdgo wd_dtor_notify. wdgo wd_resume. wdgo wd_join.
  eexists. split; [exact H|split; reflexivity].
Qed.

(** The callback can be called twice with no reset in between: the reset at 10 comes after the
    decision to fire and before the call. *)
Theorem watchdog_twice_between_resets_refuted : exists a, wreach 10 0 a /\ events a = [(10, Reset); (10, Call); (20, Call)].
Proof.
  pose proof (wr_init 10 0) as H. unfold wdog_init in H.
  wdgo wd_top. wdgo (wd_tick 10 0 false 0 (WAsleep 0 10) 0 DAlive [] 10). wdgo wd_expire. wdgo wd_resume. wdgo wd_reset. wdgo wd_call. wdgo wd_reset_notify. wdgo wd_return. wdgo wd_top2.
  wdgo wd_top. wdgo (wd_tick 10 1 false 10 (WAsleep 1 20) 0 DAlive [(10, Reset); (10, Call)] 10). wdgo wd_expire. wdgo wd_resume. wdgo wd_call.
  eexists. split; [exact H|reflexivity].
Qed.

Print Assumptions watchdog_fires_only_after_timeout.
Print Assumptions watchdog_calls_bounded_by_resets.
Print Assumptions watchdog_destroyed.
Print Assumptions watchdog_destructor_progress.
Print Assumptions watchdog_destructor_bounded.
Print Assumptions watchdog_fires.
Print Assumptions watchdog_ex.
Print Assumptions watchdog_twice_between_resets_refuted.
