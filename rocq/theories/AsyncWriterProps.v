(** C54 (second half): async_writer, for every schedule of the caller and the worker. *)
From Coq Require Import ZifyBool ZifyNat Arith.
From Verif Require Import Base StreamModel StreamSpec AsyncModel AsyncSpec AsyncReaderProps.
From Verif Require RingModel RingProofs RingProps.

Section WriterProofs.
Context {St : Type} (D : dev St) (d_flush : St -> St) (N : Z) (SInv : St -> Prop) (out : St -> list Z).
Hypothesis HN : 1 <= N.
Hypothesis HD : sink D SInv out.
Hypothesis HF : forall s, SInv s -> SInv (d_flush s) /\ out (d_flush s) = out s.
Variable junk : Z -> Z.
Variable s0 : St.
Hypothesis H0 : SInv s0.
Notation writer := (@writer St).

Definition xdtor (u : wuser) : Prop := match u with XQuit1 | XQuit2 | XJoin | XGone => True | _ => False end.
Definition vfin (w : wwork) : Prop := match w with VQuit1 | VQuit2 | VDone => True | _ => False end.
Definition vquitting (w : wwork) : Prop := match w with VQuit | VQuit1 | VQuit2 => True | _ => False end.
Definition vafter (w : wwork) : Prop := match w with VWrote _ | VPop | VCheck => True | _ => False end.
Definition up (u : wuser) (p : RingModel.pstate Z) : Prop :=
  match u with
  | XBack _ d =>
      match p with
      | RingModel.PAsleepB | RingModel.PAwakeB | RingModel.PGotNull => True
      | RingModel.PHas _ n ws => (length ws <= Nat.min (Z.to_nat n) (length d))%nat /\ ws = firstn (length ws) d
      | _ => False
      end
  | XPush _ _ => p = RingModel.PNotify
  | XSync => p = RingModel.PIdle \/ p = RingModel.PAsleepS \/ p = RingModel.PAwakeS
  | _ => p = RingModel.PIdle
  end.
Definition wc (w : wwork) (c : RingModel.cstate Z) : Prop :=
  match w with
  | VFront => match c with
      | RingModel.CAsleep | RingModel.CAwake | RingModel.CGotNull => True
      | RingModel.CHas _ n rs => rs <> [] -> Z.of_nat (length rs) <= n
      | _ => False
      end
  | VWrote k => match c with RingModel.CHas _ n rs => (k <= length rs)%nat /\ Z.of_nat (length rs) = n | _ => False end
  | VPop => c = RingModel.CNotify
  | VDone => c = RingModel.CIdle \/ c = RingModel.CGotNull
  | _ => c = RingModel.CIdle
  end.
Definition wrote (w : wwork) (c : RingModel.cstate Z) : list Z :=
  match w, c with VWrote k, RingModel.CHas _ _ rs => firstn k rs | _, _ => [] end.
Definition suffix_ok (u : wuser) : Prop :=
  match u with XTop d r | XBack d r | XPush d r => exists sent, d = sent ++ r | _ => True end.
(** what of the current write is already in the ring *)
Definition sent (u : wuser) : list Z :=
  match u with XTop d r | XBack d r | XPush d r => firstn (length d - length r) d | _ => [] end.
Definition vb1 (w : wwork) : nat := match w with VQuit1 => 1 | _ => 0 end.
Definition vb2 (w : wwork) : nat := match w with VQuit2 => 1 | _ => 0 end.
Definition xc1 (u : wuser) : nat := match u with XQuit1 => 1 | _ => 0 end.
Definition xc2 (u : wuser) : nat := match u with XQuit2 => 1 | _ => 0 end.
Definition synced (u : wuser) (p : RingModel.pstate Z) : Prop :=
  u = XFlush \/ (u = XSync /\ p = RingModel.PIdle).
Definition ev_ok (f : bool) (e : wevent) : Prop :=
  match e with
  | EvWrite d n StOk => n = length d
  | EvWrite d n _ => (n <= length d)%nat /\ f = true
  | EvFlush StOk => True
  | EvFlush _ => f = true
  end.

Record WI (a : writer) : Prop := {
  j_ring : RingModel.reachable N junk 0 (wring a);
  j_up : up (wu a) (prod (wring a));
  j_wc : wc (ww a) (cons_ (wring a));
  j_src : SInv (wsrc a);
  j_out : out (wsrc a) = out s0 ++ popped (wring a) ++ wrote (ww a) (cons_ (wring a));
  j_suf : suffix_ok (wu a);
  j_acc : pushed (wring a) = accepted (wlog a) ++ sent (wu a);
  j_q1 : q1 (wring a) = (vb1 (ww a) + xc1 (wu a))%nat;
  j_q2 : q2 (wring a) = (vb2 (ww a) + xc2 (wu a))%nat;
  j_quit : rquit (wring a) = true <-> vfin (ww a) \/ xdtor (wu a);
  j_after : vafter (ww a) -> d_ok D (wsrc a) = false -> failed a = true;
  j_full : match ww a, cons_ (wring a) with VWrote k, RingModel.CHas _ _ rs => d_ok D (wsrc a) = true -> k = length rs | _, _ => True end;
  j_bad : vquitting (ww a) -> failed a = true;
  j_done : ww a = VDone -> failed a = true \/ (xdtor (wu a) /\ popped (wring a) = pushed (wring a));
  j_cnull : cons_ (wring a) = RingModel.CGotNull -> xdtor (wu a) /\ popped (wring a) = pushed (wring a);
  j_pnull : prod (wring a) = RingModel.PGotNull -> vfin (ww a);
  j_sync : synced (wu a) (prod (wring a)) -> rquit (wring a) = true \/ size (wring a) = 0;
  j_log : Forall (ev_ok (failed a)) (wlog a) }.

Lemma WI_init : WI (writer_init junk s0).
Proof.
  constructor; cbn; auto; try contradiction; try discriminate.
  - constructor.
  - rewrite app_nil_r. reflexivity.
  - split; [discriminate|intros [[]|[]]].
Qed.

Lemma accepted_snoc : forall l e, accepted (l ++ [e]) = accepted l ++ match e with EvWrite d n _ => firstn n d | EvFlush _ => [] end.
Proof. intros. unfold accepted. rewrite map_app, concat_app. cbn. rewrite app_nil_r. reflexivity. Qed.

Lemma up_wake : forall u p p', up u p -> p' = p \/ (p = RingModel.PAsleepB /\ p' = RingModel.PAwakeB) \/ (p = RingModel.PAsleepS /\ p' = RingModel.PAwakeS) ->
  up u p' /\ (p' = RingModel.PGotNull -> p = RingModel.PGotNull) /\ (synced u p' -> synced u p).
Proof.
  intros u p p' H [->|[[-> ->]|[-> ->]]]; auto; (cj; [destruct u; cbn in *; try discriminate; try contradiction; auto|discriminate|]).
  - destruct H as [|[|]]; discriminate.
  - intros [->|[-> ?]]; [cbn in H; discriminate|discriminate].
  - intros [->|[-> ?]]; [cbn in H; discriminate|discriminate].
Qed.
Lemma wc_wake : forall w c c', wc w c -> c' = c \/ (c = RingModel.CAsleep /\ c' = RingModel.CAwake) ->
  wc w c' /\ (c' = RingModel.CGotNull -> c = RingModel.CGotNull) /\ wrote w c' = wrote w c /\
  forall (P : list Z -> nat -> Prop), match w, c with VWrote k, RingModel.CHas _ _ rs => P rs k | _, _ => True end ->
    match w, c' with VWrote k, RingModel.CHas _ _ rs => P rs k | _, _ => True end.
Proof.
  intros w c c' H [->|[-> ->]]; auto. destruct w; cbn in *; try discriminate; try contradiction; cj; auto; try discriminate.
  destruct H; discriminate.
Qed.
Lemma ev_mono : forall f l, Forall (ev_ok f) l -> forall g, (f = true -> g = true) -> Forall (ev_ok g) l.
Proof.
  intros f l H g E. eapply Forall_impl; [|exact H]. intros [d n []|[]]; cbn; intuition.
Qed.

Lemma sent_eq : forall d x r : list Z, d = x ++ r -> firstn (length d - length r) d = x.
Proof.
  intros d x r ->. rewrite app_length. replace (length x + length r - length r)%nat with (length x) by lia.
  rewrite firstn_app, firstn_all, Nat.sub_diag. cbn. apply app_nil_r.
Qed.

Ltac ringstep H := eapply RingModel.reach_step; [exact H|].
Ltac wcb := cbn [wring wsrc ww wu wlog failed RingModel.set_prod RingModel.set_cons RingModel.set_q RingModel.prod RingModel.cons RingModel.pushed RingModel.popped
  RingModel.q1 RingModel.q2 RingModel.quit RingModel.size r_write r_push r_read r_pop r_quit
  up wc wrote vb1 vb2 xc1 xc2 vafter vquitting vfin xdtor suffix_ok sent] in *.
Ltac start := constructor; wcb; auto; try contradiction; try discriminate; try lia; try tauto; try solve [intros [?E|[?E ?E]]; discriminate].

Lemma WI_step : forall k a b, WI a -> writer_step D d_flush N k a b -> WI b.
Proof.
  intros k a b I St0. destruct I as [Ir Iu Iw Is Io If Ia I1 I2 Iq Ie Ifu Ib Id Ik Ip Iy Il].
  inversion St0; subst; wcb.
  - (* front *)
    start.
    + ringstep Ir. apply RingModel.st_front. auto.
    + destruct (front_enter_cases N r) as [(h & n & ->)|[->|(-> & _)]]; cbn; auto. congruence.
    + intros E. destruct (front_enter_cases N r) as [(h & n & E2)|[E2|(_ & E2 & E3)]]; try congruence.
      split; [apply Iq in E2; tauto|]. eapply ring_empty; eauto.
  - (* front: wake *)
    start.
    + ringstep Ir. apply RingModel.st_front_wake. auto.
    + destruct (front_resume_cases N r) as [(h & n & ->)|[->|(-> & _)]]; cbn; auto. congruence.
    + intros E. destruct (front_resume_cases N r) as [(h & n & E2)|[E2|(_ & E2 & E3)]]; try congruence.
      split; [apply Iq in E2; tauto|]. eapply ring_empty; eauto.
  - (* spurious *)
    start. ringstep Ir. apply RingModel.st_front_spurious. auto.
  - (* null *)
    start.
  - (* take *)
    rewrite H in *. start.
    + ringstep Ir. apply RingModel.st_read; auto.
    + rewrite app_length. cbn [length]. lia.
  - (* write *)
    destruct (snk_write _ _ _ HD _ _ _ _ Is H2) as (A1 & A2 & A3 & A4).
    rewrite H in *. start; try (rewrite H; wcb; auto).
    + rewrite A3, Io, app_nil_r, <- app_assoc. reflexivity.
    + intros E. apply A4. unfold d_ok in E. destruct (d_state D s'); auto; discriminate.
    + eapply ev_mono; eauto. intros ->. reflexivity.
  - (* pop *)
    destruct (RingProps.ring_front_region _ _ _ _ _ _ _ _ HN Ir H) as (B1 & B2 & B3 & B4 & _).
    destruct (RingProps.ring_fifo _ _ _ _ _ HN Ir) as (pend & P1 & P2 & _).
    rewrite H in *. destruct Iw as [W1 W2]. start.
    + ringstep Ir. eapply RingModel.st_pop; eauto.
    + rewrite Io, app_nil_r. reflexivity.
    + intros Sy. destruct (Iy Sy); auto. rewrite P1, app_length in B4. lia.
  - (* pop: notify *)
    destruct (notify_head_eq N HN junk r r' Ir H1) as ((E1 & E2 & E3 & E4 & E5 & E6 & E7) & E8).
    destruct (up_wake _ _ _ Iu E8) as (F1 & F2 & F3). 
    start; rewrite ?E2, ?E3, ?E4, ?E5, ?E6, ?E7; auto.
    ringstep Ir. eapply RingModel.st_pop_notify; eauto.
  - (* check *)
    destruct (d_ok D s) eqn:Eo; start.
  - (* quit *)
    start.
    ringstep Ir. apply RingModel.st_quit.
  - (* quit: head *)
    destruct (notify_head_eq N HN junk r r' Ir H1) as ((E1 & E2 & E3 & E4 & E5 & E6 & E7) & E8).
    destruct (up_wake _ _ _ Iu E8) as (F1 & F2 & F3).
    start; rewrite ?E1, ?E2, ?E3, ?E4, ?E6, ?E7; auto; try lia.
    ringstep Ir. eapply RingModel.st_quit_head; eauto.
  - (* quit: tail *)
    destruct (notify_tail_eq r) as ((E1 & E2 & E3 & E4 & E5 & E6 & E7) & E8).
    destruct (wc_wake VQuit2 _ _ Iw E8) as (F1 & F2 & F3 & F4). wcb.
    start; rewrite ?E1, ?E2, ?E3, ?E4, ?E6, ?E7; auto; try lia.
    ringstep Ir. eapply RingModel.st_quit_tail; eauto.
  - (* call *)
    start.
    + exists []. reflexivity.
    + rewrite Nat.sub_diag. exact Ia.
  - (* back *)
    start.
    + ringstep Ir. apply RingModel.st_back. auto.
    + destruct (back_enter_cases N r) as [(t & n & ->)|[->|[-> _]]]; cbn; auto. split; [lia|auto].
    + intros E. destruct (back_enter_cases N r) as [(t & n & E2)|[E2|[_ E2]]]; try congruence. apply Iq in E2. tauto.
  - (* back: wake *)
    start.
    + ringstep Ir. apply RingModel.st_back_wake. auto.
    + destruct (back_resume_cases N r) as [(t & n & ->)|[->|[-> _]]]; cbn; auto. split; [lia|auto].
    + intros E. destruct (back_resume_cases N r) as [(t & n & E2)|[E2|[_ E2]]]; try congruence. apply Iq in E2. tauto.
  - (* back: spurious *)
    start.
    + ringstep Ir. apply RingModel.st_back_spurious. auto.
  - (* fail *)
    assert (Ef : f = true).
    { pose proof (Ip H) as Hw. destruct w; try contradiction; auto. destruct (Id eq_refl) as [|[[] _]]; auto. }
    start.
    + ringstep Ir. apply RingModel.st_null_ack. auto.
    + rewrite accepted_snoc, Ia, app_nil_r. reflexivity.
    + apply Forall_app. split; auto. constructor; auto. cbn. split; auto. lia.
  - (* copy *)
    rewrite H in *. destruct Iu as [U1 U2]. start.
    + ringstep Ir. eapply RingModel.st_write; eauto. lia.
    + rewrite app_length. cbn [length]. split; [lia|]. rewrite Nat.add_1_r, <- (RingProofs.firstn_snoc _ _ _ _ H2), <- U2. reflexivity.
  - (* push *)
    rewrite H in *. destruct Iu as [U1 U2]. destruct If as [snt If].
    assert (Ed : d = ws ++ skipn (length ws) d) by (rewrite U2 at 1; rewrite firstn_skipn; reflexivity).
    start.
    + ringstep Ir. eapply RingModel.st_push; eauto.
    + exists (snt ++ ws). rewrite <- app_assoc. rewrite If. f_equal. exact Ed.
    + rewrite firstn_all, Ia, <- app_assoc. f_equal.
      rewrite (sent_eq _ snt d If), (sent_eq _ (snt ++ ws) (skipn (length ws) d)); [reflexivity|].
      rewrite <- app_assoc, <- Ed. exact If.
  - (* push: notify *)
    destruct (notify_tail_eq r) as ((E1 & E2 & E3 & E4 & E5 & E6 & E7) & E8).
    destruct (wc_wake _ _ _ Iw E8) as (F1 & F2 & F3 & F4).
    assert (Rr : RingModel.reachable N junk 0 (set_prod (RingModel.notify_tail r) RingModel.PIdle)) by (ringstep Ir; apply RingModel.st_push_notify; auto).
    destruct d; start; rewrite ?F3, ?E2, ?E3, ?E4, ?E5, ?E6, ?E7; auto.
    + rewrite accepted_snoc, Ia, app_nil_r, Nat.sub_0_r. reflexivity.
    + apply (F4 (fun rs k => d_ok D s = true -> k = length rs)). exact Ifu.
    + apply Forall_app. split; auto. constructor; auto. reflexivity.
    + apply (F4 (fun rs k => d_ok D s = true -> k = length rs)). exact Ifu.
  - (* sync *)
    unfold RingModel.sync_done. start.
    + ringstep Ir. apply RingModel.st_sync. auto.
    + destruct (rquit r || RingModel.empty r); auto.
    + destruct (rquit r || RingModel.empty r); discriminate.
    + intros [E|[_ E]]; [discriminate|]. destruct (rquit r) eqn:Eq; auto. unfold RingModel.empty in E. cbn in E. destruct (Z.eqb_spec (size r) 0); auto; discriminate.
  - (* sync: wake *)
    unfold RingModel.sync_done. start.
    + ringstep Ir. apply RingModel.st_sync_wake. auto.
    + destruct (rquit r || RingModel.empty r); auto.
    + destruct (rquit r || RingModel.empty r); discriminate.
    + intros [E|[_ E]]; [discriminate|]. destruct (rquit r) eqn:Eq; auto. unfold RingModel.empty in E. cbn in E. destruct (Z.eqb_spec (size r) 0); auto; discriminate.
  - (* sync: spurious *)
    start.
    + ringstep Ir. apply RingModel.st_sync_spurious. auto.
  - (* synced *)
    start. intros _. apply Iy. right. auto.
  - (* flush *)
    destruct (HF s Is) as [A1 A2].
    start.
    + congruence.
    + rewrite accepted_snoc, Ia, !app_nil_r. reflexivity.
    + destruct w; auto. destruct (cons_ r) eqn:Ec; auto. exfalso.
      destruct (RingProps.ring_front_region _ _ _ _ _ _ _ _ HN Ir Ec) as (B1 & B2 & B3 & B4 & _).
      destruct (RingProps.ring_fifo _ _ _ _ _ HN Ir) as (pend & P1 & P2 & _).
      destruct (Iy (or_introl eq_refl)) as [Q|Q]; [apply Iq in Q; tauto|]. rewrite P1, app_length in B4. lia.
    + apply Forall_app. split; [eapply ev_mono; eauto; intros ->; reflexivity|]. constructor; auto. cbn. unfold d_ok.
      destruct (d_state D (d_flush s)); auto; cbn; apply orb_true_r.
  - (* dtor *)
    start.
    + ringstep Ir. apply RingModel.st_quit.
  - (* dtor: head *)
    destruct (notify_head_eq N HN junk r r' Ir H1) as ((E1 & E2 & E3 & E4 & E5 & E6 & E7) & E8).
    destruct (up_wake XQuit1 _ _ Iu E8) as (F1 & F2 & F3).
    start; rewrite ?E1, ?E2, ?E3, ?E4, ?E6, ?E7; auto; try lia.
    ringstep Ir. eapply RingModel.st_quit_head; eauto.
  - (* dtor: tail *)
    destruct (notify_tail_eq r) as ((E1 & E2 & E3 & E4 & E5 & E6 & E7) & E8).
    destruct (wc_wake _ _ _ Iw E8) as (F1 & F2 & F3 & F4).
    start; rewrite ?F3, ?E1, ?E2, ?E3, ?E4, ?E6, ?E7; auto; try lia.
    ringstep Ir. eapply RingModel.st_quit_tail; eauto.
    apply (F4 (fun rs k => d_ok D s = true -> k = length rs)). exact Ifu.
  - (* join *)
    start.
Qed.

Notation reach := (writer_reach D d_flush N junk s0).
Lemma WI_reach : forall a, reach a -> WI a.
Proof. induction 1; [apply WI_init|eapply WI_step; eauto]. Qed.

Lemma gone_done : forall a, reach a -> wu a = XGone -> ww a = VDone.
Proof.
  induction 1 as [|k a b R IH S]; [discriminate|].
  inversion S; subst; cbn [ww wu] in *; auto; try discriminate; try (intros E; specialize (IH E); discriminate).
  destruct d; cbn [wu]; discriminate.
Qed.

(** C54: at every moment the source has got, in order, a beginning of the bytes written so far (those
    of the finished calls, then those of the running one). *)
Theorem async_writer_prefix : forall a, reach a ->
  exists delivered rest, out (wsrc a) = out s0 ++ delivered /\ accepted (wlog a) ++ sent (wu a) = delivered ++ rest.
Proof.
  intros a R. pose proof (WI_reach a R) as I. pose proof (j_out _ I) as Io. rewrite <- (j_acc _ I).
  destruct (RingProps.ring_fifo _ _ _ _ _ HN (j_ring _ I)) as (pend & P1 & P2 & P3).
  destruct (ww a) eqn:Ew; cbn [wrote] in Io; try (rewrite app_nil_r in Io; eauto; fail).
  destruct (cons_ (wring a)) eqn:Ec; try (rewrite app_nil_r in Io; eauto; fail).
  destruct (P3 _ _ _ eq_refl) as [r' E]. exists (popped (wring a) ++ firstn k rs), (skipn k rs ++ r').
  split; auto. rewrite E, <- app_assoc. f_equal. rewrite app_assoc, firstn_skipn. reflexivity.
Qed.

(** After the destructor everything that was accepted has reached the source, unless the source has
    failed. *)
Theorem async_writer_destroyed : forall a, reach a -> wu a = XGone -> failed a = false ->
  out (wsrc a) = out s0 ++ accepted (wlog a).
Proof.
  intros a R E F. pose proof (WI_reach a R) as I. pose proof (gone_done a R E) as Ed.
  destruct (j_done _ I Ed) as [Q|[_ Q]]; [congruence|]. pose proof (j_out _ I) as Io. pose proof (j_acc _ I) as Ia.
  rewrite Ed in Io. rewrite E in Ia. cbn [sent wrote] in *. rewrite !app_nil_r in *. congruence.
Qed.

(** flush calls the source's flush only when the source has got everything that was accepted, unless
    the source has failed. *)
Theorem async_writer_flush : forall a, reach a -> wu a = XFlush -> failed a = false ->
  out (wsrc a) = out s0 ++ accepted (wlog a).
Proof.
  intros a R E F. pose proof (WI_reach a R) as I. pose proof (j_out _ I) as Io. pose proof (j_acc _ I) as Ia.
  rewrite E in Ia. cbn [sent] in Ia. rewrite app_nil_r in Ia.
  destruct (j_sync _ I (or_introl E)) as [Q|Q].
  - exfalso. apply (j_quit _ I) in Q. rewrite E in Q. destruct Q as [Q|[]].
    pose proof (j_bad _ I) as B. pose proof (j_done _ I) as J. rewrite E in J.
    destruct (ww a); try contradiction; try (specialize (B Logic.I); congruence).
    destruct (J eq_refl) as [?|[[] _]]; congruence.
  - destruct (RingProps.ring_fifo _ _ _ _ _ HN (j_ring _ I)) as (pend & P1 & P2 & P3).
    destruct pend; [|cbn [length] in P2; lia]. rewrite app_nil_r in P1.
    destruct (ww a) eqn:Ew; cbn [wrote] in Io; try (rewrite app_nil_r in Io; congruence).
    destruct (cons_ (wring a)) eqn:Ec; try (rewrite app_nil_r in Io; congruence).
    destruct (RingProps.ring_front_region _ _ _ _ _ _ _ _ HN (j_ring _ I) Ec) as (B1 & B2 & B3 & B4 & _).
    rewrite P1 in B4. lia.
Qed.

(** With a source that never fails, nothing is ever refused: every write takes all its data and
    reports ok, and every flush reports ok. *)
Theorem async_writer_all_ok : always_writes D SInv -> (forall s, SInv s -> d_state D (d_flush s) = StOk) ->
  forall a, reach a -> failed a = false /\
  forall e, In e (wlog a) -> match e with EvWrite d n st => n = length d /\ st = StOk | EvFlush st => st = StOk end.
Proof.
  intros AW AF a R.
  assert (F : failed a = false).
  { induction R as [|k a b R IH S]; auto. pose proof (WI_reach a R) as I.
    inversion S; subst; cbn [failed] in *; auto; try (destruct d; auto; fail); pose proof (j_src _ I) as Is; cbn [wsrc] in Is; rewrite IH.
    - specialize (AW s rs Is). rewrite H2 in AW. cbn [fst] in AW. unfold d_ok. rewrite AW. reflexivity.
    - unfold d_ok. rewrite AF; auto. }
  split; auto. pose proof (j_log _ (WI_reach a R)) as L. rewrite F in L. intros e Hi.
  rewrite Forall_forall in L. specialize (L e Hi). destruct e as [d n []|[]]; cbn in L; auto; try discriminate; destruct L; discriminate.
Qed.

Lemma wnotify_head_total : forall r : rstate, RingModel.reachable N junk 0 r -> exists r', RingModel.notify_head r r'.
Proof. apply notify_head_total. exact HN. Qed.

Lemma vworker_steps : forall a, WI a -> ww a <> VDone -> cons_ (wring a) <> RingModel.CAsleep -> exists b, writer_step D d_flush N KWork a b.
Proof.
  intros [r s w u l f] I Hd Hs. pose proof (j_wc _ I) as Iw. pose proof (j_q1 _ I) as I1. pose proof (j_q2 _ I) as I2. wcb.
  destruct w; try congruence; wcb.
  - eexists. apply ws_front. auto.
  - destruct (cons_ r) eqn:E; try contradiction; try congruence.
    + eexists. apply ws_front_wake. auto.
    + eexists. apply ws_null. auto.
    + destruct (RingProps.ring_front_region _ _ _ _ _ _ _ _ HN (j_ring _ I) E) as (B1 & B2 & _).
      destruct (Z.lt_ge_cases (Z.of_nat (length rs)) n) as [L|L].
      * eexists. eapply ws_take; eauto.
      * destruct (d_write D s rs) as [s' k] eqn:Ed. eexists. eapply ws_write; eauto.
        destruct rs; [cbn in L; lia|]. assert (z :: rs <> []) by discriminate. specialize (Iw H). lia.
  - destruct (cons_ r) eqn:E; try contradiction. eexists. eapply ws_pop; eauto.
  - destruct (wnotify_head_total r (j_ring _ I)) as [r' Hn]. eexists. eapply ws_pop_notify; eauto.
  - eexists. apply ws_check.
  - eexists. apply ws_quit.
  - destruct (wnotify_head_total r (j_ring _ I)) as [r' Hn]. eexists. eapply ws_quit_head; eauto.
  - eexists. eapply ws_quit_tail; eauto.
Qed.

(** No call and no destruction hangs ... *)
Theorem async_writer_no_deadlock : forall a, reach a -> wu a <> XIdle -> wu a <> XGone ->
  exists b, writer_step D d_flush N KWork a b.
Proof.
  intros a R Hi Hg. pose proof (WI_reach a R) as I.
  pose proof (RingProps.ring_wakeup_pending _ _ _ _ HN (j_ring _ I)) as (W1 & W2 & W3).
  pose proof (j_quit _ I) as Iq. pose proof (j_up _ I) as Iu. pose proof (j_wc _ I) as Iw.
  pose proof (j_q1 _ I) as I1. pose proof (j_q2 _ I) as I2.
  assert (Ed : {ww a = VDone} + {ww a <> VDone}) by (destruct (ww a); auto; right; discriminate).
  (* the worker asleep in front: not while the producer sleeps too *)
  assert (A1 : cons_ (wring a) = RingModel.CAsleep -> ww a = VFront).
  { intros Ec. destruct (ww a); cbn in Iw; rewrite Ec in Iw; try discriminate; try contradiction; auto. destruct Iw; discriminate. }
  assert (A2 : xc1 (wu a) = 0%nat -> xc2 (wu a) = 0%nat -> prod (wring a) <> RingModel.PNotify -> cons_ (wring a) = RingModel.CAsleep -> rquit (wring a) = false /\ size (wring a) = 0).
  { intros X1 X2 Xp Ec. pose proof (A1 Ec) as Ew. rewrite Ew, X1, X2 in *. wcb.
    assert (~ (rquit (wring a) = true \/ size (wring a) > 0)) as Q by (intros Q; destruct (W3 Ec Q) as [|[|]]; [contradiction|lia|lia]).
    destruct (rquit (wring a)); [tauto|]. split; auto.
    destruct (RingProps.ring_fifo _ _ _ _ _ HN (j_ring _ I)) as (pend & P1 & P2 & P3). lia. }
  destruct (wu a) as [|d0 d|d0 d|d0 d| | | | | |] eqn:Eu; try congruence; wcb.
  - destruct a as [r s w u l f]; wcb; subst u. eexists. apply ws_back. tauto.
  - destruct (prod (wring a)) eqn:Ep; try contradiction.
    + (* asleep in back() *)
      destruct Ed as [Ed|Ed].
      * exfalso. rewrite Ed in *. wcb. assert (Q : rquit (wring a) = true) by (apply Iq; auto).
        destruct (W1 eq_refl (or_introl Q)) as [E|E]; [destruct Iw; congruence|lia].
      * apply vworker_steps; auto. intros Ec. destruct (A2 eq_refl eq_refl ltac:(discriminate) Ec) as [Q1 Q2].
        destruct (W1 eq_refl) as [E|E]; [right; lia|congruence|]. rewrite (A1 Ec) in *. wcb. lia.
    + destruct a as [r s w u l f]; wcb; subst u. eexists. apply ws_back_wake. auto.
    + destruct a as [r s w u l f]; wcb; subst u. eexists. apply ws_fail. auto.
    + destruct Iu as [U1 U2]. destruct a as [r s w u l f]; wcb; subst u.
      destruct (Nat.lt_ge_cases (length ws) (Nat.min (Z.to_nat n) (length d))) as [L|L].
      * destruct (nth_error d (length ws)) eqn:En; [eexists; eapply ws_copy; eauto|]. apply nth_error_None in En. lia.
      * eexists. eapply ws_push; eauto. lia.
  - destruct a as [r s w u l f]; wcb; subst u. eexists. apply ws_push_notify. auto.
  - destruct Iu as [Ep|[Ep|Ep]].
    + destruct a as [r s w u l f]; wcb; subst u. eexists. apply ws_synced. auto.
    + (* asleep in sync() *)
      destruct Ed as [Ed|Ed].
      * exfalso. rewrite Ed in *. wcb. assert (Q : rquit (wring a) = true) by (apply Iq; auto).
        destruct (W2 Ep (or_introl Q)) as [E|E]; [destruct Iw; congruence|lia].
      * apply vworker_steps; auto. intros Ec. destruct (A2 eq_refl eq_refl ltac:(congruence) Ec) as [Q1 Q2].
        destruct (W2 Ep) as [E|E]; [right; lia|congruence|]. rewrite (A1 Ec) in *. wcb. lia.
    + destruct a as [r s w u l f]; wcb; subst u. eexists. apply ws_sync_wake. auto.
  - destruct a as [r s w u l f]; wcb; subst u. eexists. apply ws_flush.
  - destruct (wnotify_head_total _ (j_ring _ I)) as [r' Hn]. destruct a as [r s w u l f]; wcb; subst u.
    destruct (q1 r) eqn:E; [lia|]. eexists. eapply ws_dtor_head; eauto.
  - destruct a as [r s w u l f]; wcb; subst u. destruct (q2 r) eqn:E; [lia|]. eexists. eapply ws_dtor_tail; eauto.
  - destruct Ed as [Ed|Ed].
    + destruct a as [r s w u l f]; wcb; subst u w. eexists. apply ws_join.
    + apply vworker_steps; auto. intros Ec. destruct (A2 eq_refl eq_refl ltac:(congruence) Ec) as [Q1 Q2].
      rewrite (proj2 Iq (or_intror Logic.I)) in Q1. discriminate.
Qed.

(** ... and the running threads make only finitely many steps before the call has returned: *)
Definition v_weight (s : St) (w : wwork) (r : rstate) : nat :=
  let P := Z.to_nat (size r) in
  match w with
  | VTop => 102 * P + 40
  | VFront => 102 * P + match cons_ r with RingModel.CAsleep => 30 | RingModel.CAwake => 36 | RingModel.CGotNull => 10 | _ => 34 end
              - match cons_ r with RingModel.CHas _ _ rs => length rs | _ => 0 end
  | VWrote k => if d_ok D s then 102 * P + 33 - k else 33
  | VPop => if d_ok D s then 102 * P + 49 else 26
  | VCheck => if d_ok D s then 102 * P + 41 else 18
  | VQuit => 17 | VQuit1 => 16 | VQuit2 => 8 | VDone => 0
  end%nat.
Definition x_weight (u : wuser) (p : RingModel.pstate Z) : nat :=
  match u with
  | XIdle | XGone => 0
  | XTop _ d => 300 * length d + 15
  | XBack _ d => 300 * length d +
      match p with RingModel.PAsleepB => 5 | RingModel.PAwakeB => 11 | RingModel.PGotNull => 8 | _ => 10 end -
      match p with RingModel.PHas _ _ ws => length ws | _ => 0 end
  | XPush _ d => match d with [] => 9 | _ => 300 * length d + 23 end
  | XSync => match p with RingModel.PAsleepS => 46 | RingModel.PAwakeS => 52 | _ => 45 end
  | XFlush => 44
  | XQuit1 => 16 | XQuit2 => 8 | XJoin => 1
  end%nat.
Definition wweight (a : writer) : nat := (v_weight (wsrc a) (ww a) (wring a) + x_weight (wu a) (prod (wring a)))%nat.

Lemma xw_wake : forall u p p', p' = p \/ (p = RingModel.PAsleepB /\ p' = RingModel.PAwakeB) \/ (p = RingModel.PAsleepS /\ p' = RingModel.PAwakeS) ->
  (x_weight u p' <= x_weight u p + 6)%nat.
Proof. intros u p p' [->|[[-> ->]|[-> ->]]]; [lia| |]; destruct u; cbn [x_weight]; try lia; destruct rest; lia. Qed.
Lemma vw_wake : forall s w (r r' : rstate), size r' = size r -> cons_ r' = cons_ r \/ (cons_ r = RingModel.CAsleep /\ cons_ r' = RingModel.CAwake) ->
  (v_weight s w r' <= v_weight s w r + 6)%nat.
Proof. intros s w r r' E [E2|[E2 E3]]; unfold v_weight; rewrite E, ?E2, ?E3; destruct w; lia. Qed.
Lemma vw_same : forall s w (r r' : rstate), size r' = size r -> cons_ r' = cons_ r -> v_weight s w r' = v_weight s w r.
Proof. intros s w r r' E E2. unfold v_weight. rewrite E, E2. reflexivity. Qed.
Lemma vw_push : forall s w (r r' : rstate) k, size r' = size r + Z.of_nat k -> 0 <= size r -> cons_ r' = cons_ r -> (v_weight s w r' <= v_weight s w r + 102 * k)%nat.
Proof. intros s w r r' k E H E2. unfold v_weight. rewrite E, E2. destruct w; try destruct (d_ok D s); lia. Qed.

Lemma vw_prod : forall s w (r : rstate) p, v_weight s w (set_prod r p) = v_weight s w r.
Proof. reflexivity. Qed.

Theorem async_writer_steps_bounded : forall a b, reach a -> writer_step D d_flush N KWork a b -> (wweight b < wweight a)%nat.
Proof.
  intros a b R S. pose proof (WI_reach a R) as I. pose proof (j_ring _ I) as Ir. pose proof (j_up _ I) as Iu. pose proof (j_wc _ I) as Iw. pose proof (j_src _ I) as Is.
  pose proof (j_full _ I) as Ifu.
  destruct (RingProps.ring_fifo _ _ _ _ _ HN Ir) as (pend & P1 & P2 & P3).
  unfold wweight. inversion S; subst; wcb.
  - unfold v_weight; cbn [RingModel.size RingModel.cons set_cons]. destruct (front_enter_cases N r) as [(h & n & ->)|[->|(-> & _)]]; cbn [length]; lia.
  - unfold v_weight; cbn [RingModel.size RingModel.cons set_cons]. rewrite H. destruct (front_resume_cases N r) as [(h & n & ->)|[->|(-> & _)]]; cbn [length]; lia.
  - unfold v_weight. rewrite H. lia.
  - destruct (RingProps.ring_front_region _ _ _ _ _ _ _ _ HN Ir H) as (B1 & B2 & B3 & B4 & _). rewrite P1, app_length in B4.
    unfold v_weight; cbn [RingModel.size RingModel.cons set_cons r_read]. rewrite H. rewrite app_length. cbn [length]. lia.
  - destruct (RingProps.ring_front_region _ _ _ _ _ _ _ _ HN Ir H) as (B1 & B2 & B3 & B4 & _). rewrite P1, app_length in B4.
    destruct (snk_write _ _ _ HD _ _ _ _ Is H2) as (A1 & A2 & A3 & A4).
    unfold v_weight. rewrite H. destruct (d_ok D s') eqn:Eo; [|lia]. unfold d_ok in Eo. destruct (d_state D s'); try discriminate. rewrite A4 by auto. lia.
  - destruct (RingProps.ring_front_region _ _ _ _ _ _ _ _ HN Ir H) as (B1 & B2 & B3 & B4 & _). rewrite P1, app_length in B4.
    rewrite H in *. destruct Iw as [W1 W2]. unfold v_weight; cbn [RingModel.size r_pop]. destruct (d_ok D s); [|lia]. rewrite (Ifu eq_refl). lia.
  - destruct (notify_head_eq N HN junk r r' Ir H1) as ((E1 & E2 & E3 & E4 & E5 & E6 & E7) & E8). pose proof (xw_wake u _ _ E8).
    unfold v_weight; cbn [RingModel.size set_cons]. rewrite E7. destruct (d_ok D s); lia.
  - unfold v_weight. destruct (d_ok D s); lia.
  - unfold v_weight. lia.
  - destruct (notify_head_eq N HN junk r r' Ir H1) as ((E1 & E2 & E3 & E4 & E5 & E6 & E7) & E8). pose proof (xw_wake u _ _ E8). unfold v_weight. lia.
  - destruct (notify_tail_eq r) as ((E1 & E2 & E3 & E4 & E5 & E6 & E7) & E8). rewrite E1. unfold v_weight. lia.
  - rewrite ?vw_prod. destruct (back_enter_cases N r) as [(t & n & ->)|[->|[-> _]]]; cbn [x_weight length]; lia.
  - rewrite ?vw_prod. rewrite H. destruct (back_resume_cases N r) as [(t & n & ->)|[->|[-> _]]]; cbn [x_weight length]; lia.
  - rewrite ?vw_prod. rewrite H. cbn [x_weight]. lia.
  - rewrite (vw_same s w (r_write r t n ws x) r) by reflexivity. rewrite H. cbn [x_weight]. rewrite app_length. cbn [length]. lia.
  - pose proof (vw_push s w r (r_push r ws (length ws)) (length ws) eq_refl ltac:(lia) eq_refl) as V. rewrite H in *.
    destruct (RingProps.ring_back_region _ _ _ _ _ _ _ _ HN Ir H) as (B1 & B2 & _).
    cbn [x_weight]. pose proof (skipn_length (length ws) d) as Es. destruct (skipn (length ws) d); cbn [length] in *; destruct d; cbn [length] in *; lia.
  - destruct (notify_tail_eq r) as ((E1 & E2 & E3 & E4 & E5 & E6 & E7) & E8).
    pose proof (vw_wake s w r (set_prod (RingModel.notify_tail r) RingModel.PIdle) E7 E8) as V.
    destruct d; wcb; cbn [x_weight]; lia.
  - rewrite ?vw_prod. rewrite H. cbn [x_weight]. destruct (RingModel.sync_done r); lia.
  - rewrite H. cbn [x_weight]. lia.
  - assert (V : (v_weight (d_flush s) w r <= v_weight s w r + 23)%nat).
    { destruct (j_sync _ I (or_introl eq_refl)) as [Q|Q]; cbn [wring] in Q.
      - apply (j_quit _ I) in Q. cbn [ww wu xdtor] in Q. destruct w; cbn in Q; try tauto; unfold v_weight; lia.
      - unfold v_weight. rewrite Q. destruct w; try lia; try (destruct (d_ok D s), (d_ok D (d_flush s)); lia).
        exfalso. destruct (cons_ r) eqn:Ec; try contradiction.
        destruct (RingProps.ring_front_region _ _ _ _ _ _ _ _ HN Ir Ec) as (B1 & B2 & B3 & B4 & _). rewrite P1, app_length in B4. lia. }
    cbn [x_weight]. lia.
  - destruct (notify_head_eq N HN junk r r' Ir H1) as ((E1 & E2 & E3 & E4 & E5 & E6 & E7) & E8).
    rewrite (vw_same s w (RingModel.set_q r' m (Datatypes.S (q2 r))) r) by auto. cbn [x_weight]. lia.
  - destruct (notify_tail_eq r) as ((E1 & E2 & E3 & E4 & E5 & E6 & E7) & E8).
    pose proof (vw_wake s w r (RingModel.set_q (RingModel.notify_tail r) (q1 r) m) E7 E8) as V. cbn [x_weight]. lia.
  - cbn [x_weight]. lia.
Qed.
End WriterProofs.

(** A sink that takes [cap] bytes and then fails. *)
Definition cap_dev : dev (nat * list Z * sstate) := {|
  d_read := fun s _ => (s, []);
  d_write := fun s b => let '(cap, o, _) := s in
    let k := Nat.min (length b) (cap - length o) in
    ((cap, o ++ firstn k b, if (length b <=? cap - length o)%nat then StOk else StFail), k);
  d_state := fun s => snd s;
  d_set := fun s st => (fst s, st) |}.
Lemma cap_sink : sink cap_dev (fun _ => True) (fun s => snd (fst s)).
Proof.
  constructor.
  - intros [[cap o] t] b s' k _ E. cbn in E. injection E as <- <-. cj; auto; cbn [fst snd d_state cap_dev]; [lia|].
    destruct (Nat.leb_spec (length b) (cap - length o)); [lia|discriminate].
  - intros [[cap o] t] st _. cbn. auto.
Qed.

Ltac wsolve := solve_step; try (apply RingModel.nh_back; reflexivity); try (apply RingModel.nh_sync; reflexivity).
Tactic Notation "wgo" uconstr(L) := lazymatch goal with H : writer_reach cap_dev (fun s => s) 2 (fun _ => 0) ?s0 ?a |- _ =>
  let S := fresh in let k := fresh in let b := fresh in
  evar (k : kind); evar (b : @writer (nat * list Z * sstate));
  assert (S : writer_step cap_dev (fun s => s) 2 k a b) by (subst k b; eapply L; wsolve);
  apply (wr_step _ _ _ _ _ _ _ _ H) in S; subst k b; clear H; rename S into H;
  lazymatch type of H with writer_reach _ _ _ _ _ ?x => let y := eval vm_compute in x in change (writer_reach cap_dev (fun s => s) 2 (fun _ => 0) s0 y) in H end end.

(** Three bytes through a ring of two, a flush that has to wait, and the destructor. *)
Example async_writer_ex : exists a, writer_reach cap_dev (fun s => s) 2 (fun _ => 0) (9%nat, [], StOk) a /\
  wu a = XGone /\ failed a = false /\ wlog a = [EvWrite [7; 8; 9] 3 StOk; EvFlush StOk] /\ snd (fst (wsrc a)) = [7; 8; 9].
Proof.
  pose proof (wr_init cap_dev (fun s => s) 2 (fun _ => 0) (9%nat, [], StOk)) as H. unfold writer_init, RingModel.init in H.
  wgo (ws_call _ _ _ _ _ _ _ _ [7; 8; 9]). wgo ws_back. wgo ws_copy. wgo ws_copy. wgo ws_push.
  wgo ws_front. wgo ws_push_notify. wgo ws_back. wgo ws_take. wgo ws_take. wgo ws_write. wgo ws_pop. wgo ws_pop_notify.
  wgo ws_back_wake. wgo ws_copy. wgo ws_push. wgo ws_push_notify. wgo ws_sync. wgo ws_check. wgo ws_front. wgo ws_take. wgo ws_write. wgo ws_pop. wgo ws_pop_notify.
  wgo ws_sync_wake. wgo ws_synced. wgo ws_flush. wgo ws_check. wgo ws_front. wgo ws_dtor. wgo ws_dtor_head. wgo ws_dtor_tail. wgo ws_front_wake. wgo ws_null. wgo ws_join.
  eexists. split; [exact H|cj; reflexivity].
Qed.

(** A write can report ok although the source has failed already and its bytes are lost: the source
    takes one byte; after [7] it is full, [8] is accepted, the worker fails to deliver it and ends, and
    the write of [9], begun after that, reports ok all the same. *)
Theorem async_writer_ok_after_failure_refuted : exists a, writer_reach cap_dev (fun s => s) 2 (fun _ => 0) (1%nat, [], StOk) a /\
  wu a = XGone /\ wlog a = [EvWrite [7] 1 StOk; EvWrite [8] 1 StOk; EvWrite [9] 1 StOk] /\
  snd (fst (wsrc a)) = [7] /\ failed a = true.
Proof.
  pose proof (wr_init cap_dev (fun s => s) 2 (fun _ => 0) (1%nat, [], StOk)) as H. unfold writer_init, RingModel.init in H.
  wgo (ws_call _ _ _ _ _ _ _ _ [7]). wgo ws_back. wgo ws_copy. wgo ws_push. wgo ws_push_notify.
  wgo ws_front. wgo ws_take. wgo ws_write. wgo ws_pop. wgo ws_pop_notify. wgo ws_check.
  wgo (ws_call _ _ _ _ _ _ _ _ [8]). wgo ws_back. wgo ws_copy. wgo ws_push. wgo ws_push_notify.
  wgo ws_front. wgo ws_take. wgo ws_write. wgo ws_pop. wgo ws_pop_notify. wgo ws_check. wgo ws_quit. wgo ws_quit_head. wgo ws_quit_tail.
  wgo (ws_call _ _ _ _ _ _ _ _ [9]). wgo ws_back. wgo ws_copy. wgo ws_push. wgo ws_push_notify.
  wgo ws_dtor. wgo ws_dtor_head. wgo ws_dtor_tail. wgo ws_join.
  eexists. split; [exact H|cj; reflexivity].
Qed.

(** flush calls the source's flush while the worker is about to ask the source for its state (two
    threads use the source at a time: with a source whose flush sets its state that is a data race). *)
Theorem async_writer_flush_race_refuted : exists a, writer_reach cap_dev (fun s => s) 2 (fun _ => 0) (9%nat, [], StOk) a /\
  wu a = XFlush /\ ww a = VCheck.
Proof.
  pose proof (wr_init cap_dev (fun s => s) 2 (fun _ => 0) (9%nat, [], StOk)) as H. unfold writer_init, RingModel.init in H.
  wgo (ws_call _ _ _ _ _ _ _ _ [7]). wgo ws_back. wgo ws_copy. wgo ws_push. wgo ws_push_notify.
  wgo ws_front. wgo ws_take. wgo ws_write. wgo ws_pop. wgo ws_pop_notify. wgo ws_sync. wgo ws_synced.
  eexists. split; [exact H|cj; reflexivity].
Qed.

Print Assumptions async_writer_prefix.
Print Assumptions async_writer_destroyed.
Print Assumptions async_writer_flush.
Print Assumptions async_writer_all_ok.
Print Assumptions async_writer_no_deadlock.
Print Assumptions async_writer_steps_bounded.
Print Assumptions async_writer_ex.
Print Assumptions async_writer_ok_after_failure_refuted.
Print Assumptions async_writer_flush_race_refuted.
