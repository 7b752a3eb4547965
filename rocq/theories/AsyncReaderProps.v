(** C54 (first half): async_reader, for every schedule of the caller and the worker. *)
From Coq Require Import ZifyBool ZifyNat Arith.
From Verif Require Import Base StreamModel StreamSpec AsyncModel AsyncSpec.
From Verif Require RingModel RingProofs RingProps.

Ltac cj := repeat (match goal with |- _ /\ _ => split end).

Section ReaderProofs.
Context {St : Type} (D : dev St) (N : Z) (SInv : St -> Prop) (left : St -> list Z).
Hypothesis HN : 1 <= N.
Hypothesis HD : source D SInv left.
Variable junk : Z -> Z.
Variable s0 : St.
Hypothesis H0 : SInv s0.
Notation reader := (@reader St).
Notation rstep := (RingModel.step N).

Definition indtor (u : ruser) : Prop := match u with UQuit1 | UQuit2 | UJoin | UGone => True | _ => False end.
Definition fin (w : rwork) : Prop := match w with WQuit1 | WQuit2 | WDone => True | _ => False end.
Definition wp (w : rwork) (p : RingModel.pstate Z) : Prop :=
  match w with
  | WBack => match p with RingModel.PAsleepB | RingModel.PAwakeB | RingModel.PGotNull => True | RingModel.PHas _ _ ws => ws = [] | _ => False end
  | WCopy rest => match p with RingModel.PHas _ n ws => Z.of_nat (length ws + length rest) <= n | _ => False end
  | WPush => p = RingModel.PNotify
  | WDone => p = RingModel.PIdle \/ p = RingModel.PGotNull
  | _ => p = RingModel.PIdle
  end.
Definition uc (u : ruser) (c : RingModel.cstate Z) : Prop :=
  match u with
  | UFront len acc =>
      (length acc <= len)%nat /\ (acc <> [] -> (length acc < len)%nat) /\
      match c with
      | RingModel.CAsleep | RingModel.CAwake | RingModel.CGotNull => True
      | RingModel.CHas _ n rs => (length rs <= Nat.min (Z.to_nat n) (len - length acc))%nat
      | _ => False
      end
  | UPop len acc => (length acc <= len)%nat /\ ((0 < len)%nat -> acc <> []) /\ c = RingModel.CNotify
  | UTop len acc => (length acc <= len)%nat /\ (acc <> [] -> (length acc < len)%nat) /\ c = RingModel.CIdle
  | _ => c = RingModel.CIdle
  end.
Definition inflight (w : rwork) (p : RingModel.pstate Z) : list Z :=
  match w with WCopy rest => match p with RingModel.PHas _ _ ws => ws ++ rest | _ => rest end | _ => [] end.
Definition uacc (u : ruser) : list Z := match u with UTop _ a | UFront _ a | UPop _ a => a | _ => [] end.
Definition b1 (w : rwork) : nat := match w with WQuit1 => 1 | _ => 0 end.
Definition b2 (w : rwork) : nat := match w with WQuit2 => 1 | _ => 0 end.
Definition c1 (u : ruser) : nat := match u with UQuit1 => 1 | _ => 0 end.
Definition c2 (u : ruser) : nat := match u with UQuit2 => 1 | _ => 0 end.
Definition eof_end (s : St) : Prop := d_state D s = StEof -> left s = [].
Definition past (w : rwork) : Prop := match w with WTop | WBack | WDone => False | _ => True end.
Definition quitting (w : rwork) : Prop := match w with WQuit | WQuit1 | WQuit2 => True | _ => False end.

Record RI (a : reader) : Prop := {
  i_ring : RingModel.reachable N junk 0 (rring a);
  i_wp : wp (rw a) (prod (rring a));
  i_uc : uc (ru a) (cons_ (rring a));
  i_src : SInv (rsrc a);
  i_con : left s0 = pushed (rring a) ++ inflight (rw a) (prod (rring a)) ++ left (rsrc a);
  i_got : popped (rring a) = got (rlog a) ++ uacc (ru a);
  i_q1 : q1 (rring a) = (b1 (rw a) + c1 (ru a))%nat;
  i_q2 : q2 (rring a) = (b2 (rw a) + c2 (ru a))%nat;
  i_quit : rquit (rring a) = true <-> fin (rw a) \/ indtor (ru a);
  i_eof : past (rw a) -> eof_end (rsrc a);
  i_bad : quitting (rw a) -> d_ok D (rsrc a) = false;
  i_done : rw a = WDone -> indtor (ru a) \/ (d_ok D (rsrc a) = false /\ eof_end (rsrc a));
  i_pnull : prod (rring a) = RingModel.PGotNull -> indtor (ru a);
  i_cnull : cons_ (rring a) = RingModel.CGotNull -> popped (rring a) = pushed (rring a) /\ fin (rw a);
  i_log : exists rest, left s0 = got (rlog a) ++ rest /\ reads_ok (left s0) (rlog a) rest;
  i_short : forall len b st, In (len, b, st) (rlog a) -> (length b < len)%nat ->
    fin (rw a) /\ popped (rring a) = pushed (rring a) /\ d_ok D (rsrc a) = false }.

Lemma RI_init : RI (reader_init junk s0).
Proof.
  constructor; cbn; auto; try contradiction; try discriminate.
  - constructor.
  - split; [discriminate|intros [[]|[]]].
  - exists (left s0). split; auto. constructor.
Qed.

Lemma got_snoc : forall l len b st, got (l ++ [(len, b, st)]) = got l ++ b.
Proof. intros. unfold got. rewrite map_app, concat_app. cbn. rewrite app_nil_r. reflexivity. Qed.

Lemma back_enter_cases : forall r : rstate,
  (exists t n, RingModel.back_enter N r = RingModel.PHas t n []) \/ RingModel.back_enter N r = RingModel.PAsleepB \/
  (RingModel.back_enter N r = RingModel.PGotNull /\ rquit r = true).
Proof.
  intros r. unfold RingModel.back_enter, RingModel.back_region.
  destruct (RingModel.space N r =? 0); cbn; eauto. destruct (rquit r); cbn; eauto.
Qed.
Lemma back_resume_cases : forall r : rstate,
  (exists t n, RingModel.back_resume N r = RingModel.PHas t n []) \/ RingModel.back_resume N r = RingModel.PAsleepB \/
  (RingModel.back_resume N r = RingModel.PGotNull /\ rquit r = true).
Proof.
  intros r. unfold RingModel.back_resume, RingModel.back_region.
  destruct (rquit r); cbn; eauto. destruct (RingModel.space N r =? 0); cbn; eauto.
Qed.
Lemma front_resume_cases : forall r : rstate,
  (exists h n, RingModel.front_resume N r = RingModel.CHas h n []) \/ RingModel.front_resume N r = RingModel.CAsleep \/
  (RingModel.front_resume N r = RingModel.CGotNull /\ rquit r = true /\ size r = 0).
Proof.
  intros r. unfold RingModel.front_resume, RingModel.front_region, RingModel.empty.
  destruct (rquit r), (Z.eqb_spec (size r) 0); cbn; eauto 6.
Qed.
Lemma front_enter_cases : forall r : rstate,
  (exists h n, RingModel.front_enter N r = RingModel.CHas h n []) \/ RingModel.front_enter N r = RingModel.CAsleep \/
  (RingModel.front_enter N r = RingModel.CGotNull /\ rquit r = true /\ size r = 0).
Proof.
  intros r. unfold RingModel.front_enter. destruct (RingModel.empty r); [apply front_resume_cases|].
  unfold RingModel.front_region. eauto.
Qed.
Lemma ring_empty : forall r : rstate, RingModel.reachable N junk 0 r -> size r = 0 -> popped r = pushed r.
Proof.
  intros r R E. destruct (RingProps.ring_fifo _ _ _ _ _ HN R) as (rest & E1 & E2 & _).
  destruct rest; [rewrite E1, app_nil_r; auto|cbn in E2; lia].
Qed.
Lemma notify_tail_eq : forall r : rstate, let r' := RingModel.notify_tail r in
  (prod r' = prod r /\ pushed r' = pushed r /\ popped r' = popped r /\ rquit r' = rquit r /\ q1 r' = q1 r /\ q2 r' = q2 r /\ size r' = size r) /\
  (cons_ r' = cons_ r \/ (cons_ r = RingModel.CAsleep /\ cons_ r' = RingModel.CAwake)).
Proof. intros r r'. unfold r', RingModel.notify_tail. destruct (cons_ r) eqn:E; cbn; rewrite ?E; repeat split; auto. Qed.
Lemma notify_head_eq : forall r r' : rstate, RingModel.reachable N junk 0 r -> RingModel.notify_head r r' ->
  (cons_ r' = cons_ r /\ pushed r' = pushed r /\ popped r' = popped r /\ rquit r' = rquit r /\ q1 r' = q1 r /\ q2 r' = q2 r /\ size r' = size r) /\
  (prod r' = prod r \/ (prod r = RingModel.PAsleepB /\ prod r' = RingModel.PAwakeB) \/ (prod r = RingModel.PAsleepS /\ prod r' = RingModel.PAwakeS)).
Proof.
  intros r r' R H. destruct (RingProofs.WInv_reachable N HN _ _ R) as (W0 & _).
  destruct (RingProofs.notify_head_cases _ _ W0 H) as [[-> E]|[[-> E]|(-> & E & F)]]; cbn; repeat split; auto.
Qed.

Lemma wp_wake : forall w p p', wp w p -> p' = p \/ (p = RingModel.PAsleepB /\ p' = RingModel.PAwakeB) \/ (p = RingModel.PAsleepS /\ p' = RingModel.PAwakeS) ->
  wp w p' /\ inflight w p' = inflight w p /\ (p' = RingModel.PGotNull -> p = RingModel.PGotNull).
Proof.
  intros w p p' H [->|[[-> ->]|[-> ->]]]; auto; destruct w; cbn in *; try contradiction; try discriminate; auto;
    cj; auto; try discriminate; destruct H; discriminate.
Qed.
Lemma uc_wake : forall u c c', uc u c -> c' = c \/ (c = RingModel.CAsleep /\ c' = RingModel.CAwake) ->
  uc u c' /\ (c' = RingModel.CGotNull -> c = RingModel.CGotNull).
Proof.
  intros u c c' H [->|[-> ->]]; auto. destruct u; cbn in *; try discriminate; try solve [destruct H as (_ & _ & H); discriminate].
  split; auto; discriminate.
Qed.

Ltac ringstep H := eapply RingModel.reach_step; [exact H|].
Ltac cb := cbn [rring rsrc rw ru rlog RingModel.set_prod RingModel.set_cons RingModel.set_q RingModel.prod RingModel.cons RingModel.pushed RingModel.popped
  RingModel.q1 RingModel.q2 RingModel.quit RingModel.size r_write r_push r_read r_pop r_quit
  wp uc inflight uacc b1 b2 c1 c2 past quitting fin indtor] in *.
Ltac start := constructor; cb; auto; try contradiction; try discriminate; try lia; try tauto.

Lemma RI_step : forall k a b, RI a -> reader_step D N k a b -> RI b.
Proof.
  intros k a b I St0. destruct I as [Ir Iw Iu Is Ic Ig I1 I2 Iq Ie Ib Id Ip Ik Il Ih].
  inversion St0; subst; cbn [rring rsrc rw ru rlog] in *.
  - (* back *)
    start.
    + ringstep Ir. apply RingModel.st_back. auto.
    + destruct (back_enter_cases r) as [(t & n & ->)|[->|[-> _]]]; cbn; auto.
    + intros E. destruct (back_enter_cases r) as [(t & n & E2)|[E2|[_ E2]]]; try congruence. apply Iq in E2. destruct E2; [contradiction|auto].
  - (* back: wake *)
    start.
    + ringstep Ir. apply RingModel.st_back_wake. auto.
    + destruct (back_resume_cases r) as [(t & n & ->)|[->|[-> _]]]; cbn; auto.
    + intros E. destruct (back_resume_cases r) as [(t & n & E2)|[E2|[_ E2]]]; try congruence. apply Iq in E2. destruct E2; [contradiction|auto].
  - (* back: spurious *)
    start. ringstep Ir. apply RingModel.st_back_spurious. auto.
  - (* null *)
    start.
    intros len b st Hi Hl. destruct (Ih len b st Hi Hl) as ([] & _).
  - (* read *)
    rewrite H in *. destruct (src_read _ _ _ HD _ _ _ _ Is H1) as (A1 & A2 & A3 & A4).
    destruct (RingProps.ring_back_region _ _ _ _ _ _ _ _ HN Ir H) as (B1 & B2 & _).
    start; cb; rewrite ?H in *; cb; auto; try lia.
    + cbn [length]. lia.
    + rewrite Ic, A2. reflexivity.
    + intros _ E. rewrite E in A4. destruct A4 as (_ & E2 & E3). rewrite E2 in A2. cbn in A2. congruence.
    + intros len b st Hi Hl. destruct (Ih len b st Hi Hl) as ([] & _).
  - (* copy *)
    rewrite H in *. cb. cbn [length] in Iw. start; rewrite ?app_length; cbn [length]; try lia.
    + ringstep Ir. eapply RingModel.st_write; eauto. lia.
    + rewrite Ic, <- !app_assoc. reflexivity.
  - (* push *)
    rewrite H in *. cb. cbn [length] in Iw. start.
    + ringstep Ir. eapply RingModel.st_push; eauto.
    + rewrite firstn_all, Ic, <- !app_assoc. reflexivity.
    + intros len b st Hi Hl. destruct (Ih len b st Hi Hl) as ([] & _).
  - (* push: notify *)
    destruct (notify_tail_eq r) as ((E1 & E2 & E3 & E4 & E5 & E6 & E7) & E8).
    destruct (uc_wake _ _ _ Iu E8) as [F1 F2].
    start; rewrite ?E2, ?E3, ?E4, ?E5, ?E6; auto; try discriminate.
    ringstep Ir. apply RingModel.st_push_notify. auto.
  - (* check *)
    destruct (d_ok D s) eqn:Eo; start; try (intros len b st Hi Hl; destruct (Ih len b st Hi Hl) as ([] & _)).
  - (* quit *)
    start.
    + ringstep Ir. apply RingModel.st_quit.
    + intros len b st Hi Hl. destruct (Ih len b st Hi Hl) as ([] & _).
  - (* quit: head *)
    destruct (notify_head_eq r r' Ir H1) as ((E1 & E2 & E3 & E4 & E5 & E6 & E7) & E8).
    destruct (wp_wake _ _ _ Iw E8) as (F1 & F2 & F3). cb.
    start; rewrite ?E1, ?E2, ?E3, ?E4, ?E6; auto; try lia.
    ringstep Ir. eapply RingModel.st_quit_head; eauto.
  - (* quit: tail *)
    destruct (notify_tail_eq r) as ((E1 & E2 & E3 & E4 & E5 & E6 & E7) & E8).
    destruct (uc_wake _ _ _ Iu E8) as [F1 F2].
    start; rewrite ?E1, ?E2, ?E3, ?E4, ?E6; auto; try lia.
    ringstep Ir. eapply RingModel.st_quit_tail; eauto.
  - (* call *)
    start. cj; auto; [cbn; lia|congruence].
  - (* front *)
    assert (Z : RingModel.front_enter N r = RingModel.CGotNull -> popped r = pushed r /\ fin w).
    { intros E. destruct (front_enter_cases r) as [(h & n & E2)|[E2|(_ & E2 & E3)]]; try congruence.
      split; [apply ring_empty; auto|]. apply Iq in E2. destruct E2; [auto|contradiction]. }
    start.
    + ringstep Ir. apply RingModel.st_front. apply Iu.
    + destruct Iu as (U1 & U2 & _). cj; auto. destruct (front_enter_cases r) as [(h & n & ->)|[->|(-> & _)]]; cbn; auto. lia.
  - (* front: wake *)
    assert (Z : RingModel.front_resume N r = RingModel.CGotNull -> popped r = pushed r /\ fin w).
    { intros E. destruct (front_resume_cases r) as [(h & n & E2)|[E2|(_ & E2 & E3)]]; try congruence.
      split; [apply ring_empty; auto|]. apply Iq in E2. destruct E2; [auto|contradiction]. }
    start.
    + ringstep Ir. apply RingModel.st_front_wake. auto.
    + destruct Iu as (U1 & U2 & _). cj; auto. destruct (front_resume_cases r) as [(h & n & ->)|[->|(-> & _)]]; cbn; auto. lia.
  - (* front: spurious *)
    start.
    + ringstep Ir. apply RingModel.st_front_spurious. auto.
  - (* end *)
    destruct (Ik H) as [K1 K2]. destruct Iu as (U1 & U2 & _).
    assert (Bad : d_ok D s = false /\ eof_end s).
    { destruct w; try contradiction; auto. destruct (Id eq_refl) as [[]|]; auto. }
    start.
    + ringstep Ir. apply RingModel.st_cnull_ack. auto.
    + rewrite got_snoc, Ig, app_nil_r. reflexivity.
    + destruct Il as (rest & L1 & L2). 
      assert (Er : rest = acc ++ left s).
      { destruct w; try contradiction; cb; rewrite <- K1, Ig, <- app_assoc in Ic; rewrite L1 in Ic; apply app_inv_head in Ic; exact Ic. }
      exists (left s). rewrite got_snoc. split; [rewrite L1, Er, app_assoc; reflexivity|].
      eapply ro_snoc; [exact L2|]. unfold read_ok. cj; auto.
      destruct ((0 <? length acc)%nat || (len =? 0)%nat) eqn:Eb.
      * intros Hl E. subst acc. cbn in Eb. destruct len; [lia|discriminate].
      * apply orb_false_iff in Eb. destruct Eb as [Eb1 Eb2]. assert (acc = []) by (destruct acc; [auto|discriminate]). subst acc.
        destruct Bad as [B1 B2]. destruct (d_state D s) eqn:Es; auto.
        -- unfold d_ok in B1. rewrite Es in B1. discriminate.
        -- cj; auto. destruct len; [discriminate|lia].
  - (* take *)
    destruct (RingProps.ring_front_region _ _ _ _ _ _ _ _ HN Ir H) as (B1 & B2 & _).
    destruct Iu as (U1 & U2 & U3). rewrite H in U3. start.
    + ringstep Ir. apply RingModel.st_read; auto. lia.
    + cj; auto. rewrite app_length; cbn [length]. lia.
  - (* pop *)
    destruct (RingProps.ring_front_region _ _ _ _ _ _ _ _ HN Ir H) as (B1 & B2 & B3 & B4 & _).
    destruct Iu as (U1 & U2 & U3). rewrite H in U3. start.
    + ringstep Ir. eapply RingModel.st_pop; eauto.
    + rewrite app_length. cj; auto; [lia|]. intros Hl E. apply app_eq_nil in E. destruct E; subst. cbn in *. lia.
    + rewrite firstn_all, Ig, <- app_assoc. reflexivity.
    + intros len' b' st' Hi Hl. destruct (Ih _ _ _ Hi Hl) as (_ & E & _). rewrite E in B4. lia.
  - (* pop: notify *)
    destruct (notify_head_eq r r' Ir H1) as ((E1 & E2 & E3 & E4 & E5 & E6 & E7) & E8).
    destruct (wp_wake _ _ _ Iw E8) as (F1 & F2 & F3). destruct Iu as (U1 & U2 & U3).
    destruct (Nat.eqb_spec (len - length acc) 0) as [Ez|Ez].
    + start; rewrite ?F2, ?E2, ?E3, ?E4, ?E5, ?E6; auto.
      * ringstep Ir. eapply RingModel.st_pop_notify; eauto.
      * rewrite got_snoc, Ig, app_nil_r. reflexivity.
      * destruct Il as (rest & L1 & L2).
        destruct (RingProps.ring_fifo _ _ _ _ _ HN Ir) as (pend & P1 & _).
        assert (Er : rest = acc ++ pend ++ inflight w (prod r) ++ left s).
        { rewrite P1, Ig, <- !app_assoc in Ic. rewrite L1 in Ic. apply app_inv_head in Ic. exact Ic. }
        exists (pend ++ inflight w (prod r) ++ left s). rewrite got_snoc. split; [rewrite L1, Er, app_assoc; reflexivity|].
        eapply ro_snoc; [exact L2|]. unfold read_ok. cj; auto.
      * intros len' b' st' Hi Hl. apply in_app_or in Hi. destruct Hi as [Hi|Hi]; [eauto|].
        destruct Hi as [Hi|[]]. injection Hi as <- <- <-. lia.
    + start; rewrite ?F2, ?E2, ?E3, ?E4, ?E5, ?E6; auto.
      * ringstep Ir. eapply RingModel.st_pop_notify; eauto.
      * cj; auto. lia.
  - (* dtor *)
    start.
    + ringstep Ir. apply RingModel.st_quit.
  - (* dtor: head *)
    destruct (notify_head_eq r r' Ir H1) as ((E1 & E2 & E3 & E4 & E5 & E6 & E7) & E8).
    destruct (wp_wake _ _ _ Iw E8) as (F1 & F2 & F3). cb.
    start; rewrite ?F2, ?E1, ?E2, ?E3, ?E4, ?E6; auto; try lia.
    ringstep Ir. eapply RingModel.st_quit_head; eauto.
  - (* dtor: tail *)
    destruct (notify_tail_eq r) as ((E1 & E2 & E3 & E4 & E5 & E6 & E7) & E8).
    destruct (uc_wake _ _ _ Iu E8) as [F1 F2].
    start; rewrite ?E1, ?E2, ?E3, ?E4, ?E6; auto; try lia.
    ringstep Ir. eapply RingModel.st_quit_tail; eauto.
  - (* join *)
    start.
Qed.

Notation reach := (reader_reach D N junk s0).
Lemma RI_reach : forall a, reach a -> RI a.
Proof. induction 1; [apply RI_init|eapply RI_step; eauto]. Qed.

(** C54: the reads that have returned are reads of the source's bytes, in order, none lost or
    repeated, and eof is reported only after all of them. *)
Theorem async_reader_delivers : forall a, reach a ->
  exists rest, left s0 = got (rlog a) ++ rest /\ reads_ok (left s0) (rlog a) rest.
Proof. intros a R. exact (i_log _ (RI_reach a R)). Qed.

Lemma short_acc : forall a, reach a -> (exists len b st, In (len, b, st) (rlog a) /\ (length b < len)%nat) -> uacc (ru a) = [].
Proof.
  intros a R. induction R as [|k a b R IH S].
  - intros (len & b & st & [] & _).
  - intros (len & b' & st & Hi & Hl). pose proof (RI_reach a R) as I.
    inversion S; subst; cbn [rring rsrc rw ru rlog uacc] in *; try (apply IH; eauto; fail); auto.
    + (* pop *) destruct (i_short _ I _ _ _ Hi Hl) as (_ & E & _). cbn [rring] in E.
      destruct (RingProps.ring_front_region _ _ _ _ _ _ _ _ HN (i_ring _ I) H) as (B1 & B2 & B3 & B4 & _).
      cbn [rring] in B4. rewrite E in B4. lia.
    + destruct (len0 - length acc =? 0)%nat; cbn [rlog ru uacc] in *; auto. apply IH; eauto.
Qed.

(** A read gives less than asked for only when the source has ended or failed, and then everything
    read from the source has been handed out. *)
Theorem async_reader_short_read : forall a len b st, reach a -> In (len, b, st) (rlog a) -> (length b < len)%nat ->
  d_state D (rsrc a) <> StOk /\ left s0 = got (rlog a) ++ left (rsrc a).
Proof.
  intros a len b st R Hi Hl. pose proof (RI_reach a R) as I. destruct (i_short _ I _ _ _ Hi Hl) as (F & E & O).
  split; [intros E2; unfold d_ok in O; rewrite E2 in O; discriminate|].
  pose proof (i_con _ I) as C. rewrite <- E, (i_got _ I) in C.
  assert (Ei : inflight (rw a) (prod (rring a)) = []) by (destruct (rw a); cbn in F; try contradiction; reflexivity).
  rewrite Ei in C. cbn [app] in C.
  destruct (i_log _ I) as (rest & L1 & L2).
  rewrite (short_acc a R), app_nil_r in C by eauto. exact C.
Qed.

(** When read looks at the source's state (the ring gave nothing), the worker uses the source no
    more. *)
Theorem async_reader_no_race : forall a len acc, reach a -> ru a = UFront len acc -> cons_ (rring a) = RingModel.CGotNull ->
  forall k b, reader_step D N k a b -> rsrc b = rsrc a.
Proof.
  intros a len acc R Eu Ec k b S. pose proof (RI_reach a R) as I. destruct (i_cnull _ I Ec) as (_ & F).
  inversion S; subst; cbn [rw ru rsrc rring] in *; auto; try contradiction.
  destruct (len0 - length acc0 =? 0)%nat; reflexivity.
Qed.

Lemma notify_head_total : forall r : rstate, RingModel.reachable N junk 0 r -> exists r', RingModel.notify_head r r'.
Proof.
  intros r R. destruct (RingProofs.WInv_reachable N HN _ _ R) as (W0 & _).
  destruct (prod r) eqn:E; try (eexists; apply RingModel.nh_none; [unfold RingModel.prod_asleep; intuition congruence|rewrite W0; intros []]).
  - eexists. apply RingModel.nh_back. auto.
  - eexists. apply RingModel.nh_sync. auto.
Qed.

(** the worker can go on unless it has ended or sleeps in back() *)
Lemma worker_steps : forall a, RI a -> rw a <> WDone -> prod (rring a) <> RingModel.PAsleepB -> exists b, reader_step D N KWork a b.
Proof.
  intros [r s w u l] I Hd Hs. pose proof (i_wp _ I) as Iw. pose proof (i_q1 _ I) as I1. pose proof (i_q2 _ I) as I2. cb.
  destruct w; try congruence.
  - eexists. apply rs_back. auto.
  - destruct (prod r) eqn:E; try contradiction; try congruence.
    + eexists. apply rs_back_wake. auto.
    + eexists. apply rs_null. auto.
    + rewrite Iw in E. destruct (d_read D s (Z.to_nat n)) as [s' b] eqn:Er. eexists. eapply rs_read; eauto.
  - destruct (prod r) eqn:E; try contradiction. destruct rest; eexists; [eapply rs_push|eapply rs_copy]; eauto.
  - eexists. apply rs_push_notify. auto.
  - eexists. apply rs_check.
  - eexists. apply rs_quit.
  - destruct (notify_head_total r (i_ring _ I)) as [r' Hn]. eexists. eapply rs_quit_head; eauto.
  - eexists. eapply rs_quit_tail; eauto.
Qed.

(** No call and no destruction hangs: some thread can always go on (without counting on spurious
    wake-ups) ... *)
Theorem async_reader_no_deadlock : forall a, reach a -> ru a <> UIdle -> ru a <> UGone ->
  exists b, reader_step D N KWork a b.
Proof.
  intros a R Hi Hg. pose proof (RI_reach a R) as I.
  pose proof (RingProps.ring_wakeup_pending _ _ _ _ HN (i_ring _ I)) as (W1 & _ & W3).
  pose proof (i_quit _ I) as Iq. pose proof (i_uc _ I) as Iu. pose proof (i_wp _ I) as Iw.
  pose proof (i_q1 _ I) as I1. pose proof (i_q2 _ I) as I2.
  destruct (ru a) as [|len acc|len acc|len acc| | | |] eqn:Eu; try congruence; cb.
  - destruct a as [r s w u l]; cb; subst u. eexists. apply rs_front. tauto.
  - destruct Iu as (U1 & U2 & U3). destruct (cons_ (rring a)) eqn:Ec; try contradiction.
    + (* asleep in front() *)
      assert (Nq : q1 (rring a) = b1 (rw a) /\ q2 (rring a) = b2 (rw a)) by lia. destruct Nq as [N1 N2].
      assert (Ed : {rw a = WDone} + {rw a <> WDone}) by (destruct (rw a); auto; right; discriminate).
      destruct Ed as [Ed|Ed].
      * exfalso. assert (Q : rquit (rring a) = true) by (apply Iq; left; rewrite Ed; exact Logic.I).
        rewrite Ed in *. cb. destruct (W3 eq_refl (or_introl Q)) as [E|[E|E]]; try lia. destruct Iw; congruence.
      * apply worker_steps; auto. intros Ep.
        assert (Ew : rw a = WBack) by (destruct (rw a); cbn in Iw; rewrite Ep in Iw; try discriminate; try contradiction; auto; destruct Iw; discriminate).
        rewrite Ew in *. cb.
        assert (Hs : ~ (rquit (rring a) = true \/ size (rring a) < N)).
        { intros Q. destruct (W1 Ep Q) as [E|E]; [congruence|lia]. }
        destruct (W3 eq_refl) as [E|[E|E]]; try congruence; try lia.
    + destruct a as [r s w u l]; cb; subst u. eexists. apply rs_front_wake. auto.
    + destruct a as [r s w u l]; cb; subst u. eexists. apply rs_end. auto.
    + destruct a as [r s w u l]; cb; subst u.
      destruct (Nat.lt_ge_cases (length rs) (Nat.min (Z.to_nat n) (len - length acc))); eexists; [eapply rs_take|eapply rs_pop]; eauto. lia.
  - destruct (notify_head_total _ (i_ring _ I)) as [r' Hn]. destruct a as [r s w u l]; cb; subst u. eexists. eapply rs_pop_notify; eauto. tauto.
  - destruct (notify_head_total _ (i_ring _ I)) as [r' Hn]. destruct a as [r s w u l]; cb; subst u.
    destruct (q1 r) eqn:E; [lia|]. eexists. eapply rs_dtor_head; eauto.
  - destruct a as [r s w u l]; cb; subst u. destruct (q2 r) eqn:E; [lia|]. eexists. eapply rs_dtor_tail; eauto.
  - assert (Ed : {rw a = WDone} + {rw a <> WDone}) by (destruct (rw a); auto; right; discriminate).
    destruct Ed as [Ed|Ed].
    + destruct a as [r s w u l]; cb; subst u w. eexists. apply rs_join.
    + apply worker_steps; auto. intros Ep.
      assert (Ew : rw a = WBack) by (destruct (rw a); cbn in Iw; rewrite Ep in Iw; try discriminate; try contradiction; auto; destruct Iw; discriminate).
      rewrite Ew in *. cb. assert (Q : rquit (rring a) = true) by (apply Iq; auto).
      destruct (W1 Ep (or_introl Q)) as [E|E]; [congruence|lia].
Qed.

(** ... and it can do so only finitely often before the call has returned: *)
Definition w_weight (s : St) (w : rwork) (p : RingModel.pstate Z) : nat :=
  (100 * length (left s) +
   match w with
   | WTop => 40
   | WBack => match p with RingModel.PAsleepB => 30 | RingModel.PAwakeB => 36 | RingModel.PGotNull => 10 | _ => 34 end
   | WCopy rest => length rest + (if d_ok D s then 50 else 27)
   | WPush => if d_ok D s then 49 else 26
   | WCheck => if d_ok D s then 41 else 18
   | WQuit => 17 | WQuit1 => 16 | WQuit2 => 8 | WDone => 0
   end)%nat.
Definition u_weight (u : ruser) (c : RingModel.cstate Z) : nat :=
  match u with
  | UIdle | UGone => 0
  | UTop len acc => 21 * (len - length acc) + 15
  | UFront len acc => 21 * (len - length acc) +
      match c with RingModel.CAsleep => 5 | RingModel.CAwake => 11 | RingModel.CGotNull => 8 | _ => 10 end -
      match c with RingModel.CHas _ _ rs => length rs | _ => 0 end
  | UPop len acc => if (len - length acc =? 0)%nat then 9 else 21 * (len - length acc) + 23
  | UQuit1 => 16 | UQuit2 => 8 | UJoin => 1
  end.
Definition weight (a : reader) : nat :=
  (w_weight (rsrc a) (rw a) (prod (rring a)) + u_weight (ru a) (cons_ (rring a)))%nat.

Lemma uw_wake : forall u c c', c' = c \/ (c = RingModel.CAsleep /\ c' = RingModel.CAwake) -> (u_weight u c' <= u_weight u c + 6)%nat.
Proof. intros u c c' [->|[-> ->]]; [lia|]. destruct u; cbn [u_weight]; lia. Qed.
Lemma ww_wake : forall s w p p', p' = p \/ (p = RingModel.PAsleepB /\ p' = RingModel.PAwakeB) \/ (p = RingModel.PAsleepS /\ p' = RingModel.PAwakeS) ->
  (w_weight s w p' <= w_weight s w p + 6)%nat.
Proof. intros s w p p' [->|[[-> ->]|[-> ->]]]; [lia| |]; destruct w; unfold w_weight; lia. Qed.

Theorem async_reader_steps_bounded : forall a b, reach a -> reader_step D N KWork a b -> (weight b < weight a)%nat.
Proof.
  intros a b R S. pose proof (RI_reach a R) as I. pose proof (i_ring _ I) as Ir. pose proof (i_uc _ I) as Iu. pose proof (i_wp _ I) as Iw. pose proof (i_src _ I) as Is.
  unfold weight. inversion S; subst; cb.
  - destruct (back_enter_cases r) as [(t & n & ->)|[->|[-> _]]]; unfold w_weight; lia.
  - rewrite H. destruct (back_resume_cases r) as [(t & n & ->)|[->|[-> _]]]; unfold w_weight; lia.
  - rewrite H. unfold w_weight. lia.
  - rewrite H. unfold w_weight. destruct (src_read _ _ _ HD _ _ _ _ Is H1) as (A1 & A2 & A3 & A4).
    destruct (RingProps.ring_back_region _ _ _ _ _ _ _ _ HN Ir H) as (B1 & B2 & _).
    rewrite A2, app_length. destruct (d_ok D s') eqn:Eo; [|lia].
    unfold d_ok in Eo. destruct (d_state D s'); try discriminate. destruct b0; [|cbn [length]; lia].
    exfalso. apply A4; auto. lia.
  - unfold w_weight; cbn [length]. lia.
  - unfold w_weight; cbn [length]. destruct (d_ok D s); lia.
  - destruct (notify_tail_eq r) as ((E1 & E2 & E3 & E4 & E5 & E6 & E7) & E8). pose proof (uw_wake u _ _ E8).
    unfold w_weight. destruct (d_ok D s); lia.
  - unfold w_weight. destruct (d_ok D s); cbn; lia.
  - unfold w_weight. lia.
  - destruct (notify_head_eq r r' Ir H1) as ((E1 & E2 & E3 & E4 & E5 & E6 & E7) & E8). rewrite E1. unfold w_weight. lia.
  - destruct (notify_tail_eq r) as ((E1 & E2 & E3 & E4 & E5 & E6 & E7) & E8). pose proof (uw_wake u _ _ E8). unfold w_weight. lia.
  - destruct (front_enter_cases r) as [(h & n & ->)|[->|(-> & _)]]; cbn [u_weight length]; lia.
  - rewrite H. destruct (front_resume_cases r) as [(h & n & ->)|[->|(-> & _)]]; cbn [u_weight length]; lia.
  - rewrite H. cbn [u_weight]. lia.
  - rewrite H. cbn [u_weight]. rewrite app_length. cbn [length]. lia.
  - destruct (RingProps.ring_front_region _ _ _ _ _ _ _ _ HN Ir H) as (B1 & B2 & _).
    rewrite H in *. cbn [u_weight]. rewrite app_length. destruct (Nat.eqb_spec (len - (length acc + length rs)) 0); lia.
  - destruct (notify_head_eq r r' Ir H1) as ((E1 & E2 & E3 & E4 & E5 & E6 & E7) & E8). pose proof (ww_wake s w _ _ E8).
    cbn [u_weight]. destruct (Nat.eqb_spec (len - length acc) 0); cb; cbn [u_weight]; lia.
  - destruct (notify_head_eq r r' Ir H1) as ((E1 & E2 & E3 & E4 & E5 & E6 & E7) & E8). pose proof (ww_wake s w _ _ E8). cbn [u_weight]. lia.
  - destruct (notify_tail_eq r) as ((E1 & E2 & E3 & E4 & E5 & E6 & E7) & E8). rewrite E1. cbn [u_weight]. lia.
  - unfold w_weight; cbn [u_weight]. lia.
Qed.
End ReaderProofs.

(** A concrete run with a ring of two bytes: the source holds 7 8 9; read(3) finds the ring empty,
    sleeps, is woken, goes around twice; read(1) sleeps, is woken in vain and then told eof; the
    destructor joins the worker. *)
Notation ex_reach := (reader_reach array_dev 2 (fun _ => 0) ([7; 8; 9], StOk)).
Lemma notify_nobody : forall r : rstate, syncers r = [] -> prod r <> RingModel.PAsleepB -> prod r <> RingModel.PAsleepS -> RingModel.notify_head r r.
Proof. intros r A B C. apply RingModel.nh_none; [intros [|]; contradiction|rewrite A; intros []]. Qed.
Ltac solve_step := try (vm_compute; reflexivity); try (vm_compute; lia); try (apply notify_nobody; vm_compute; solve [reflexivity|discriminate]).
Tactic Notation "go" uconstr(L) := lazymatch goal with H : ex_reach ?a |- _ =>
  let S := fresh in let k := fresh in let b := fresh in
  evar (k : kind); evar (b : @reader (list Z * sstate));
  assert (S : reader_step array_dev 2 k a b) by (subst k b; eapply L; solve_step);
  apply (rr_step _ _ _ _ _ _ _ H) in S; subst k b; clear H; rename S into H; lazymatch type of H with ex_reach ?x => let y := eval vm_compute in x in change (ex_reach y) in H end end.

Example async_reader_ex : exists a, ex_reach a /\ ru a = UGone /\ rlog a = [(3%nat, [7; 8; 9], StOk); (1%nat, [], StEof)].
Proof.
  pose proof (rr_init array_dev 2 (fun _ => 0) ([7; 8; 9], StOk)) as H. unfold reader_init, RingModel.init in H.
  go (rs_call _ _ _ _ _ _ 3).
  go rs_front.
  go rs_back. go rs_read. go rs_copy. go rs_copy. go rs_push. go rs_push_notify.
  go rs_front_wake. go rs_take. go rs_take. go rs_pop. go rs_pop_notify.
  go rs_check. go rs_back. go rs_read. go rs_copy. go rs_push. go rs_push_notify.
  go rs_front. go rs_take. go rs_pop. go rs_pop_notify.
  go (rs_call _ _ _ _ _ _ 1).
  go rs_front. go rs_check. go rs_back. go rs_read. go rs_push. go rs_push_notify.
  go rs_front_wake. go rs_check. go rs_quit. go rs_quit_head. go rs_quit_tail.
  go rs_front_wake. go rs_end. go rs_dtor. go rs_dtor_head. go rs_dtor_tail. go rs_join.
  eexists. split; [exact H|split; reflexivity].
Qed.

Print Assumptions async_reader_delivers.
Print Assumptions async_reader_short_read.
Print Assumptions async_reader_no_race.
Print Assumptions async_reader_no_deadlock.
Print Assumptions async_reader_steps_bounded.
Print Assumptions async_reader_ex.
