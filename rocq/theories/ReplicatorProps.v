(** C53: the replicator, for every schedule of the calling thread and the workers. *)
From Coq Require Import ZifyBool ZifyNat Arith.
From Verif Require Import Base StreamModel StreamSpec ReplicatorModel ReplicatorSpec.

Ltac cj := repeat (match goal with |- _ /\ _ => split end).

Lemma set_nth_length : forall A (l : list A) i x, length (set_nth l i x) = length l.
Proof. induction l as [|a l IH]; intros [|i] x; cbn [set_nth length]; auto. Qed.
Lemma set_nth_same : forall A (l : list A) i x y, nth_error l i = Some y -> nth_error (set_nth l i x) i = Some x.
Proof. induction l as [|a l IH]; intros [|i] x y; cbn [set_nth nth_error]; intros H; try discriminate; auto. eapply IH; eauto. Qed.
Lemma set_nth_other : forall A (l : list A) i j x, i <> j -> nth_error (set_nth l i x) j = nth_error l j.
Proof. induction l as [|a l IH]; intros [|i] [|j] x H; cbn [set_nth nth_error]; auto; try congruence. Qed.
Lemma del_nth_eq : forall A (l : list A) i, del_nth l i = firstn i l ++ skipn (i + 1) l.
Proof.
  induction l as [|a l IH]; intros [|i]; cbn [del_nth firstn skipn app Nat.add]; auto. rewrite IH. reflexivity.
Qed.
Lemma nth_some_lt : forall A (l : list A) i x, nth_error l i = Some x -> (i < length l)%nat.
Proof. intros A l i x H. apply nth_error_Some. congruence. Qed.
Lemma nth_lt_some : forall A (l : list A) i, (i < length l)%nat -> exists x, nth_error l i = Some x.
Proof. intros A l i H. destruct (nth_error l i) eqn:E; eauto. apply nth_error_None in E. lia. Qed.

Lemma nth_error_firstn_lt : forall A (l : list A) k i, (i < k)%nat -> nth_error (firstn k l) i = nth_error l i.
Proof. induction l as [|a l IH]; intros [|k] [|i] H; cbn [firstn nth_error]; auto; try lia. apply IH. lia. Qed.
Lemma nth_error_skip : forall A (l : list A) k i, nth_error (skipn k l) i = nth_error l (k + i).
Proof. induction l as [|a l IH]; intros [|k] i; cbn [skipn nth_error Nat.add]; auto. destruct i; auto. Qed.

Section Repl.
Context {S : Type} (D : dev S) (d_close d_flush : S -> S).
Notation on_sink := (on_sink D d_close d_flush).
Notation told_n := (told_n D). Notation told_st := (told_st D d_close d_flush).
Notation perform := (perform D d_close d_flush).
Notation worker := (@worker S).
Notation sequential := (sequential D d_close d_flush).
Notation step := (step D d_close d_flush).
Notation reachable := (reachable D d_close d_flush).

Definition fresh (w : worker) (b : S) : Prop := w_op w = ONoop /\ w_src w = b /\ w_pc w <> WExit.
Definition finished (o : op) (w : worker) (b : S) : Prop :=
  w_op w = ONoop /\ w_pc w <> WExit /\ w_src w = on_sink o b /\
  match o with OWrite d => w_nw w = snd (d_write D b d) | _ => True end.
Definition posted (o : op) (w : worker) (b : S) : Prop :=
  (o = OQuit /\ w_op w = OQuit /\ w_src w = b) \/
  (is_call o /\ w_op w = o /\ w_src w = b /\ w_pc w <> WExit) \/
  (is_call o /\ finished o w b).

Definition noting (m : mpc) (j : nat) : Prop :=
  match m with MNote _ i | MRemoveNote i => i = j | _ => False end.
Definition asleep_on (m : mpc) (j : nat) : Prop := match m with MSleep _ i _ _ => i = j | _ => False end.

Definition WIm (m : mpc) (j : nat) (w : worker) (b : S) : Prop :=
  match m with
  | MIdle => fresh w b
  | MPost o i => if (j <? i)%nat then posted o w b else fresh w b
  | MNote o i => if (j <=? i)%nat then posted o w b else fresh w b
  | MWait o i _ _ | MSleep o i _ _ => if (j <? i)%nat then finished o w b else posted o w b
  | MJoin i => posted OQuit w b /\ ((j < i)%nat -> w_pc w = WExit)
  | MRemoveNote i | MRemoveJoin i => if (j =? i)%nat then posted OQuit w b else fresh w b
  | MGone => w_pc w = WExit
  end.
Definition WI (m : mpc) (j : nat) (w : worker) (b : S) : Prop :=
  WIm m j w b /\ (w_pc w = WSleep -> w_op w = ONoop \/ noting m j) /\
  (asleep_on m j -> w_op w <> ONoop \/ w_pc w = WNote).

Definition acc_n (o : op) (l : list S) : nat :=
  fold_left (fun n b => next_n o n (snd (perform o b 0))) l (start_n o).
Definition acc_st (o : op) (l : list S) : sstate :=
  fold_left (fun st b => next_st o st (d_state D (on_sink o b))) l StOk.
Definition MI (m : mpc) (bs : list S) : Prop :=
  match m with
  | MIdle | MGone => True
  | MPost o i => o <> ONoop /\ (i <= length bs)%nat
  | MNote o i => o <> ONoop /\ (i < length bs)%nat
  | MWait o i n st => is_call o /\ (i <= length bs)%nat /\ n = acc_n o (firstn i bs) /\ st = acc_st o (firstn i bs)
  | MSleep o i n st => is_call o /\ (i < length bs)%nat /\ n = acc_n o (firstn i bs) /\ st = acc_st o (firstn i bs)
  | MJoin i => (i <= length bs)%nat
  | MRemoveNote i | MRemoveJoin i => (i < length bs)%nat
  end.
Definition WS (m : mpc) (l : list worker) (bs : list S) : Prop :=
  length l = length bs /\
  forall j w b, nth_error l j = Some w -> nth_error bs j = Some b -> WI m j w b.
Definition Inv (a : state S) : Prop :=
  exists bs, sequential (hist a) bs /\ WS (main a) (ws a) bs /\ MI (main a) bs.

Lemma WS_worker : forall m l bs k w w', WS m l bs -> nth_error l k = Some w ->
  (forall b, nth_error bs k = Some b -> WI m k w b -> WI m k w' b) -> WS m (set_nth l k w') bs.
Proof.
  intros m l bs k w w' [L W] Hk H. split; [rewrite set_nth_length; auto|]. intros j x b Hj Hb.
  destruct (Nat.eq_dec k j) as [->|N].
  - rewrite (set_nth_same _ _ _ _ _ Hk) in Hj. injection Hj as <-. eapply H; eauto.
  - rewrite set_nth_other in Hj by auto. eauto.
Qed.
Lemma WS_main : forall m m' l bs, WS m l bs ->
  (forall j w b, nth_error l j = Some w -> nth_error bs j = Some b -> WI m j w b -> WI m' j w b) -> WS m' l bs.
Proof. intros m m' l bs [L W] H. split; [exact L|]. intros j w b Hj Hb. eapply H; eauto. Qed.

Lemma next_st_eq : forall o st s, next_st o st s = if is_ok st then s else st.
Proof. intros [| |d| |] [] []; reflexivity. Qed.
Lemma acc_st_told : forall o l, acc_st o l = told_st o l.
Proof.
  intros o l. unfold acc_st, told_st, ReplicatorSpec.told_st. 
  assert (G : forall st, fold_left (fun st b => next_st o st (d_state D (on_sink o b))) l st =
     if is_ok st then first_bad (map (fun s => d_state D (on_sink o s)) l) else st).
  { induction l as [|b l IH]; intros st; cbn [fold_left map first_bad].
    - destruct st; reflexivity.
    - rewrite IH, next_st_eq. destruct st; cbn [is_ok]; auto. }
  rewrite G. reflexivity.
Qed.
Lemma acc_n_told : forall o l, is_call o -> acc_n o l = told_n o l.
Proof.
  intros o l Ho. unfold acc_n, told_n, ReplicatorSpec.told_n, start_n, ReplicatorModel.perform, next_n.
  destruct o as [| |d| |]; try contradiction; cbn [snd].
  all: cycle 1.
  { clear Ho. induction l; cbn; auto. } { clear Ho. induction l; cbn; auto. }
  assert (G : forall n, fold_left (fun n b => if (snd (d_write D b d) <? n)%nat then snd (d_write D b d) else n) l n =
     Nat.min n (fold_right Nat.min (length d) (map (fun s => snd (d_write D s d)) l)) \/ (n > length d)%nat).
  { induction l as [|b l IH]; intros n; cbn [fold_left map fold_right]; [lia|].
    destruct (IH (if (snd (d_write D b d) <? n)%nat then snd (d_write D b d) else n)) as [E|E]; [left; rewrite E|];
    destruct (snd (d_write D b d) <? n)%nat eqn:F; lia. }
  destruct (G (length d)) as [E|E]; [rewrite E|lia].
  assert (fold_right Nat.min (length d) (map (fun s => snd (d_write D s d)) l) <= length d)%nat; [|lia].
  clear. induction l; cbn [map fold_right]; lia.
Qed.
Lemma acc_snoc : forall o l i b, nth_error l i = Some b ->
  acc_n o (firstn (i + 1) l) = next_n o (acc_n o (firstn i l)) (snd (perform o b 0)) /\
  acc_st o (firstn (i + 1) l) = next_st o (acc_st o (firstn i l)) (d_state D (on_sink o b)).
Proof.
  intros o l i b H. assert (E : firstn (i + 1) l = firstn i l ++ [b]).
  { revert i H. induction l as [|x l IH]; intros [|i] H; try discriminate; cbn [Nat.add firstn app].
    - injection H as ->. reflexivity.
    - f_equal. apply IH. exact H. }
  unfold acc_n, acc_st. rewrite E, !fold_left_app. auto.
Qed.

Ltac ne := intros ?E; rewrite ?E in *; try discriminate.

(** a notification leaves a state where nobody sleeps in vain *)
Lemma notify_inv : forall i l m l' m' bs, notify i (l, m) (l', m') ->
  length l = length bs -> MI m bs ->
  (forall j w b, nth_error l j = Some w -> nth_error bs j = Some b ->
     WIm m j w b /\ (w_pc w = WSleep -> w_op w = ONoop \/ noting m j \/ j = i) /\ (asleep_on m j -> w_op w <> ONoop \/ w_pc w = WNote \/ j = i)) ->
  (forall o n st, m = MSleep o i n st -> forall w, nth_error l i = Some w -> w_pc w <> WSleep) ->
  WS m' l' bs /\ MI m' bs.
Proof.
  intros i l m l' m' bs N L M H HS. inversion N as [l0 m0 w Hw Hp|l0 o n st|l0 m0 Hn Hm]; subst.
  - split; auto. split; [rewrite set_nth_length; auto|]. intros j x b Hj Hb.
    destruct (Nat.eq_dec i j) as [->|Ne].
    + rewrite (set_nth_same _ _ _ _ _ Hw) in Hj. injection Hj as <-. destruct (H j w b Hw Hb) as (A & B & C).
      unfold WI. cj; cbn [set_pc w_pc w_op]; try discriminate.
      * revert A. unfold WIm, posted, fresh, finished. cbn [set_pc w_pc w_op w_src w_nw]. rewrite Hp.
        destruct m'; repeat match goal with |- context [if ?c then _ else _] => destruct c end; intuition congruence.
      * intros As. exfalso. destruct m'; cbn in As; try contradiction. subst. eapply HS; eauto.
    + rewrite set_nth_other in Hj by auto. destruct (H j x b Hj Hb) as (A & B & C). unfold WI. cj; auto.
      * intros P. destruct (B P) as [|[|]]; [auto|auto|congruence].
      * intros P. destruct (C P) as [|[|]]; [auto|auto|congruence].
  - split; [|destruct M as (M1 & M2 & M3 & M4); cbn; cj; auto; lia]. split; auto. intros j w b Hj Hb. destruct (H j w b Hj Hb) as (A & B & C).
    unfold WI. cj; auto.
intros P. destruct (B P) as [|[|E]]; [auto|auto|]. subst j. exfalso. eapply HS; eauto.
  - split; auto. split; auto. intros j w b Hj Hb. destruct (H j w b Hj Hb) as (A & B & C). unfold WI. cj; auto.
    + intros P. destruct (B P) as [|[|E]]; [auto|auto|]. subst j. exfalso. eapply Hn; eauto.
    + intros P. destruct (C P) as [|[|E]]; auto. subst j. destruct m'; cbn in P; try contradiction. subst. exfalso. eapply Hm; eauto.
Qed.

Lemma Inv_init : Inv init.
Proof. exists []. repeat split. constructor. all: destruct j; discriminate. Qed.

Lemma fresh_posted : forall o w b, o <> ONoop -> fresh w b -> posted o (set_op w o) b.
Proof.
  intros o w b Ho (A & B & C). unfold posted. destruct o; cbn; intuition congruence.
Qed.

Lemma Inv_step : forall k a b, Inv a -> step k a b -> Inv b.
Proof.
  intros k a b (bs & Sq & W & M) St. inversion St; subst; cbn [ws main hist] in *.
  - (* sleep *)
    exists bs. cbn [ws main hist]. cj; auto. eapply WS_worker; eauto. intros b Hb (A & B & C). unfold WI. cj; cbn [set_pc w_pc w_op].
    + revert A. unfold WIm, posted, fresh, finished. cbn [set_pc w_pc w_op w_src w_nw].
      destruct m; repeat match goal with |- context [if ?c then _ else _] => destruct c end; rewrite ?H0; intuition congruence.
    + auto.
    + intros As. destruct (C As); congruence.
  - (* run *)
    exists bs. cbn [ws main hist]. cj; auto. eapply WS_worker; eauto. intros b Hb (A & B & C).
    assert (P : w_src w = b -> s' = on_sink (w_op w) b /\ match w_op w with OWrite d => nw' = snd (d_write D b d) | _ => True end).
    { intros <-. unfold on_sink, ReplicatorSpec.on_sink. unfold perform, ReplicatorModel.perform in H2.
      destruct (w_op w); try contradiction; try (injection H2 as <- <-); auto. rewrite H2. auto. }
    unfold WI. cj; cbn [w_pc w_op]; try discriminate; auto.
    + revert A. unfold WIm, posted, fresh, finished. cbn [w_pc w_op w_src w_nw].
      destruct m; repeat match goal with |- context [if ?c then _ else _] => destruct c end; rewrite ?H0;
        intros A; repeat match goal with
        | A : _ \/ _ |- _ => destruct A
        | A : _ /\ _ |- _ => destruct A
        end; subst; try contradiction; try congruence;
        try match goal with E : w_op w = ONoop, K : is_call (w_op w) |- _ => rewrite E in K; contradiction end;
        try match goal with E : w_op w = OQuit, K : is_call (w_op w) |- _ => rewrite E in K; contradiction end;
        destruct (P eq_refl) as [P1 P2]; right; right; cj; auto; try discriminate.
  - (* quit *)
    exists bs. cbn [ws main hist]. cj; auto. eapply WS_worker; eauto. intros b Hb (A & B & C). unfold WI. cj; cbn [set_pc w_pc w_op]; try discriminate.
    + revert A. unfold WIm, posted, fresh, finished. cbn [set_pc w_pc w_op w_src w_nw].
      destruct m; repeat match goal with |- context [if ?c then _ else _] => destruct c end; rewrite ?H0, ?H1; cbn [is_call]; try solve [intuition congruence].
      all: intros A; repeat match goal with
        | A : _ \/ _ |- _ => destruct A
        | A : _ /\ _ |- _ => destruct A
        end; subst; try contradiction; try congruence; try (match goal with E : OQuit = ?o |- _ => subst o end; cbn in *; contradiction); auto; try (subst; cbn in *; contradiction).
    + intros As. destruct (C As); [auto|congruence].
  - (* note *)
    exists bs. cbn [ws main hist]. destruct W as [L W].
    assert (Q : WS m' l' bs /\ MI m' bs); [|destruct Q; auto].
    eapply notify_inv; eauto.
    + rewrite set_nth_length. auto.
    + intros j x b Hj Hb. destruct (Nat.eq_dec k0 j) as [->|Ne].
      * rewrite (set_nth_same _ _ _ _ _ H) in Hj. injection Hj as <-. destruct (W j w b H Hb) as (A & B & C).
        cj; cbn [set_pc w_pc w_op]; auto; try discriminate.
        revert A. unfold WIm, posted, fresh, finished. cbn [set_pc w_pc w_op w_src w_nw]. rewrite H0.
        destruct m; repeat match goal with |- context [if ?c then _ else _] => destruct c end; intuition congruence.
      * rewrite set_nth_other in Hj by auto. destruct (W j x b Hj Hb) as (A & B & C). cj; auto.
        -- intros P. destruct (B P); auto.
        -- intros P. destruct (C P); auto.
    + intros o n st -> x Hx. rewrite (set_nth_same _ _ _ _ _ H) in Hx. injection Hx as <-. cbn. discriminate.
  - (* spurious *)
    exists bs. cbn [ws main hist]. cj; auto. eapply WS_worker; eauto. intros b Hb (A & B & C). unfold WI. cj; cbn [set_pc w_pc w_op]; try discriminate.
    + revert A. unfold WIm, posted, fresh, finished. cbn [set_pc w_pc w_op w_src w_nw]. rewrite H0.
      destruct m; repeat match goal with |- context [if ?c then _ else _] => destruct c end; intuition congruence.
    + intros As. destruct (C As); [auto|congruence].
  - (* call *)
    exists bs. cbn [ws main hist]. cj; auto; try solve [cbn; split; auto; lia].
  - (* post *)
    exists bs. cbn [ws main hist]. destruct W as [L W]. destruct M as [M1 M2]. pose proof (nth_some_lt _ _ _ _ H) as Hi.
    cj; auto; try solve [cbn; split; auto; lia]. split; [rewrite set_nth_length; auto|]. intros j x b Hj Hb.
    destruct (Nat.eq_dec i j) as [->|Ne].
    + rewrite (set_nth_same _ _ _ _ _ H) in Hj. injection Hj as <-. destruct (W j w b H Hb) as (A & B & C).
      unfold WI, WIm. cj; cbn [noting asleep_on]; auto; try contradiction. rewrite Nat.leb_refl. cbn [WIm] in A.
      rewrite Nat.ltb_irrefl in A. apply fresh_posted; auto.
    + rewrite set_nth_other in Hj by auto. destruct (W j x b Hj Hb) as (A & B & C). unfold WI, WIm. cj; auto; try solve [intros []].
      * cbn [WIm] in A. destruct (Nat.ltb_spec j i), (Nat.leb_spec j i); auto; lia.
      * intros P. destruct (B P) as [|[]]; auto.
  - (* post: notify *)
    exists bs. cbn [ws main hist]. destruct W as [L W]. destruct M as [M1 M2].
    assert (Q : WS m' l' bs /\ MI m' bs); [|destruct Q; auto].
    eapply notify_inv; eauto; [cbn; split; auto; lia| |intros; discriminate].
    intros j x b Hj Hb. destruct (W j x b Hj Hb) as (A & B & C). unfold WIm. cj; try solve [intros []].
    + cbn [WIm] in A. destruct (Nat.leb_spec j i), (Nat.ltb_spec j (i + 1)); auto; lia.
    + intros P. destruct (B P) as [|E]; auto.
  - (* posted *)
    exists bs. cbn [ws main hist]. destruct W as [L W]. cj; auto; try solve [cbn; cj; auto; lia].
    split; auto. intros j x b Hj Hb. destruct (W j x b Hj Hb) as (A & B & C). unfold WI, WIm. cj; try solve [intros []].
    + cbn [WIm] in A. pose proof (nth_some_lt _ _ _ _ Hj). destruct (Nat.ltb_spec j (length l)); [|lia]. exact A.
    + intros P. destruct (B P) as [|[]]; auto.
  - (* wait *)
    exists bs. cbn [ws main hist]. destruct W as [L W]. destruct M as (M1 & M2 & M3 & M4). pose proof (nth_some_lt _ _ _ _ H) as Hi.
    destruct (nth_lt_some _ bs i ltac:(lia)) as [b0 Hb0]. destruct (W i w b0 H Hb0) as (A0 & B0 & C0).
    cbn [WIm] in A0. rewrite Nat.ltb_irrefl in A0.
    assert (F0 : finished o w b0).
    { destruct A0 as [(-> & _)|[(G & E & _)|(_ & G)]]; auto; [contradiction|]. rewrite H0 in E. subst o. contradiction. }
    cj; auto.
    + split; auto. intros j x b Hj Hb. destruct (W j x b Hj Hb) as (A & B & C). unfold WI. cj; try solve [intros []].
      * cbn [WIm] in *. destruct (Nat.ltb_spec j i), (Nat.ltb_spec j (i + 1)); auto; try lia.
        assert (j = i) by lia. subst j. assert (x = w) by congruence. assert (b = b0) by congruence. subst; auto.
      * intros P. destruct (B P) as [|[]]; auto.
    + cbn. destruct (acc_snoc o bs i b0 Hb0) as [E1 E2]. cj; auto; try lia.
      * rewrite E1, M3. destruct F0 as (_ & _ & _ & F). unfold ReplicatorModel.perform, next_n.
        destruct o; auto. rewrite F. reflexivity.
      * rewrite E2, M4. f_equal. destruct F0 as (_ & _ & F & _). rewrite F. reflexivity.
  - (* wait: sleep *)
    exists bs. cbn [ws main hist]. destruct W as [L W]. destruct M as (M1 & M2 & M3 & M4). pose proof (nth_some_lt _ _ _ _ H) as Hi.
    cj; auto; try solve [cbn; cj; auto; lia]. split; auto. intros j x b Hj Hb. destruct (W j x b Hj Hb) as (A & B & C). unfold WI. cj; auto; try solve [intros []].
    intros P. cbn in P. subst j. left. congruence.
  - (* main: spurious *)
    exists bs. cbn [ws main hist]. destruct W as [L W]. destruct M as (M1 & M2 & M3 & M4).
    cj; auto; try solve [cbn; cj; auto; lia]. split; auto. intros j x b Hj Hb. destruct (W j x b Hj Hb) as (A & B & C). unfold WI. cj; auto; try solve [intros []].
  - (* return *)
    destruct W as [L W]. destruct M as (M1 & M2 & M3 & M4). rewrite L, firstn_all in M3, M4.
    exists (map (on_sink o) bs). cbn [ws main hist]. cj; auto; try exact I.
    + rewrite M3, M4, acc_n_told, acc_st_told by auto. constructor; auto.
    + split; [rewrite map_length; auto|]. intros j x b Hj Hb.
      assert (Hj2 := nth_some_lt _ _ _ _ Hj). destruct (nth_lt_some _ bs j ltac:(lia)) as [b0 Hb0].
      pose proof (map_nth_error (on_sink o) j bs Hb0) as E. rewrite E in Hb. injection Hb as <-.
      destruct (W j x b0 Hj Hb0) as (A & B & C). cbn [WIm] in A. destruct (Nat.ltb_spec j (length l)) as [_|?]; [|lia].
      destruct A as (A1 & A2 & A3 & A4). unfold WI. cj; cbn [WIm]; auto; try solve [intros []]. unfold fresh. auto.
  - (* dtor *)
    exists bs. cbn [ws main hist]. destruct W as [L W]. cj; auto; try solve [cbn; lia].
    split; auto. intros j x b Hj Hb. destruct (W j x b Hj Hb) as (A & B & C). unfold WI, WIm. cj; try solve [intros []].
    + cbn [WIm] in A. pose proof (nth_some_lt _ _ _ _ Hj). destruct (Nat.ltb_spec j (length l)); [|lia]. exact A.
    + lia.
    + intros P. destruct (B P) as [|[]]; auto.
  - (* join *)
    exists bs. cbn [ws main hist]. destruct W as [L W]. cbn in M. pose proof (nth_some_lt _ _ _ _ H) as Hi. cj; auto; try solve [cbn; lia].
    split; auto. intros j x b Hj Hb. destruct (W j x b Hj Hb) as ((A1 & A2) & B & C). unfold WI, WIm. cj; auto; try solve [intros []].
    intros P. destruct (Nat.eq_dec j i) as [->|Ne]; [congruence|]. apply A2. lia.
  - (* gone *)
    exists bs. cbn [ws main hist]. destruct W as [L W]. cbn in M. cj; auto.
    split; auto. intros j x b Hj Hb. destruct (W j x b Hj Hb) as ((A1 & A2) & B & C). unfold WI, WIm. cj; auto; try solve [intros []].
    { apply A2. eapply nth_some_lt; eauto. } exact I.
  - (* push *)
    exists (bs ++ [s]). cbn [ws main hist]. destruct W as [L W]. cj; auto; try solve [constructor; auto]. split; [rewrite !app_length; cbn; lia|].
    intros j x b Hj Hb. destruct (Nat.lt_ge_cases j (length l)) as [Hl|Hl].
    + rewrite nth_error_app1 in Hj, Hb by lia. eauto.
    + rewrite nth_error_app2 in Hj, Hb by lia. rewrite <- L in Hb. destruct (j - length l)%nat; cbn in Hj, Hb; [|destruct n; discriminate].
      injection Hj as <-. injection Hb as <-. unfold WI, WIm, fresh. cbn. cj; auto; discriminate.
  - (* remove *)
    exists bs. cbn [ws main hist]. destruct W as [L W]. pose proof (nth_some_lt _ _ _ _ H) as Hi.
    cj; auto; try solve [cbn; lia]. split; [rewrite set_nth_length; auto|]. intros j x b Hj Hb.
    destruct (Nat.eq_dec i j) as [->|Ne].
    + rewrite (set_nth_same _ _ _ _ _ H) in Hj. injection Hj as <-. destruct (W j w b H Hb) as (A & B & C).
      unfold WI, WIm. cj; cbn [noting asleep_on]; auto; try solve [intros []]. rewrite Nat.eqb_refl. cbn [WIm] in A.
      apply fresh_posted; auto. discriminate.
    + rewrite set_nth_other in Hj by auto. destruct (W j x b Hj Hb) as (A & B & C). unfold WI, WIm. cj; auto; try solve [intros []].
      * cbn [WIm] in A. destruct (Nat.eqb_spec j i); auto; lia.
      * intros P. destruct (B P) as [|[]]; auto.
  - (* remove: notify *)
    exists bs. cbn [ws main hist]. destruct W as [L W]. cbn in M.
    assert (Q : WS m' l' bs /\ MI m' bs); [|destruct Q; auto].
    eapply notify_inv; eauto; [|intros; discriminate].
    intros j x b Hj Hb. destruct (W j x b Hj Hb) as (A & B & C). cj; auto.
    intros P. destruct (B P) as [|E]; auto.
  - (* remove: join *)
    destruct W as [L W]. cbn in M.
    exists (firstn i bs ++ skipn (i + 1) bs). cbn [ws main hist]. cj; auto; try exact I; try solve [constructor; auto].
    rewrite del_nth_eq. split.
    { rewrite !app_length, !firstn_length, !skipn_length. lia. }
    intros j x b Hj Hb.
    assert (E : exists j', j' <> i /\ nth_error l j' = Some x /\ nth_error bs j' = Some b).
    { pose proof (nth_some_lt _ _ _ _ H) as Hi.
      destruct (Nat.lt_ge_cases j i) as [Hl|Hl].
      - rewrite nth_error_app1 in Hj, Hb by (rewrite firstn_length; lia). exists j. cj; [lia| |].
        + rewrite <- Hj, nth_error_firstn_lt by lia. reflexivity.
        + rewrite <- Hb, nth_error_firstn_lt by lia. reflexivity.
      - rewrite nth_error_app2 in Hj, Hb by (rewrite firstn_length; lia). rewrite firstn_length in Hj, Hb.
        rewrite Nat.min_l in Hj, Hb by lia. rewrite nth_error_skip in Hj, Hb. exists (i + 1 + (j - i))%nat. cj; auto. lia. }
    destruct E as (j' & N1 & N2 & N3). destruct (W j' x b N2 N3) as (A & B & C). cbn [WIm] in A.
    destruct (Nat.eqb_spec j' i); [contradiction|]. unfold WI, WIm. cj; auto; try solve [intros []].
Qed.

Lemma Inv_reachable : forall a, reachable a -> Inv a.
Proof. induction 1; [apply Inv_init|eapply Inv_step; eauto]. Qed.

Lemma notify_total : forall i (l : list worker) m, exists l' m', notify i (l, m) (l', m').
Proof.
  intros i l m. destruct (nth_error l i) as [w|] eqn:E.
  - destruct (w_pc w) eqn:P; try (eexists _, _; eapply nt_worker; eauto; fail).
    all: assert (Q : forall w0, nth_error l i = Some w0 -> w_pc w0 <> WSleep) by (intros w0 H; rewrite E in H; injection H as <-; congruence).
    all: destruct m as [|o j|o j|o j n st|o j n st|j|j|j|]; try (eexists _, _; eapply nt_none; eauto; intros; discriminate).
    all: destruct (Nat.eq_dec j i) as [->|Ne]; [eexists _, _; apply nt_main|eexists _, _; apply nt_none; eauto; intros; congruence].
  - assert (Q : forall w0, nth_error l i = Some w0 -> w_pc w0 <> WSleep) by (intros; congruence).
    destruct m as [|o j|o j|o j n st|o j n st|j|j|j|]; try (eexists _, _; eapply nt_none; eauto; intros; discriminate).
    destruct (Nat.eq_dec j i) as [->|Ne]; [eexists _, _; apply nt_main|eexists _, _; apply nt_none; eauto; intros; congruence].
Qed.

(** a worker that has something to do, and is not asleep, can take a step *)
Lemma worker_steps : forall l m h k w, nth_error l k = Some w -> w_op w <> ONoop \/ w_pc w = WNote ->
  w_pc w <> WSleep -> w_pc w <> WExit -> exists b, step KWork (St l m h) b.
Proof.
  intros l m h k w Hk Hop Hs He. destruct (w_pc w) eqn:P; try contradiction.
  - destruct Hop as [Hop|]; [|discriminate].
    destruct (perform (w_op w) (w_src w) (w_nw w)) as [s' nw'] eqn:Ep.
    destruct (w_op w) eqn:O; try contradiction.
    + eexists. eapply sp_quit; eauto.
    + eexists. eapply (sp_run D d_close d_flush l m h k w s' nw' Hk P); rewrite O; [exact I|exact Ep].
    + eexists. eapply (sp_run D d_close d_flush l m h k w s' nw' Hk P); rewrite O; [exact I|exact Ep].
    + eexists. eapply (sp_run D d_close d_flush l m h k w s' nw' Hk P); rewrite O; [exact I|exact Ep].
  - destruct (notify_total k (set_nth l k (set_pc w WLock)) m) as (l' & m' & N).
    eexists. eapply sp_note; eauto.
Qed.

(** C53: whatever the schedule, between calls the replicator's sinks are exactly what they would be
    had one thread made the same calls on each sink, one after another, and every call reported the
    smallest count and the first bad state. *)
Theorem replicator_sequential : forall a, reachable a -> main a = MIdle ->
  sequential (hist a) (map w_src (ws a)).
Proof.
  intros a R I. destruct (Inv_reachable a R) as (bs & Sq & [L W] & _). rewrite I in W.
  assert (E : map w_src (ws a) = bs); [|rewrite E; auto].
  revert bs L W Sq. generalize (ws a). clear. intros l bs L W _.
  revert bs L W. induction l as [|w l IH]; intros [|b bs] L W; try discriminate; auto. cbn [map]. f_equal.
  - destruct (W O w b eq_refl eq_refl) as ((A & B & C) & _). exact B.
  - apply IH; [cbn in L; lia|]. intros j x y Hj Hy. exact (W (Datatypes.S j) x y Hj Hy).
Qed.

(** ... and no worker is still using the data of a call that has returned. *)
Theorem replicator_calls_complete : forall a, reachable a -> main a = MIdle ->
  Forall (fun w => w_op w = ONoop) (ws a).
Proof.
  intros a R I. destruct (Inv_reachable a R) as (bs & Sq & [L W] & _). rewrite I in W.
  apply Forall_forall. intros w Hw. apply In_nth_error in Hw. destruct Hw as [j Hj].
  pose proof (nth_some_lt _ _ _ _ Hj). destruct (nth_lt_some _ bs j ltac:(lia)) as [b Hb].
  destruct (W j w b Hj Hb) as ((A & _) & _). exact A.
Qed.

(** No call can hang: in the middle of a call (or of the destructor) some thread can always take a
    step without waiting for a spurious wake-up ... *)
Theorem replicator_no_deadlock : forall a, reachable a -> main a <> MIdle -> main a <> MGone ->
  exists b, step KWork a b.
Proof.
  intros [l m h] R I G. destruct (Inv_reachable _ R) as (bs & Sq & [L W] & M). cbn [ws main hist] in *.
  destruct m as [|o i|o i|o i n st|o i n st|i|i|i|]; try contradiction; cbn [MI] in M.
  - destruct M as [M1 M2]. destruct (Nat.lt_ge_cases i (length l)) as [Hi|Hi].
    + destruct (nth_lt_some _ l i Hi) as [w Hw]. eexists. eapply sp_post; eauto.
    + assert (i = length l) by lia. subst i. destruct o; try contradiction.
      * eexists. apply sp_dtor.
      * eexists. apply sp_posted. exact Logic.I.
      * eexists. apply sp_posted. exact Logic.I.
      * eexists. apply sp_posted. exact Logic.I.
  - destruct (notify_total i l (MPost o (i + 1))) as (l' & m' & N). eexists. eapply sp_post_note; eauto.
  - destruct M as (M1 & M2 & _). destruct (Nat.lt_ge_cases i (length l)) as [Hi|Hi].
    + destruct (nth_lt_some _ l i Hi) as [w Hw].
      assert (E : w_op w = ONoop \/ w_op w <> ONoop) by (destruct (w_op w); auto; right; discriminate).
      destruct E; eexists; [eapply sp_wait|eapply sp_wait_sleep]; eauto.
    + assert (i = length l) by lia. subst i. eexists. apply sp_return.
  - destruct M as (M1 & M2 & _). destruct (nth_lt_some _ l i ltac:(lia)) as [w Hw]. destruct (nth_lt_some _ bs i ltac:(lia)) as [b Hb].
    destruct (W i w b Hw Hb) as (A & B & C). specialize (C eq_refl). cbn [WIm] in A. rewrite Nat.ltb_irrefl in A.
    eapply worker_steps; eauto.
    + intros P. destruct (B P) as [Q|[]]. destruct C; congruence.
    + destruct A as [(-> & _)|[(_ & _ & _ & A)|(_ & _ & A & _)]]; auto.
  - destruct (Nat.lt_ge_cases i (length l)) as [Hi|Hi].
    + destruct (nth_lt_some _ l i Hi) as [w Hw]. destruct (nth_lt_some _ bs i ltac:(lia)) as [b Hb].
      destruct (W i w b Hw Hb) as ((A & _) & B & C).
      assert (O : w_op w = OQuit) by (destruct A as [(_ & A & _)|[([] & _)|([] & _)]]; exact A).
      assert (Ex : w_pc w = WExit \/ w_pc w <> WExit) by (destruct (w_pc w); auto; right; discriminate).
      destruct Ex; [eexists; eapply sp_join; eauto|].
      eapply worker_steps; eauto; [left; congruence|]. intros P. destruct (B P) as [Q|[]]. congruence.
    + assert (i = length l) by lia. subst i. eexists. apply sp_gone.
  - destruct (notify_total i l (MRemoveJoin i)) as (l' & m' & N). eexists. eapply sp_remove_note; eauto.
  - destruct (nth_lt_some _ l i ltac:(lia)) as [w Hw]. destruct (nth_lt_some _ bs i ltac:(lia)) as [b Hb].
    destruct (W i w b Hw Hb) as (A & B & C). cbn [WIm] in A. rewrite Nat.eqb_refl in A.
    assert (O : w_op w = OQuit) by (destruct A as [(_ & A & _)|[([] & _)|([] & _)]]; exact A).
    assert (Ex : w_pc w = WExit \/ w_pc w <> WExit) by (destruct (w_pc w); auto; right; discriminate).
    destruct Ex; [eexists; eapply sp_remove_join; eauto|].
    eapply worker_steps; eauto; [left; congruence|]. intros P. destruct (B P) as [Q|[]]. congruence.
Qed.

(** ... and only finitely many such steps can be taken before it returns. *)
Definition w_weight (w : worker) : nat :=
  ((match w_op w with ONoop => 0 | _ => 20 end) + match w_pc w with WLock => 2 | WSleep => 0 | WNote => 5 | WExit => 0 end)%nat.
Definition m_weight (m : mpc) (n : nat) : nat :=
  match m with
  | MIdle | MGone => 0
  | MPost _ i => 50 * (n - i) + (3 * n + 10)
  | MNote _ i => 50 * (n - i) - 30 + (3 * n + 15)
  | MWait _ i _ _ => 3 * (n - i) + 2
  | MSleep _ i _ _ => 3 * (n - i) + 1
  | MJoin i => (n - i) + 1
  | MRemoveNote _ => 10
  | MRemoveJoin _ => 5
  end.
Definition sum (l : list worker) : nat := fold_right (fun w n => (w_weight w + n)%nat) O l.
Definition weight (a : state S) : nat := (sum (ws a) + m_weight (main a) (length (ws a)))%nat.

Lemma sum_set : forall l i w w', nth_error l i = Some w -> (sum (set_nth l i w') + w_weight w = sum l + w_weight w')%nat.
Proof.
  induction l as [|x l IH]; intros [|i] w w' H; try discriminate; cbn [set_nth sum fold_right] in *.
  - injection H as ->. lia.
  - fold (sum l). fold (sum (set_nth l i w')). specialize (IH i w w' H). lia.
Qed.
Lemma sum_del : forall l i, (sum (del_nth l i) <= sum l)%nat.
Proof.
  induction l as [|x l IH]; intros [|i]; cbn [del_nth sum fold_right]; auto; fold (sum l); try lia.
  fold (sum (del_nth l i)). specialize (IH i). lia.
Qed.
Lemma notify_weight : forall i l m l' m', notify i (l, m) (l', m') ->
  length l' = length l /\ (sum l' + m_weight m' (length l) <= sum l + m_weight m (length l) + 2)%nat.
Proof.
  intros i l m l' m' N. inversion N as [l0 m0 w Hw Hp|l0 o n st|l0 m0 Hn Hm]; subst.
  - rewrite set_nth_length. split; auto. pose proof (sum_set _ _ _ (set_pc w WLock) Hw) as E.
    unfold w_weight in E at 1 2. cbn [set_pc w_op w_pc] in E. rewrite Hp in E. lia.
  - split; auto. cbn [m_weight]. lia.
  - split; auto. lia.
Qed.

Theorem replicator_steps_bounded : forall a b, step KWork a b -> (weight b < weight a)%nat.
Proof.
  intros a b St. unfold weight. inversion St; subst; cbn [ws main]; rewrite ?set_nth_length.
  - pose proof (sum_set _ _ _ (set_pc w WSleep) H) as E. unfold w_weight in E at 1 2. cbn [set_pc w_op w_pc] in E. rewrite H0 in E. lia.
  - pose proof (sum_set _ _ _ (Wk s' ONoop nw' WNote) H) as E. unfold w_weight in E at 1 2. cbn [w_op w_pc] in E. rewrite H0 in E.
    destruct (w_op w); try contradiction; lia.
  - pose proof (sum_set _ _ _ (set_pc w WExit) H) as E. unfold w_weight in E at 1 2. cbn [set_pc w_op w_pc] in E. rewrite H0 in E. lia.
  - pose proof (sum_set _ _ _ (set_pc w WLock) H) as E. unfold w_weight in E at 1 2. cbn [set_pc w_op w_pc] in E. rewrite H0 in E.
    destruct (notify_weight _ _ _ _ _ H1) as [E1 E2]. rewrite set_nth_length in E1, E2. rewrite E1. lia.
  - pose proof (sum_set _ _ _ (set_op w o) H) as E. unfold w_weight in E at 1 2. cbn [set_op w_op w_pc] in E.
    pose proof (nth_some_lt _ _ _ _ H). cbn [m_weight]. destruct (w_op w), o; lia.
  - destruct (notify_weight _ _ _ _ _ H) as [E1 E2]. rewrite E1. cbn [m_weight] in *. lia.
  - cbn [m_weight]. lia.
  - cbn [m_weight]. pose proof (nth_some_lt _ _ _ _ H). lia.
  - cbn [m_weight]. lia.
  - cbn [m_weight]. lia.
  - cbn [m_weight]. lia.
  - cbn [m_weight]. pose proof (nth_some_lt _ _ _ _ H). lia.
  - cbn [m_weight]. lia.
  - destruct (notify_weight _ _ _ _ _ H) as [E1 E2]. rewrite E1. cbn [m_weight] in *. lia.
  - pose proof (sum_del l i). cbn [m_weight]. lia.
Qed.

(** The destructor returns only after every worker thread has ended. *)
Theorem replicator_destroyed : forall a, reachable a -> main a = MGone -> Forall (fun w => w_pc w = WExit) (ws a).
Proof.
  intros a R I. destruct (Inv_reachable a R) as (bs & Sq & [L W] & _). rewrite I in W.
  apply Forall_forall. intros w Hw. apply In_nth_error in Hw. destruct Hw as [j Hj].
  pose proof (nth_some_lt _ _ _ _ Hj). destruct (nth_lt_some _ bs j ltac:(lia)) as [b Hb].
  destruct (W j w b Hj Hb) as (A & _). exact A.
Qed.

Lemma sequential_inv : forall (P : S -> Prop), (forall o s, P s -> P (on_sink o s)) ->
  forall h l, sequential h l -> (forall s, In (EPush s) h -> P s) -> Forall P l.
Proof.
  intros P HP h l Sq. induction Sq as [|h l s Sq IH|h l i Sq IH Hi|h l o Sq IH Ho]; intros HI.
  - constructor.
  - apply Forall_app. split; [apply IH; intros; apply HI; apply in_or_app; auto|]. constructor; auto. apply HI. apply in_or_app. right. left. reflexivity.
  - assert (F : Forall P l) by (apply IH; intros; apply HI; apply in_or_app; auto).
    rewrite Forall_forall in F. apply Forall_forall. intros x Hx. apply F. apply in_app_or in Hx. destruct Hx as [Hx|Hx].
    + rewrite <- (firstn_skipn i l). apply in_or_app. auto.
    + rewrite <- (firstn_skipn (i + 1) l). apply in_or_app. auto.
  - assert (F : Forall P l) by (apply IH; intros; apply HI; apply in_or_app; auto).
    rewrite Forall_forall in *. intros x Hx. apply in_map_iff in Hx. destruct Hx as (y & <- & Hy). auto.
Qed.

Lemma first_bad_ok : forall l, first_bad l = StOk -> Forall (fun x => x = StOk) l.
Proof. induction l as [|[] l IH]; cbn; intros H; try discriminate; constructor; auto. Qed.
Lemma fold_min_le : forall l m x, In x l -> (fold_right Nat.min m l <= x)%nat.
Proof. induction l as [|y l IH]; intros m x []; cbn [fold_right]; [subst; lia|]. specialize (IH m x H). lia. Qed.

(** C53 for sinks that keep the promise of write: after write(d) returned n with state st, every
    attached sink has got a prefix of d of at least n bytes after what it had before, and all of d
    when st is ok. *)
Theorem replicator_write : forall (SInv : S -> Prop) (out : S -> list Z), sink D SInv out ->
  (forall s, SInv s -> SInv (d_close s)) -> (forall s, SInv s -> SInv (d_flush s)) ->
  forall a h d n st, reachable a -> main a = MIdle -> hist a = h ++ [ECall (OWrite d) n st] ->
  (forall s, In (EPush s) h -> SInv s) ->
  exists before, sequential h before /\
    Forall2 (fun s w => exists k, (n <= k <= length d)%nat /\ out (w_src w) = out s ++ firstn k d /\ (st = StOk -> k = length d))
      before (ws a).
Proof.
  intros SInv out K HC HF a h d n st R I E HI. pose proof (replicator_sequential a R I) as Sq. rewrite E in Sq.
  remember (h ++ [ECall (OWrite d) n st]) as h' eqn:Eh. remember (map w_src (ws a)) as l' eqn:El.
  destruct Sq as [|h0 l s Sq|h0 l i Sq Hi|h0 l o Sq Ho]; [destruct h; discriminate| | |];
    apply app_inj_tail in Eh; destruct Eh as [-> Eh]; try discriminate. injection Eh as -> <- <-.
  exists l. split; auto.
  assert (F : Forall SInv l).
  { eapply sequential_inv; eauto. intros o s Hs. destruct o; cbn; auto. destruct (d_write D s d0) as [s' k] eqn:Ew.
    destruct (snk_write _ _ _ K _ _ _ _ Hs Ew) as (G & _). exact G. }
  clear E I HI Sq. 
  assert (G : forall l0 ws0, (forall s, In s l0 -> In s l) -> map (on_sink (OWrite d)) l0 = map w_src ws0 ->
    Forall2 (fun s w => exists k, (told_n (OWrite d) l <= k <= length d)%nat /\ out (w_src w) = out s ++ firstn k d /\
       (told_st (OWrite d) l = StOk -> k = length d)) l0 ws0).
  { induction l0 as [|s l0 IH]; intros [|w ws0] Hin Hm; try discriminate; constructor.
    - cbn [map] in Hm. injection Hm as Hm _. cbn in Hm. destruct (d_write D s d) as [s' k] eqn:Ew. cbn in Hm. subst s'.
      assert (Hs : In s l) by (apply Hin; left; auto). rewrite Forall_forall in F.
      destruct (snk_write _ _ _ K _ _ _ _ (F s Hs) Ew) as (G1 & G2 & G3 & G4). exists k. cj; auto.
      + assert (E : snd (d_write D s d) = k) by (rewrite Ew; auto). rewrite <- E. apply fold_min_le.
        apply in_map_iff. exists s. auto.
      + intros E. apply first_bad_ok in E. rewrite Forall_forall in E. apply G4.
        assert (Q : d_state D (on_sink (OWrite d) s) = StOk) by (apply E; apply in_map_iff; exists s; auto).
        cbn in Q. rewrite Ew in Q. exact Q.
    - apply IH; [intros; apply Hin; right; auto|]. injection Hm as _ Hm. exact Hm. }
  apply G; auto.
Qed.
End Repl.

(** A concrete run: two byte-array sinks; the second worker falls asleep before the call, the first
    does not; the caller posts both, sleeps, is woken by the first worker. *)
Definition arr (l : list Z) : list Z * sstate := (l, StOk).
Definition id_ (s : list Z * sstate) : list Z * sstate := s.
Notation areach := (ReplicatorModel.reachable array_dev id_ id_).
Tactic Notation "go" uconstr(k) constr(x) uconstr(L) := lazymatch goal with H : areach _ |- _ =>
  let H' := fresh in assert (H' : areach x) by (refine (ReplicatorModel.reach_step _ _ _ k _ _ H _); refine L; try reflexivity); clear H; rename H' into H end.

Example replicator_run_ex : exists a, areach a /\ main a = MIdle /\
  hist a = [EPush (arr [1]); EPush (arr []); ECall (OWrite [7; 8]) 2 StOk] /\
  map w_src (ws a) = [arr [1; 7; 8]; arr [7; 8]].
Proof.
  pose proof (ReplicatorModel.reach_init array_dev id_ id_) as H. unfold init in H.
  pose (h := [EPush (arr [1]); EPush (arr [])]). pose (o := OWrite [7; 8]).
  go KStart (St [Wk (arr [1]) ONoop 0 WLock] MIdle [EPush (arr [1])]) (sp_push _ _ _ _ _ _).
  go KStart (St [Wk (arr [1]) ONoop 0 WLock; Wk (arr []) ONoop 0 WLock] MIdle h) (sp_push _ _ _ _ _ _).
  go KWork (St [Wk (arr [1]) ONoop 0 WLock; Wk (arr []) ONoop 0 WSleep] MIdle h) (sp_sleep _ _ _ _ _ _ 1 (Wk (arr []) ONoop 0 WLock) _ _ _).
  assert (No : o <> ONoop) by discriminate.
  go KStart (St [Wk (arr [1]) ONoop 0 WLock; Wk (arr []) ONoop 0 WSleep] (MPost o 0) h) (sp_call _ _ _ _ _ _ No).
  go KWork (St [Wk (arr [1]) o 0 WLock; Wk (arr []) ONoop 0 WSleep] (MNote o 0) h) (sp_post _ _ _ _ _ _ _ (Wk (arr [1]) ONoop 0 WLock) _).
  assert (N : notify 0 ([Wk (arr [1]) o 0 WLock; Wk (arr []) ONoop 0 WSleep], MPost o (0 + 1)) ([Wk (arr [1]) o 0 WLock; Wk (arr []) ONoop 0 WSleep], MPost o 1)).
  { apply nt_none; [|intros; discriminate]. intros w Hw. injection Hw as <-. discriminate. }
  go KWork (St [Wk (arr [1]) o 0 WLock; Wk (arr []) ONoop 0 WSleep] (MPost o 1) h) (sp_post_note _ _ _ _ _ _ _ _ _ N). clear N.
  go KWork (St [Wk (arr [1]) o 0 WLock; Wk (arr []) o 0 WSleep] (MNote o 1) h) (sp_post _ _ _ _ _ _ _ (Wk (arr []) ONoop 0 WSleep) _).
  go KWork (St [Wk (arr [1]) o 0 WLock; Wk (arr []) o 0 WLock] (MPost o 2) h) (sp_post_note _ _ _ _ _ _ _ _ _ (nt_worker 1 _ _ (Wk (arr []) o 0 WSleep) _ _)).
  go KWork (St [Wk (arr [1]) o 0 WLock; Wk (arr []) o 0 WLock] (MWait o 0 2 StOk) h) (sp_posted _ _ _ _ _ o Logic.I).
  assert (Nn : w_op (Wk (arr [1]) o 0 WLock) <> ONoop) by discriminate.
  go KWork (St [Wk (arr [1]) o 0 WLock; Wk (arr []) o 0 WLock] (MSleep o 0 2 StOk) h) (sp_wait_sleep _ _ _ _ _ _ _ _ _ (Wk (arr [1]) o 0 WLock) _ Nn).
  go KWork (St [Wk (arr [1]) o 0 WLock; Wk (arr [7; 8]) ONoop 2 WNote] (MSleep o 0 2 StOk) h) (sp_run _ _ _ _ _ _ 1 (Wk (arr []) o 0 WLock) (arr [7; 8]) 2 _ _ Logic.I _).
  go KWork (St [Wk (arr [1; 7; 8]) ONoop 2 WNote; Wk (arr [7; 8]) ONoop 2 WNote] (MSleep o 0 2 StOk) h) (sp_run _ _ _ _ _ _ 0 (Wk (arr [1]) o 0 WLock) (arr [1; 7; 8]) 2 _ _ Logic.I _).
  go KWork (St [Wk (arr [1; 7; 8]) ONoop 2 WLock; Wk (arr [7; 8]) ONoop 2 WNote] (MWait o 0 2 StOk) h)
    (sp_note _ _ _ _ _ _ 0 (Wk (arr [1; 7; 8]) ONoop 2 WNote) _ _ _ _ (nt_main 0 _ _ _ _)).
  go KWork (St [Wk (arr [1; 7; 8]) ONoop 2 WLock; Wk (arr [7; 8]) ONoop 2 WNote] (MWait o 1 2 StOk) h) (sp_wait _ _ _ _ _ _ _ _ _ (Wk (arr [1; 7; 8]) ONoop 2 WLock) _ _).
  go KWork (St [Wk (arr [1; 7; 8]) ONoop 2 WLock; Wk (arr [7; 8]) ONoop 2 WNote] (MWait o 2 2 StOk) h) (sp_wait _ _ _ _ _ _ _ _ _ (Wk (arr [7; 8]) ONoop 2 WNote) _ _).
  go KWork (St [Wk (arr [1; 7; 8]) ONoop 2 WLock; Wk (arr [7; 8]) ONoop 2 WNote] MIdle (h ++ [ECall o 2 StOk])) (sp_return _ _ _ _ _ _ _ _).
  eexists. cj; [exact H|reflexivity|reflexivity|reflexivity].
Qed.

Print Assumptions replicator_sequential.
Print Assumptions replicator_calls_complete.
Print Assumptions replicator_no_deadlock.
Print Assumptions replicator_steps_bounded.
Print Assumptions replicator_destroyed.
Print Assumptions replicator_write.
Print Assumptions replicator_run_ex.
