(** Properties C44 and C74-C79: the generic operations of stream::basic. *)
From Coq Require Import ZifyBool ZifyNat.
From Verif Require Import Base Bits StreamModel StreamSpec.
Ltac Zify.zify_post_hook ::= Z.div_mod_to_equations.

Theorem array_source : source array_dev (fun _ => True) fst.
Proof.
  split.
  - intros [l st] n s' b _ E. cbn in E. injection E as <- <-. cbn [fst d_state array_dev snd]. split; auto. split; [symmetry; apply firstn_skipn|]. split; [apply firstn_le_length|].
    destruct (n =? 0)%nat eqn:E; [lia|]. destruct (firstn n l) eqn:F; [|congruence]. split; [lia|]. split; auto. destruct l; auto. destruct n; [lia|discriminate].
  - intros [l st] st' _. cbn. auto.
Qed.
Theorem array_never_fails : never_fails array_dev (fun _ => True).
Proof. intros [l st] n _. cbn. destruct (n =? 0)%nat; [discriminate|]. destruct (firstn n l); discriminate. Qed.
Theorem array_sink : sink array_dev (fun _ => True) fst.
Proof.
  split.
  - intros [l st] b s' k _ E. cbn in E. injection E as <- <-. cbn. rewrite firstn_all. auto.
  - intros [l st] st' _. cbn. auto.
Qed.
Theorem array_always_writes : always_writes array_dev (fun _ => True).
Proof. intros s b _. reflexivity. Qed.

(** ** Little-endian *)
Lemma le_bytes_length : forall n v, length (le_bytes n v) = n.
Proof. induction n; intros; cbn; auto. Qed.
Lemma le_value_bytes : forall n v, 0 <= v < 256 ^ Z.of_nat n -> le_value (le_bytes n v) = v.
Proof.
  induction n; intros v H. { cbn in *. lia. }
  cbn [le_bytes le_value]. rewrite Nat2Z.inj_succ, Z.pow_succ_r in H by lia. rewrite IHn. lia. split; [apply Z.div_pos; lia|apply Z.div_lt_upper_bound; lia].
Qed.
Lemma le_bytes_value : forall b, Forall (fun x => 0 <= x < 256) b -> le_bytes (length b) (le_value b) = b.
Proof.
  induction b; intros H; auto. inversion H; subst. cbn [length le_value le_bytes].
  assert (E1 : (a + 256 * le_value b) mod 256 = a) by lia. assert (E2 : (a + 256 * le_value b) / 256 = le_value b) by lia. rewrite E1, E2, IHb; auto.
Qed.
Lemma le_value_range : forall b, Forall (fun x => 0 <= x < 256) b -> 0 <= le_value b < 256 ^ Z.of_nat (length b).
Proof. induction b; intros H; [cbn; lia|]. inversion H; subst. specialize (IHb H3). cbn [le_value length]. rewrite Nat2Z.inj_succ, Z.pow_succ_r by lia. lia. Qed.

Section Reading.
Context {S : Type} (D : dev S) (Inv : S -> Prop) (left : S -> list Z) (SRC : source D Inv left).

Lemma read_step : forall s n, Inv s -> exists s' b, d_read D s n = (s', b) /\ Inv s' /\ left s = b ++ left s' /\ (length b <= n)%nat /\
    match d_state D s' with
    | StOk => (0 < n)%nat -> b <> []
    | StEof => (0 < n)%nat /\ b = [] /\ left s = []
    | StFail => b = []
    end.
Proof. intros s n I. destruct (d_read D s n) as [s' b] eqn:E. exists s', b. split; auto. apply (src_read _ _ _ SRC s n s' b I E). Qed.

Lemma read_loop_spec : forall fuel s n, Inv s -> (n < fuel)%nat -> exists s' b, read_loop D fuel s n = Ret (s', b) /\
  Inv s' /\ left s = b ++ left s' /\ (length b <= n)%nat /\
  match d_state D s' with StOk => length b = n | StEof => (length b < n)%nat /\ left s' = [] | StFail => True end.
Proof.
  induction fuel; intros s n I Hf; [lia|]. cbn [read_loop]. destruct (read_step s n I) as (s' & b & E & I' & L & Hb & St). rewrite E.
  destruct (n - length b =? 0)%nat eqn:E0.
  - exists s', b. split; auto. split; auto. split; auto. split; auto. destruct (d_state D s'); [lia| |auto]. destruct St as (H1 & -> & H3). cbn in *. lia.
  - unfold d_ok. destruct (d_state D s') eqn:ES; cbn [is_ok negb].
    + destruct (IHfuel s' (n - length b)%nat I') as (s2 & b2 & E2 & I2 & L2 & H2 & St2). { assert (b <> []) by (apply St; lia). destruct b; [congruence|cbn [length] in *; lia]. }
      rewrite E2. cbn [obind]. exists s2, (b ++ b2). split; auto. split; auto. split; [rewrite L, L2, app_assoc; auto|]. rewrite app_length. split; [lia|].
      destruct (d_state D s2); [lia| |auto]. destruct St2. split; [lia|auto].
    + exists s', b. rewrite ES. split; auto. split; auto. split; auto. split; auto. destruct St as (H1 & -> & H3). cbn. split; auto. rewrite H3 in L. cbn in L. auto.
    + exists s', b. rewrite ES. auto.
Qed.

(** C74: read_array reads everything asked for unless the stream ends or fails.  [count_read] is the
    number it returns. *)
Theorem read_array_spec : forall s size count, Inv s -> Z.of_nat size * Z.of_nat count < M64 ->
  exists s' b n, read_array D s size count = Ret (s', b, n) /\ Inv s' /\ left s = b ++ left s' /\ (length b <= size * count)%nat /\
  match d_state D s' with StOk => length b = (size * count)%nat | StEof => (length b < size * count)%nat /\ left s' = [] | StFail => True end /\
  (length b = (size * count)%nat -> n = count) /\ ((length b < size * count)%nat -> n = (count - (size * count - length b) / size)%nat).
Proof.
  intros s size count I H. unfold read_array. replace (M64 <=? _) with false by lia.
  destruct (read_loop_spec (Datatypes.S (size * count)) s (size * count) I ltac:(lia)) as (s' & b & E & I' & L & Hb & St). rewrite E. cbn [obind].
  destruct (size * count - length b =? 0)%nat eqn:E0.
  - exists s', b, count. repeat split; auto; lia.
  - exists s', b. eexists. split; [reflexivity|]. repeat split; auto; lia.
Qed.

(** It returns the number of complete elements when no element is cut. *)
Theorem read_array_count_partial : forall s size count s' b n, Inv s -> (0 < size)%nat -> Z.of_nat size * Z.of_nat count < M64 ->
  read_array D s size count = Ret (s', b, n) -> (length b mod size = 0)%nat -> n = (length b / size)%nat.
Proof.
  intros s size count s' b n I H0 H E Hm. destruct (read_array_spec s size count I H) as (s2 & b2 & n2 & E2 & _ & _ & Hb & _ & H1 & H2). rewrite E in E2. injection E2 as <- <- <-.
  apply Nat.mod_divides in Hm; [|lia]. destruct Hm as (k & Hk). rewrite Hk in *. rewrite Nat.mul_comm, Nat.div_mul by lia.
  destruct (Nat.eq_dec k count) as [->|N]; [apply H1; lia|]. assert (k < count)%nat by nia. rewrite (H2 ltac:(nia)).
  rewrite <- Nat.mul_sub_distr_l. rewrite Nat.mul_comm, Nat.div_mul by lia. lia.
Qed.
(** In general it is the number of elements begun. *)
Theorem read_array_count_ceil : forall s size count s' b n, Inv s -> (0 < size)%nat -> Z.of_nat size * Z.of_nat count < M64 ->
  read_array D s size count = Ret (s', b, n) -> n = ((length b + size - 1) / size)%nat.
Proof.
  intros s size count s' b n I H0 H E. destruct (read_array_spec s size count I H) as (s2 & b2 & n2 & E2 & _ & _ & Hb & _ & H1 & H2). rewrite E in E2. injection E2 as <- <- <-.
  set (L := length b) in *. clearbody L. clear - H0 Hb H1 H2.
  destruct (Nat.eq_dec L (size * count)) as [->|N].
  - rewrite H1 by auto. replace (size * count + size - 1)%nat with (count * size + (size - 1))%nat by lia. rewrite Nat.div_add_l by lia. rewrite Nat.div_small by lia. lia.
  - rewrite H2 by lia. set (q := ((size * count - L) / size)%nat).
    assert (Q : (size * q <= size * count - L < size * (q + 1))%nat). { unfold q. pose proof (Nat.div_mod_eq (size * count - L) size). pose proof (Nat.mod_upper_bound (size * count - L) size ltac:(lia)). lia. }
    assert (q < count + 1)%nat by nia. apply (Nat.div_unique _ _ _ (L + size - 1 - size * (count - q))%nat); nia.
Qed.

(** On a stream that does not fail: exactly the next size * count bytes, or all there is. *)
Lemma read_loop_nf : never_fails D Inv -> forall fuel s n s' b, Inv s -> read_loop D fuel s n = Ret (s', b) -> d_state D s' <> StFail.
Proof.
  intros NF. induction fuel; intros s n s' b I E; [discriminate|]. cbn [read_loop] in E. pose proof (NF s n I) as Q. destruct (read_step s n I) as (sx & bx & Ex & I' & _). rewrite Ex in E, Q. cbn [fst] in Q.
  destruct (_ =? 0)%nat; [congruence|]. destruct (negb (d_ok D sx)); [congruence|]. destruct (read_loop D fuel sx _) as [[s2 b2]| |] eqn:E2; try discriminate. cbn [obind] in E. injection E as <- _. eapply IHfuel; eauto.
Qed.
Theorem read_array_full : never_fails D Inv -> forall s size count, Inv s -> Z.of_nat size * Z.of_nat count < M64 ->
  exists s' n, read_array D s size count = Ret (s', firstn (size * count) (left s), n) /\ Inv s' /\ left s' = skipn (size * count) (left s) /\
  d_state D s' = (if (length (left s) <? size * count)%nat then StEof else StOk) /\ ((size * count <= length (left s))%nat -> n = count) /\
  ((0 < size)%nat -> n = ((length (firstn (size * count) (left s)) + size - 1) / size)%nat).
Proof.
  intros NF s size count I H. destruct (read_array_spec s size count I H) as (s' & b & n & E & I' & L & Hb & St & H1 & H2).
  assert (NF' : d_state D s' <> StFail).
  { unfold read_array in E. destruct (M64 <=? _); [discriminate|]. cbn zeta in E. destruct (read_loop D _ s _) as [[s1 b1]| |] eqn:EL; try discriminate. cbn [obind] in E.
    assert (s1 = s') by (destruct (_ =? 0)%nat; congruence). subst s1. exact (read_loop_nf NF _ _ _ _ _ I EL). }
  exists s', n. assert (HL : length (left s) = (length b + length (left s'))%nat) by (rewrite L, app_length; auto).
  destruct (d_state D s') eqn:ES; [| |congruence].
  - assert (Fb : firstn (size * count) (left s) = b) by (rewrite L, firstn_app, St, Nat.sub_diag, <- St, firstn_all; cbn [firstn]; apply app_nil_r).
    rewrite Fb. split; auto. split; auto. split; [rewrite L, skipn_app, <- St, skipn_all, Nat.sub_diag; reflexivity|]. split; [destruct (_ <? _)%nat eqn:Q; auto; lia|]. split; auto. intros H0. exact (read_array_count_ceil _ _ _ _ _ _ I H0 H E).
  - destruct St as [St1 St2]. rewrite St2 in *. rewrite app_nil_r in L. rewrite L. rewrite firstn_all2, skipn_all2 by lia. split; auto. split; auto. split; auto. split; [destruct (_ <? _)%nat eqn:Q; auto; lia|]. split; [lia|].
    intros H0. exact (read_array_count_ceil _ _ _ _ _ _ I H0 H E).
Qed.

(** ** C44 *)
(** A value is read back when its bytes are there... *)
Theorem read_data_spec : never_fails D Inv -> forall s width init v rest, Inv s -> d_state D s = StOk -> Z.of_nat width < M64 -> (0 < width)%nat ->
  0 <= v < 256 ^ Z.of_nat width -> left s = le_bytes width v ++ rest ->
  exists s', read_data D s width init = Ret (s', v) /\ d_state D s' = StOk /\ left s' = rest /\ Inv s'.
Proof.
  intros NF s width init v rest I Hs Hw H0 Hv HL. unfold read_data, d_ok. rewrite Hs. cbn [is_ok negb].
  destruct (read_array_full NF s width 1 I ltac:(lia)) as (s' & n & E & I' & L' & St & Hn & _). rewrite Nat.mul_1_r in *. rewrite E. cbn [obind].
  assert (LL : length (left s) = (width + length rest)%nat) by (rewrite HL, app_length, le_bytes_length; auto). rewrite Hn by lia. cbn [Nat.eqb].
  assert (F : firstn width (left s) = le_bytes width v). { rewrite HL, firstn_app, le_bytes_length, Nat.sub_diag, firstn_all2 by (rewrite le_bytes_length; lia). cbn [firstn]. apply app_nil_r. }
  assert (K : left s' = rest). { rewrite L', HL, skipn_app, le_bytes_length, Nat.sub_diag, skipn_all2 by (rewrite le_bytes_length; lia). reflexivity. }
  rewrite F. exists s'. split; [|rewrite St, K; replace (length (left s) <? width)%nat with false by lia; auto].
  do 2 f_equal. rewrite le_bytes_length, firstn_app, le_bytes_length, Nat.sub_diag, firstn_all2 by (rewrite le_bytes_length; lia). cbn [firstn]. rewrite app_nil_r. apply le_value_bytes. auto.
Qed.
(** ... and a stream that is too short is reported (eof), whatever value is delivered. *)
Theorem read_data_short : never_fails D Inv -> forall s width init, Inv s -> d_state D s = StOk -> Z.of_nat width < M64 -> (length (left s) < width)%nat ->
  exists s' v, read_data D s width init = Ret (s', v) /\ d_state D s' = StEof /\ left s' = [] /\ Inv s'.
Proof.
  intros NF s width init I Hs Hw H0. unfold read_data, d_ok. rewrite Hs. cbn [is_ok negb].
  destruct (read_array_full NF s width 1 I ltac:(lia)) as (s' & n & E & I' & L' & St & Hn & _). rewrite Nat.mul_1_r in *. rewrite E. cbn [obind].
  replace (length (left s) <? width)%nat with true in St by lia. rewrite skipn_all2 in L' by lia.
  destruct (n =? 1)%nat; [eauto 10|]. rewrite St. cbn [is_ok]. eauto 10.
Qed.
(** Once the state is not ok, reads deliver 0 and writes do nothing. *)
Theorem read_data_skip : forall s width init, d_state D s <> StOk -> read_data D s width init = Ret (s, 0).
Proof. intros s width init H. unfold read_data, d_ok. destruct (d_state D s); [congruence|reflexivity|reflexivity]. Qed.

(** ** C75: reading the remainder *)
Lemma remainder_spec : never_fails D Inv -> forall fuel s acc len max, Inv s -> (length (left s) + 1 < fuel)%nat -> (length acc <= max)%nat -> Z.of_nat max < M64 -> (length acc < len)%nat ->
  exists s', remainder_loop D fuel s acc len max = Ret (s', acc ++ firstn (max - length acc) (left s)) /\ Inv s' /\ left s' = skipn (max - length acc) (left s) /\
   ((length acc < max)%nat -> d_state D s' = if (length (left s) <? max - length acc)%nat then StEof else StOk).
Proof.
  intros NF. induction fuel; intros s acc len max I Hf Ha HM Hl; [lia|]. cbn [remainder_loop]. destruct (length acc <? max)%nat eqn:E.
  2: { exists s. replace (max - length acc)%nat with 0%nat by lia. cbn. rewrite app_nil_r. split; auto. split; auto. split; auto. lia. }
  set (l2 := Nat.min len max). assert (length acc < l2 <= max)%nat by lia. clearbody l2.
  destruct (read_array_full NF s 1 (l2 - length acc) I ltac:(lia)) as (s' & n & Er & I' & L' & St & Hn & _). rewrite Nat.mul_1_l in *. rewrite Er. cbn [obind]. unfold d_ok. rewrite St.
  destruct (length (left s) <? l2 - length acc)%nat eqn:EL; cbn [is_ok].
  - exists s'. rewrite (firstn_all2 (left s)) by lia. rewrite (firstn_all2 (left s)) by lia. split; auto. split; auto. rewrite (skipn_all2 (left s)) in L' by lia. rewrite (skipn_all2 (left s)) by lia. split; auto. intros. rewrite St. replace (length (left s) <? max - length acc)%nat with true by lia. auto.
  - assert (LA : length (acc ++ firstn (l2 - length acc) (left s)) = l2) by (rewrite app_length, firstn_length_le by lia; lia).
    destruct (IHfuel s' (acc ++ firstn (l2 - length acc) (left s)) (l2 + default_block_size)%nat max I') as (s2 & E2 & I2 & L2 & St2); auto; rewrite ?LA; try lia.
    { rewrite L', skipn_length. lia. } { unfold default_block_size. lia. }
    rewrite E2. rewrite LA in *. exists s2. split.
    + do 2 f_equal. rewrite <- app_assoc. f_equal. rewrite L'. rewrite <- (firstn_skipn (l2 - length acc) (left s)) at 3. rewrite firstn_app. rewrite firstn_length_le by lia.
      rewrite firstn_firstn. replace (Nat.min (max - length acc) (l2 - length acc)) with (l2 - length acc)%nat by lia. f_equal. f_equal. lia.
    + split; auto. split.
      * rewrite L2, L'. assert (SK : forall (l : list Z) a b, skipn a (skipn b l) = skipn (b + a) l). { intros l a b. revert l. induction b; intros l; [reflexivity|]. destruct l; [destruct a; reflexivity|]. cbn [skipn Nat.add]. apply IHb. }
        rewrite SK. f_equal. lia.
      * intros _. destruct (Nat.eq_dec l2 max) as [->|N].
        -- replace (length (left s) <? max - length acc)%nat with false by lia.
           destruct fuel; [lia|]. cbn [remainder_loop] in E2. rewrite LA in E2. replace (max <? max)%nat with false in E2 by lia. injection E2 as <- _. auto.
        -- rewrite St2 by lia. rewrite L', skipn_length. replace (length (left s) - (l2 - length acc) <? max - l2)%nat with (length (left s) <? max - length acc)%nat by lia. auto.
Qed.
Theorem read_remainder_spec : never_fails D Inv -> forall s max, Inv s -> Z.of_nat max < M64 ->
  exists fuel s', read_remainder D fuel s max = Ret (s', firstn max (left s)) /\ Inv s' /\ left s' = skipn max (left s) /\
   ((0 < max)%nat -> d_state D s' = if (length (left s) <? max)%nat then StEof else StOk).
Proof.
  intros NF s max I HM. unfold read_remainder. destruct (remainder_spec NF (length (left s) + 2) s [] default_block_size max I) as (s' & E & R); cbn [length] in *; try lia.
  { unfold default_block_size. lia. } rewrite Nat.sub_0_r in *. exists (length (left s) + 2)%nat, s'. split; auto.
Qed.

(** ** C76: skipping *)
Lemma read_byte_spec : never_fails D Inv -> forall s, Inv s ->
  match left s with
  | [] => read_byte D s = Throw
  | c :: r => exists s', read_byte D s = Ret (s', c) /\ Inv s' /\ left s' = r /\ d_state D s' = StOk
  end.
Proof.
  intros NF s I. unfold read_byte. destruct (read_array_full NF s 1 1 I ltac:(lia)) as (s' & n & E & I' & L' & St & Hn & Hc). rewrite E. cbn [obind]. rewrite Nat.mul_1_l in *. destruct (left s) as [|c r].
  - rewrite Hc by lia. reflexivity.
  - rewrite Hn by (cbn; lia). cbn [Nat.eqb firstn]. exists s'. cbn in L'. subst r. cbn [length] in St. replace (Datatypes.S (length (left s')) <? 1)%nat with false in St by lia. auto.
Qed.
Lemma skip_bytes_spec : never_fails D Inv -> forall n s, Inv s -> (n <= length (left s))%nat ->
  exists s', skip_bytes D n s = Ret s' /\ Inv s' /\ left s' = skipn n (left s).
Proof.
  intros NF. induction n; intros s I H; cbn [skip_bytes]; [eauto|]. pose proof (read_byte_spec NF s I) as R. destruct (left s) as [|c r]; [cbn in H; lia|].
  destruct R as (s' & E & I' & L & St). rewrite E. cbn [obind]. unfold d_ok. rewrite St. cbn [is_ok]. cbn [length] in H. destruct (IHn s' I') as (s2 & E2 & I2 & L2); [rewrite L; lia|]. rewrite E2, <- L. eauto.
Qed.
Lemma skipn_add : forall (l : list Z) a b, skipn a (skipn b l) = skipn (b + a) l.
Proof. intros l a b. revert l. induction b; intros l; [reflexivity|]. destruct l; [destruct a; reflexivity|]. cbn [skipn Nat.add]. apply IHb. Qed.
Lemma skip_blocks_spec : never_fails D Inv -> forall fuel s amount block, Inv s -> (amount < fuel)%nat -> (0 < block)%nat -> Z.of_nat block < M64 ->
  exists s', skip_blocks D fuel s amount block = Ret s' /\ Inv s' /\ left s' = skipn amount (left s) /\
    ((0 < amount)%nat -> d_state D s' = if (length (left s) <? amount)%nat then StEof else StOk).
Proof.
  intros NF. induction fuel; intros s amount block I Hf Hb HM; [lia|]. cbn [skip_blocks]. destruct (amount =? 0)%nat eqn:E0. { exists s. replace amount with 0%nat by lia. cbn. split; auto. split; auto. split; auto. lia. }
  set (m := Nat.min amount block). assert (0 < m <= amount)%nat by lia. assert (m <= block)%nat by lia. clearbody m.
  destruct (read_array_full NF s 1 m I ltac:(lia)) as (s' & n & Er & I' & L' & St & Hn & Hc). rewrite Nat.mul_1_l in *. rewrite Er. cbn [obind]. unfold d_ok. rewrite St.
  destruct (length (left s) <? m)%nat eqn:EL; cbn [is_ok].
  - exists s'. split; auto. split; auto. rewrite (skipn_all2 (left s)) in L' by lia. rewrite (skipn_all2 (left s)) by lia. split; auto. intros. rewrite St. replace (_ <? _)%nat with true by lia. auto.
  - rewrite Hn by lia. destruct (IHfuel s' (amount - m)%nat block I' ltac:(lia) Hb HM) as (s2 & E2 & I2 & L2 & St2). rewrite E2. exists s2. split; auto. split; auto. split.
    + rewrite L2, L', skipn_add. f_equal. lia.
    + intros _. destruct (Nat.eq_dec amount m) as [->|N].
      * replace (length (left s) <? m)%nat with false by lia. destruct fuel; [lia|]. cbn [skip_blocks] in E2. rewrite Nat.sub_diag in E2. cbn [Nat.eqb] in E2. injection E2 as <-. auto.
      * rewrite St2 by lia. rewrite L', skipn_length. replace (length (left s) - m <? amount - m)%nat with (length (left s) <? amount)%nat by lia. auto.
Qed.
(** Skipping no more than there is positions the stream after the skipped bytes. *)
Theorem skip_spec : never_fails D Inv -> forall s amount, Inv s -> (amount <= length (left s))%nat -> exists s', skip D s amount = Ret s' /\ Inv s' /\ left s' = skipn amount (left s).
Proof.
  intros NF s amount I H. unfold skip. destruct (amount =? 1)%nat eqn:E1.
  - pose proof (read_byte_spec NF s I) as R. destruct (left s) as [|c r]; [cbn in H; lia|]. destruct R as (s' & E & I' & L & St). rewrite E. cbn [obind]. exists s'. replace amount with 1%nat by lia. auto.
  - destruct (amount <? iterate_count)%nat eqn:E2; [apply skip_bytes_spec; auto|].
    destruct (skip_blocks_spec NF (Datatypes.S amount) s amount (Nat.min amount default_block_size) I) as (s' & E & I' & L & _); unfold iterate_count, default_block_size in *; try lia. eauto.
Qed.
(** Full statement: skipping past the end leaves the stream at its end with state eof.  True for 16
    bytes or more; for fewer an exception is thrown instead. *)
Theorem skip_short_partial : never_fails D Inv -> forall s amount, Inv s -> (length (left s) < amount)%nat ->
  if (amount <? 16)%nat then skip D s amount = Throw
  else exists s', skip D s amount = Ret s' /\ Inv s' /\ left s' = [] /\ d_state D s' = StEof.
Proof.
  intros NF s amount I H. unfold skip. destruct (amount <? 16)%nat eqn:E16.
  - assert (B : forall n s, Inv s -> (length (left s) < n)%nat -> skip_bytes D n s = Throw).
    { induction n; intros t It Ht; [lia|]. cbn [skip_bytes]. pose proof (read_byte_spec NF t It) as R. destruct (left t) as [|c r]; [rewrite R; reflexivity|].
      destruct R as (s' & E & I' & L & St). rewrite E. cbn [obind]. unfold d_ok. rewrite St. cbn [is_ok]. apply IHn; auto. rewrite L. cbn in Ht. lia. }
    destruct (amount =? 1)%nat eqn:E1.
    + pose proof (read_byte_spec NF s I) as R. destruct (left s); [rewrite R; reflexivity|cbn in H; lia].
    + replace (amount <? iterate_count)%nat with true by (unfold iterate_count; lia). apply B; auto.
  - replace (amount =? 1)%nat with false by lia. replace (amount <? iterate_count)%nat with false by (unfold iterate_count; lia).
    destruct (skip_blocks_spec NF (Datatypes.S amount) s amount (Nat.min amount default_block_size) I) as (s' & E & I' & L & St); unfold default_block_size in *; try lia.
    exists s'. split; auto. split; auto. rewrite skipn_all2 in L by lia. split; auto. rewrite St by lia. replace (_ <? _)%nat with true by lia. auto.
Qed.

(** ** C77: lines of 8-bit characters *)
Fixpoint line_from (p : Z) (l : list Z) : list Z :=
  match l with [] => [p] | c :: r => (if (p =? 13) && (c =? 10) then [] else [p]) ++ (if c =? 10 then [] else line_from c r) end.
Lemma drop_cr_cons : forall p x, x <> [] -> drop_cr (p :: x) = p :: drop_cr x.
Proof.
  intros p x H. unfold drop_cr. cbn [rev]. destruct (rev x) as [|c r] eqn:E.
  - apply (f_equal (@rev Z)) in E. rewrite rev_involutive in E. cbn in E. congruence.
  - cbn [app]. destruct (c =? 13); auto. rewrite rev_app_distr. reflexivity.
Qed.
Lemma line_from_spec : forall l p, p <> 10 -> line_from p l = line_of (p :: l).
Proof.
  induction l as [|c r IH]; intros p Hp; cbn [line_from].
  - unfold line_of. cbn [existsb]. replace (10 =? p) with false by lia. reflexivity.
  - destruct (c =? 10) eqn:Ec.
    + replace c with 10 in * by lia. unfold line_of. cbn [existsb]. change (10 =? 10) with true. rewrite orb_true_r. cbn [before_lf]. replace (p =? 10) with false by lia. change (10 =? 10) with true. cbn iota.
      rewrite app_nil_r, andb_true_r. unfold drop_cr. cbn. destruct (p =? 13); reflexivity.
    + rewrite andb_false_r. cbn [app]. rewrite IH by lia. unfold line_of. cbn [existsb]. replace (10 =? p) with false by lia. replace (10 =? c) with false by lia. cbn [orb]. cbn [before_lf]. replace (p =? 10) with false by lia. rewrite Ec.
      destruct (existsb (Z.eqb 10) r); auto. rewrite (drop_cr_cons p); auto. discriminate.
Qed.
Lemma readln_loop_spec : never_fails D Inv -> forall fuel s p str, Inv s -> (length (left s) + 1 < fuel)%nat -> Forall (fun c => 0 <= c < 256) (left s) -> 0 <= p < 256 -> p <> 10 ->
  exists s', readln_loop D fuel s 1 false p p str = Ret (s', str ++ line_from p (left s)) /\ Inv s' /\
    left s' = skipn (Datatypes.S (length (before_lf (left s)))) (left s) /\ d_state D s' = (if existsb (Z.eqb 10) (left s) then StOk else StEof).
Proof.
  intros NF. induction fuel; intros s p str I Hf HF Hp Hn; [lia|]. cbn [readln_loop].
  destruct (read_array_full NF s 1 1 I ltac:(lia)) as (s' & n & E & I' & L' & St & _). rewrite E. cbn [obind]. rewrite Nat.mul_1_l in *. destruct (left s) as [|c r] eqn:EL.
  - cbn [firstn length app skipn le_bytes le_value]. rewrite (Z.mod_small p) by lia. replace (p + 256 * 0) with p by lia.
    replace ((p =? 13) && (p =? 10)) with false by lia. cbn [negb andb]. unfold d_ok. rewrite St. cbn [length Nat.ltb Nat.leb is_ok andb]. exists s'. cbn [line_from existsb]. cbn in L'. auto.
  - cbn [firstn length app skipn le_bytes le_value]. replace (c + 256 * 0) with c by lia. cbn [negb andb]. unfold d_ok. rewrite St. cbn [length] in *. replace (Datatypes.S (length r) <? 1)%nat with false in * by lia. cbn [is_ok andb].
    assert (Hc : 0 <= c < 256) by (inversion HF; auto). cbn [line_from]. cbn [skipn] in L'. destruct (c =? 10) eqn:Ec; cbn [negb].
    + exists s'. replace c with 10 by lia. split.
      * rewrite ?andb_true_r; change (10 =? 10) with true; cbn iota; destruct (p =? 13); cbn; rewrite ?app_nil_r; reflexivity.
      * cbn [before_lf existsb]; change (10 =? 10) with true; cbn iota; cbn [length skipn orb]; auto.
    + replace ((p =? 13) && false) with false by (destruct (p =? 13); reflexivity). cbn [negb]. destruct (IHfuel s' c (str ++ [p]) I') as (s2 & E2 & I2 & L2 & St2); auto; try lia. { rewrite L'. lia. } { rewrite L'. inversion HF; auto. }
      rewrite E2. exists s2. rewrite L' in *. split; [rewrite <- app_assoc; cbn [app]; reflexivity|]. split; auto. cbn [before_lf existsb]. rewrite Ec. replace (10 =? c) with false by lia. cbn [length skipn orb]. auto.
Qed.
Theorem readln_spec : never_fails D Inv -> forall s str, Inv s -> Forall (fun c => 0 <= c < 256) (left s) ->
  exists fuel s', readln_and_attach D fuel s 1 str = Ret (s', str ++ line_of (left s)) /\ Inv s' /\
    left s' = skipn (Datatypes.S (length (before_lf (left s)))) (left s) /\ d_state D s' = (if existsb (Z.eqb 10) (left s) then StOk else StEof).
Proof.
  intros NF s str I HF. exists (length (left s) + 2)%nat. unfold readln_and_attach. replace (length (left s) + 2)%nat with (Datatypes.S (length (left s) + 1)) by lia. cbn [readln_loop].
  destruct (read_array_full NF s 1 1 I ltac:(lia)) as (s' & n & E & I' & L' & St & _). rewrite E. cbn [obind]. rewrite Nat.mul_1_l in *. destruct (left s) as [|c r] eqn:EL.
  - cbn [firstn length app skipn negb andb]. unfold d_ok. rewrite St. cbn [length Nat.ltb Nat.leb is_ok andb]. exists s'. cbn. rewrite app_nil_r. auto.
  - cbn [firstn length app skipn le_bytes le_value]. replace (c + 256 * 0) with c by lia. cbn [negb andb]. unfold d_ok. rewrite St. cbn [length] in *. replace (Datatypes.S (length r) <? 1)%nat with false in * by lia. cbn [is_ok andb].
    assert (Hc : 0 <= c < 256) by (inversion HF; auto). cbn [skipn] in L'. destruct (c =? 10) eqn:Ec; cbn [negb].
    + exists s'. replace c with 10 by lia. split; [do 2 f_equal; cbn; rewrite app_nil_r; auto|]. split; auto.
    + destruct (readln_loop_spec NF (length r + 1 + 1)%nat s' c str I') as (s2 & E2 & I2 & L2 & St2); auto; try lia. { rewrite L'. lia. } { rewrite L'. inversion HF; auto. }
      replace (Datatypes.S (length r) + 1)%nat with (length r + 1 + 1)%nat by lia. rewrite E2. exists s2. rewrite L' in *. rewrite line_from_spec by lia. split; auto. split; auto.
      cbn [before_lf existsb]. rewrite Ec. replace (10 =? c) with false by lia. cbn [length skipn orb]. auto.
Qed.

(** ** C78: strings with a length prefix *)
Lemma units_flat : forall width str x, Forall (fun c => 0 <= c < 256 ^ Z.of_nat width) str -> units_of (length str) width (flat_map (le_bytes width) str ++ x) = str.
Proof.
  induction str; intros x H; auto. inversion H; subst. cbn [length units_of flat_map]. rewrite <- app_assoc.
  rewrite firstn_app, le_bytes_length, Nat.sub_diag, firstn_all2 by (rewrite le_bytes_length; lia). cbn [firstn]. rewrite app_nil_r, le_value_bytes by auto.
  rewrite skipn_app, le_bytes_length, Nat.sub_diag, skipn_all2 by (rewrite le_bytes_length; lia). cbn [skipn app]. rewrite IHstr; auto.
Qed.
Lemma flat_len : forall width str, length (flat_map (le_bytes width) str) = (width * length str)%nat.
Proof. induction str; cbn; [lia|]. rewrite app_length, le_bytes_length, IHstr. lia. Qed.
Lemma read_str_loop_spec : never_fails D Inv -> forall fuel s width str rest junk data, Inv s -> (length str < fuel)%nat -> (0 < width)%nat -> Z.of_nat width * 1024 < M64 ->
  Forall (fun c => 0 <= c < 256 ^ Z.of_nat width) str -> left s = flat_map (le_bytes width) str ++ rest ->
  exists s', read_str_loop D fuel s width (length str) junk data = Ret (s', data ++ str) /\ Inv s' /\ left s' = rest /\ d_state D s' = StOk.
Proof.
  intros NF. induction fuel; intros s width str rest junk data I Hf H0 HM HF HL; [lia|]. cbn [read_str_loop]. set (m := Nat.min (length str) 1024).
  assert (Hm : (m <= length str)%nat /\ (m <= 1024)%nat /\ (m = 0 -> str = [])%nat /\ ((m = length str)%nat \/ (0 < m)%nat)). { unfold m. repeat split; try lia. intros Q. destruct str; auto. cbn [length] in Q. lia. }
  clearbody m. destruct (read_array_full NF s width m I ltac:(nia)) as (s' & n & E & I' & L' & St & Hn & _).
  assert (Ls : length (left s) = (width * length str + length rest)%nat) by (rewrite HL, app_length, flat_len; auto).
  assert (W : (width * m <= width * length str)%nat) by nia.
  rewrite E. cbn [obind]. rewrite Hn by lia. replace (length (left s) <? width * m)%nat with false in St by lia.
  set (str1 := firstn m str). set (str2 := skipn m str). assert (Es : str = str1 ++ str2) by (symmetry; apply firstn_skipn). assert (L1 : length str1 = m) by (apply firstn_length_le; lia).
  assert (F1 : firstn (width * m) (left s) = flat_map (le_bytes width) str1). { rewrite HL, Es, flat_map_app, <- app_assoc, firstn_app, flat_len, L1, Nat.sub_diag, firstn_all2 by (rewrite flat_len; lia). cbn [firstn]. apply app_nil_r. }
  assert (S1 : left s' = flat_map (le_bytes width) str2 ++ rest). { rewrite L', HL, Es, flat_map_app, <- app_assoc, skipn_app, flat_len, L1, Nat.sub_diag, skipn_all2 by (rewrite flat_len; lia). reflexivity. }
  rewrite Es in HF. apply Forall_app in HF as [HF1 HF2].
  rewrite F1. match goal with |- context [units_of m width (_ ++ ?x)] => pose proof (units_flat width str1 x HF1) as U end. rewrite L1 in U. rewrite U. unfold d_ok. rewrite St. cbn [is_ok negb]. rewrite orb_false_r. destruct (length str - m =? 0)%nat eqn:EZ.
  - exists s'. assert (str2 = []) by (destruct str2 eqn:Q; auto; apply (f_equal (@length Z)) in Es; rewrite app_length in Es; cbn [length] in Es; lia). rewrite H in *. rewrite app_nil_r in Es. rewrite <- Es. auto.
  - assert (L2 : (length str - m)%nat = length str2) by (rewrite Es, app_length; lia). rewrite L2. edestruct (IHfuel s' width str2 rest) as (s2 & E2 & I2 & R2 & St2); auto; try lia.
    rewrite E2. exists s2. rewrite <- app_assoc, <- Es. auto.
Qed.
Theorem read_str_spec : never_fails D Inv -> forall s width str rest init junk, Inv s -> d_state D s = StOk -> (0 < width)%nat -> Z.of_nat width * 1024 < M64 -> Z.of_nat (length str) < M32 ->
  Forall (fun c => 0 <= c < 256 ^ Z.of_nat width) str -> left s = le_bytes 4 (Z.of_nat (length str)) ++ flat_map (le_bytes width) str ++ rest ->
  exists s', read_str D s width init junk = Ret (s', str) /\ Inv s' /\ left s' = rest /\ d_state D s' = StOk.
Proof.
  intros NF s width str rest init junk I Hs H0 HM HL HF E. unfold read_str, d_ok. rewrite Hs. cbn [is_ok negb].
  destruct (read_data_spec NF s 4 init (Z.of_nat (length str)) _ I Hs ltac:(lia) ltac:(lia) ltac:(cbn; lia) E) as (s' & E1 & S1 & L1 & I1). rewrite E1. cbn [obind]. rewrite S1. cbn [is_ok negb]. rewrite Nat2Z.id.
  destruct (read_str_loop_spec NF (Datatypes.S (length str)) s' width str rest junk [] I1) as (s2 & E2 & R); auto. rewrite E2. eauto.
Qed.
End Reading.

(** ** Writing *)
Section Writing.
Context {S : Type} (D : dev S) (Inv : S -> Prop) (out : S -> list Z) (SNK : sink D Inv out).
Lemma write_step : forall s b, Inv s -> exists s' k, d_write D s b = (s', k) /\ Inv s' /\ (k <= length b)%nat /\ out s' = out s ++ firstn k b /\ (d_state D s' = StOk -> k = length b).
Proof. intros s b I. destruct (d_write D s b) as [s' k] eqn:E. exists s', k. split; auto. apply (snk_write _ _ _ SNK s b s' k I E). Qed.

(** A value that is written appears as its little-endian bytes (as far as the sink accepts them). *)
Theorem write_data_spec : forall s width v, Inv s -> d_state D s = StOk -> exists s' k, write_data D s width v = Ret s' /\ Inv s' /\
  out s' = out s ++ firstn k (le_bytes width v) /\ (d_state D s' = StOk -> out s' = out s ++ le_bytes width v).
Proof.
  intros s width v I Hs. unfold write_data, d_ok. rewrite Hs. cbn [is_ok negb]. destruct (write_step s (le_bytes width v) I) as (s' & k & E & I' & Hk & O & St). rewrite E. cbn [fst].
  exists s', k. split; auto. split; auto. split; auto. intros Q. rewrite O, (St Q), firstn_all. auto.
Qed.
Theorem write_data_skip : forall s width v, d_state D s <> StOk -> write_data D s width v = Ret s.
Proof. intros s width v H. unfold write_data, d_ok. destruct (d_state D s); [congruence|reflexivity|reflexivity]. Qed.

Lemma repeat_first : forall (x : Z) k n, (k <= n)%nat -> firstn k (repeat x n) = repeat x k.
Proof. induction k; intros n H; [reflexivity|]. destruct n; [lia|]. cbn. rewrite IHk by lia. reflexivity. Qed.
Lemma write_bytes_spec : forall n s byte, Inv s -> exists s' k, write_bytes D n s byte = Ret s' /\ Inv s' /\ (k <= n)%nat /\ out s' = out s ++ repeat byte k /\ ((0 < n)%nat -> d_state D s' = StOk -> k = n).
Proof.
  induction n; intros s byte I; cbn [write_bytes]. { exists s, 0%nat. cbn. rewrite app_nil_r. repeat split; auto; lia. }
  destruct (write_step s [byte] I) as (s' & k & E & I' & Hk & O & St). rewrite E. unfold d_ok. destruct (d_state D s') eqn:ES; cbn [is_ok].
  - assert (k = 1)%nat by (apply St; auto). subst k. destruct (IHn s' byte I') as (s2 & k2 & E2 & I2 & H2 & O2 & St2). exists s2, (Datatypes.S k2). split; auto. split; auto. split; [lia|]. cbn [repeat]. rewrite O2, O, <- app_assoc. split; auto.
    intros _ Q. destruct n; [lia|]. f_equal. apply St2; auto. lia.
  - exists s', k. cbn [length] in Hk. split; auto. split; auto. split; [lia|]. split; [|congruence]. rewrite O. f_equal. destruct k as [|[|]]; auto. lia.
  - exists s', k. cbn [length] in Hk. split; auto. split; auto. split; [lia|]. split; [|congruence]. rewrite O. f_equal. destruct k as [|[|]]; auto. lia.
Qed.
Lemma write_blocks_spec : forall fuel s byte amount block, Inv s -> (amount < fuel)%nat -> (0 < block)%nat -> Z.of_nat block < M64 ->
  exists s' k, write_blocks D fuel s byte amount block = Ret s' /\ Inv s' /\ (k <= amount)%nat /\ out s' = out s ++ repeat byte k /\ ((0 < amount)%nat -> d_state D s' = StOk -> k = amount).
Proof.
  induction fuel; intros s byte amount block I Hf Hb HM; [lia|]. cbn [write_blocks]. destruct (amount =? 0)%nat eqn:E0. { exists s, 0%nat. cbn. rewrite app_nil_r. repeat split; auto; lia. }
  unfold write_array. set (m := Nat.min amount block). assert (0 < m <= amount /\ m <= block)%nat by lia. clearbody m. replace (M64 <=? _) with false by lia. rewrite Nat.mul_1_l. rewrite repeat_first by lia.
  destruct (write_step s (repeat byte m) I) as (s' & k & E & I' & Hk & O & St). rewrite E. cbn [obind]. rewrite Nat.div_1_r. rewrite repeat_length in *. rewrite repeat_first in O by lia. unfold d_ok. destruct (d_state D s') eqn:ES; cbn [is_ok].
  - rewrite St in * by auto. destruct (IHfuel s' byte (amount - m)%nat block I') as (s2 & k2 & E2 & I2 & H2 & O2 & St2); try lia. exists s2, (m + k2)%nat. split; auto. split; auto. split; [lia|].
    rewrite O2, O, <- app_assoc, <- repeat_app. split; auto. intros _ Q. destruct (Nat.eq_dec amount m) as [->|]; [|rewrite St2; auto; lia].
    rewrite Nat.sub_diag in H2. lia.
  - exists s', k. split; auto. split; auto. split; [lia|]. split; auto. congruence.
  - exists s', k. split; auto. split; auto. split; [lia|]. split; auto. congruence.
Qed.
(** C79: write_byte(byte, amount) writes the byte amount times. *)
Theorem write_byte_spec : forall s byte amount, Inv s ->
  exists s' k, write_byte D s byte amount = Ret s' /\ Inv s' /\ (k <= amount)%nat /\ out s' = out s ++ repeat byte k /\ ((0 < amount)%nat -> d_state D s' = StOk -> k = amount).
Proof.
  intros s byte amount I. unfold write_byte. destruct (amount =? 1)%nat eqn:E1.
  - replace amount with 1%nat by lia. destruct (write_step s [byte] I) as (s' & k & E & I' & Hk & O & St). rewrite E. cbn [fst]. exists s', k. cbn [length] in *. repeat split; auto. rewrite O. f_equal. destruct k as [|[|]]; auto. lia.
  - destruct (amount <? iterate_count)%nat eqn:E2; [apply write_bytes_spec; auto|]. apply write_blocks_spec; unfold iterate_count, default_block_size in *; auto; lia.
Qed.
Theorem write_str_spec : forall s width str, Inv s -> d_state D s = StOk -> (0 < width)%nat -> Z.of_nat (length str) < M32 -> Z.of_nat width * Z.of_nat (length str) < M64 ->
  exists s', write_str D s width str = Ret s' /\ Inv s' /\ (d_state D s' = StOk -> out s' = out s ++ le_bytes 4 (Z.of_nat (length str)) ++ flat_map (le_bytes width) str).
Proof.
  intros s width str I Hs H0 HL HM. unfold write_str. replace (4294967295 <? _) with false by lia. destruct (write_data_spec s 4 (Z.of_nat (length str)) I Hs) as (s1 & k & E1 & I1 & _ & O1). rewrite E1. cbn [obind].
  unfold d_ok. destruct (d_state D s1) eqn:ES; cbn [is_ok negb]; [|exists s1; repeat split; auto; congruence|exists s1; repeat split; auto; congruence].
  unfold write_array. replace (M64 <=? _) with false by lia. rewrite firstn_all2 by (rewrite flat_len; lia).
  destruct (write_step s1 (flat_map (le_bytes width) str) I1) as (s2 & k2 & E2 & I2 & Hk2 & O2 & St2). rewrite E2. cbn [obind]. exists s2. split; auto. split; auto. intros Q. rewrite O2, (St2 Q), firstn_all, O1, <- app_assoc by auto. auto.
Qed.
End Writing.

(** The value written is the value read: for every stream that keeps what is written for reading. *)
Theorem data_round_trip : forall {S} (D : dev S) Inv content, source D Inv content -> sink D Inv content -> never_fails D Inv -> always_writes D Inv ->
  forall s width v init, Inv s -> d_state D s = StOk -> content s = [] -> (0 < width)%nat -> Z.of_nat width < M64 -> 0 <= v < 256 ^ Z.of_nat width ->
  exists s1 s2, write_data D s width v = Ret s1 /\ read_data D s1 width init = Ret (s2, v) /\ d_state D s2 = StOk /\ content s2 = [].
Proof.
  intros S D Inv content SRC SNK NF AW s width v init I Hs HC H0 HM Hv. destruct (write_data_spec D Inv content SNK s width v I Hs) as (s1 & k & E1 & I1 & _ & O1). exists s1.
  assert (S1 : d_state D s1 = StOk). { unfold write_data, d_ok in E1. rewrite Hs in E1. cbn [is_ok negb] in E1. injection E1 as <-. apply AW. auto. }
  destruct (read_data_spec D Inv content SRC NF s1 width init v [] I1 S1) as (s2 & E2 & S2 & L2 & I2); auto. { rewrite O1, HC, app_nil_r by auto. auto. } exists s2. auto.
Qed.
Theorem str_round_trip : forall {S} (D : dev S) Inv content, source D Inv content -> sink D Inv content -> never_fails D Inv -> always_writes D Inv ->
  forall s width str init junk, Inv s -> d_state D s = StOk -> content s = [] -> (0 < width <= 8)%nat -> Z.of_nat (length str) < M32 -> Forall (fun c => 0 <= c < 256 ^ Z.of_nat width) str ->
  exists s1 s2, write_str D s width str = Ret s1 /\ read_str D s1 width init junk = Ret (s2, str) /\ d_state D s2 = StOk /\ content s2 = [].
Proof.
  intros S D Inv content SRC SNK NF AW s width str init junk I Hs HC H0 HL HF. destruct (write_str_spec D Inv content SNK s width str I Hs ltac:(lia) HL ltac:(nia)) as (s1 & E1 & I1 & O1). exists s1.
  assert (S1 : d_state D s1 = StOk).
  { clear - E1 AW I Hs SNK HL H0. unfold write_str in E1. replace (4294967295 <? _) with false in E1 by lia. destruct (write_data_spec D Inv content SNK s 4 (Z.of_nat (length str)) I Hs) as (s0 & k & E0 & I0 & _). rewrite E0 in E1. cbn [obind] in E1.
    assert (S0 : d_state D s0 = StOk). { unfold write_data, d_ok in E0. rewrite Hs in E0. cbn [is_ok negb] in E0. injection E0 as <-. apply AW. auto. }
    unfold d_ok in E1. rewrite S0 in E1. cbn [is_ok negb] in E1. unfold write_array in E1. replace (M64 <=? _) with false in E1 by nia. pose proof (AW s0 (firstn (width * length str) (flat_map (le_bytes width) str)) I0) as Q.
    destruct (d_write D s0 _) as [s2 k2]. cbn [obind] in E1. injection E1 as <-. exact Q. }
  destruct (read_str_spec D Inv content SRC NF s1 width str [] init junk I1 S1) as (s2 & E2 & I2 & L2 & S2); auto; try lia. { rewrite O1, HC, app_nil_r by auto. cbn [app]. auto. } exists s2. auto.
Qed.
Example data_round_trip_ex : exists s1, write_data array_dev ([], StOk) 4 0x12345678 = Ret s1 /\ fst s1 = [0x78; 0x56; 0x34; 0x12] /\ read_data array_dev s1 4 [1; 2; 3; 4] = Ret (([], StOk), 0x12345678).
Proof. eexists. vm_compute. auto. Qed.
Example str_round_trip_ex : exists s1, write_str array_dev ([], StOk) 2 [0x68; 0x1234] = Ret s1 /\ fst s1 = [2; 0; 0; 0; 0x68; 0; 0x34; 0x12] /\ read_str array_dev s1 2 [] [] = Ret (([], StOk), [0x68; 0x1234]).
Proof. eexists. vm_compute. auto. Qed.
Example skip_ex : skip array_dev ([1; 2; 3; 4], StOk) 3 = Ret ([4], StOk) /\ skip array_dev ([1; 2; 3], StOk) 5 = Throw /\ skip array_dev ([1; 2; 3], StOk) 20 = Ret ([], StEof).
Proof. vm_compute. auto. Qed.
Example readln_ex : readln_and_attach array_dev 9 ([97; 98; 13; 10; 99], StOk) 1 [] = Ret (([99], StOk), [97; 98]) /\ line_of [97; 98; 13; 10; 99] = [97; 98] /\ readln_and_attach array_dev 9 ([97; 13], StOk) 1 [] = Ret (([], StEof), [97; 13]).
Proof. vm_compute. auto. Qed.

(** C76: the full statement about skipping past the end is false below 16 bytes *)
Theorem skip_short_refuted : exists s amount, (length (fst s) < amount)%nat /\ skip array_dev s amount = Throw.
Proof. exists ([], StOk), 1%nat. split; [cbn; lia|reflexivity]. Qed.
(** C74: an element of which only a part could be read is counted as read *)
Theorem read_array_count_refuted : exists s size count s' b n, read_array array_dev s size count = Ret (s', b, n) /\ n <> (length b / size)%nat /\ d_state array_dev s' = StEof.
Proof. exists ([1; 2], StOk), 4%nat, 1%nat. do 3 eexists. split; [vm_compute; reflexivity|]. split; [vm_compute; discriminate|reflexivity]. Qed.
(** so a value read from a stream that is too short consists partly of what the variable held before *)
Theorem read_data_short_value_refuted : exists s init, read_data array_dev s 4 init = Ret (([], StEof), 0x04030201) /\ fst s = [1; 2].
Proof. exists ([1; 2], StOk), [9; 9; 3; 4]. vm_compute. auto. Qed.
(** C80: reading a vector back is undefined behaviour (operator>> does not return a value) *)
Theorem read_vector_refuted : exists s1, write_vector array_dev ([], StOk) 4 [7; 8] = Ret s1 /\ d_state array_dev s1 = StOk /\ read_vector array_dev s1 4 = UB.
Proof. eexists. vm_compute. auto. Qed.
(** The bytes written are right, though. *)
Lemma write_each_spec : forall {S} (D : dev S) Inv out, sink D Inv out -> always_writes D Inv -> forall l s width, Inv s -> d_state D s = StOk ->
  exists s', write_each D s width l = Ret s' /\ Inv s' /\ d_state D s' = StOk /\ out s' = out s ++ flat_map (le_bytes width) l.
Proof.
  intros S D Inv out SNK AW. induction l; intros s width I Hs; cbn [write_each]. { exists s. rewrite app_nil_r. auto. }
  destruct (write_data_spec D Inv out SNK s width a I Hs) as (s1 & k & E1 & I1 & _ & O1). rewrite E1. cbn [obind].
  assert (S1 : d_state D s1 = StOk). { unfold write_data, d_ok in E1. rewrite Hs in E1. cbn [is_ok negb] in E1. injection E1 as <-. apply AW. auto. }
  destruct (IHl s1 width I1 S1) as (s2 & E2 & I2 & S2 & O2). exists s2. rewrite O2, O1, <- app_assoc by auto. auto.
Qed.
Theorem write_vector_partial : forall {S} (D : dev S) Inv out, sink D Inv out -> always_writes D Inv -> forall s width l, Inv s -> d_state D s = StOk -> Z.of_nat (length l) < M32 ->
  exists s', write_vector D s width l = Ret s' /\ Inv s' /\ d_state D s' = StOk /\ out s' = out s ++ le_bytes 4 (Z.of_nat (length l)) ++ flat_map (le_bytes width) l.
Proof.
  intros S D Inv out SNK AW s width l I Hs HL. unfold write_vector. replace (4294967295 <? _) with false by lia. destruct (write_data_spec D Inv out SNK s 4 (Z.of_nat (length l)) I Hs) as (s1 & k & E1 & I1 & _ & O1). rewrite E1. cbn [obind].
  assert (S1 : d_state D s1 = StOk). { unfold write_data, d_ok in E1. rewrite Hs in E1. cbn [is_ok negb] in E1. injection E1 as <-. apply AW. auto. }
  destruct (write_each_spec D Inv out SNK AW l s1 width I1 S1) as (s2 & E2 & I2 & S2 & O2). exists s2. rewrite O2, O1, <- app_assoc by auto. auto.
Qed.

(** ** C81: copying a stream *)
Lemma copy_loop_spec : forall {A B} (D : dev A) (E : dev B) IA out IB left, sink D IA out -> source E IB left -> always_writes D IA -> never_fails E IB ->
  forall fuel a b copied n, IA a -> IB b -> d_state D a = StOk -> (length (left b) + 1 < fuel)%nat ->
  exists a' b', copy_loop D E fuel a b copied n = Ret (a', b', (copied + length (firstn n (left b)))%nat) /\ IA a' /\ IB b' /\ out a' = out a ++ firstn n (left b) /\ left b' = skipn n (left b) /\ d_state D a' = StOk.
Proof.
  intros A B D E IA out IB left SNK SRC AW NF. induction fuel; intros a b copied n Ia Ib Sa Hf; [lia|]. cbn [copy_loop]. destruct (n =? 0)%nat eqn:E0.
  { exists a, b. replace n with 0%nat by lia. cbn. rewrite app_nil_r, Nat.add_0_r. auto 10. }
  set (m := Nat.min default_block_size n). assert (0 < m <= n)%nat by (unfold m, default_block_size; lia). clearbody m.
  destruct (read_step E IB left SRC b m Ib) as (b' & d & Er & Ib' & L & Hd & St). rewrite Er. pose proof (NF b m Ib) as NF1. rewrite Er in NF1. cbn [fst] in NF1.
  destruct (write_step D IA out SNK a d Ia) as (a' & k & Ew & Ia' & Hk & O & Sw). rewrite Ew. pose proof (AW a d Ia) as AW1. rewrite Ew in AW1. cbn [fst] in AW1. rewrite Sw in * by auto. rewrite firstn_all in O.
  destruct (snk_set _ _ _ SNK a' StOk Ia') as (I2 & O2 & S2).
  destruct (d_state E b') eqn:ES; [| |congruence].
  - unfold d_ok. rewrite S2. cbn [is_ok negb]. assert (d <> []) by (apply St; lia). assert (0 < length d)%nat by (destruct d; [congruence|cbn; lia]).
    destruct (IHfuel (d_set D a' StOk) b' (copied + length d)%nat (n - length d)%nat I2 Ib' S2) as (a2 & b2 & E2 & Ia2 & Ib2 & Oa2 & L2 & S3). { rewrite L, app_length in Hf. lia. }
    exists a2, b2. rewrite E2. rewrite L, firstn_app, app_length, skipn_app. rewrite (firstn_all2 d) by lia. rewrite (skipn_all2 d) by lia. cbn [app]. rewrite Nat.add_assoc. split; auto. split; auto. split; auto.
    rewrite Oa2, O2, O, <- app_assoc. auto.
  - destruct St as (_ & -> & L0). exists (d_set D a' StOk), b'. rewrite L0. destruct n; [lia|]. cbn [firstn skipn length]. rewrite L0 in L. cbn [app] in L. rewrite <- L. rewrite O2, O. auto 10.
Qed.
(** Everything up to [amount] bytes is copied, and nothing else, when both streams work. *)
Theorem write_stream_partial : forall {A B} (D : dev A) (E : dev B) IA out IB left, sink D IA out -> source E IB left -> always_writes D IA -> never_fails E IB ->
  forall a b amount, IA a -> IB b -> exists fuel a' b', write_stream D E fuel a b amount = Ret (a', b', length (firstn amount (left b))) /\
    out a' = out a ++ firstn amount (left b) /\ left b' = skipn amount (left b) /\ d_state D a' = StOk.
Proof.
  intros A B D E IA out IB left SNK SRC AW NF a b amount Ia Ib. exists (length (left b) + 2)%nat. unfold write_stream. destruct (snk_set _ _ _ SNK a StOk Ia) as (I2 & O2 & S2).
  destruct (copy_loop_spec D E IA out IB left SNK SRC AW NF (length (left b) + 2) (d_set D a StOk) b 0%nat amount I2 Ib S2) as (a' & b' & E2 & _ & _ & Oa & L & St); [lia|]. exists a', b'. rewrite E2, Oa, O2. auto.
Qed.
(** Full statement: when the sink fails, the state says so.  False: the state is overwritten with the
    source's, the rest of the source is consumed, and the copy ends in state ok. *)
Definition full_dev : dev (list Z * sstate) := {| d_read := d_read array_dev; d_write := fun s b => ((fst s, StFail), 0%nat); d_state := snd; d_set := fun s st => (fst s, st) |}.
Theorem full_sink : sink full_dev (fun _ => True) fst.
Proof. split; [|intros [l st] st' _; cbn; auto]. intros [l st] b s' k _ E. cbn in E. injection E as <- <-. cbn. rewrite app_nil_r. repeat split; auto; try lia. discriminate. Qed.
Theorem write_stream_refuted : write_stream full_dev array_dev 9 ([], StOk) ([1; 2; 3], StOk) 3 = Ret (([], StOk), ([], StEof), 0%nat).
Proof. vm_compute. reflexivity. Qed.
Example write_stream_ex : write_stream array_dev array_dev 9 ([9], StOk) ([1; 2; 3], StOk) 2 = Ret (([9; 1; 2], StOk), ([3], StOk), 2%nat).
Proof. vm_compute. reflexivity. Qed.

Print Assumptions data_round_trip.
Print Assumptions str_round_trip.
Print Assumptions read_remainder_spec.
Print Assumptions readln_spec.
Print Assumptions write_stream_partial.
