(** Properties C45, C46, C82-C87: stream::memory_file. *)
From Coq Require Import ZifyBool ZifyNat.
From Verif Require Import Base StreamModel StreamSpec StreamProps MemFileModel MemFileSpec.
Ltac Zify.zify_post_hook ::= Z.div_mod_to_equations.

(** ** Buffers *)
Lemma mem_split : forall m (d : list Z), firstn (length d) m = map Some d -> m = map Some d ++ skipn (length d) m.
Proof. intros m d H. rewrite <- H. symmetry. apply firstn_skipn. Qed.
Lemma mem_join : forall (d : list Z) t, firstn (length d) (map Some d ++ t) = map Some d.
Proof. intros. rewrite firstn_app, map_length, Nat.sub_diag, firstn_all2 by (rewrite map_length; lia). cbn. apply app_nil_r. Qed.
Lemma mem_read_spec : forall d t p n, (p + n <= length d)%nat -> mem_read (map Some d ++ t) (Z.of_nat p) (Z.of_nat n) = Ret (map Some (firstn n (skipn p d))).
Proof.
  intros d t p n H. unfold mem_read. destruct (Z.of_nat n =? 0) eqn:E. { replace n with 0%nat by lia. reflexivity. }
  rewrite app_length, map_length. replace (_ <=? _) with true by lia. rewrite !Nat2Z.id. f_equal.
  rewrite skipn_app, map_length, firstn_app, skipn_length, map_length. replace (n - (length d - p))%nat with 0%nat by lia. cbn [firstn]. rewrite app_nil_r, skipn_map, firstn_map. reflexivity.
Qed.
Lemma mem_write_spec : forall d t p b, (p <= length d)%nat -> (p + length b <= length d + length t)%nat ->
  mem_write (map Some d ++ t) (Z.of_nat p) b = Ret (map Some (overwrite d p b) ++ skipn (p + length b - length d) t).
Proof.
  intros d t p b Hp Hb. unfold mem_write. destruct (length b =? 0)%nat eqn:E.
  - assert (b = []) by (destruct b; auto; cbn in E; lia). subst b. cbn [length] in *. rewrite Nat.add_0_r. replace (p - length d)%nat with 0%nat by lia. unfold overwrite. cbn [length app]. rewrite Nat.add_0_r, firstn_skipn. reflexivity.
  - rewrite app_length, map_length. replace (_ <=? _) with true by lia. rewrite !Nat2Z.id. f_equal. unfold overwrite.
    rewrite firstn_app, map_length. replace (p - length d)%nat with 0%nat by lia. cbn [firstn]. rewrite app_nil_r, skipn_app, map_length, !map_app, firstn_map, skipn_map, <- !app_assoc. reflexivity.
Qed.
Lemma overwrite_length : forall d p b, (p <= length d)%nat -> length (overwrite d p b) = Nat.max (length d) (p + length b).
Proof. intros. unfold overwrite. rewrite !app_length, firstn_length, skipn_length. lia. Qed.
Lemma resize_spec : forall d t n, (length d <= n)%nat -> exists t', resize (map Some d ++ t) n = map Some d ++ t' /\ (length d + length t' = n)%nat.
Proof.
  intros d t n H. unfold resize. exists (firstn (n - length d) t ++ repeat None (n - length (map (@Some Z) d ++ t))). rewrite firstn_app, map_length, firstn_all2 by (rewrite map_length; lia). rewrite <- app_assoc. split; auto.
  rewrite app_length, firstn_length, repeat_length, app_length, map_length. lia.
Qed.
Lemma resize_cut : forall d t n, (n <= length d)%nat -> resize (map Some d ++ t) n = map Some (firstn n d).
Proof.
  intros d t n H. unfold resize. rewrite app_length, map_length. replace (n - (length d + length t))%nat with 0%nat by lia. cbn [repeat]. rewrite app_nil_r, firstn_app, map_length. replace (n - length d)%nat with 0%nat by lia. cbn [firstn]. rewrite app_nil_r. apply firstn_map.
Qed.
Lemma Forall_fst : forall {A} (P : A -> Prop) n l, Forall P l -> Forall P (firstn n l).
Proof. intros A P n l H. rewrite <- (firstn_skipn n l) in H. apply Forall_app in H. tauto. Qed.
Lemma Forall_skp : forall {A} (P : A -> Prop) n l, Forall P l -> Forall P (skipn n l).
Proof. intros A P n l H. rewrite <- (firstn_skipn n l) in H. apply Forall_app in H. tauto. Qed.
Lemma overwrite_bytes : forall d p b, Forall is_byte d -> Forall is_byte b -> Forall is_byte (overwrite d p b).
Proof. intros. unfold overwrite. apply Forall_app. split; [apply Forall_fst; auto|]. apply Forall_app. split; [auto|apply Forall_skp; auto]. Qed.
Lemma le_bytes_bytes : forall n v, Forall is_byte (le_bytes n v).
Proof. induction n; intros v; cbn [le_bytes]; constructor; auto. unfold is_byte. lia. Qed.
Lemma flat_bytes : forall w l, Forall is_byte (flat_map (le_bytes w) l).
Proof. induction l; cbn [flat_map]; [constructor|]. apply Forall_app. split; auto. apply le_bytes_bytes. Qed.
Lemma repeat_bytes : forall x n, is_byte x -> Forall is_byte (repeat x n).
Proof. induction n; cbn; constructor; auto. Qed.
Lemma all_some_map : forall l, all_some (map Some l) = Some l.
Proof. induction l; cbn; auto. rewrite IHl. reflexivity. Qed.
Lemma cells_value_map : forall l, cells_value (map Some l) = Some (le_value l).
Proof. intros. unfold cells_value. rewrite all_some_map. reflexivity. Qed.

(** [holds] in a form that is easier to use *)
Lemma holds_elim : forall s d p st, holds s (d, p, st) -> exists t,
  s = MFile (map Some d ++ t) (mf_manage s) (Z.of_nat p) (Z.of_nat (length d)) st /\ (p <= length d)%nat /\ Z.of_nat (length d + length t) <= ptrdiff_max /\ Forall is_byte d.
Proof.
  intros [m mg o sz st'] d p st (Hm & Hs & Ho & Hst & Hp & Hr & Hb). cbn [mf_mem mf_size mf_off mf_state mf_manage] in *. unfold mf_reserved in Hr. cbn [mf_mem] in Hr. exists (skipn (length d) m). rewrite <- mem_split by auto. subst.
  rewrite skipn_length. repeat split; auto; lia.
Qed.
Lemma holds_intro : forall d t mg p st, (p <= length d)%nat -> Z.of_nat (length d + length t) <= ptrdiff_max -> Forall is_byte d ->
  holds (MFile (map Some d ++ t) mg (Z.of_nat p) (Z.of_nat (length d)) st) (d, p, st).
Proof. intros. cbn. unfold mf_reserved. cbn [mf_mem]. rewrite mem_join, app_length, map_length. repeat split; auto; lia. Qed.

Lemma grow_size_bounds : forall r, 0 <= r <= 2 ^ 63 + 2 ^ 62 + 2 ^ 50 -> r <= grow_size r <= r + r / 4 + 65535.
Proof. intros r H. unfold grow_size, u64. assert (r + r / 4 + 65535 < M64) by lia. rewrite (Z.mod_small (r + r / 4 + 65535)) by lia. rewrite Z.mod_small by lia. lia. Qed.

(** Making room never changes the content. *)
Lemma reserve_grow : forall g required s d p st, holds s (d, p, st) -> mf_reserved s < required -> required < 2 ^ 63 + 2 ^ 62 ->
  exists s', mf_reserve g required false s = s' /\ mf_manage s' = mf_manage s /\
    ((holds s' (d, p, StOk) /\ required <= mf_reserved s') \/
     (holds s' (d, p, StFail) /\ s' = with_state s StFail /\ (g = false \/ mf_manage s = false \/ 2 ^ 62 < required))).
Proof.
  intros g required s d p st H Hr Hm. destruct (holds_elim s d p st H) as (t & E & Hp & Hl & Hb). rewrite E in *. clear E. set (mg := mf_manage s) in *. clearbody mg. clear H. unfold mf_reserved in Hr. cbn [mf_mem] in Hr. rewrite app_length, map_length in Hr.
  eexists. split; [reflexivity|]. unfold mf_reserve, mf_reserved. cbn [mf_mem mf_manage mf_off mf_size mf_state]. rewrite app_length, map_length. replace (required <=? _) with false by lia. cbn [andb].
  destruct mg; cbn [negb]; [|split; [reflexivity|]; right; unfold with_state; cbn; split; [apply holds_intro; auto|auto]].
  pose proof (grow_size_bounds required ltac:(lia)) as G. replace (grow_size required =? 0) with false by lia. cbn [negb]. rewrite andb_true_r. destruct (g && (grow_size required <=? ptrdiff_max)) eqn:EG; cbn [negb].
  - split; [reflexivity|]. left. destruct (resize_spec d t (Z.to_nat (grow_size required))) as (t' & R & L); [lia|]. rewrite R. replace (grow_size required <? _) with false by lia.
    split; [apply holds_intro; auto; lia|]. cbn [mf_mem]. rewrite app_length, map_length. lia.
  - split; [reflexivity|]. right. unfold with_state. cbn. split; [apply holds_intro; auto|]. split; auto. unfold ptrdiff_max in *. destruct g; [right; right; cbn in EG; lia|auto].
Qed.

(** ** C45: one call *)
Lemma put_spec : forall g b s d p st, holds s (d, p, st) -> Forall is_byte b -> Z.of_nat (length b) < 2 ^ 62 ->
  exists s' done st', mf_put g b s = Ret (s', done) /\
    (if done then holds s' (overwrite d p b, (p + length b)%nat, st') /\ (st = StOk -> st' = StOk)
     else holds s' (d, p, StFail) /\ mf_reserved s < Z.of_nat (p + length b) /\ (g = false \/ mf_manage s = false \/ 2 ^ 62 < Z.of_nat (p + length b))).
Proof.
  intros g b s d p st H HB HL. destruct (holds_elim s d p st H) as (t & E & Hp & Hl & Hb). unfold mf_put.
  assert (Eo : mf_off s = Z.of_nat p) by (rewrite E; reflexivity). rewrite Eo. rewrite u64_small by (unfold ptrdiff_max in *; lia). rewrite <- Nat2Z.inj_add.
  assert (Store : forall s1 st1, holds s1 (d, p, st1) -> Z.of_nat (p + length b) <= mf_reserved s1 ->
    exists s', (let* m := mem_write (mf_mem s1) (mf_off s1) b in Ret (MFile m (mf_manage s1) (Z.of_nat (p + length b)) (if mf_size s1 <? Z.of_nat (p + length b) then Z.of_nat (p + length b) else mf_size s1) (mf_state s1), true)) = Ret (s', true) /\ holds s' (overwrite d p b, (p + length b)%nat, st1)).
  { clear - HB HL. intros s1 st1 H1 Hr. destruct (holds_elim s1 d p st1 H1) as (t1 & E1 & Hp & Hl & Hb). rewrite E1 in *. clear E1. set (mg := mf_manage s1) in *. clearbody mg. unfold mf_reserved in Hr. cbn [mf_mem mf_off mf_size mf_state mf_manage] in *. rewrite app_length, map_length in Hr.
    rewrite mem_write_spec by lia. cbn [obind]. eexists. split; [reflexivity|]. replace (if _ <? _ then _ else _) with (Z.of_nat (length (overwrite d p b))) by (rewrite overwrite_length by lia; destruct (Z.of_nat (length d) <? _) eqn:Q; lia).
    apply holds_intro; [rewrite overwrite_length; lia|rewrite overwrite_length, skipn_length by lia; lia|apply overwrite_bytes; auto]. }
  destruct (mf_reserved s <? Z.of_nat (p + length b)) eqn:EG.
  - destruct (reserve_grow g (Z.of_nat (p + length b)) s d p st H ltac:(lia)) as (s1 & E1 & M1 & [[H1 R1]|[H1 [H2 R1]]]). { unfold ptrdiff_max in *. lia. }
    + rewrite E1. assert (S1 : mf_state s1 = StOk) by (destruct H1 as (_ & _ & _ & ? & _); auto). rewrite S1. cbn [is_ok negb andb]. destruct (Store s1 StOk H1 R1) as (s' & E' & H'). rewrite S1 in E'. rewrite E'. exists s', true, StOk. auto.
    + rewrite E1. assert (S1 : mf_state s1 = StFail) by (destruct H1 as (_ & _ & _ & ? & _); auto). rewrite S1. cbn [is_ok negb andb]. exists s1, false, StOk. split; auto. split; auto. split; [lia|auto].
  - cbn [andb]. destruct (Store s st H ltac:(lia)) as (s' & E' & H'). rewrite ?Eo in *. rewrite E'. exists s', true, st. auto.
Qed.
Lemma holds_state : forall s d p st, holds s (d, p, st) -> mf_state s = st.
Proof. intros s d p st (_ & _ & _ & ? & _). auto. Qed.
Lemma holds_with : forall s d p st st', holds s (d, p, st) -> holds (with_state s st') (d, p, st').
Proof. intros s d p st st' (A & B & C & D & E & F & G). exact (conj A (conj B (conj C (conj eq_refl (conj E (conj F G)))))). Qed.
Lemma holds_seek : forall s d p st p', holds s (d, p, st) -> (p' <= length d)%nat -> holds (with_off s (Z.of_nat p')) (d, p', st).
Proof. intros s d p st p' (A & B & C & D & E & F & G) H. exact (conj A (conj B (conj eq_refl (conj D (conj (conj H (proj2 E)) (conj F G)))))). Qed.
Lemma le_bytes_nil : forall l : list Z, (length l <? 4)%nat = false -> length (firstn 4 l) = 4%nat.
Proof. intros. rewrite firstn_length. lia. Qed.

Lemma read_spec : forall n s d p st, holds s (d, p, st) ->
  exists s' b, mf_read (Z.of_nat n) s = Ret (s', b) /\ b = map Some (firstn n (skipn p d)) /\
    holds s' (d, (p + length (firstn n (skipn p d)))%nat, if (0 <? n)%nat && (length (firstn n (skipn p d)) =? 0)%nat then StEof else StOk).
Proof.
  intros n s d p st H. destruct (holds_elim s d p st H) as (t & E & Hp & Hl & Hb). unfold mf_read. assert (Eo : mf_off s = Z.of_nat p) by (rewrite E; reflexivity). assert (Es : mf_size s = Z.of_nat (length d)) by (rewrite E; reflexivity).
  rewrite Eo, Es. assert (Em : mf_mem s = map Some d ++ t) by (rewrite E; reflexivity). rewrite Em. unfold ptrdiff_max in *. rewrite u64_small by lia.
  destruct (Z.of_nat n <=? Z.of_nat (length d) - Z.of_nat p) eqn:E1.
  - rewrite mem_read_spec by lia. cbn [obind]. rewrite u64_small by lia. do 2 eexists. split; [reflexivity|]. split; auto. rewrite firstn_length, skipn_length. replace (Nat.min n (length d - p)) with n by lia. replace ((0 <? n)%nat && (n =? 0)%nat) with false by lia.
    rewrite <- Nat2Z.inj_add. eapply holds_with, holds_seek; eauto. lia.
  - destruct (negb (Z.of_nat n =? 0) && (Z.of_nat (length d) - Z.of_nat p =? 0)) eqn:E2.
    + do 2 eexists. split; [reflexivity|]. assert (Q : p = length d) by lia. rewrite Q in H |- *. rewrite skipn_all. rewrite firstn_nil. cbn [length]. split; auto. replace (0 <? n)%nat with true by lia. cbn [andb Nat.eqb]. rewrite Nat.add_0_r. exact (holds_with _ _ _ _ StEof H).
    + replace (Z.of_nat (length d) - Z.of_nat p) with (Z.of_nat (length d - p)) by lia. rewrite mem_read_spec by lia. cbn [obind]. rewrite u64_small by lia. do 2 eexists. split; [reflexivity|].
      rewrite (firstn_all2 (n:=n)) by (rewrite skipn_length; lia). rewrite (firstn_all2 (n:=length d - p)) by (rewrite skipn_length; lia). split; auto. rewrite skipn_length. replace ((0 <? n)%nat && (length d - p =? 0)%nat) with false by lia.
      rewrite <- Nat2Z.inj_add. eapply holds_with, holds_seek; eauto. lia.
Qed.
Lemma seek_spec : forall o how s d p st, holds s (d, p, st) -> inside_target (place o how (d, p, st)) (d, p, st) ->
  exists s' r, mf_seek o how s = Ret (s', r) /\ holds s' (fst (go (place o how (d, p, st)) (d, p, st))) /\ match r with Some x => RPos x | None => RThrow end = snd (go (place o how (d, p, st)) (d, p, st)).
Proof.
  intros o how s d p st H Ht. unfold inside_target in Ht. unfold mf_seek. destruct (holds_elim s d p st H) as (t & E & Hp & Hl & Hb). assert (Eo : mf_off s = Z.of_nat p) by (rewrite E; reflexivity). assert (Es : mf_size s = Z.of_nat (length d)) by (rewrite E; reflexivity).
  rewrite Eo, Es. unfold ptrdiff_max in *.
  assert (Eb : (match how with FromBeg => 0 | FromCur => i64 (Z.of_nat p) | FromEnd => i64 (Z.of_nat (length d)) end) + o = place o how (d, p, st)). { destruct how; cbn; unfold i64; lia. }
  rewrite Eb. set (x := place o how (d, p, st)) in *. clearbody x. replace (_ || _) with false by lia. unfold go. destruct (x <? 0) eqn:Ex.
  - do 2 eexists. split; [reflexivity|]. cbn [fst snd]. auto.
  - do 2 eexists. split; [reflexivity|]. cbn [fst snd]. split; auto. rewrite <- (Z2Nat.id x) at 1 by lia. eapply holds_with, holds_seek; eauto. lia.
Qed.
Lemma units_of_map : forall n w c, units_of n w c = map (fun k => le_value (firstn w (skipn (k * w) c))) (seq 0 n).
Proof.
  induction n; intros w c; auto. cbn [units_of seq map]. cbn [Nat.mul skipn]. f_equal. rewrite IHn, <- seq_shift, map_map. apply map_ext. intros k. rewrite skipn_add. reflexivity.
Qed.
Lemma units_length : forall n w c, length (units_of n w c) = n.
Proof. intros. rewrite units_of_map, map_length, seq_length. auto. Qed.
Lemma read_str_one : forall w before s d p, holds s (d, p, StOk) -> (0 < w <= 8)%nat ->
  exists s' r, mf_read_str w (map Some before) s = Ret (s', r) /\ match string_at w (skipn p d) with
    | Some str => holds s' (d, (p + 4 + length str * w)%nat, StOk) /\ r = map Some str
    | None => holds s' (d, length d, StEof) /\ r = map Some before end.
Proof.
  intros w before s d p H Hw. destruct (holds_elim s d p _ H) as (t & E & Hp & Hl & Hb). unfold mf_read_str. rewrite (holds_state _ _ _ _ H). cbn [is_ok negb].
  assert (Eo : mf_off s = Z.of_nat p) by (rewrite E; reflexivity). assert (Es : mf_size s = Z.of_nat (length d)) by (rewrite E; reflexivity). assert (Em : mf_mem s = map Some d ++ t) by (rewrite E; reflexivity).
  rewrite Eo, Es, Em. unfold ptrdiff_max in *. rewrite u64_small by lia. unfold string_at. rewrite skipn_length.
  assert (Short : holds (with_state (with_off s (Z.of_nat (length d))) StEof) (d, length d, StEof)) by (eapply holds_with, holds_seek; eauto; lia).
  destruct (Z.of_nat p + 4 <=? Z.of_nat (length d)) eqn:E1; [|replace (length d - p <? 4)%nat with true by lia; cbn [orb]; eauto].
  replace (length d - p <? 4)%nat with false by lia. cbn [orb]. pose proof (mem_read_spec d t p 4 ltac:(lia)) as R4. change (Z.of_nat 4) with 4 in R4. rewrite R4. cbn [obind]. rewrite cells_value_map. set (n := le_value (firstn 4 (skipn p d))).
  assert (Hn : 0 <= n < M32). { pose proof (le_value_range (firstn 4 (skipn p d))) as R. rewrite firstn_length, skipn_length in R. replace (Nat.min 4 (length d - p)) with 4%nat in R by lia. apply R. apply Forall_fst, Forall_skp. exact Hb. }
  clearbody n. replace (M64 <=? n * Z.of_nat w) with false by nia. replace (M64 <=? _) with false by nia. destruct (Z.of_nat p + 4 + n * Z.of_nat w <=? Z.of_nat (length d)) eqn:E2; [|replace (length d - p - 4 <? Z.to_nat n * w)%nat with true by nia; eauto].
  replace (length d - p - 4 <? Z.to_nat n * w)%nat with false by nia. replace (Z.of_nat p + 4) with (Z.of_nat (p + 4)) by lia. replace (n * Z.of_nat w) with (Z.of_nat (Z.to_nat n * w)) by nia. rewrite mem_read_spec by nia. cbn [obind]. do 2 eexists. split; [reflexivity|].
  rewrite units_length. rewrite <- Nat2Z.inj_add. split; [eapply holds_seek; eauto; nia|].
  rewrite (skipn_add d 4 p), units_of_map, map_map. apply map_ext_in. intros k Hk. apply in_seq in Hk. rewrite skipn_map, firstn_map, cells_value_map. f_equal. f_equal.
  set (x := skipn (p + 4) d). rewrite <- (firstn_skipn (Z.to_nat n * w) x) at 2. rewrite skipn_app, firstn_app. rewrite skipn_length, firstn_length. assert (Lx : length x = (length d - (p + 4))%nat) by (unfold x; rewrite skipn_length; auto).
  replace (w - (Nat.min (Z.to_nat n * w) (length x) - k * w))%nat with 0%nat by nia. cbn [firstn]. rewrite app_nil_r. reflexivity.
Qed.

Theorem mf_step_spec : forall g op s a, holds s a -> inside op a ->
  exists fails s', mf_step g op s = Ret (s', snd (spec_step fails op a)) /\ holds s' (fst (spec_step fails op a)) /\ (fails = true -> may_fail g op s a).
Proof.
  intros g op s [[d p] st] H Hin. assert (Est := holds_state _ _ _ _ H). destruct (holds_elim s d p st H) as (t & E & Hp & Hl & Hb).
  assert (Eo : mf_off s = Z.of_nat p) by (rewrite E; reflexivity). assert (Es : mf_size s = Z.of_nat (length d)) by (rewrite E; reflexivity). assert (Em : mf_mem s = map Some d ++ t) by (rewrite E; reflexivity). unfold ptrdiff_max in Hl.
  destruct op as [n|b|x n|w|w v|w before|w str|o how|n| |r tight| |]; cbn [mf_step inside] in *.
  - destruct (read_spec n s d p st H) as (s' & b & E1 & -> & H1). exists false, s'. rewrite E1. cbn [obind spec_step fst snd]. split; [reflexivity|]. split; [auto|discriminate].
  - destruct Hin as [HB HL]. destruct (put_spec g b s d p st H HB HL) as (s' & done & st' & E1 & R). unfold mf_write. rewrite E1. cbn [obind]. exists (negb done). destruct done; cbn [negb spec_step store fst snd obind].
    + eexists. split; [reflexivity|]. destruct R as [R _]. split; [eapply holds_with; eauto|discriminate].
    + eexists. split; [reflexivity|]. destruct R as (R1 & R2 & R3). split; auto. intros _. cbn. exists (p + length b)%nat. auto.
  - destruct Hin as [HB HL]. destruct (put_spec g (repeat x n) s d p st H (repeat_bytes x n HB) ltac:(rewrite repeat_length; auto)) as (s' & done & st' & E1 & R). unfold mf_write_byte. rewrite E1. cbn [obind]. exists (negb done). destruct done; cbn [negb spec_step store fst snd obind].
    + eexists. split; [reflexivity|]. destruct R as [R _]. split; [eapply holds_with; eauto|discriminate].
    + eexists. split; [reflexivity|]. destruct R as (R1 & R2 & R3). split; auto. intros _. rewrite repeat_length in *. cbn. exists (p + n)%nat. auto.
  - exists false. unfold mf_read_data. cbn [spec_step]. rewrite Est. destruct (is_ok st) eqn:Q; cbn [negb]; [|cbn [obind]; eexists; split; [reflexivity|]; cbn [fst snd]; split; auto; discriminate]. assert (st = StOk) by (destruct st; auto; discriminate). clear Est; subst st.
    rewrite Eo, Es, Em, u64_small by lia. destruct (Z.of_nat p + Z.of_nat w <=? Z.of_nat (length d)) eqn:E1.
    + replace (p + w <=? length d)%nat with true by lia. rewrite mem_read_spec by lia. cbn [obind fst snd]. eexists. rewrite cells_value_map. split; [reflexivity|]. split; [|discriminate]. rewrite <- Nat2Z.inj_add. eapply holds_seek; eauto. lia.
    + replace (p + w <=? length d)%nat with false by lia. cbn [obind fst snd]. eexists. split; [reflexivity|]. split; [|discriminate]. eapply holds_with, holds_seek; eauto.
  - unfold mf_write_data. cbn [spec_step]. rewrite Est. destruct (is_ok st) eqn:Q; cbn [negb]; [|exists false; cbn [obind]; eexists; split; [reflexivity|]; cbn [fst snd]; split; auto; discriminate]. assert (st = StOk) by (destruct st; auto; discriminate). clear Est; subst st.
    destruct (put_spec g (le_bytes w v) s d p StOk H (le_bytes_bytes w v) ltac:(rewrite le_bytes_length; lia)) as (s' & done & st' & E1 & R). rewrite E1. cbn [obind]. exists (negb done), s'. split; [reflexivity|]. destruct done; cbn [negb store fst].
    + destruct R as [R1 R2]. rewrite R2 in R1 by auto. split; [auto|discriminate].
    + destruct R as (R1 & R2 & R3). split; auto. intros _. cbn. rewrite le_bytes_length in *. exists (p + w)%nat. auto.
  - exists false. cbn [spec_step]. destruct (is_ok st) eqn:Q; cbn [negb].
    + assert (st = StOk) by (destruct st; auto; discriminate). clear Est; subst st. destruct (read_str_one w before s d p H Hin) as (s' & r & E1 & R). rewrite E1. cbn [obind]. destruct (string_at w (skipn p d)) as [str|]; destruct R as [R ->]; cbn [fst snd]; eexists; (split; [reflexivity|]; split; [auto|discriminate]).
    + unfold mf_read_str. rewrite Est, Q. cbn [negb obind fst snd]. eexists. split; [reflexivity|]. split; auto. discriminate.
  - unfold mf_write_str. cbn [spec_step]. rewrite Est. destruct (is_ok st) eqn:Q; cbn [negb]; [|exists false; cbn [obind]; eexists; split; [reflexivity|]; cbn [fst snd]; split; auto; discriminate]. assert (st = StOk) by (destruct st; auto; discriminate). clear Est; subst st.
    destruct Hin as [Hw HL]. replace (4294967295 <? _) with false by lia.
    destruct (put_spec g (le_bytes 4 (Z.of_nat (length str)) ++ flat_map (le_bytes w) str) s d p StOk H) as (s' & done & st' & E1 & R). { apply Forall_app. split; [apply le_bytes_bytes|apply flat_bytes]. } { rewrite app_length, le_bytes_length, flat_len. nia. }
    rewrite E1. cbn [obind]. exists (negb done), s'. split; [reflexivity|]. destruct done; cbn [negb store fst].
    + destruct R as [R1 R2]. rewrite R2 in R1 by auto. split; [auto|discriminate].
    + destruct R as (R1 & R2 & R3). split; auto. intros _. unfold may_fail. eexists. split; [cbn; reflexivity|]. rewrite app_length, le_bytes_length, flat_len in *. auto.
  - destruct (seek_spec o how s d p st H Hin) as (s' & r & E1 & H1 & Hr). exists false, s'. unfold of_seek. rewrite E1. cbn [obind spec_step]. rewrite <- Hr. split; auto. split; auto. discriminate.
  - exists false. cbn [spec_step]. unfold mf_skip, ptrdiff_max in *. destruct Hin as [Hn Hin]. destruct (2 ^ 63 - 1 <? n) eqn:Q.
    + exists s. cbn. split; auto. split; auto. discriminate.
    + destruct (seek_spec n FromCur s d p st H ltac:(apply Hin; lia)) as (s' & r & E1 & H1 & Hr). exists s'. unfold of_seek. rewrite E1. cbn [obind]. rewrite <- Hr. split; auto. split; auto. discriminate.
  - exists false. cbn [spec_step fst snd]. eexists. split; [reflexivity|]. split; [|discriminate]. unfold mf_truncate. rewrite Eo. unfold mf_reserve, mf_reserved. cbn [mf_mem]. rewrite Em, app_length, map_length. replace (Z.of_nat p <=? _) with true by lia. cbn [andb negb orb].
    unfold with_state. cbn [mf_mem mf_manage mf_off mf_size]. rewrite <- (firstn_skipn p d) at 1. rewrite map_app, <- app_assoc. replace (Z.of_nat p) with (Z.of_nat (length (firstn p d))) at 2 by (rewrite firstn_length; lia).
    apply holds_intro; [rewrite firstn_length; lia|rewrite app_length, map_length, firstn_length, skipn_length; unfold ptrdiff_max; lia|apply Forall_fst; auto].
  - destruct Hin as [Hr Hin]. cbn [spec_step]. unfold mf_reserve. destruct ((Z.of_nat r <=? mf_reserved s) && (negb tight || (mf_reserved s <=? Z.of_nat r))) eqn:E1.
    + exists false. eexists. split; [reflexivity|]. cbn [fst]. split; [|discriminate]. assert (E2 : (if tight then firstn r d else d) = d). { destruct tight; auto. cbn [negb orb] in E1. apply firstn_all2. unfold mf_reserved in E1. rewrite Em, app_length, map_length in E1. lia. } rewrite E2. eapply holds_with; eauto.
    + assert (G : mf_reserved s < Z.of_nat r \/ tight = true /\ Z.of_nat r < mf_reserved s) by (destruct tight; cbn in E1; lia). destruct (mf_manage s) eqn:EM; cbn [negb].
      2:{ exists true. eexists. split; [reflexivity|]. cbn [fst]. split; [eapply holds_with; eauto|]. intros _. cbn. auto. }
      set (rv := if tight then Z.of_nat r else grow_size (Z.of_nat r)). destruct (negb (g && (rv <=? ptrdiff_max)) && negb (rv =? 0)) eqn:EF.
      * exists true. eexists. split; [reflexivity|]. cbn [fst]. split; [eapply holds_with; eauto|]. intros _. cbn. split; auto. destruct g; auto. right. right. cbn in EF. unfold ptrdiff_max in *. destruct tight; unfold rv in EF; [lia|]. destruct (Z_le_gt_dec (Z.of_nat r) (2 ^ 62)); [|lia]. pose proof (grow_size_bounds (Z.of_nat r) ltac:(lia)). lia.
      * exists false. eexists. split; [reflexivity|]. cbn [fst]. split; [|discriminate]. rewrite Em, Eo, Es. unfold ptrdiff_max in *. destruct tight; unfold rv in *.
        -- rewrite Nat2Z.id. destruct (Z.of_nat r <? Z.of_nat (length d)) eqn:EC.
           ++ rewrite resize_cut by lia. rewrite <- (app_nil_r (map Some (firstn r d))). replace (Z.of_nat r) with (Z.of_nat (length (firstn r d))) by (rewrite firstn_length; lia). apply holds_intro; [specialize (Hin eq_refl); rewrite firstn_length; lia|rewrite firstn_length; cbn; unfold ptrdiff_max; lia|apply Forall_fst; auto].
           ++ destruct (resize_spec d t r) as (t' & R & L); [lia|]. rewrite R. rewrite firstn_all2 by lia. apply holds_intro; auto. unfold ptrdiff_max. destruct (Z.eq_dec (Z.of_nat r) 0); [lia|]. destruct g; cbn in EF; lia.
        -- destruct G as [G|[? _]]; [|discriminate]. unfold mf_reserved in G. rewrite Em, app_length, map_length in G. pose proof (grow_size_bounds (Z.of_nat r) ltac:(lia)) as GB.
           destruct (resize_spec d t (Z.to_nat (grow_size (Z.of_nat r)))) as (t' & R & L); [lia|]. rewrite R. replace (grow_size (Z.of_nat r) <? _) with false by lia. apply holds_intro; auto. unfold ptrdiff_max. destruct g; cbn in EF; lia.
  - exists false. cbn [spec_step fst snd]. eexists. split; [reflexivity|]. split; [|discriminate]. unfold mf_close, mf_new. apply (holds_intro [] [] true 0 StOk); cbn; auto. unfold ptrdiff_max; lia.
  - cbn [spec_step]. unfold mf_copy. destruct g; cbn [negb].
    + exists false. rewrite Em, Es. change 0 with (Z.of_nat 0). rewrite mem_read_spec by lia. cbn [obind skipn]. rewrite firstn_all. eexists. split; [reflexivity|]. cbn [fst snd]. split; [|discriminate]. rewrite Eo. rewrite <- (app_nil_r (map Some d)). apply holds_intro; auto. cbn. unfold ptrdiff_max. lia.
    + exists true. eexists. split; [reflexivity|]. cbn. auto.
Qed.

(** C45: every history of calls that stay inside the file, whatever the allocator decides. *)
Theorem mf_run_spec : forall ops s a, holds s a ->
  (forall fails, length fails = length ops -> inside_all (map fst ops) fails a) ->
  exists fails s', length fails = length ops /\ mf_run ops s = Ret (s', snd (spec_run (map fst ops) fails a)) /\ holds s' (fst (spec_run (map fst ops) fails a)).
Proof.
  induction ops as [|[op g] r IH]; intros s a H Hin.
  - exists [], s. cbn. auto.
  - assert (H0 : inside op a). { specialize (Hin (repeat false (length ((op, g) :: r))) (repeat_length _ _)). cbn in Hin. tauto. }
    destruct (mf_step_spec g op s a H H0) as (f & s1 & E1 & H1 & Hf). cbn [mf_run map fst]. rewrite E1. cbn [obind].
    destruct (IH s1 (fst (spec_step f op a)) H1) as (fs & s2 & L2 & E2 & H2). { intros fails Hl. specialize (Hin (f :: fails)). cbn in Hin. apply Hin. lia. }
    exists (f :: fs), s2. rewrite E2. cbn [obind spec_run length]. destruct (spec_step f op a) as [a1 x] eqn:Q. cbn [fst snd] in *. destruct (spec_run (map fst r) fs a1) as [a2 y] eqn:Q2. cbn [fst snd] in *. split; [lia|]. split; auto.
Qed.

Lemma reserve_manage : forall g r t s, mf_manage (mf_reserve g r t s) = mf_manage s.
Proof. intros. unfold mf_reserve. dif; reflexivity. Qed.
Lemma put_manage : forall g b s s' d, mf_put g b s = Ret (s', d) -> mf_manage s' = mf_manage s.
Proof.
  intros g b s s' d E. unfold mf_put in E. set (e := u64 _) in *. clearbody e. set (s1 := if mf_reserved s <? e then mf_reserve g e false s else s) in *.
  assert (M : mf_manage s1 = mf_manage s) by (unfold s1; destruct (_ <? _); [apply reserve_manage|reflexivity]). clearbody s1. destruct (_ && _); [injection E as <- <-; auto|]. destruct (mem_write (mf_mem s1) (mf_off s1) b); try discriminate. cbn in E. injection E as <- <-. auto.
Qed.
Ltac inv_ret E := repeat (match type of E with
  | obind ?x _ = _ => let Q := fresh "Q" in destruct x eqn:Q; cbn [obind] in E; try discriminate E
  | (if ?b then _ else _) = _ => destruct b; try discriminate E
  | (let '(_, _) := ?x in _) = _ => let Q := fresh "Q" in destruct x eqn:Q
  | match ?x with _ => _ end = _ => let Q := fresh "Q" in destruct x eqn:Q; try discriminate E
  end).
Lemma mf_step_manage : forall g op s s' r, mf_step g op s = Ret (s', r) -> mf_manage s = true -> mf_manage s' = true.
Proof.
  intros g op s s' r E M. destruct op as [n|b|x n|w|w v|w before|w str|o how|n| |rr tight| |]; cbn [mf_step] in E.
  - unfold mf_read in E. inv_ret E; injection E as <- _; inv_ret Q; injection Q as <- _; auto.
  - unfold mf_write in E. inv_ret E. injection E as <- _. inv_ret Q; injection Q as <- _; cbn [with_state mf_manage]; apply put_manage in Q1; congruence.
  - unfold mf_write_byte in E. inv_ret E. injection E as <- _. inv_ret Q; injection Q as <-; cbn [with_state mf_manage]; apply put_manage in Q0; congruence.
  - unfold mf_read_data in E. inv_ret E. injection E as <- _. inv_ret Q; injection Q as <- _; auto.
  - unfold mf_write_data in E. inv_ret E. injection E as <- _. inv_ret Q; injection Q as <-; auto. apply put_manage in Q0; congruence.
  - unfold mf_read_str in E. inv_ret E. injection E as <- _. inv_ret Q; injection Q as <- _; auto.
  - unfold mf_write_str in E. inv_ret E. injection E as <- _. inv_ret Q; injection Q as <-; auto. apply put_manage in Q0; congruence.
  - unfold of_seek, mf_seek in E. inv_ret E; injection E as <- _; inv_ret Q; injection Q as <- _; auto.
  - unfold of_seek, mf_skip, mf_seek in E. inv_ret E; injection E as <- _; inv_ret Q; injection Q as <- _; auto.
  - injection E as <- _. unfold mf_truncate. rewrite reserve_manage. auto.
  - injection E as <- _. rewrite reserve_manage. auto.
  - injection E as <- _. reflexivity.
  - unfold mf_copy in E. destruct (negb g); [injection E as <- _; auto|]. destruct (mem_read _ _ _); cbn [obind] in E; try discriminate; injection E as <- _; auto.
Qed.

(** With memory available nothing fails: the file is exactly the byte array. *)
Definition fits (op : mf_op) (a : afile) : Prop :=
  match op with
  | MReserve r _ => Z.of_nat r <= 2 ^ 62
  | _ => forall n, needed op a = Some n -> Z.of_nat n <= 2 ^ 62
  end.
Fixpoint all_fit (ops : list mf_op) (a : afile) : Prop :=
  match ops with [] => True | op :: r => inside op a /\ fits op a /\ all_fit r (fst (spec_step false op a)) end.
Theorem mf_run_exact : forall ops s a, holds s a -> mf_manage s = true -> all_fit ops a ->
  exists s', mf_run (map (fun op => (op, true)) ops) s = Ret (s', snd (spec_run ops (repeat false (length ops)) a)) /\ holds s' (fst (spec_run ops (repeat false (length ops)) a)).
Proof.
  induction ops as [|op r IH]; intros s a H M Hin.
  - exists s. cbn. auto.
  - destruct Hin as (H0 & HF & Hr). destruct (mf_step_spec true op s a H H0) as (f & s1 & E1 & H1 & Hf).
    assert (f = false). { destruct f; auto. specialize (Hf eq_refl). exfalso. destruct op; cbn [may_fail fits] in *; try (destruct Hf as (n & N1 & N2 & N3); specialize (HF n N1); destruct N3 as [?|[?|?]]; [discriminate|congruence|lia]); [|discriminate].
      destruct Hf as (_ & [?|[?|?]]); [discriminate|congruence|lia]. } subst f.
    cbn [map mf_run length repeat spec_run]. rewrite E1. cbn [obind]. pose proof (mf_step_manage _ _ _ _ _ E1 M) as M1. destruct (IH s1 _ H1 M1 Hr) as (s2 & E2 & H2). rewrite E2. cbn [obind]. exists s2.
    destruct (spec_step false op a) as [a1 x]. cbn [fst snd] in *. destruct (spec_run r (repeat false (length r)) a1) as [a2 y]. auto.
Qed.
Theorem mf_new_holds : holds mf_new ([], 0%nat, StOk).
Proof. apply (holds_intro [] [] true 0 StOk); cbn; auto. unfold ptrdiff_max. lia. Qed.
Theorem mf_over_holds : forall data reserved manage, Forall is_byte data -> (length data <= reserved)%nat -> Z.of_nat reserved <= ptrdiff_max -> holds (mf_over data reserved manage) (data, 0%nat, StOk).
Proof. intros. unfold mf_over. apply (holds_intro data _ manage 0 StOk); auto; [lia|]. rewrite repeat_length. lia. Qed.
Example mf_run_ex : let ops := [MWrite [1; 2; 3; 4; 5]; MSeek 1 FromBeg; MWriteData 2 0x0908; MSeek (-4) FromCur; MRead 2; MSeek (-2) FromEnd; MRead 9; MRead 1; MSeek 2 FromBeg; MTruncate; MReserve 9 true; MSeek 0 FromBeg; MRead 9] in
  all_fit ops ([], 0%nat, StOk) /\
  snd (spec_run ops (repeat false (length ops)) ([], 0%nat, StOk)) =
    [RCount 5; RPos 1; RNone; RThrow; RBytes [Some 4; Some 5]; RPos 3; RBytes [Some 4; Some 5]; RBytes []; RPos 2; RNone; RNone; RPos 0; RBytes [Some 1; Some 8]].
Proof.
  split; [|vm_compute; reflexivity].
  Ltac fit_step := match goal with |- all_fit _ ?a => let v := eval vm_compute in a in change a with v end; match goal with |- all_fit (?op :: ?r) ?a => change (inside op a /\ fits op a /\ all_fit r (fst (spec_step false op a))) end; split;
    [cbn [inside inside_target place length]; unfold is_byte, ptrdiff_max; repeat (split || apply Forall_cons || apply Forall_nil); try lia; try exact I; try discriminate
    |split; [cbn [fits needed is_ok]; try (intros n E; injection E as <-; cbn [length Nat.add]); try discriminate; lia|]]. do 13 fit_step. exact I.
Qed.
(** Strings and values written can be read back after seeking to where they were written. *)
Lemma skipn_over : forall d p b, (p <= length d)%nat -> skipn p (overwrite d p b) = b ++ skipn (p + length b) d.
Proof. intros. unfold overwrite. rewrite skipn_app, firstn_length. replace (p - Nat.min p (length d))%nat with 0%nat by lia. rewrite skipn_all2 by (rewrite firstn_length; lia). reflexivity. Qed.
Theorem mf_str_round_trip : forall s d p w str before, holds s (d, p, StOk) -> mf_manage s = true -> (0 < w <= 8)%nat -> Z.of_nat (length str) < 2 ^ 32 ->
  Forall (fun c => 0 <= c < 256 ^ Z.of_nat w) str -> Z.of_nat (p + (4 + w * length str)) <= 2 ^ 62 ->
  exists s' d', mf_run (map (fun op => (op, true)) [MWriteStr w str; MSeek (Z.of_nat p) FromBeg; MReadStr w before]) s = Ret (s', [RNone; RPos (Z.of_nat p); RStr (map Some str)]) /\
    holds s' (d', (p + (4 + w * length str))%nat, StOk) /\ d' = firstn p d ++ le_bytes 4 (Z.of_nat (length str)) ++ flat_map (le_bytes w) str ++ skipn (p + (4 + w * length str)) d.
Proof.
  intros s d p w str before H M Hw HL HF HN. set (enc := le_bytes 4 (Z.of_nat (length str)) ++ flat_map (le_bytes w) str). assert (Le : length enc = (4 + w * length str)%nat) by (unfold enc; rewrite app_length, le_bytes_length, flat_len; auto).
  assert (Hp : (p <= length d)%nat) by (destruct (holds_elim _ _ _ _ H) as (t & _ & ? & _); auto).
  assert (Lo := overwrite_length d p enc Hp).
  assert (SA : string_at w (skipn p (overwrite d p enc)) = Some str).
  { rewrite skipn_over by auto. unfold string_at. assert (V : le_value (firstn 4 (enc ++ skipn (p + length enc) d)) = Z.of_nat (length str)).
    { unfold enc. rewrite <- app_assoc, firstn_app, le_bytes_length, Nat.sub_diag, firstn_all2 by (rewrite le_bytes_length; lia). cbn [firstn]. rewrite app_nil_r. apply le_value_bytes. cbn. lia. }
    rewrite V, Nat2Z.id. rewrite app_length, Le. replace (_ || _) with false by nia. f_equal. unfold enc at 1. rewrite <- app_assoc, skipn_app, le_bytes_length, Nat.sub_diag, skipn_all2 by (rewrite le_bytes_length; lia). cbn [skipn app]. apply units_flat. auto. }
  destruct (mf_run_exact [MWriteStr w str; MSeek (Z.of_nat p) FromBeg; MReadStr w before] s (d, p, StOk) H M) as (s' & E & H').
  { cbn [all_fit spec_step is_ok fst store]. fold enc. cbn [go place inside fits inside_target needed is_ok].
    split; [auto|]. split; [intros n Q; injection Q as <-; auto|]. split; [lia|]. split; [discriminate|]. replace (Z.of_nat p <? 0) with false by lia. cbn [fst inside fits needed]. split; [exact Hw|]. split; [discriminate|]. exact I. }
  exists s', (overwrite d p enc). revert E H'. cbn [length repeat spec_run spec_step is_ok fst snd store map]. fold enc. cbn [go place]. replace (Z.of_nat p <? 0) with false by lia. cbn [fst snd spec_step is_ok negb]. rewrite Nat2Z.id, SA. cbn [fst snd].
  intros E H'. split; auto. split. { replace (p + (4 + w * length str))%nat with (p + 4 + length str * w)%nat by lia. auto. }
  unfold overwrite. rewrite Le. unfold enc. rewrite <- app_assoc. reflexivity.
Qed.

(** memory_file as a stream: what is left to read, and what has been written so far *)
Definition mf_content (s : mfile) : list Z := match all_some (firstn (Z.to_nat (mf_size s)) (mf_mem s)) with Some d => d | None => [] end.
Definition mf_left (s : mfile) : list Z := skipn (Z.to_nat (mf_off s)) (mf_content s).
Definition mf_out (s : mfile) : list Z := firstn (Z.to_nat (mf_off s)) (mf_content s).
Definition mf_inv (s : mfile) : Prop := exists a, holds s a.
Lemma holds_content : forall s d p st, holds s (d, p, st) -> mf_content s = d /\ mf_off s = Z.of_nat p.
Proof. intros s d p st (A & B & C & _). unfold mf_content. rewrite B, Nat2Z.id, A, all_some_map. auto. Qed.
Theorem mf_source : forall g, source (mf_dev g) mf_inv mf_left.
Proof.
  intros g. split.
  - intros s n s' b [[[d p] st] H] E. cbn [mf_dev d_read] in E. destruct (read_spec n s d p st H) as (s1 & b1 & E1 & -> & H1). rewrite E1, all_some_map in E. injection E as <- <-. split; [eexists; eauto|].
    unfold mf_left. destruct (holds_content _ _ _ _ H) as [-> ->]. destruct (holds_content _ _ _ _ H1) as [-> ->]. rewrite !Nat2Z.id. rewrite <- skipn_add. split.
    { rewrite <- (firstn_skipn n (skipn p d)) at 1. f_equal. destruct (Nat.le_gt_cases n (length (skipn p d))); [rewrite firstn_length_le; auto|]. rewrite (firstn_all2 (n:=n)) by lia. rewrite !skipn_all2 by lia. auto. }
    split; [apply firstn_le_length|]. cbn [mf_dev d_state]. rewrite (holds_state _ _ _ _ H1). destruct (0 <? n)%nat eqn:Q; cbn [andb]; [|lia]. destruct (firstn n (skipn p d)) eqn:F; cbn [length Nat.eqb].
    + split; [lia|]. split; auto. destruct (skipn p d); auto. destruct n; [lia|discriminate].
    + discriminate.
  - intros s st [[[d p] st0] H]. cbn [mf_dev d_set d_state]. split; [eexists; eapply holds_with; eauto|]. split; reflexivity.
Qed.
Theorem mf_never_fails : forall g, never_fails (mf_dev g) mf_inv.
Proof.
  intros g s n [[[d p] st] H]. cbn [mf_dev d_read d_state]. destruct (read_spec n s d p st H) as (s1 & b1 & E1 & -> & H1). rewrite E1, all_some_map. cbn [fst]. rewrite (holds_state _ _ _ _ H1). destruct (_ && _); discriminate.
Qed.

(** ** C46: positions beyond the end *)
(** Reading beyond the end of the buffer is a memory access outside it ... *)
Theorem mf_read_beyond_refuted : mf_run [(MSeek 100 FromBeg, true); (MRead 1, true)] (mf_over [1; 2; 3] 8 true) = UB.
Proof. vm_compute. reflexivity. Qed.
(** ... and between the end of the file and the end of the buffer it gives bytes that were never written. *)
Theorem mf_read_beyond_junk_refuted : exists s, mf_run [(MSeek 5 FromBeg, true); (MRead 2, true)] (mf_over [1; 2; 3] 8 true) = Ret (s, [RPos 5; RBytes [None; None]]) /\ mf_state s = StOk.
Proof. eexists. split; vm_compute; reflexivity. Qed.
(** Typed reads do check the position, and reading at the end itself is eof. *)
Theorem mf_read_beyond_partial : forall w s, mf_state s = StOk -> (0 < w <= 8)%nat -> 0 <= mf_size s < mf_off s -> mf_off s < 2 ^ 63 ->
  mf_read_data w s = Ret (with_state (with_off s (mf_size s)) StEof, Some 0).
Proof. intros w s St Hw Ho Hm. unfold mf_read_data. rewrite St. cbn [is_ok negb]. rewrite u64_small by lia. replace (_ <=? _) with false by lia. reflexivity. Qed.
Theorem mf_read_end_partial : forall n s d st, holds s (d, length d, st) -> (0 < n)%nat -> mf_read (Z.of_nat n) s = Ret (with_state s StEof, []).
Proof.
  intros n s d st H Hn. destruct H as (A & B & C & _). unfold mf_read. rewrite B, C, Z.sub_diag. change (u64 0) with 0. replace (Z.of_nat n <=? 0) with false by lia. replace (negb (Z.of_nat n =? 0) && (0 =? 0)) with true by lia. reflexivity.
Qed.

(** ** C82: what is between the old end and the position after writing beyond the end *)
Theorem mf_gap_refuted : exists s, mf_run [(MSeek 3 FromBeg, true); (MWrite [9], true); (MSeek 0 FromBeg, true); (MRead 4, true)] (mf_over [1] 8 true) =
  Ret (s, [RPos 3; RCount 1; RPos 0; RBytes [Some 1; None; None; Some 9]]) /\ mf_size s = 4.
Proof. eexists. split; vm_compute; reflexivity. Qed.

(** ** C83: truncate *)
(** Full statement: truncate() leaves a file whose size is the position, or fails and changes nothing.
    On a buffer that may not be reallocated the size is set although there is no room for it: reading
    the file then reads outside the buffer. *)
Theorem mf_truncate_refuted : let s0 := mf_over [1; 2; 3] 3 false in
  exists s, mf_run [(MSeek 10 FromBeg, true); (MTruncate, true)] s0 = Ret (s, [RPos 10; RNone]) /\ mf_state s = StFail /\ mf_size s = 10 /\ mf_reserved s = 3 /\
    mf_run [(MSeek 10 FromBeg, true); (MTruncate, true); (MSeek 0 FromBeg, true); (MRead 10, true)] s0 = UB.
Proof. eexists. vm_compute. repeat split; reflexivity. Qed.
Theorem mf_truncate_partial : forall g s d p st, holds s (d, p, st) -> holds (mf_truncate g s) (firstn p d, p, StOk).
Proof. intros g s d p st H. destruct (mf_step_spec g MTruncate s (d, p, st) H I) as (f & s' & E & H' & _). cbn [mf_step] in E. injection E as <-. exact H'. Qed.

(** ** C84: a string that is not complete *)
(** Full statement: when the string cannot be read completely, the variable does not keep its old
    value.  It does (the branch meant to store the incomplete string tests the wrong condition). *)
Theorem mf_read_str_refuted : exists s, mf_run [(MReadStr 1 [111; 108; 100], true)] (mf_over [5; 0; 0; 0; 65; 66] 8 true) =
  Ret (s, [RStr [Some 111; Some 108; Some 100]]) /\ mf_state s = StEof.
Proof. eexists. split; vm_compute; reflexivity. Qed.

(** ** C85: set and get *)
Theorem mf_set_get_partial : forall s d p st off w v, holds s (d, p, st) -> (0 < w)%nat -> (off + w <= length d)%nat -> 0 <= v < 256 ^ Z.of_nat w ->
  exists s', mf_set false (Z.of_nat off) w v s = Ret s' /\ holds s' (overwrite d off (le_bytes w v), p, st) /\ mf_get false (Z.of_nat off) w s' = Ret (Some v).
Proof.
  intros s d p st off w v H Hw Ho Hv. destruct (holds_elim s d p st H) as (t & E & Hp & Hl & Hb). rewrite E. unfold mf_set. cbn [andb mf_mem mf_manage mf_off mf_size mf_state]. rewrite mem_write_spec by (rewrite ?le_bytes_length; lia). cbn [obind]. eexists. split; [reflexivity|].
  assert (Lo : length (overwrite d off (le_bytes w v)) = length d) by (rewrite overwrite_length, le_bytes_length; lia).
  split. { rewrite <- Lo. apply holds_intro; [lia|rewrite Lo, skipn_length; lia|apply overwrite_bytes; auto; apply le_bytes_bytes]. }
  unfold mf_get. cbn [andb mf_mem]. rewrite mem_read_spec by lia. cbn [obind]. rewrite cells_value_map, skipn_over by lia. rewrite firstn_app, le_bytes_length, Nat.sub_diag, firstn_all2 by (rewrite le_bytes_length; lia). cbn [firstn]. rewrite app_nil_r, le_value_bytes by auto. reflexivity.
Qed.
(** Full statement: the same with assertions on.  They reject the last element of the file. *)
Theorem mf_set_last_refuted : exists s d off, holds s (d, 0%nat, StOk) /\ (off + 2 <= length d)%nat /\ mf_set true (Z.of_nat off) 2 7 s = Throw /\ mf_get true (Z.of_nat off) 2 s = Throw.
Proof. exists (mf_over [1; 2; 3; 4] 4 true), [1; 2; 3; 4], 2%nat. split; [apply mf_over_holds; [repeat constructor; unfold is_byte; lia|cbn; lia|unfold ptrdiff_max; lia]|]. split; [cbn; lia|]. vm_compute. auto. Qed.

(** ** C86: copies *)
Theorem mf_assign_spec : forall dst src a, holds src a -> exists c, mf_assign true dst src = Ret (c, true) /\ holds c a /\ mf_manage c = true.
Proof.
  intros dst src [[d p] st] H. destruct (holds_elim src d p st H) as (t & E & Hp & Hl & Hb). rewrite E. unfold mf_assign. cbn [negb mf_mem mf_manage mf_off mf_size mf_state]. change 0 with (Z.of_nat 0). rewrite mem_read_spec by lia. cbn [obind skipn]. rewrite firstn_all. eexists. split; [reflexivity|]. split; auto.
  rewrite <- (app_nil_r (map Some d)). apply holds_intro; auto. cbn. lia.
Qed.
Theorem mf_copy_partial : forall s d p st, holds s (d, p, st) -> exists c, mf_copy true s = Ret c /\ holds c (d, p, StOk).
Proof. intros s d p st H. destruct (mf_step_spec true MCopy s (d, p, st) H I) as (f & s' & E & H' & F). cbn [mf_step] in E. destruct f; [specialize (F eq_refl); discriminate|]. destruct (mf_copy true s) as [c| |]; try discriminate. injection E as ->. eauto. Qed.
(** Full statement: the copy has the state of the original, and an assignment that fails leaves a
    usable file.  Neither holds. *)
Theorem mf_copy_state_refuted : exists s c, holds s ([], 0%nat, StFail) /\ mf_copy true s = Ret c /\ mf_state c = StOk.
Proof. exists (with_state mf_new StFail), mf_new. split; [eapply holds_with; apply mf_new_holds|]. auto. Qed.
Theorem mf_assign_fail_refuted : exists dst src, holds dst ([1], 0%nat, StOk) /\ holds src ([2], 0%nat, StOk) /\
  exists s, mf_assign false dst src = Ret (s, false) /\ mf_read 1 s = UB.
Proof.
  exists (mf_over [1] 1 true), (mf_over [2] 1 true). split; [|split]; [apply mf_over_holds; [repeat constructor; unfold is_byte; lia|cbn; lia|unfold ptrdiff_max; lia]|apply mf_over_holds; [repeat constructor; unfold is_byte; lia|cbn; lia|unfold ptrdiff_max; lia]|].
  eexists. split; [reflexivity|]. reflexivity.
Qed.

(** ** C87: reserve *)
(** Full statement: reserve(n) either fails or leaves at least n bytes reserved, and never loses
    content unless tight.  The computation of the size to allocate wraps around for absurd sizes. *)
Theorem mf_reserve_partial : forall g r tight s d p st, holds s (d, p, st) -> Z.of_nat r < 2 ^ 63 -> (tight = true -> (length d <= r)%nat) ->
  exists st', holds (mf_reserve g (Z.of_nat r) tight s) (d, p, st') /\ (st' = StOk -> Z.of_nat r <= mf_reserved (mf_reserve g (Z.of_nat r) tight s)) /\ (st' = StFail \/ st' = StOk).
Proof.
  intros g r tight s d p st H Hr Ht. assert (Hp : (p <= length d)%nat) by (destruct (holds_elim _ _ _ _ H) as (t & _ & ? & _); auto).
  destruct (mf_step_spec g (MReserve r tight) s (d, p, st) H) as (f & s' & E & H' & F). { cbn. split; auto. intros Q. specialize (Ht Q). lia. }
  cbn [mf_step] in E. injection E as E _. rewrite E in *. cbn [spec_step] in H'. destruct f; cbn [fst] in H'; [exists StFail; split; [auto|split; [discriminate|auto]]|]. exists StOk. assert (E2 : (if tight then firstn r d else d) = d) by (destruct tight; auto; apply firstn_all2, Ht; auto). rewrite E2 in H'. split; auto. split; auto. intros _.
  pose proof (holds_state _ _ _ _ H') as S'. subst s'. unfold mf_reserve in *. destruct ((Z.of_nat r <=? mf_reserved s) && (negb tight || (mf_reserved s <=? Z.of_nat r))) eqn:E1. { unfold mf_reserved in *. cbn [with_state mf_mem] in *. lia. }
  destruct (mf_manage s); cbn [negb] in *; [|discriminate S']. set (rv := if tight then Z.of_nat r else grow_size (Z.of_nat r)) in *.
  assert (Z.of_nat r <= rv) by (unfold rv; destruct tight; [lia|]; pose proof (grow_size_bounds (Z.of_nat r) ltac:(lia)); lia).
    clearbody rv. destruct (negb (g && (rv <=? ptrdiff_max)) && negb (rv =? 0)); [discriminate S'|]. unfold mf_reserved. cbn [mf_mem]. unfold resize. rewrite app_length, firstn_length, repeat_length. lia.
Qed.
Theorem mf_reserve_refuted : exists required s, holds s ([1; 2; 3], 0%nat, StOk) /\ 0 <= required < M64 /\
  let s' := mf_reserve true required false s in mf_state s' = StOk /\ mf_size s' = 0 /\ mf_reserved s' = 0.
Proof. exists 14757395258967588865, (mf_over [1; 2; 3] 3 true). split; [apply mf_over_holds; [repeat constructor; unfold is_byte; lia|cbn; lia|unfold ptrdiff_max; lia]|]. split; [lia|]. vm_compute. auto. Qed.

(** ** C88: write_stream *)
Lemma overwrite_twice : forall d p c x, (p <= length d)%nat -> overwrite (overwrite d p c) (p + length c) x = overwrite d p (c ++ x).
Proof.
  intros d p c x Hp. unfold overwrite at 1. assert (F : firstn (p + length c) (overwrite d p c) = firstn p d ++ c).
  { unfold overwrite. rewrite app_assoc. rewrite firstn_app. rewrite app_length, firstn_length. replace (p + length c - (Nat.min p (length d) + length c))%nat with 0%nat by lia. cbn [firstn]. rewrite app_nil_r. apply firstn_all2. rewrite app_length, firstn_length. lia. }
  rewrite F. unfold overwrite. rewrite app_length, Nat.add_assoc, <- !app_assoc. do 3 f_equal. rewrite app_assoc, skipn_app, skipn_all2 by (rewrite app_length, firstn_length; lia). cbn [app]. rewrite app_length, firstn_length, skipn_add. f_equal. lia.
Qed.
Lemma reserve_keeps : forall g required s x t, mf_mem s = map Some x ++ t -> 0 <= mf_size s <= Z.of_nat (length x) -> mf_reserved s <= ptrdiff_max -> 0 <= required < 2 ^ 63 + 2 ^ 62 + 2 ^ 50 ->
  let s' := mf_reserve g required false s in
  mf_manage s' = mf_manage s /\ mf_off s' = mf_off s /\ mf_size s' = mf_size s /\
  ((mf_state s' = StFail /\ mf_mem s' = mf_mem s /\ (g = false \/ mf_manage s = false \/ 2 ^ 62 < required)) \/
   (mf_state s' = StOk /\ exists t', mf_mem s' = map Some x ++ t' /\ required <= mf_reserved s' <= ptrdiff_max)).
Proof.
  intros g required s x t Em Hs Hr Hq. cbv zeta. unfold mf_reserve. cbn [negb orb]. rewrite andb_true_r. destruct (required <=? mf_reserved s) eqn:E1.
  { cbn [with_state mf_manage mf_off mf_size mf_state mf_mem]. repeat split; auto. right. split; auto. exists t. split; auto. change (mf_reserved (with_state s StOk)) with (mf_reserved s). lia. }
  destruct (mf_manage s) eqn:EM; cbn [negb]; [|cbn; rewrite EM; repeat split; auto; left; auto].
  pose proof (grow_size_bounds required ltac:(lia)) as G. unfold mf_reserved in *. assert (L : (length x + length t)%nat = length (mf_mem s)) by (rewrite Em, app_length, map_length; auto).
  replace (grow_size required =? 0) with false by lia. cbn [negb]. rewrite andb_true_r. destruct (g && (grow_size required <=? ptrdiff_max)) eqn:EG; cbn [negb].
  - replace (grow_size required <? mf_size s) with false by lia. cbn [mf_manage mf_off mf_size mf_state mf_mem]. repeat split; auto. right. split; auto. destruct (resize_spec x t (Z.to_nat (grow_size required))) as (t' & R & L'); [lia|]. exists t'. rewrite Em, R. split; auto. rewrite app_length, map_length. lia.
  - cbn [with_state mf_manage mf_off mf_size mf_state mf_mem]. repeat split; auto. left. repeat split; auto. destruct g; auto. unfold ptrdiff_max in *. right. right. cbn in EG. lia.
Qed.
Definition mid (s : mfile) (d c : list Z) (p : nat) : Prop :=
  (exists t, mf_mem s = map Some (overwrite d p c) ++ t) /\ mf_size s = Z.of_nat (length d) /\ mf_off s = Z.of_nat p /\ mf_reserved s <= ptrdiff_max.
Lemma mid_store : forall s d c p b, mid s d c p -> (p <= length d)%nat -> Z.of_nat (p + length c + length b) <= mf_reserved s ->
  exists m, mem_write (mf_mem s) (Z.of_nat (p + length c)) b = Ret m /\ mid (MFile m (mf_manage s) (mf_off s) (mf_size s) (mf_state s)) d (c ++ b) p /\ length m = length (mf_mem s).
Proof.
  intros s d c p b ((t & Em) & Es & Eo & Hr) Hp Hb. unfold mf_reserved in *. rewrite Em in *. rewrite app_length, map_length in Hb. pose proof (overwrite_length d p c Hp) as Lo.
  eexists. split; [apply mem_write_spec; lia|]. rewrite overwrite_twice by lia. pose proof (overwrite_length d p (c ++ b) Hp) as Lo2. rewrite app_length in Lo2. rewrite app_length, map_length in Hr.
  assert (LL : length (map Some (overwrite d p (c ++ b)) ++ skipn (p + length c + length b - length (overwrite d p c)) t) = length (map Some (overwrite d p c) ++ t)) by (rewrite !app_length, !map_length, skipn_length; lia).
  split; [|auto]. split; [eexists; cbn [mf_mem]; reflexivity|]. split; auto. split; auto. unfold mf_reserved. cbn [mf_mem]. rewrite LL, app_length, map_length. lia.
Qed.
Lemma mid_finish : forall s d c p st, mid s d c p -> (p <= length d)%nat -> Forall is_byte d -> Forall is_byte c -> mf_state s = st ->
  holds (MFile (mf_mem s) (mf_manage s) (Z.of_nat (p + length c)) (if mf_size s <? Z.of_nat (p + length c) then Z.of_nat (p + length c) else mf_size s) (mf_state s)) (overwrite d p c, (p + length c)%nat, st).
Proof.
  intros s d c p st ((t & Em) & Es & Eo & Hr) Hp Bd Bc <-. pose proof (overwrite_length d p c Hp) as Lo. unfold mf_reserved in Hr. rewrite Em, Es in *. rewrite app_length, map_length in Hr.
  replace (if _ <? _ then _ else _) with (Z.of_nat (length (overwrite d p c))) by (destruct (_ <? _) eqn:Q; lia). apply holds_intro; [lia|lia|apply overwrite_bytes; auto].
Qed.
Section WriteStream.
Context {B : Type} (E : dev B) (IB : B -> Prop) (left : B -> list Z) (SRC : source E IB left).

Lemma copy_exact_spec : forall fuel b s d c p n, IB b -> mid s d c p -> (p <= length d)%nat -> Z.of_nat (p + length c) + Z.of_nat n <= mf_reserved s -> (length (left b) + 1 < fuel)%nat -> mf_state s = StOk ->
  exists s' b' k, mf_copy_exact E fuel b s (Z.of_nat (p + length c)) (Z.of_nat (length c)) (Z.of_nat n) = Ret (s', b', Z.of_nat (p + length (c ++ firstn k (left b))), Z.of_nat (length (c ++ firstn k (left b)))) /\
    (k <= length (left b))%nat /\ mid s' d (c ++ firstn k (left b)) p /\ left b' = skipn k (left b) /\
    ((mf_state s' = StOk /\ k = Nat.min n (length (left b))) \/ (mf_state s' = StFail /\ ~ never_fails E IB)).
Proof.
  induction fuel; intros b s d c p n Ib M Hp Hr Hf St; [lia|]. cbn [mf_copy_exact]. destruct (Z.of_nat n =? 0) eqn:E0.
  { exists s, b, 0%nat. cbn [firstn skipn]. rewrite app_nil_r. split; auto. split; [lia|]. split; auto. split; auto. left. split; auto. lia. }
  rewrite Nat2Z.id. destruct (read_step E IB left SRC b n Ib) as (b' & x & Er & Ib' & L & Hx & Sx). rewrite Er. destruct (mid_store s d c p x M Hp ltac:(lia)) as (m & Em & M' & Lm). rewrite Em. cbn [obind]. rewrite St in *.
  set (s1 := MFile m (mf_manage s) (mf_off s) (mf_size s) StOk) in *. destruct (d_state E b') eqn:ES.
  - assert (x <> []) by (apply Sx; lia). assert (0 < length x)%nat by (destruct x; [congruence|cbn; lia]).
    destruct (IHfuel b' s1 d (c ++ x) p (n - length x)%nat Ib' M' Hp) as (s' & b2 & k & E1 & K1 & M1 & L1 & R1); auto. { unfold mf_reserved in *. cbn [s1 mf_mem] in *. rewrite Lm, app_length. lia. } { rewrite L, app_length in Hf. lia. }
    exists s', b2, (length x + k)%nat. rewrite !app_length in E1. replace (Z.of_nat (p + length c) + Z.of_nat (length x)) with (Z.of_nat (p + (length c + length x))) by lia. replace (Z.of_nat (length c) + Z.of_nat (length x)) with (Z.of_nat (length c + length x)) by lia. replace (Z.of_nat n - Z.of_nat (length x)) with (Z.of_nat (n - length x)) by lia. rewrite E1.
    assert (F : c ++ firstn (length x + k) (left b) = (c ++ x) ++ firstn k (left b')). { rewrite L, firstn_app, (firstn_all2 x) by lia. rewrite <- app_assoc. do 3 f_equal. lia. }
    rewrite F, L, app_length in *. rewrite skipn_app, skipn_all2 by lia. cbn [app]. replace (length x + k - length x)%nat with k by lia. rewrite !app_length. split; auto. split; [lia|]. split; auto. split; auto. destruct R1 as [[R1 ->]|R1]; [left; split; auto; lia|right; auto].
  - destruct Sx as (S1 & -> & S3). exists s1, b', 0%nat. rewrite app_nil_r in *. cbn [firstn skipn length app] in *. rewrite ?app_nil_r, ?Z.add_0_r. split; auto. split; [lia|]. split; auto. split; [congruence|]. left. split; auto. rewrite S3. cbn. lia.
  - subst x. exists (with_state s1 StFail), b', 0%nat. rewrite app_nil_r in *. cbn [firstn skipn length app] in *. rewrite ?app_nil_r, ?Z.add_0_r. split; auto. split; [lia|]. split; [exact M'|]. split; [congruence|]. right. split; auto. intros NF. apply (NF b n Ib). rewrite Er. auto.
Qed.
Lemma copy_all_spec : forall gs fuel b s d c p n, IB b -> mid s d c p -> (p <= length d)%nat -> (length (left b) + 1 < fuel)%nat -> mf_state s = StOk -> Z.of_nat (length c + length (left b)) < 2 ^ 62 -> Z.of_nat (length (left b)) < n < M64 ->
  exists s' b' k, mf_copy_all E fuel gs b s (Z.of_nat (p + length c)) (Z.of_nat (p + length c)) (Z.of_nat (length c)) n = Ret (s', b', Z.of_nat (p + length (c ++ firstn k (left b))), Z.of_nat (length (c ++ firstn k (left b)))) /\
    (k <= length (left b))%nat /\ mid s' d (c ++ firstn k (left b)) p /\ left b' = skipn k (left b) /\
    ((mf_state s' = StOk /\ k = length (left b)) \/ (mf_state s' = StFail /\ (~ never_fails E IB \/ (exists i, gs i = false) \/ mf_manage s = false \/ 2 ^ 62 < Z.of_nat (p + length c + length (left b)) + 65536))).
Proof.
  intros gs. induction fuel; intros b s d c p n Ib M Hp Hf St HL Hn; [lia|]. cbn [mf_copy_all]. replace (n =? 0) with false by lia.
  assert (Hpd : Z.of_nat p <= ptrdiff_max). { destruct M as ((t & Em) & Es & Eo & Hr). unfold mf_reserved in Hr. rewrite Em, app_length, map_length, overwrite_length in Hr by lia. lia. }
  unfold ptrdiff_max in Hpd. replace (M64 <=? _) with false by lia. set (blk := Z.min n 65536). assert (Hb : 0 < blk <= 65536) by lia. clearbody blk.
  destruct M as ((t & Em) & Es & Eo & Hr). pose proof (overwrite_length d p c Hp) as Lo.
  destruct (reserve_keeps (gs (S fuel)) (Z.of_nat (p + length c) + blk) s (overwrite d p c) t Em ltac:(lia) Hr ltac:(lia)) as (M1 & O1 & Z1 & R). set (s1 := mf_reserve (gs (S fuel)) (Z.of_nat (p + length c) + blk) false s) in *. clearbody s1.
  destruct R as [(S1 & Em1 & R)|(S1 & t1 & Em1 & R)]; rewrite S1; cbn [is_ok negb].
  { exists s1, b, 0%nat. cbn [firstn skipn]. rewrite app_nil_r. split; auto. split; [lia|]. split. { split; [exists t; congruence|]. split; [congruence|]. split; [congruence|]. unfold mf_reserved in *. congruence. } split; auto. right. split; auto. destruct R as [R|[R|R]]; [right; left; eauto|auto|right; right; right; lia]. }
  assert (Mid1 : mid s1 d c p). { split; [exists t1; auto|]. split; [congruence|]. split; [congruence|lia]. }
  destruct (read_step E IB left SRC b (Z.to_nat blk) Ib) as (b' & x & Er & Ib' & L & Hx & Sx). rewrite Er. destruct (mid_store s1 d c p x Mid1 Hp ltac:(lia)) as (m & Emm & M' & Lm). rewrite Emm. cbn [obind]. rewrite S1 in *.
  set (s2 := MFile m (mf_manage s1) (mf_off s1) (mf_size s1) StOk) in *. destruct (d_state E b') eqn:ES.
  - assert (x <> []) by (apply Sx; lia). assert (0 < length x)%nat by (destruct x; [congruence|cbn; lia]). assert (LB : length (left b) = (length x + length (left b'))%nat) by (rewrite L, app_length; auto).
    destruct (IHfuel b' s2 d (c ++ x) p (n - Z.of_nat (length x)) Ib' M' Hp) as (s' & b2 & k & E1 & K1 & M2 & L1 & R1); auto; try (rewrite ?app_length; lia).
    exists s', b2, (length x + k)%nat. rewrite !app_length in E1. replace (Z.of_nat (p + length c) + Z.of_nat (length x)) with (Z.of_nat (p + (length c + length x))) by lia. replace (Z.of_nat (length c) + Z.of_nat (length x)) with (Z.of_nat (length c + length x)) by lia. rewrite E1.
    assert (F : c ++ firstn (length x + k) (left b) = (c ++ x) ++ firstn k (left b')). { rewrite L, firstn_app, (firstn_all2 x) by lia. rewrite <- app_assoc. do 3 f_equal. lia. }
    rewrite F, LB. rewrite L, skipn_app, skipn_all2 by lia. cbn [app]. replace (length x + k - length x)%nat with k by lia. rewrite !app_length. split; auto. split; [lia|]. split; auto. split; auto.
    destruct R1 as [[R1 ->]|[R1 R2]]; [left; split; auto; lia|right; split; auto]. rewrite app_length in R2. cbn [s2 mf_manage] in R2. rewrite M1 in R2. destruct R2 as [R2|[R2|[R2|R2]]]; auto. right. right. right. lia.
  - destruct Sx as (Q1 & -> & Q3). exists s2, b', 0%nat. rewrite app_nil_r in *. cbn [firstn skipn length app] in *. rewrite ?app_nil_r, ?Z.add_0_r. split; auto. split; [lia|]. split; auto. split; [congruence|]. left. split; auto. rewrite Q3. reflexivity.
  - subst x. exists (with_state s2 StFail), b', 0%nat. rewrite app_nil_r in *. cbn [firstn skipn length app] in *. rewrite ?app_nil_r, ?Z.add_0_r. split; auto. split; [lia|]. split; [exact M'|]. split; [congruence|]. right. split; auto. left. intros NF. apply (NF b (Z.to_nat blk) Ib). rewrite Er. auto.
Qed.
(** What is taken from the source is stored at the position, nothing is lost in between, and a failure
    of the source or of the memory shows in the state. *)
Theorem mf_write_stream_spec : forall gs b s d p st amount, IB b -> holds s (d, p, st) -> Forall is_byte (left b) -> Z.of_nat (length (left b)) < 2 ^ 62 -> (0 <= amount < 2 ^ 62 \/ amount = M64 - 1) ->
  exists fuel s' b' k st', mf_write_stream E fuel gs b amount s = Ret (s', b', Z.of_nat k) /\ holds s' (overwrite d p (firstn k (left b)), (p + k)%nat, st') /\ left b' = skipn k (left b) /\ (k <= length (left b))%nat /\
    ((st' = StOk /\ Z.of_nat k = Z.min amount (Z.of_nat (length (left b)))) \/
     (st' = StFail /\ (~ never_fails E IB \/ (exists i, gs i = false) \/ mf_manage s = false \/ 2 ^ 62 < Z.of_nat p + (if amount =? M64 - 1 then Z.of_nat (length (left b)) + 65536 else amount)))).
Proof.
  intros gs b s d p st amount Ib H HB HL HA. destruct (holds_elim s d p st H) as (t & Es & Hp & Hl & Hb). exists (length (left b) + 2)%nat.
  assert (Eo : mf_off s = Z.of_nat p) by (rewrite Es; reflexivity). assert (Ez : mf_size s = Z.of_nat (length d)) by (rewrite Es; reflexivity). assert (Em : mf_mem s = map Some d ++ t) by (rewrite Es; reflexivity). clear Es.
  assert (Er : mf_reserved s = Z.of_nat (length d + length t)) by (unfold mf_reserved; rewrite Em, app_length, map_length; lia).
  assert (O0 : overwrite d p [] = d) by (unfold overwrite; cbn [length app]; rewrite Nat.add_0_r; apply firstn_skipn).
  unfold mf_write_stream. rewrite Eo. destruct (amount =? M64 - 1) eqn:EA; cbn [negb].
  - assert (Mid : mid (with_state s StOk) d [] p). { split; [exists t; rewrite O0; auto|]. split; auto. split; auto. change (mf_reserved (with_state s StOk)) with (mf_reserved s). lia. }
    destruct (copy_all_spec gs (length (left b) + 2) b _ d [] p amount Ib Mid Hp ltac:(lia) eq_refl ltac:(cbn [length]; lia) ltac:(lia)) as (s' & b' & k & E1 & K & M & L & R).
    cbn [length] in E1. rewrite Nat.add_0_r in E1. change (Z.of_nat 0) with 0 in E1. rewrite E1. cbn [obind app] in *. do 2 eexists. exists k, (mf_state s'). rewrite (firstn_length_le (left b)) by auto. split; [reflexivity|].
    pose proof (mid_finish s' d (firstn k (left b)) p (mf_state s') M Hp Hb (Forall_fst _ _ _ HB) eq_refl) as F. rewrite (firstn_length_le (left b)) in F by auto. split; auto. split; auto. split; auto.
    destruct R as [[R1 R2]|[R1 R2]]; [left; split; auto; lia|right; split; auto]. cbn [with_state mf_manage length] in R2. destruct R2 as [R2|[R2|[R2|R2]]]; auto. right. right. right. lia.
  - unfold ptrdiff_max in *. replace (M64 <=? _) with false by lia.
    destruct (reserve_keeps (gs 0%nat) (Z.of_nat p + amount) s d t Em ltac:(lia) ltac:(unfold ptrdiff_max; lia) ltac:(lia)) as (M1 & O1 & Z1 & R). set (s1 := mf_reserve (gs 0%nat) (Z.of_nat p + amount) false s) in *. clearbody s1.
    destruct R as [(S1 & Em1 & R)|(S1 & t1 & Em1 & R)]; rewrite S1; cbn [is_ok negb].
    { exists s1, b, 0%nat, StFail. split; auto. cbn [firstn skipn]. rewrite O0, Nat.add_0_r. split. { destruct s1 as [m1 mg1 o1 z1 st1]. cbn [mf_mem mf_manage mf_off mf_size mf_state] in *. subst. rewrite Em, Eo, Ez. apply holds_intro; auto. } split; auto. split; [lia|]. right. split; auto. destruct R as [R|[R|R]]; [right; left; eauto|auto|]. right. right. right. lia. }
    assert (Mid : mid s1 d [] p). { split; [exists t1; rewrite O0; auto|]. split; [congruence|]. split; [congruence|]. unfold ptrdiff_max in *. lia. }
    destruct (copy_exact_spec (length (left b) + 2) b s1 d [] p (Z.to_nat amount) Ib Mid Hp) as (s' & b' & k & E1 & K & M & L & R'); auto; [cbn [length]; lia|lia|].
    cbn [length] in E1. rewrite Nat.add_0_r in E1. change (Z.of_nat 0) with 0 in E1. rewrite Z2Nat.id in E1 by lia. rewrite E1. cbn [obind app] in *. do 2 eexists. exists k, (mf_state s'). rewrite (firstn_length_le (left b)) by auto. split; [reflexivity|].
    pose proof (mid_finish s' d (firstn k (left b)) p (mf_state s') M Hp Hb (Forall_fst _ _ _ HB) eq_refl) as F. rewrite (firstn_length_le (left b)) in F by auto. split; auto. split; auto. split; auto.
    destruct R' as [[R1 R2]|[R1 R2]]; [left; split; auto; lia|right; split; auto].
Qed.
End WriteStream.
Example mf_write_stream_ex : exists s, mf_write_stream array_dev 9 (fun _ => true) ([7; 8; 9], StOk) 2 (mf_over [1; 2; 3] 3 true) = Ret (s, ([9], StOk), 2) /\ holds s ([7; 8; 3], 2%nat, StOk).
Proof. eexists. split; [vm_compute; reflexivity|]. cbn. unfold mf_reserved, ptrdiff_max, is_byte. cbn. repeat split; try lia; repeat constructor; lia. Qed.

(** ** C89: byte-order marks *)
Definition charset_bom (c : Z) : list Z := if c =? 32 then [255; 254; 0; 0] else if c =? 16 then [255; 254] else if c =? 8 then [239; 187; 191] else [].
(** What read_charset answers depends on the first bytes only. *)
Definition starts (b d : list Z) : bool := if list_eq_dec Z.eq_dec (firstn (length b) d) b then true else false.
Lemma read_try : forall s d p st w init bom, holds s (d, p, st) -> (0 < w <= 4)%nat -> length bom = w ->
  exists s' b n, read_array (mf_dev true) (at_start s) w 1 = Ret (s', b, n) /\
    is_ok (mf_state s') && (if list_eq_dec Z.eq_dec (firstn w (b ++ skipn (length b) init)) bom then true else false) = starts bom d /\
    (starts bom d = true -> mf_state s' = StOk /\ mf_left s' = skipn w d).
Proof.
  intros s d p st w init bom H Hw HL. assert (H0 : holds (at_start s) (d, 0%nat, StOk)) by (unfold at_start; eapply holds_with; change 0 with (Z.of_nat 0); eapply holds_seek; eauto; lia).
  destruct (read_array_full (mf_dev true) mf_inv mf_left (mf_source true) (mf_never_fails true) (at_start s) w 1) as (s' & n & E & I' & L & St & Hn & _); [eexists; eauto|lia|].
  rewrite Nat.mul_1_r in *. destruct (holds_content _ _ _ _ H0) as [C O]. assert (ML : mf_left (at_start s) = d) by (unfold mf_left; rewrite C, O; reflexivity). rewrite ML in *. exists s', (firstn w d), n. split; auto. cbn [mf_dev d_state] in St. rewrite St. unfold starts. rewrite HL.
  destruct (length d <? w)%nat eqn:Q; cbn [is_ok andb].
  - destruct (list_eq_dec Z.eq_dec (firstn w d) bom) as [F|F]; [exfalso; apply (f_equal (@length Z)) in F; rewrite firstn_length in F; lia|]. split; auto. discriminate.
  - rewrite firstn_app, firstn_length, firstn_firstn. replace (Nat.min w w) with w by lia. replace (w - Nat.min w (length d))%nat with 0%nat by lia. cbn [firstn]. rewrite app_nil_r. split; auto.
Qed.
Theorem mf_read_charset_spec : forall junk s d p st, holds s (d, p, st) -> exists s' c, mf_read_charset junk s = Ret (s', c) /\ mf_state s' = StOk /\ mf_left s' = skipn (length (charset_bom c)) d /\
  c = (if starts (charset_bom 32) d then 32 else if starts (charset_bom 16) d then 16 else if starts (charset_bom 8) d then 8 else 0).
Proof.
  intros junk s d p st H. unfold mf_read_charset.
  destruct (read_try s d p st 4 junk [255; 254; 0; 0] H ltac:(lia) eq_refl) as (s1 & b1 & n1 & E1 & R1 & L1). rewrite E1. cbn [obind]. rewrite R1. change (charset_bom 32) with [255; 254; 0; 0]. destruct (starts [255; 254; 0; 0] d).
  { destruct (L1 eq_refl). exists s1, 32. repeat split; auto. }
  destruct (read_try s d p st 2 junk [255; 254] H ltac:(lia) eq_refl) as (s2 & b2 & n2 & E2 & R2 & L2). rewrite E2. cbn [obind]. rewrite R2. change (charset_bom 16) with [255; 254]. destruct (starts [255; 254] d).
  { destruct (L2 eq_refl). exists s2, 16. repeat split; auto. }
  destruct (read_try s d p st 3 [0; 0; 0] [239; 187; 191] H ltac:(lia) eq_refl) as (s3 & b3 & n3 & E3 & R3 & L3). rewrite E3. cbn [obind]. rewrite R3. change (charset_bom 8) with [239; 187; 191]. destruct (starts [239; 187; 191] d).
  { destruct (L3 eq_refl). exists s3, 8. repeat split; auto. }
  exists (at_start s), 0. split; auto. split; auto. split; auto. unfold mf_left, at_start. cbn [with_state with_off mf_off]. change (Z.to_nat 0) with 0%nat. cbn [charset_bom]. change (mf_content (with_state (with_off s 0) StOk)) with (mf_content s). destruct (holds_content _ _ _ _ H) as [-> _]. reflexivity.
Qed.
Theorem mf_write_charset_spec : forall c, In c [0; 8; 16; 32] -> exists s, mf_write_charset true c mf_new = Ret s /\ holds s (charset_bom c, length (charset_bom c), StOk).
Proof.
  intros c H. unfold mf_write_charset.
  assert (A : forall b, Forall is_byte b -> Z.of_nat (length b) < 100 -> exists s, mf_write true b mf_new = Ret (s, Z.of_nat (length b)) /\ holds s (b, length b, StOk)).
  { intros b Hb Hl. destruct (mf_run_exact [MWrite b] mf_new ([], 0%nat, StOk) mf_new_holds eq_refl) as (s & E & Hs). { cbn. repeat split; auto; try lia. intros n Q. injection Q as <-. lia. }
    exists s. cbn [map mf_run mf_step] in E. destruct (mf_write true b mf_new) as [[s1 n]| |]; try discriminate. cbn [obind length repeat spec_run spec_step snd store] in E. injection E as -> ->. cbn [length repeat spec_run spec_step fst store is_ok] in Hs. unfold overwrite in Hs. rewrite ?firstn_nil, ?skipn_nil, ?app_nil_r in Hs. cbn [app Nat.add] in Hs. split; [reflexivity|exact Hs]. }
  assert (B : forall w v, (0 < w <= 4)%nat -> exists s, mf_write_data true w v mf_new = Ret s /\ holds s (le_bytes w v, w, StOk)).
  { intros w v Hw. destruct (mf_run_exact [MWriteData w v] mf_new ([], 0%nat, StOk) mf_new_holds eq_refl) as (s & E & Hs). { cbn. repeat split; auto; try lia. intros n Q. injection Q as <-. lia. }
    exists s. cbn [map mf_run mf_step] in E. destruct (mf_write_data true w v mf_new) as [s1| |]; try discriminate. cbn [obind length repeat spec_run spec_step snd store] in E. injection E as ->. cbn [length repeat spec_run spec_step fst store is_ok] in Hs. unfold overwrite in Hs. rewrite ?firstn_nil, ?skipn_nil, ?app_nil_r, ?le_bytes_length in Hs. cbn [app Nat.add] in Hs. split; [reflexivity|exact Hs]. }
  cbn in H. destruct H as [<-|[<-|[<-|[<-|[]]]]]; cbn [Z.eqb].
  - exists mf_new. split; auto. apply mf_new_holds.
  - destruct (A [239; 187; 191]) as (s & E & Hs); [repeat constructor; unfold is_byte; lia|cbn; lia|]. change (8 =? 32) with false. change (8 =? 16) with false. change (8 =? 8) with true. cbn iota. rewrite E. cbn [obind]. eauto.
  - apply (B 2%nat 0xfeff). lia.
  - apply (B 4%nat 0xfeff). lia.
Qed.
Lemma starts_app : forall b x, starts b (b ++ x) = true.
Proof. intros. unfold starts. rewrite firstn_app, Nat.sub_diag, firstn_all. cbn [firstn]. rewrite app_nil_r. destruct (list_eq_dec _ b b); congruence. Qed.
Lemma starts_cons : forall a b x d, starts (a :: b) (x :: d) = (x =? a) && starts b d.
Proof.
  intros. unfold starts. cbn [length firstn]. destruct (x =? a) eqn:Q; cbn [andb].
  - replace x with a by lia. destruct (list_eq_dec Z.eq_dec (firstn (length b) d) b) as [->|N]; destruct (list_eq_dec Z.eq_dec (a :: _) (a :: b)); congruence.
  - destruct (list_eq_dec Z.eq_dec (x :: firstn (length b) d) (a :: b)) as [E|N]; auto. injection E as -> _. lia.
Qed.
(** Full statement: the charset of every text written after its mark is recognised, and reading goes
    on right after the mark.  False for UTF-16 text that starts with U+0000. *)
Theorem mf_charset_partial : forall junk c x s p st, In c [8; 16; 32] -> (c = 16 -> starts [0; 0] x = false) -> holds s (charset_bom c ++ x, p, st) ->
  exists s', mf_read_charset junk s = Ret (s', c) /\ mf_left s' = x /\ mf_state s' = StOk.
Proof.
  intros junk c x s p st Hc Hx H. destruct (mf_read_charset_spec junk s _ p st H) as (s' & c' & E & St & L & Ec).
  assert (c' = c).
  { rewrite Ec. cbn in Hc. change (charset_bom 32) with [255; 254; 0; 0]. change (charset_bom 16) with [255; 254]. change (charset_bom 8) with [239; 187; 191]. destruct Hc as [<-|[<-|[<-|[]]]].
    - change (charset_bom 8) with [239; 187; 191]. cbn [app]. rewrite !starts_cons. reflexivity.
    - change (charset_bom 16) with [255; 254]. cbn [app]. rewrite !starts_cons. change (255 =? 255) with true. change (254 =? 254) with true. cbn [andb]. rewrite (Hx eq_refl). reflexivity.
    - change (charset_bom 32) with [255; 254; 0; 0]. rewrite starts_app. reflexivity. }
  clear Ec. subst c'. exists s'. split; auto. split; auto. rewrite L, skipn_app, skipn_all, Nat.sub_diag. reflexivity.
Qed.
Theorem mf_charset_refuted : exists s, holds s (charset_bom 16 ++ [0; 0], 0%nat, StOk) /\ forall junk, exists s', mf_read_charset junk s = Ret (s', 32).
Proof.
  change (charset_bom 16 ++ [0; 0]) with [255; 254; 0; 0]. exists (mf_over [255; 254; 0; 0] 4 true). assert (H : holds (mf_over [255; 254; 0; 0] 4 true) ([255; 254; 0; 0], 0%nat, StOk)) by (apply mf_over_holds; [repeat constructor; unfold is_byte; lia|cbn; lia|unfold ptrdiff_max; lia]).
  split; auto. intros junk. destruct (mf_read_charset_spec junk _ _ _ _ H) as (s' & c & E & _ & _ & Ec). exists s'. rewrite E. f_equal. f_equal. rewrite Ec. reflexivity.
Qed.

Print Assumptions mf_run_spec.
Print Assumptions mf_run_exact.
Print Assumptions mf_write_stream_spec.
Print Assumptions mf_charset_partial.
