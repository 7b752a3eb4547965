(** WAV files: the structures. *)
From Coq Require Import ZifyBool ZifyNat Permutation Sorted.
From Verif Require Import Base StreamModel StreamSpec StreamProps StringModel StringSpec StringProofs ConvModel ConvProps MemFileModel FileConvModel FileConvSpec IdrecModel IdrecSpec IdrecProps WavModel WavSpec.
Ltac Zify.zify_post_hook ::= Z.div_mod_to_equations.

Definition fbytes (l : list (nat * Z)) : list Z := flat_map (fun p => le_bytes (fst p) (snd p)) l.

(** the state of the source after a copy *)
Lemma copy_state : forall {A B} (D : dev A) (E : dev B) IA out IB left, sink D IA out -> source E IB left -> always_writes D IA -> never_fails E IB ->
  forall fuel a b copied n a' b' k, IA a -> IB b -> d_state E b = StOk -> copy_loop D E fuel a b copied n = Ret (a', b', k) ->
  d_state E b' <> StFail /\ ((n <= length (left b))%nat -> d_state E b' = StOk).
Proof.
  intros A B D E IA out IB left SNK SRC AW NF. induction fuel; intros a b copied n a' b' k Ia Ib Sb H; [discriminate|]. cbn [copy_loop] in H. destruct (n =? 0)%nat eqn:E0.
  { injection H as <- <- _. rewrite Sb. split; [discriminate|auto]. }
  set (m := Nat.min default_block_size n) in *. assert (0 < m <= n)%nat by (unfold m, default_block_size; lia). clearbody m.
  destruct (read_step E IB left SRC b m Ib) as (b1 & d & Er & Ib' & L & Hd & St). rewrite Er in H. pose proof (NF b m Ib) as NF1. rewrite Er in NF1. cbn [fst] in NF1.
  destruct (write_step D IA out SNK a d Ia) as (a1 & k1 & Ew & Ia' & Hk & O & Sw). rewrite Ew in H. pose proof (AW a d Ia) as AW1. rewrite Ew in AW1. cbn [fst] in AW1. rewrite Sw in * by auto.
  destruct (d_state E b1) eqn:ES; [| |congruence].
  - destruct (negb (d_ok D (d_set D a1 StOk))). { injection H as <- <- _. rewrite ES. split; [discriminate|auto]. }
    destruct (snk_set _ _ _ SNK a1 StOk Ia') as (I2 & O2 & S2). destruct (IHfuel _ _ _ _ _ _ _ I2 Ib' ES H) as [P Q]. split; auto. intros HN. apply Q. rewrite L, app_length in HN. lia.
  - injection H as <- <- _. rewrite ES. split; [discriminate|]. destruct St as (_ & _ & L0). rewrite L0. cbn [length]. lia.
Qed.

(** ** Reading, from anything that has the bytes *)
Section Reading.
Context {S : Type} (D : dev S) (Inv : S -> Prop) (left : S -> list Z) (SRC : source D Inv left) (NF : never_fails D Inv).
Lemma fields_read : forall l s rest, Inv s -> d_state D s = StOk -> Forall (fun p => (0 < fst p <= 8)%nat /\ fits (fst p) (snd p)) l -> left s = fbytes l ++ rest ->
  exists s', read_fields D s (map fst l) = Ret (s', map snd l) /\ d_state D s' = StOk /\ left s' = rest /\ Inv s'.
Proof.
  induction l as [|[w v] l IH]; intros s rest I O F L; cbn [map read_fields]; [exists s; auto|]. inversion F as [|? ? [W V] F']; subst. cbn [fst snd] in *. unfold fbytes in L. cbn [flat_map fst snd] in L. rewrite <- app_assoc in L.
  destruct (read_data_spec D Inv left SRC NF s w [] v _ I O ltac:(lia) ltac:(lia) V L) as (s1 & E1 & O1 & L1 & I1). rewrite E1. cbn [obind].
  destruct (IH s1 rest I1 O1 F' L1) as (s2 & E2 & O2 & L2 & I2). rewrite E2. exists s2. auto.
Qed.
Lemma cut_zero : forall t b, text_fine t -> cstr (t ++ 0 :: b) = t /\ cstr t = t.
Proof.
  intros t b F. unfold cstr. split.
  - rewrite app_length. cbn [length]. induction F as [|c t C F IH]; auto. cbn [app length Nat.add zstr]. replace (c =? 0) with false by lia. f_equal. auto.
  - induction F as [|c t C F IH]; auto. cbn [length zstr]. replace (c =? 0) with false by lia. f_equal. auto.
Qed.
Lemma cstr_text : forall t, text_fine t -> cstr (text_bytes t) = t.
Proof. intros [|c t] F; [reflexivity|]. unfold text_bytes. apply cut_zero; auto. Qed.
Lemma text_read : forall s, Inv s -> d_state D s = StOk -> Z.of_nat (length (left s)) < M64 - 1 ->
  forall fuel, (length (left s) + 1 < fuel)%nat -> exists s', read_text D fuel s = Ret (s', cstr (left s)) /\ Inv s' /\ left s' = [] /\ d_state D s' <> StFail.
Proof.
  intros s I O L fuel Hf. unfold read_text, d_ok. rewrite O. cbn [is_ok]. unfold read_remainder.
  destruct (remainder_spec D Inv left SRC NF fuel s [] default_block_size (Z.to_nat (M64 - 1)) I Hf) as (s' & E & I' & L' & St). { cbn; lia. } { lia. } { unfold default_block_size. cbn [length]. lia. }
  rewrite E. cbn [obind app length]. rewrite Nat.sub_0_r in *. rewrite firstn_all2 by lia. rewrite skipn_all2 in L' by lia. rewrite (strnlen_zstr (length (left s)) (left s)) by (left; lia). cbn [obind].
  exists s'. split; [|split; [auto|split; [auto|]]].
  - do 2 f_equal. unfold cstr. generalize (length (left s)). intros n. generalize (left s). induction n; intros [|c r]; cbn [zstr length firstn]; auto. destruct (c =? 0); cbn [length firstn]; [auto|f_equal; auto].
  - rewrite St by (cbn [length]; lia). destruct (_ <? _)%nat; discriminate.
Qed.
Lemma ltxt_read : forall s id a b, Inv s -> d_state D s = StOk -> Z.of_nat (length (left s)) < M64 - 1 -> head_ok id a -> left s = about_head id a ++ b ->
  forall fuel, (length (left s) + 1 < fuel)%nat -> exists s', read_ltxt D fuel s = Ret (s', (id, About (ab_duration a) (ab_purpose a) (ab_country a) (ab_language a) (ab_dialect a) (ab_charset a) (cstr b))) /\ Inv s' /\ d_state D s' <> StFail.
Proof.
  intros s id a b I O LL (H1 & H2 & H3 & H4 & H5 & H6 & H7) L fuel Hf. unfold read_ltxt.
  destruct (fields_read [(4, id); (4, ab_duration a); (4, ab_purpose a); (2, ab_country a); (2, ab_language a); (2, ab_dialect a); (2, ab_charset a)]%nat s b I O) as (s1 & E1 & O1 & L1 & I1).
  { repeat (constructor; [cbn [fst snd]; split; [lia|auto]|]). constructor. } { rewrite L. unfold fbytes, about_head. cbn [flat_map fst snd]. rewrite app_nil_r, <- !app_assoc. reflexivity. }
  cbn [map fst snd] in E1. rewrite E1. cbn [obind]. assert (LE : (length (left s1) <= length (left s))%nat) by (rewrite L, L1, app_length; lia). destruct (text_read s1 I1 O1 ltac:(lia) fuel ltac:(lia)) as (s2 & E2 & I2 & L2 & O2). rewrite E2. cbn [obind]. rewrite L1. exists s2. auto.
Qed.
Lemma label_read : forall s id b, Inv s -> d_state D s = StOk -> Z.of_nat (length (left s)) < M64 - 1 -> fits 4 id -> left s = le_bytes 4 id ++ b ->
  forall fuel, (length (left s) + 1 < fuel)%nat -> exists s', read_label D fuel s = Ret (s', (id, cstr b)) /\ Inv s' /\ d_state D s' <> StFail.
Proof.
  intros s id b I O LL H L fuel Hf. unfold read_label. destruct (read_data_spec D Inv left SRC NF s 4 [] id _ I O ltac:(lia) ltac:(lia) H L) as (s1 & E1 & O1 & L1 & I1). rewrite E1. cbn [obind].
  assert (LE : (length (left s1) <= length (left s))%nat) by (rewrite L, L1, app_length; lia). destruct (text_read s1 I1 O1 ltac:(lia) fuel ltac:(lia)) as (s2 & E2 & I2 & L2 & O2). rewrite E2. cbn [obind]. rewrite L1. exists s2. auto.
Qed.
Lemma header_read : forall s v b, Inv s -> d_state D s = StOk -> fits 4 v -> left s = le_bytes 4 v ++ b -> exists s', read_header D s = Ret (s', v) /\ Inv s' /\ d_state D s' <> StFail.
Proof.
  intros s v b I O H L. unfold read_header. destruct (read_data_spec D Inv left SRC NF s 4 [] v _ I O ltac:(lia) ltac:(lia) H L) as (s1 & E1 & O1 & L1 & I1). rewrite E1. cbn [obind]. unfold d_ok. rewrite O1. exists s1. split; auto. split; auto. congruence.
Qed.
Lemma format_read : forall s f, Inv s -> d_state D s = StOk -> format_ok f -> left s = format_bytes f ->
  forall fuel, (length (left s) + 1 < fuel)%nat -> exists s', read_format D fuel s = Ret (s', f) /\ Inv s' /\ d_state D s' <> StFail.
Proof.
  intros s f I O (H1 & H2 & H3 & H4 & H5 & H6 & H7) L fuel Hf. unfold read_format. unfold format_bytes in L.
  destruct (read_data_spec D Inv left SRC NF s 2 [] _ _ I O ltac:(lia) ltac:(lia) H1 L) as (s1 & E1 & O1 & L1 & I1). rewrite E1. cbn [obind]. unfold d_ok. rewrite O1. cbn [is_ok negb].
  destruct (fields_read [(2, fm_channels f); (4, fm_rate f); (4, fm_bps f); (2, fm_align f); (2, fm_bits f)]%nat s1 (match fm_extra f with [] => [] | x => le_bytes 2 (Z.of_nat (length x)) ++ x end) I1 O1) as (s2 & E2 & O2 & L2 & I2).
  { repeat (constructor; [cbn [fst snd]; split; [lia|auto]|]). constructor. } { rewrite L1. unfold fbytes. cbn [flat_map fst snd]. rewrite app_nil_r, <- !app_assoc. reflexivity. }
  cbn [map fst snd] in E2. rewrite E2. cbn [obind]. destruct (fm_extra f) as [|x0 x] eqn:X.
  - destruct (read_data_short D Inv left SRC NF s2 2 [] I2 O2 ltac:(lia)) as (s3 & v & E3 & O3 & L3 & I3). { rewrite L2. cbn. lia. } rewrite E3. cbn [obind]. rewrite O3. cbn [is_ok negb orb]. exists s3. split; [|split; [auto|congruence]]. do 2 f_equal. destruct f; cbn in *; congruence.
  - remember (x0 :: x) as xs. assert (LX : (0 < length xs)%nat) by (subst xs; cbn; lia). destruct (read_data_spec D Inv left SRC NF s2 2 [] (Z.of_nat (length xs)) xs I2 O2 ltac:(lia) ltac:(lia)) as (s3 & E3 & O3 & L3 & I3). { cbn. lia. } { exact L2. }
    rewrite E3. cbn [obind]. rewrite O3. cbn [is_ok negb orb]. replace (Z.of_nat (length xs) =? 0) with false by lia. unfold write_stream. rewrite Nat2Z.id.
    destruct (copy_loop_spec array_dev D _ _ Inv left array_sink SRC array_always_writes NF fuel (d_set array_dev ([], StOk) StOk) s3 0 (length xs) Logic.I I3 eq_refl) as (m & s4 & E4 & _ & I4 & M4 & L4 & O4).
    { rewrite L3. rewrite L in Hf. repeat rewrite app_length in Hf. lia. }
    rewrite E4. cbn [obind]. rewrite L3, firstn_all in M4. cbn [array_dev d_set fst app] in M4. rewrite M4. exists s4. split; [do 2 f_equal; destruct f; cbn in *; congruence|]. split; auto.
    exact (proj1 (copy_state array_dev D _ _ Inv left array_sink SRC array_always_writes NF _ _ _ _ _ _ _ _ Logic.I I3 O3 E4)).
Qed.
Lemma content_read : forall s, Inv s -> d_state D s = StOk -> Z.of_nat (length (left s)) < M64 - 1 ->
  forall fuel, (length (left s) + 1 < fuel)%nat -> exists s', read_content D fuel s = Ret (s', left s) /\ Inv s' /\ d_state D s' <> StFail.
Proof.
  intros s I O LL fuel Hf. unfold read_content, write_stream. set (n := Z.to_nat (M64 - 1)). assert (N : (length (left s) < n)%nat) by (unfold n; lia). clearbody n.
  destruct (copy_loop_spec array_dev D _ _ Inv left array_sink SRC array_always_writes NF fuel (d_set array_dev ([], StOk) StOk) s 0 n Logic.I I eq_refl) as (m & s4 & E4 & _ & I4 & M4 & L4 & O4). { lia. }
  rewrite E4. cbn [obind]. rewrite firstn_all2 in M4 by lia. cbn [array_dev d_set fst app] in M4. rewrite M4. exists s4. split; auto. split; auto.
  exact (proj1 (copy_state array_dev D _ _ Inv left array_sink SRC array_always_writes NF _ _ _ _ _ _ _ _ Logic.I I O E4)).
Qed.
Lemma cue_mem_bytes : forall c, cue_mem c = cue_bytes c.
Proof. intros. unfold cue_mem, cue_bytes, cue_fields. cbn [flat_map]. rewrite app_nil_r. reflexivity. Qed.
Lemma cue_len : forall c, length (cue_bytes c) = 24%nat.
Proof. intros. unfold cue_bytes. rewrite !app_length, !le_bytes_length. reflexivity. Qed.
Lemma cues_len : forall l, length (flat_map cue_bytes l) = (24 * length l)%nat.
Proof. induction l; cbn [flat_map length]; auto. rewrite app_length, cue_len. lia. Qed.
Lemma mem_cue_bytes : forall c, cue_ok c -> mem_cue (cue_bytes c) = c.
Proof.
  intros c (H1 & H2 & H3 & H4 & H5 & H6). rewrite <- cue_mem_bytes. unfold mem_cue, cue_mem. rewrite <- (app_nil_r (flat_map _ _)). change 6%nat with (length (cue_fields c)). rewrite units_flat.
  - destruct c. reflexivity.
  - unfold cue_fields. repeat (constructor; auto).
Qed.
Lemma mem_cues_bytes : forall l, Forall cue_ok l -> mem_cues (length l) (flat_map cue_bytes l) = l.
Proof.
  induction 1 as [|c l C F IH]; auto. cbn [length mem_cues flat_map]. assert (L := cue_len c). rewrite firstn_app, skipn_app, L, Nat.sub_diag, firstn_all2, skipn_all2 by lia. cbn [firstn skipn app]. rewrite app_nil_r, mem_cue_bytes, IH by auto. reflexivity.
Qed.
Lemma cues_read : forall s l b, Inv s -> d_state D s = StOk -> Z.of_nat (length l) < 2 ^ 32 -> Forall cue_ok l -> left s = cues_bytes l ++ b ->
  exists s', read_cues_plain D s = Ret (s', l) /\ Inv s' /\ d_state D s' <> StFail.
Proof.
  intros s l b I O LL F L. unfold read_cues_plain. unfold cues_bytes in L. rewrite <- app_assoc in L.
  destruct (read_data_spec D Inv left SRC NF s 4 [] (Z.of_nat (length l)) _ I O ltac:(lia) ltac:(lia) ltac:(cbn; lia) L) as (s1 & E1 & O1 & L1 & I1). rewrite E1. cbn [obind]. unfold d_ok. rewrite O1. cbn [is_ok negb]. rewrite Nat2Z.id.
  destruct (read_array_full D Inv left SRC NF s1 24 (length l) I1 ltac:(lia)) as (s2 & n & E2 & I2 & L2 & St & Hn & _). rewrite E2. cbn [obind]. assert (CL := cues_len l). rewrite L1, app_length in Hn. rewrite Hn by lia.
  exists s2. split; [|split; auto].
  - do 2 f_equal. rewrite L1, firstn_app, CL, Nat.sub_diag, firstn_all2 by lia. cbn [firstn]. rewrite app_nil_r, CL, Nat.sub_diag. cbn [repeat]. rewrite app_nil_r. apply mem_cues_bytes; auto.
  - rewrite St. destruct (_ <? _)%nat; discriminate.
Qed.
End Reading.
