(** WAV files: finding records and reading the cues. *)
From Coq Require Import ZifyBool ZifyNat Permutation Sorted.
From Verif Require Import Base StreamModel StreamSpec StreamProps StringModel StringSpec ConvModel ConvProps MemFileModel FileConvModel FileConvSpec IdrecModel IdrecSpec IdrecProps WavModel WavSpec WavProps WavWrite.
Ltac Zify.zify_post_hook ::= Z.div_mod_to_equations.

Lemma find_mono_any : forall {S} (F : fdev S) fset wi ws al f f' s id lim x, find F fset wi ws al f s id lim = x -> x <> UB -> (f <= f')%nat -> find F fset wi ws al f' s id lim = x.
Proof.
  intros S F fset wi ws al. induction f; intros f' s id lim x E N H; [cbn in E; congruence|]. destruct f'; [lia|]. cbn [find] in *. destruct (below F lim s); auto.
  destruct (read_data (file_dev F fset) s wi []) as [[s1 v]| |]; cbn [obind] in *; auto. destruct (negb _); auto. destruct (v =? id); auto.
  destruct (ignore F fset ws al s1) as [[s2 b]| |]; cbn [obind] in *; auto. apply IHf; auto. lia.
Qed.
Lemma find_mono : forall {S} (F : fdev S) fset wi ws al f f' s id lim x, find F fset wi ws al f s id lim = Ret x -> (f <= f')%nat -> find F fset wi ws al f' s id lim = Ret x.
Proof. intros. eapply find_mono_any; eauto. discriminate. Qed.
Lemma split_id : forall id l, Forall (fun x => c_id x <> id) l \/ exists l1 c l2, l = l1 ++ c :: l2 /\ c_id c = id /\ Forall (fun x => c_id x <> id) l1.
Proof.
  induction l as [|c l [H|(l1 & x & l2 & -> & E & H)]]; [left; auto| |]; destruct (Z.eq_dec (c_id c) id).
  - right. exists [], c, l. auto.
  - left. constructor; auto.
  - right. exists [], c, (l1 ++ x :: l2). auto.
  - right. exists (c :: l1), x, l2. split; auto.
Qed.
Lemma clen : forall c, length (chunk_bytes 4 4 c) = (8 + length (c_data c) + length (c_pad c))%nat.
Proof. intros. unfold chunk_bytes. rewrite !app_length, !le_bytes_length. lia. Qed.
Lemma chunks_even : forall l, Forall (chunk_ok 4 4 2) l -> (length (chunks 4 4 l) mod 2 = 0)%nat.
Proof. induction 1 as [|c l K H IH]; auto. unfold chunks in *. cbn [flat_map]. rewrite app_length, clen. destruct K as (_ & _ & K & _). lia. Qed.

Section Files.
Context {S : Type} (F : fdev S) (fset : S -> sstate -> S) (content : S -> list Z) (HF : settable_file F fset content).
Let FD := file_dev F fset.
Let at_ := at_ F content.

Lemma find_hit : forall l s id c l2 pre post limit fuel, at_ s pre (chunks 4 4 (l ++ c :: l2) ++ post) -> Forall (chunk_ok 4 4 2) (l ++ c :: l2) -> Forall (fun x => c_id x <> id) l -> c_id c = id ->
  match limit with None => True | Some e => (length pre + length (chunks 4 4 l) < e)%nat end -> (length (content s) + 1 < fuel + length pre)%nat -> (0 < fuel)%nat ->
  exists s', find F fset 4 4 2 fuel s id limit = Ret (s', true) /\ content s' = content s /\ f_state F s' = StOk /\ f_tell F s' = (length (pre ++ chunks 4 4 l) + 4)%nat.
Proof.
  intros l s id c l2 pre post limit fuel (O & C & T) K N E L Hf H0.
  destruct (find_first F fset content HF 4 4 2 ltac:(lia) ltac:(lia) ltac:(lia) ltac:(lia) ltac:(lia) l s id c l2 pre post limit O K N E C T L) as (f1 & s1 & E1 & C1 & O1 & T1). change (Z.of_nat 2) with 2 in E1.
  destruct (find_total_fuel F fset content HF 4 4 2 ltac:(lia) ltac:(lia) ltac:(lia) ltac:(lia) ltac:(lia) fuel s id limit O ltac:(lia) H0) as (s2 & b & E2 & _). change (Z.of_nat 2) with 2 in E2.
  pose proof (find_mono _ _ _ _ _ _ (Nat.max f1 fuel) _ _ _ _ E1 ltac:(lia)) as M1. pose proof (find_mono _ _ _ _ _ _ (Nat.max f1 fuel) _ _ _ _ E2 ltac:(lia)) as M2. rewrite M1 in M2. injection M2 as <- <-.
  exists s1. rewrite app_length. auto.
Qed.
Lemma find_miss : forall l s id pre post fuel, at_ s pre (chunks 4 4 l ++ post) -> Forall (chunk_ok 4 4 2) l -> Forall (fun x => c_id x <> id) l ->
  (length (content s) + 1 < fuel + length pre)%nat -> (0 < fuel)%nat ->
  exists s', find F fset 4 4 2 fuel s id (Some (length pre + length (chunks 4 4 l))%nat) = Ret (s', false) /\ at_ s' (pre ++ chunks 4 4 l) post.
Proof.
  intros l s id pre post fuel (O & C & T) K N Hf H0.
  destruct (find_none_below F fset content HF 4 4 2 ltac:(lia) ltac:(lia) ltac:(lia) ltac:(lia) ltac:(lia) l s id pre post O K N C T) as (f1 & s1 & E1 & C1 & O1 & T1). change (Z.of_nat 2) with 2 in E1.
  destruct (find_total_fuel F fset content HF 4 4 2 ltac:(lia) ltac:(lia) ltac:(lia) ltac:(lia) ltac:(lia) fuel s id (Some (length pre + length (chunks 4 4 l))%nat) O ltac:(lia) H0) as (s2 & b & E2 & _). change (Z.of_nat 2) with 2 in E2.
  pose proof (find_mono _ _ _ _ _ _ (Nat.max f1 fuel) _ _ _ _ E1 ltac:(lia)) as M1. pose proof (find_mono _ _ _ _ _ _ (Nat.max f1 fuel) _ _ _ _ E2 ltac:(lia)) as M2. rewrite M1 in M2. injection M2 as <- <-.
  exists s1. split; auto. split; auto. rewrite C1, app_length, <- app_assoc. auto.
Qed.

(** ** The window over a record *)
Definition fwin (d : list Z) (e : nat) (w : @fwindow S) : Prop :=
  content (fw_src w) = d /\ fw_off w = f_tell F (fw_src w) /\ (fw_start w <= fw_off w <= fw_end w)%nat /\ fw_end w = e /\ (e <= length d)%nat /\ f_state F (fw_src w) = StOk.
Definition fwleft (d : list Z) (w : @fwindow S) : list Z := firstn (fw_end w - fw_off w) (skipn (fw_off w) d).
Lemma fw_source : forall d e, source (fw_dev F) (fwin d e) (fwleft d).
Proof.
  intros d e. split.
  - intros w n w' b (C & T & R & E & L & O) H. cbn [fw_dev d_read d_state] in *. unfold fw_read, fw_contains in H. unfold fwin, fwleft. destruct (fw_start w <=? fw_off w)%nat eqn:Q1; [|lia]. destruct (fw_off w <? fw_end w)%nat eqn:Q2; cbn [andb] in H.
    + destruct (f_read F (fw_src w) _) as [s' b'] eqn:ER. injection H as <- <-. cbn [fw_src fw_st fw_off fw_start fw_end]. apply (pf_read F content (sf_plain _ _ _ HF)) in ER. destruct ER as (Eb & Ec & Et & Es). rewrite C, <- T in Eb.
      assert (Lb : length b' = Nat.min n (fw_end w - fw_off w)) by (rewrite Eb, firstn_length, skipn_length; lia).
      assert (St : f_state F s' = StOk) by (rewrite Es, Lb; replace ((0 <? Nat.min n (fw_end w - fw_off w))%nat && (Nat.min n (fw_end w - fw_off w) =? 0)%nat) with false by lia; reflexivity).
      rewrite St. split; [repeat split; try congruence; lia|]. split; [|split; [lia|intros Hn ->; cbn in Lb; lia]].
      rewrite <- (firstn_skipn (length b') (firstn (fw_end w - fw_off w) (skipn (fw_off w) d))). f_equal.
      * rewrite firstn_firstn, Lb. replace (Nat.min (Nat.min n (fw_end w - fw_off w)) (fw_end w - fw_off w)) with (Nat.min n (fw_end w - fw_off w)) by lia. symmetry. exact Eb.
      * rewrite skipn_firstn_comm, skipn_add. f_equal. lia.
    + injection H as <- <-. cbn [fw_src fw_st fw_off fw_start fw_end]. split; [repeat split; auto; lia|]. split; [auto|]. split; [cbn; lia|]. replace (fw_end w - fw_off w)%nat with 0%nat by lia. cbn [firstn]. destruct (n =? 0)%nat eqn:Qn; [intros; lia|]. split; [lia|auto].
  - intros [s st o b e'] st' (C & T & R & E & L & O). cbn in *. unfold fwin. cbn [fw_src fw_off fw_start fw_end]. auto 10.
Qed.
Lemma fw_nf : forall d e, never_fails (fw_dev F) (fwin d e).
Proof.
  intros d e w n (C & T & R & E & L & O). cbn [fw_dev d_read d_state]. unfold fw_read. destruct (fw_contains w (fw_off w)).
  - destruct (f_read F (fw_src w) _) as [s' b'] eqn:ER. apply (pf_read F content (sf_plain _ _ _ HF)) in ER. destruct ER as (_ & _ & _ & Es). cbn [fst fw_st]. rewrite Es. destruct (_ && _); discriminate.
  - cbn [fst fw_st]. destruct (n =? 0)%nat; discriminate.
Qed.
Lemma mems_read : forall d e cs w rest old, fwin d e w -> d_state (fw_dev F) w = StOk -> Forall cue_ok cs -> fwleft d w = flat_map cue_bytes cs ++ rest ->
  exists w', read_cue_mems F (length cs) w old = Ret (w', attach cs old) /\ fwin d e w' /\ fwleft d w' = rest.
Proof.
  intros d e. induction cs as [|c cs IH]; intros w rest old I O H L; cbn [length read_cue_mems attach]; [exists w; auto|]. inversion H as [|? ? K1 K2]; subst. cbn [flat_map] in L. rewrite <- app_assoc in L.
  destruct (read_array_full (fw_dev F) _ _ (fw_source d e) (fw_nf d e) w 24 1 I ltac:(lia)) as (w1 & n & E1 & I1 & L1 & St & _). change (24 * 1)%nat with (24)%nat in *. rewrite E1. cbn [obind].
  assert (CL := cue_len c). rewrite L in *. rewrite app_length in St. replace (_ <? 24)%nat with false in St by lia. cbn [fw_dev d_state] in St. rewrite St. cbn [is_ok negb].
  rewrite firstn_app, CL, Nat.sub_diag, firstn_all2 by lia. cbn [firstn]. rewrite app_nil_r, mem_cue_bytes by auto. rewrite skipn_app, CL, Nat.sub_diag, skipn_all2 in L1 by lia. cbn [skipn app] in L1.
  destruct (IH w1 rest (tl old) I1 St K2 L1) as (w2 & E2 & I2 & L2). rewrite E2. cbn [obind]. exists w2. auto.
Qed.

(** ** The order of cues *)
Lemma ordered_spec : forall l, ordered l = true -> in_order l.
Proof.
  intros l H. apply Sorted_StronglySorted. { unfold by_id. intros a b c. lia. } induction l as [|a [|b l] IH]; [constructor|repeat constructor|]. change (negb (key_of b <? key_of a) && ordered (b :: l) = true) in H. apply andb_true_iff in H as [H1 H2]. constructor; [apply IH; exact H2|]. constructor. unfold by_id. lia.
Qed.

Context (sort : list cue_ex -> list cue_ex) (bsearch : Z -> list cue_ex -> option nat) (SORT : sorts sort) (SEARCH : searches bsearch).
(** one record with cues, found *)
Lemma cue_step : forall l1 c l2 s s1 pre post old limit fuel, at_ s pre (chunks 4 4 (l1 ++ c :: l2) ++ post) -> below F limit s = true -> Forall wav_rec_ok (l1 ++ c :: l2) -> c_id c = id_cue ->
  find F fset 4 4 2 fuel s id_cue limit = Ret (s1, true) -> content s1 = content s -> f_state F s1 = StOk -> f_tell F s1 = (length (pre ++ chunks 4 4 l1) + 4)%nat ->
  exists s2 cs mid, cues_loop F fset sort (Datatypes.S fuel) s old limit = cues_loop F fset sort fuel s2 mid limit /\ at_ s2 (pre ++ chunks 4 4 l1 ++ chunk_bytes 4 4 c) (chunks 4 4 l2 ++ post) /\ content s2 = content s /\
    c_data c = cues_bytes cs /\ Forall cue_ok cs /\ Permutation (attach cs old) mid /\ in_order mid.
Proof.
  intros l1 c l2 s s1 pre post old limit fuel A B K EC E1 C1 O1 T1. destruct (A) as (O & C & T).
  assert (CL : length (chunks 4 4 (l1 ++ c :: l2)) = (length (chunks 4 4 l1) + length (chunk_bytes 4 4 c) + length (chunks 4 4 l2))%nat) by (unfold chunks; rewrite flat_map_app; cbn [flat_map]; rewrite !app_length; lia).
  pose proof (clen c) as Cc. assert (CO : length (content s) = (length pre + length (chunks 4 4 (l1 ++ c :: l2)) + length post)%nat) by (rewrite C, !app_length; lia).
  cbn [cues_loop]. rewrite B, E1. cbn [obind negb].
  apply Forall_app in K as [K1 K2]. inversion K2 as [|? ? K3 K4]; subst. destruct K3 as (KC & KQ & _). destruct (KQ EC) as (cs & ED & CS). clear KQ.
  assert (Cx : content s1 = (pre ++ chunks 4 4 l1) ++ chunk_bytes 4 4 c ++ (chunks 4 4 l2 ++ post)). { rewrite C1, C. unfold chunks. rewrite flat_map_app. cbn [flat_map]. rewrite <- !app_assoc. reflexivity. }
  assert (LEN : length (c_data c) = (4 + 24 * length cs)%nat) by (rewrite ED; unfold cues_bytes; rewrite app_length, le_bytes_length, cues_len; lia).
  assert (PAD : c_pad c = []). { destruct KC as (_ & P1 & P2 & _). rewrite LEN in P2. destruct (c_pad c) as [|x [|y p]]; auto; cbn [length] in *; lia. }
  assert (SZ : Z.of_nat (length (c_data c)) < 2 ^ 32) by (destruct KC as (_ & _ & _ & KZ); change (256 ^ Z.of_nat 4) with (2 ^ 32) in KZ; lia).
  assert (Cy : content s1 = (pre ++ chunks 4 4 l1 ++ le_bytes 4 (c_id c) ++ le_bytes 4 (Z.of_nat (length (c_data c)))) ++ c_data c ++ (c_pad c ++ chunks 4 4 l2 ++ post)) by (rewrite Cx; unfold chunk_bytes; rewrite <- !app_assoc; reflexivity).
  destruct (rd4 F fset content HF s1 4 (pre ++ chunks 4 4 l1 ++ le_bytes 4 (c_id c)) (Z.of_nat (length (c_data c))) (c_data c ++ c_pad c ++ chunks 4 4 l2 ++ post) O1 ltac:(lia) ltac:(lia) ltac:(change (256 ^ Z.of_nat 4) with (2 ^ 32); lia)) as (s2 & E2 & C2 & O2 & T2).
  { rewrite Cy, <- !app_assoc. reflexivity. } { rewrite T1, !app_length, le_bytes_length. lia. }
  rewrite E2. cbn [obind]. rewrite O2. cbn [is_ok negb]. rewrite Nat2Z.id.
  set (d := content s) in *. set (w := fw_new F s2 (f_tell F s2) (length (c_data c))).
  assert (Td : f_tell F s2 = (length pre + length (chunks 4 4 l1) + 8)%nat) by (rewrite T2, !app_length, le_bytes_length; lia).
  assert (Id : fwin d (f_tell F s2 + length (c_data c)) w). { unfold w, fwin, fw_new. cbn [fw_src fw_off fw_start fw_end]. split; [congruence|]. repeat split; auto; try lia. }
  assert (Lw : fwleft d w = cues_bytes cs ++ []). { rewrite app_nil_r, <- ED. unfold w, fwleft, fw_new. cbn [fw_src fw_off fw_start fw_end]. rewrite <- C1, Cy. replace (f_tell F s2 + length (c_data c) - f_tell F s2)%nat with (length (c_data c)) by lia. replace (f_tell F s2) with (length (pre ++ chunks 4 4 l1 ++ le_bytes 4 (c_id c) ++ le_bytes 4 (Z.of_nat (length (c_data c))))) by (rewrite Td, !app_length, !le_bytes_length; lia).
    rewrite skip_here, first_here. reflexivity. }
  unfold cues_bytes in Lw. rewrite <- app_assoc in Lw.
  destruct (read_data_spec (fw_dev F) _ _ (fw_source _ _) (fw_nf _ _) w 4 [] (Z.of_nat (length cs)) _ Id O2 ltac:(lia) ltac:(lia) ltac:(change (256 ^ Z.of_nat 4) with (2 ^ 32); lia) Lw) as (w1 & E3 & S3 & L3 & I3). rewrite E3. cbn [obind]. cbn [fw_dev d_state] in S3. rewrite S3. cbn [is_ok negb]. rewrite Nat2Z.id.
  destruct (mems_read _ _ cs w1 [] old I3 S3 CS L3) as (w2 & E4 & I4 & L4). rewrite E4. cbn [obind].
  destruct I4 as (C5 & T5 & R5 & F5 & M5 & O5). unfold fwleft in L4. apply (f_equal (@length Z)) in L4. rewrite firstn_length, skipn_length in L4. cbn [length] in L4.
  set (mid := if ordered (attach cs old) then attach cs old else sort (attach cs old)). exists (fw_src w2), cs, mid. split; [reflexivity|]. split; [|split; [auto|split; [auto|split; [auto|]]]].
  - split; auto. split; [rewrite C5; rewrite <- C1, Cx, <- !app_assoc; reflexivity|]. rewrite <- T5, !app_length, Cc, PAD. cbn [length]. lia.
  - unfold mid. destruct (ordered (attach cs old)) eqn:QO; [split; auto; apply ordered_spec; auto|]. apply SORT.
Qed.
Lemma cues_loop_spec : forall n l, (length l <= n)%nat -> forall s pre post old fuel, at_ s pre (chunks 4 4 l ++ post) -> Forall wav_rec_ok l ->
  (length (content s) + 2 < fuel + length pre)%nat -> (1 < fuel)%nat -> (in_order old) ->
  exists s' new, cues_loop F fset sort fuel s old (Some (length pre + length (chunks 4 4 l))%nat) = Ret (s', Some new) /\ content s' = content s /\ loaded l old new /\ in_order new.
Proof.
  induction n as [|n IH]; intros l Hn s pre post old fuel A K Hf H1 IO.
  all: assert (KO : Forall (chunk_ok 4 4 2) l) by (revert K; apply Forall_impl; intros c Kc; apply Kc).
  all: destruct fuel as [|fuel]; [lia|]; destruct (A) as (O & C & T).
  { destruct l; [|cbn in Hn; lia]. cbn [cues_loop]. unfold below. rewrite T. unfold chunks. cbn [flat_map length]. replace (length pre <? length pre + 0)%nat with false by lia. exists s, old. repeat split; auto. constructor. }
  destruct (split_id id_cue l) as [NO|(l1 & c & l2 & -> & EC & NO)].
  - cbn [cues_loop]. unfold below. rewrite T. assert (LD : loaded l old old) by (clear - NO; induction NO; constructor; auto). destruct (_ <? _)%nat eqn:B; [|exists s, old; auto].
    destruct (find_miss l s id_cue pre post fuel A KO NO ltac:(lia) ltac:(lia)) as (s1 & E1 & (O1 & C1 & T1)). rewrite E1. cbn [obind negb]. destruct fuel as [|fuel]; [lia|]. cbn [cues_loop]. unfold below. rewrite T1, app_length.
    replace (_ <? _)%nat with false by lia. exists s1, old. split; auto. split; auto. rewrite C1, C, <- app_assoc. auto.
  - assert (CL : length (chunks 4 4 (l1 ++ c :: l2)) = (length (chunks 4 4 l1) + length (chunk_bytes 4 4 c) + length (chunks 4 4 l2))%nat) by (unfold chunks; rewrite flat_map_app; cbn [flat_map]; rewrite !app_length; lia).
    pose proof (clen c) as Cc. assert (CO : length (content s) = (length pre + length (chunks 4 4 (l1 ++ c :: l2)) + length post)%nat) by (rewrite C, !app_length; lia).
    destruct (find_hit l1 s id_cue c l2 pre post (Some (length pre + length (chunks 4 4 (l1 ++ c :: l2)))%nat) fuel A KO NO EC) as (s1 & E1 & C1 & O1 & T1); [lia|lia|lia|].
    assert (B : below F (Some (length pre + length (chunks 4 4 (l1 ++ c :: l2)))%nat) s = true) by (unfold below; lia). destruct (cue_step l1 c l2 s s1 pre post old _ fuel A B K EC E1 C1 O1 T1) as (s2 & cs & mid & E2 & A2 & C2 & ED & CS & Pm & Im). rewrite E2.
    destruct (IH l2 ltac:(rewrite app_length in Hn; cbn [length] in Hn; lia) s2 (pre ++ chunks 4 4 l1 ++ chunk_bytes 4 4 c) post mid fuel A2) as (s3 & new & E6 & C6 & L6 & IN6).
    { apply Forall_app in K as [_ K]. inversion K; auto. } { rewrite C2, !app_length. lia. } { lia. } { auto. }
    exists s3, new. split; [|split; [congruence|]].
    + rewrite !app_length in E6. rewrite CL. replace (length pre + (length (chunks 4 4 l1) + length (chunk_bytes 4 4 c) + length (chunks 4 4 l2)))%nat with (length pre + (length (chunks 4 4 l1) + length (chunk_bytes 4 4 c)) + length (chunks 4 4 l2))%nat by lia. exact E6.
    + split; auto. clear - NO EC ED CS Pm Im L6. induction NO; cbn [app]; [eapply ld_cue; eauto|apply ld_other; auto].
Qed.
(** Without a limit the cues are looked for without end: whatever the file, the function never tells true... *)
Lemma cues_loop_never : forall fuel s old s' x, cues_loop F fset sort fuel s old None = Ret (s', x) -> x = None.
Proof.
  induction fuel; intros s old s' x E; [discriminate|]. cbn [cues_loop below] in E. destruct (find F fset 4 4 2 fuel s id_cue None) as [[s1 b]| |]; cbn [obind] in E; try discriminate. destruct (negb b); [eauto|].
  destruct (read_data _ s1 4 []) as [[s2 v]| |]; cbn [obind] in E; try discriminate. destruct (negb _); [congruence|]. destruct (read_data (fw_dev F) _ 4 []) as [[w1 v1]| |]; cbn [obind] in E; try discriminate. destruct (negb _); [congruence|].
  destruct (read_cue_mems F _ w1 old) as [[w2 l]| |]; cbn [obind] in E; try discriminate. eauto.
Qed.
Theorem read_cues_never : forall fuel s old s' x, read_cues F fset sort bsearch fuel s old None = Ret (s', x) -> x = None.
Proof.
  intros fuel s old s' x E. unfold read_cues in E. destruct (cues_loop _ _ _ _ _ _ _) as [[s1 y]| |] eqn:Q; cbn [obind] in E; try discriminate. apply cues_loop_never in Q. subst y. congruence.
Qed.
Lemma find_stuck : forall fuel s id, f_state F s <> StOk -> find F fset 4 4 2 (Datatypes.S fuel) s id None = Ret (s, false).
Proof. intros fuel s id H. cbn [find below]. rewrite read_data_skip by (cbn [file_dev d_state]; auto). cbn [obind]. destruct (f_state F s); [congruence|reflexivity|reflexivity]. Qed.
Lemma cues_loop_stuck : forall fuel s old, f_state F s <> StOk -> cues_loop F fset sort fuel s old None = UB.
Proof. induction fuel; intros s old H; auto. cbn [cues_loop below]. destruct fuel; [reflexivity|]. rewrite find_stuck by auto. cbn [obind negb]. apply IHfuel. auto. Qed.
Lemma cues_loop_hangs : forall n l, (length l <= n)%nat -> forall s pre old fuel, at_ s pre (chunks 4 4 l) -> Forall wav_rec_ok l -> cues_loop F fset sort fuel s old None = UB.
Proof.
  induction n as [|n IH]; intros l Hn s pre old fuel A K; destruct fuel as [|fuel]; auto.
  all: assert (KO : Forall (chunk_ok 4 4 2) l) by (revert K; apply Forall_impl; intros c Kc; apply Kc); destruct (A) as (O & C & T).
  all: assert (BASE : Forall (fun x => c_id x <> id_cue) l -> cues_loop F fset sort (Datatypes.S fuel) s old None = UB).
  1, 3: intros NO; destruct (find_none_end F fset content HF 4 4 2 ltac:(lia) ltac:(lia) ltac:(lia) ltac:(lia) ltac:(lia) l s id_cue pre O KO NO C T) as (f & s1 & E1 & C1 & O1 & T1); change (Z.of_nat 2) with 2 in E1; cbn [cues_loop below];
    destruct (find F fset 4 4 2 fuel s id_cue None) as [x| |] eqn:Q; auto; [apply (find_mono_any _ _ _ _ _ _ (Nat.max f fuel)) in Q; [|discriminate|lia]; apply (find_mono _ _ _ _ _ _ (Nat.max f fuel)) in E1; [|lia]; rewrite E1 in Q; injection Q as <-; cbn [obind negb]; apply cues_loop_stuck; congruence|
      apply (find_mono_any _ _ _ _ _ _ (Nat.max f fuel)) in Q; [|discriminate|lia]; apply (find_mono _ _ _ _ _ _ (Nat.max f fuel)) in E1; [|lia]; congruence].
  { apply BASE. destruct l; [constructor|cbn in Hn; lia]. }
  destruct (split_id id_cue l) as [NO|(l1 & c & l2 & -> & EC & NO)]; auto. clear BASE.
  destruct (find_hit l1 s id_cue c l2 pre [] None (length (content s) + 2)) as (s1 & E1 & C1 & O1 & T1); auto; try lia. { rewrite app_nil_r. auto. }
  destruct (find F fset 4 4 2 fuel s id_cue None) as [x| |] eqn:Q.
  - pose proof Q as Q'. apply (find_mono_any _ _ _ _ _ _ (Nat.max (length (content s) + 2) fuel)) in Q'; [|discriminate|lia]. apply (find_mono _ _ _ _ _ _ (Nat.max (length (content s) + 2) fuel)) in E1; [|lia]. rewrite E1 in Q'. assert (EX : x = (s1, true)) by congruence. rewrite EX in Q. clear EX Q' E1.
    destruct (cue_step l1 c l2 s s1 pre [] old None fuel) as (s2 & cs & mid & E2 & A2 & _); auto. { rewrite app_nil_r. auto. } rewrite E2. rewrite app_nil_r in A2. eapply (IH l2); eauto. { rewrite app_length in Hn. cbn [length] in Hn. lia. } apply Forall_app in K as [_ K]. inversion K; auto.
  - apply (find_mono_any _ _ _ _ _ _ (Nat.max (length (content s) + 2) fuel)) in Q; [|discriminate|lia]. apply (find_mono _ _ _ _ _ _ (Nat.max (length (content s) + 2) fuel)) in E1; [|lia]. congruence.
  - cbn [cues_loop below]. rewrite Q. reflexivity.
Qed.
(** ... and on a file that is well-formed to its end it does not return at all. *)
Theorem read_cues_hangs : forall l s pre old fuel, f_state F s = StOk -> content s = pre ++ chunks 4 4 l -> f_tell F s = length pre -> Forall wav_rec_ok l -> read_cues F fset sort bsearch fuel s old None = UB.
Proof. intros l s pre old fuel O C T K. unfold read_cues. rewrite (cues_loop_hangs (length l) l ltac:(lia) s pre old fuel); auto. split; auto. Qed.

(** ** Finding a list *)
(** behind the identifier of a record [x]: its size, and the first number in it *)
Lemma sub_read : forall s p x q sub b, f_state F s = StOk -> chunk_ok 4 4 2 x -> content s = p ++ chunk_bytes 4 4 x ++ q -> f_tell F s = (length p + 4)%nat -> c_data x = le_bytes 4 sub ++ b -> fits 4 sub ->
  exists s2 s3, read_data FD s 4 [] = Ret (s2, Z.of_nat (length (c_data x))) /\ f_state F s2 = StOk /\ f_tell F s2 = (length p + 8)%nat /\ read_data FD s2 4 [] = Ret (s3, sub) /\ f_state F s3 = StOk /\ content s3 = content s /\ f_tell F s3 = (length p + 12)%nat.
Proof.
  intros s p x q sub b O K C T D Fs. assert (SZ : Z.of_nat (length (c_data x)) < 2 ^ 32) by (destruct K as (_ & _ & _ & KZ); change (256 ^ Z.of_nat 4) with (2 ^ 32) in KZ; lia).
  destruct (rd4 F fset content HF s 4 (p ++ le_bytes 4 (c_id x)) (Z.of_nat (length (c_data x))) (c_data x ++ c_pad x ++ q) O ltac:(lia) ltac:(lia) ltac:(change (256 ^ Z.of_nat 4) with (2 ^ 32); lia)) as (s2 & E2 & C2 & O2 & T2).
  { rewrite C. unfold chunk_bytes. rewrite <- !app_assoc. reflexivity. } { rewrite app_length, le_bytes_length. lia. }
  rewrite app_length, le_bytes_length in T2.
  destruct (rd4 F fset content HF s2 4 (p ++ le_bytes 4 (c_id x) ++ le_bytes 4 (Z.of_nat (length (c_data x)))) sub (b ++ c_pad x ++ q) O2 ltac:(lia) ltac:(lia) Fs) as (s3 & E3 & C3 & O3 & T3).
  { rewrite C2, C. unfold chunk_bytes. rewrite D, <- !app_assoc. reflexivity. } { rewrite !app_length, !le_bytes_length. lia. }
  rewrite !app_length, !le_bytes_length in T3. exists s2, s3. unfold FD. split; auto. split; auto. split; [lia|]. split; auto. split; auto. split; [congruence|lia].
Qed.
Definition other_sub (id subid : Z) (x : chunk) : Prop := c_id x = id -> exists sub b, c_data x = le_bytes 4 sub ++ b /\ fits 4 sub /\ sub <> subid.
Lemma chunks_mid : forall l1 c l2 post, chunks 4 4 (l1 ++ c :: l2) ++ post = chunks 4 4 l1 ++ chunk_bytes 4 4 c ++ chunks 4 4 l2 ++ post.
Proof. intros. unfold chunks. rewrite flat_map_app. cbn [flat_map]. rewrite <- !app_assoc. reflexivity. Qed.
Lemma mid_len : forall l1 c l2, length (chunks 4 4 (l1 ++ c :: l2)) = (length (chunks 4 4 l1) + length (chunk_bytes 4 4 c) + length (chunks 4 4 l2))%nat.
Proof. intros. unfold chunks. rewrite flat_map_app. cbn [flat_map]. rewrite !app_length. lia. Qed.
(** the step over a record of another kind *)
Lemma ff_step : forall a x l s id subid pre post e fuel, at_ s pre (chunks 4 4 (a ++ x :: l) ++ post) -> (length pre mod 2 = 0)%nat -> Forall (chunk_ok 4 4 2) (a ++ x :: l) ->
  Forall (fun y => c_id y <> id) a -> c_id x = id -> other_sub id subid x -> (length pre + length (chunks 4 4 a) < e)%nat -> (length (content s) + 2 < Datatypes.S fuel + length pre)%nat ->
  exists s', wav_find_first F fset (Datatypes.S fuel) s id subid (Some e) = wav_find_first F fset fuel s' id subid (Some e) /\ at_ s' (pre ++ chunks 4 4 (a ++ [x])) (chunks 4 4 l ++ post).
Proof.
  intros a x l s id subid pre post e fuel A EV K N Ex Ox Le Hf. cbn [wav_find_first]. destruct (A) as (O & C & T). unfold below. rewrite T. replace (_ <? _)%nat with true by lia.
  pose proof (clen x) as Cx. assert (CO : length (content s) = (length pre + length (chunks 4 4 (a ++ x :: l)) + length post)%nat) by (rewrite C, !app_length; lia). rewrite mid_len in CO.
  destruct (find_hit a s id x l pre post (Some e) fuel A K N Ex) as (s1 & E1 & C1 & O1 & T1); [lia|lia|lia|]. rewrite E1. cbn [obind negb]. assert (Kx : chunk_ok 4 4 2 x) by (apply Forall_app in K as [_ K]; inversion K; auto). assert (Ka : Forall (chunk_ok 4 4 2) a) by (apply Forall_app in K as [K _]; auto).
  destruct (Ox Ex) as (sub & b & D & Fs & Ns). rewrite C in C1. rewrite chunks_mid, app_assoc in C1. destruct (sub_read s1 (pre ++ chunks 4 4 a) x _ sub b O1 Kx C1 T1 D Fs) as (s2 & s3 & E2 & O2 & T2 & E3 & O3 & C3 & T3).
  unfold FD in E2, E3. rewrite E2. cbn [obind]. rewrite O2. cbn [is_ok negb]. rewrite E3. cbn [obind]. rewrite O3. cbn [is_ok negb]. replace (sub =? subid) with false by lia. rewrite Nat2Z.id, T2.
  set (q := (length (pre ++ chunks 4 4 a) + 8 + length (c_data x))%nat). destruct (pf_seek F content (sf_plain _ _ _ HF) s3 (q + q mod 2)%nat) as (C4 & T4 & O4). eexists. split; [reflexivity|]. split; auto. rewrite C4, T4, C3, C1. unfold chunks. rewrite flat_map_app. cbn [flat_map]. fold (chunks 4 4). rewrite app_nil_r, <- !app_assoc. split; auto.
  pose proof (chunks_even a Ka) as EA. destruct Kx as (_ & P1 & P2 & _). rewrite !app_length in *. unfold chunks in *. rewrite Cx. subst q. rewrite app_length. lia.
Qed.
Lemma ff_hit : forall n l1, (length l1 <= n)%nat -> forall c l2 s id subid b pre post e fuel, at_ s pre (chunks 4 4 (l1 ++ c :: l2) ++ post) -> (length pre mod 2 = 0)%nat -> Forall (chunk_ok 4 4 2) (l1 ++ c :: l2) ->
  Forall (other_sub id subid) l1 -> c_id c = id -> c_data c = le_bytes 4 subid ++ b -> fits 4 subid -> (length pre + length (chunks 4 4 l1) < e)%nat -> (length (content s) + 2 < fuel + length pre)%nat ->
  exists s', wav_find_first F fset fuel s id subid (Some e) = Ret (s', Some (length pre + length (chunks 4 4 l1) + 8 + length (c_data c))%nat) /\ content s' = content s /\ f_state F s' = StOk /\ f_tell F s' = (length pre + length (chunks 4 4 l1) + 12)%nat.
Proof.
  induction n as [|n IH]; intros l1 Hn c l2 s id subid b pre post e fuel A EV K N Ec Dc Fs Le Hf.
  all: destruct (A) as (O & C & T); pose proof (clen c) as Cc; assert (CO : length (content s) = (length pre + length (chunks 4 4 (l1 ++ c :: l2)) + length post)%nat) by (rewrite C, !app_length; lia); rewrite mid_len in CO.
  all: destruct fuel as [|fuel]; [lia|].
  all: assert (BASE : Forall (fun y => c_id y <> id) l1 -> exists s', wav_find_first F fset (Datatypes.S fuel) s id subid (Some e) = Ret (s', Some (length pre + length (chunks 4 4 l1) + 8 + length (c_data c))%nat) /\ content s' = content s /\ f_state F s' = StOk /\ f_tell F s' = (length pre + length (chunks 4 4 l1) + 12)%nat).
  1, 3: intros N1; cbn [wav_find_first]; unfold below; rewrite T; replace (_ <? _)%nat with true by lia;
    destruct (find_hit l1 s id c l2 pre post (Some e) fuel A K N1 Ec) as (s1 & E1 & C1 & O1 & T1); [lia|lia|lia|]; rewrite E1; cbn [obind negb]; assert (Kc : chunk_ok 4 4 2 c) by (apply Forall_app in K as [_ K]; inversion K; auto);
    pose proof C1 as C1'; rewrite C in C1'; rewrite chunks_mid, app_assoc in C1'; destruct (sub_read s1 (pre ++ chunks 4 4 l1) c _ subid b O1 Kc C1' T1 Dc Fs) as (s2 & s3 & E2 & O2 & T2 & E3 & O3 & C3 & T3);
    unfold FD in E2, E3; rewrite E2; cbn [obind]; rewrite O2; cbn [is_ok negb]; rewrite E3; cbn [obind]; rewrite O3; cbn [is_ok negb]; rewrite Z.eqb_refl, Nat2Z.id, T2; exists s3; rewrite app_length in *; repeat split; auto; congruence.
  { apply BASE. destruct l1; [constructor|cbn in Hn; lia]. }
  destruct (split_id id l1) as [NO|(a & x & l & -> & Ex & NO)]; [auto|]. clear BASE. rewrite <- app_assoc in *. cbn [app] in *. apply Forall_app in N as [N1 N2]. inversion N2 as [|? ? N3 N4]; subst.
  rewrite app_length in Hn. cbn [length] in Hn.
  destruct (ff_step a x (l ++ c :: l2) s (c_id c) subid pre post e fuel A EV K NO Ex N3) as (s1 & E1 & A1); [rewrite mid_len in Le; lia|lia|]. rewrite E1.
  assert (Kx : Forall (chunk_ok 4 4 2) (a ++ [x])). { apply Forall_app in K as [Ka K]. inversion K; subst. apply Forall_app. auto. } pose proof (chunks_even _ Kx) as EV2.
  assert (LX : length (chunks 4 4 (a ++ [x])) = (length (chunks 4 4 a) + length (chunk_bytes 4 4 x))%nat) by (rewrite mid_len; cbn; lia). pose proof (clen x) as Cx.
  assert (CS : content s1 = content s). { destruct A1 as (_ & C1 & _). rewrite C1, C. rewrite <- (app_assoc pre), (app_assoc _ _ post), <- chunks_app, <- app_assoc. reflexivity. }
  destruct (IH l ltac:(lia) c l2 s1 (c_id c) subid b (pre ++ chunks 4 4 (a ++ [x])) post e fuel A1) as (s2 & E2 & C2 & O2 & T2); auto.
  { rewrite app_length. lia. } { apply Forall_app in K as [_ K]. inversion K; auto. } { rewrite app_length, LX. rewrite mid_len in Le. lia. } { rewrite CS, app_length, LX. lia. }
  exists s2. rewrite mid_len. rewrite app_length, LX in *. split; [rewrite E2; do 3 f_equal; lia|]. split; [congruence|]. split; auto. lia.
Qed.
Lemma ff_miss : forall n l, (length l <= n)%nat -> forall s id subid pre post fuel, at_ s pre (chunks 4 4 l ++ post) -> (length pre mod 2 = 0)%nat -> Forall (chunk_ok 4 4 2) l ->
  Forall (other_sub id subid) l -> (length (content s) + 2 < fuel + length pre)%nat -> (1 < fuel)%nat ->
  exists s', wav_find_first F fset fuel s id subid (Some (length pre + length (chunks 4 4 l))%nat) = Ret (s', None) /\ at_ s' (pre ++ chunks 4 4 l) post.
Proof.
  induction n as [|n IH]; intros l Hn s id subid pre post fuel A EV K N Hf H1; destruct (A) as (O & C & T); destruct fuel as [|fuel]; try lia.
  { destruct l; [|cbn in Hn; lia]. cbn [wav_find_first]. unfold below. rewrite T. unfold chunks. cbn [flat_map length]. replace (_ <? _)%nat with false by lia. exists s. rewrite app_nil_r. auto. }
  assert (CO : length (content s) = (length pre + length (chunks 4 4 l) + length post)%nat) by (rewrite C, !app_length; lia).
  destruct (split_id id l) as [NO|(a & x & l2 & -> & Ex & NO)].
  - cbn [wav_find_first]. unfold below. rewrite T. destruct (_ <? _)%nat eqn:B.
    + destruct (find_miss l s id pre post fuel A K NO ltac:(lia) ltac:(lia)) as (s1 & E1 & A1). rewrite E1. cbn [obind negb]. exists s1. auto.
    + exists s. split; auto. assert (chunks 4 4 l = []) as E by (apply length_zero_iff_nil; lia). rewrite E in *. rewrite app_nil_r. auto.
  - apply Forall_app in N as [N1 N2]. inversion N2 as [|? ? N3 N4]; subst. rewrite app_length in Hn. cbn [length] in Hn. rewrite mid_len in *. pose proof (clen x) as Cx.
    set (e := (length pre + _)%nat). destruct (ff_step a x l2 s (c_id x) subid pre post e fuel A EV K NO eq_refl N3) as (s1 & E1 & A1); [unfold e; lia|lia|]. rewrite E1.
    assert (Kx : Forall (chunk_ok 4 4 2) (a ++ [x])). { apply Forall_app in K as [Ka K]. inversion K; subst. apply Forall_app. auto. } pose proof (chunks_even _ Kx) as EV2.
    assert (LX : length (chunks 4 4 (a ++ [x])) = (length (chunks 4 4 a) + length (chunk_bytes 4 4 x))%nat) by (rewrite mid_len; cbn; lia).
    assert (CS : content s1 = content s). { destruct A1 as (_ & C1 & _). rewrite C1, C. rewrite <- (app_assoc pre), (app_assoc _ _ post), <- chunks_app, <- app_assoc. reflexivity. }
    destruct (IH l2 ltac:(lia) s1 (c_id x) subid (pre ++ chunks 4 4 (a ++ [x])) post fuel A1) as (s2 & E2 & A2); auto.
    { rewrite app_length. lia. } { apply Forall_app in K as [_ K]. inversion K; auto. } { rewrite CS, app_length, LX. lia. } { lia. }
    exists s2. split; [rewrite app_length, LX in E2; replace e with (length pre + (length (chunks 4 4 a) + length (chunk_bytes 4 4 x)) + length (chunks 4 4 l2))%nat by (unfold e; lia); exact E2|].
    rewrite <- app_assoc, <- chunks_app, <- app_assoc in A2. exact A2.
Qed.
End Files.
