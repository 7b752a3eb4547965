(** WAV files: what is written, and reading back one record. *)
From Coq Require Import ZifyBool ZifyNat Permutation Sorted.
From Verif Require Import Base StreamModel StreamSpec StreamProps StringModel StringSpec ConvModel ConvProps MemFileModel FileConvModel FileConvSpec IdrecModel IdrecSpec IdrecProps WavModel WavSpec WavProps.
Ltac Zify.zify_post_hook ::= Z.div_mod_to_equations.

Section Files.
Context {S : Type} (F : fdev S) (fset : S -> sstate -> S) (content : S -> list Z) (HF : settable_file F fset content).
Let FD := file_dev F fset.

(** the file is in state ok between [pre] and [post] *)
Definition at_ (s : S) (pre post : list Z) : Prop := f_state F s = StOk /\ content s = pre ++ post /\ f_tell F s = length pre.
(** a writer that stores the bytes [b] at the position, over what is there *)
Definition writes (w : S -> outcome S) (b : list Z) : Prop :=
  forall s pre post, at_ s pre post -> exists s', w s = Ret s' /\ at_ s' (pre ++ b) (skipn (length b) post).

Lemma writes_nil : writes Ret [].
Proof. intros s pre post H. exists s. cbn [skipn length]. rewrite app_nil_r. auto. Qed.
Lemma writes_then : forall w1 b1 w2 b2, writes w1 b1 -> writes w2 b2 -> writes (fun s => let* s1 := w1 s in w2 s1) (b1 ++ b2).
Proof.
  intros w1 b1 w2 b2 H1 H2 s pre post A. destruct (H1 _ _ _ A) as (s1 & E1 & A1). destruct (H2 _ _ _ A1) as (s2 & E2 & A2). exists s2. rewrite E1. split; auto.
  rewrite skipn_add, <- app_assoc, <- app_length in A2. exact A2.
Qed.
Lemma writes_data : forall w v, writes (fun s => write_data FD s w v) (le_bytes w v).
Proof.
  intros w v s pre post (O & C & T). destruct (wd_at F fset content HF s w v pre post O C T) as (s' & E & C' & T' & O'). exists s'. split; auto. rewrite le_bytes_length. split; auto. rewrite C', T', app_length, le_bytes_length, <- app_assoc. auto.
Qed.
Lemma writes_raw : forall b, writes (fun s => Ret (fst (f_write F s b))) b.
Proof.
  intros b s pre post (O & C & T). destruct (wr_at F fset content HF s b pre post C T) as (s' & E & C' & T' & O'). exists s'. rewrite E. split; auto. split; auto. rewrite C', T', app_length, <- app_assoc. auto.
Qed.
Lemma writes_array : forall b size count, length b = (size * count)%nat -> Z.of_nat (length b) < M64 -> writes (fun s => let* (s1, _) := write_array FD s b size count in Ret s1) b.
Proof.
  intros b size count L LM s pre post A. destruct (writes_raw b s pre post A) as (s' & E & A'). exists s'. split; auto. unfold write_array. replace (M64 <=? _) with false by lia. rewrite <- L, firstn_all. cbn [FD file_dev d_write]. destruct (f_write F s b). exact E.
Qed.
Lemma writes_ext : forall w w' b, (forall s, f_state F s = StOk -> w s = w' s) -> writes w b -> writes w' b.
Proof. intros w w' b H W s pre post A. rewrite <- H by apply A. auto. Qed.
Lemma writes_fields : forall l, writes (fun s => write_fields FD s l) (fbytes l).
Proof. induction l as [|[w v] l IH]; [exact writes_nil|]. cbn [write_fields]. change (fbytes ((w, v) :: l)) with (le_bytes w v ++ fbytes l). apply (writes_then _ _ _ _ (writes_data w v) IH). Qed.

(** ** The structures *)
Theorem header_written : forall v, writes (fun s => write_header FD s v) (le_bytes 4 v).
Proof. intros. apply writes_data. Qed.
Theorem format_written : forall f, Z.of_nat (length (fm_extra f)) < 65536 -> writes (fun s => write_format FD s f) (format_bytes f).
Proof.
  intros f L. unfold write_format. replace (format_bytes f) with (fbytes [(2, fm_compression f); (2, fm_channels f); (4, fm_rate f); (4, fm_bps f); (2, fm_align f); (2, fm_bits f)]%nat ++ match fm_extra f with [] => [] | x => le_bytes 2 (Z.of_nat (length x)) ++ x end).
  2:{ unfold format_bytes, fbytes. cbn [flat_map fst snd]. rewrite app_nil_r, <- !app_assoc. reflexivity. }
  apply writes_then; [apply writes_fields|]. destruct (fm_extra f) as [|x0 x]; [exact writes_nil|]. remember (x0 :: x) as xs. assert (0 < length xs)%nat by (subst xs; cbn; lia). replace (Z.of_nat (length xs) =? 0) with false by lia. replace (65535 <? Z.of_nat (length xs)) with false by lia.
  apply writes_then; [apply writes_data|]. apply (writes_ext (fun s => Ret (fst (f_write F s xs)))); [|apply writes_raw]. intros s O. unfold d_ok. cbn [FD file_dev d_state]. rewrite O. reflexivity.
Qed.
Theorem format_too_long : forall f s, 65535 < Z.of_nat (length (fm_extra f)) -> f_state F s = StOk -> write_format FD s f = Throw.
Proof.
  intros f s L O. unfold write_format. destruct (writes_fields [(2, fm_compression f); (2, fm_channels f); (4, fm_rate f); (4, fm_bps f); (2, fm_align f); (2, fm_bits f)]%nat (f_seek F s 0) [] (content s)) as (s1 & E1 & _).
  { destruct (pf_seek F content (sf_plain _ _ _ HF) s 0) as (C & T & O'). split; auto. }
  assert (forall l s, exists s1, write_fields FD s l = Ret s1) as W. { induction l as [|[w v] l IH]; intros t; cbn [write_fields]; eauto. unfold write_data. destruct (negb _); cbn [obind]; auto. }
  edestruct W as (s2 & E2). rewrite E2. cbn [obind]. replace (_ =? 0) with false by lia. replace (65535 <? _) with true by lia. reflexivity.
Qed.
Theorem content_written : forall b, writes (fun s => write_content FD s b) b.
Proof. intros b. apply (writes_ext (fun s => Ret (fst (f_write F s b)))); [|apply writes_raw]. intros s O. unfold write_content, d_ok. cbn [FD file_dev d_state]. rewrite O. reflexivity. Qed.
Lemma text_written : forall t, Z.of_nat (length t) < M64 -> writes (fun s => write_text FD s t) (text_bytes t).
Proof.
  intros [|c t] L; [exact writes_nil|]. unfold text_bytes. set (x := c :: t) in *. apply (writes_ext (fun s => let* s1 := (let* (s1, _) := write_array FD s x 1 (length x) in Ret s1) in write_data FD s1 1 0)).
  - intros s O. unfold write_text, d_ok. cbn [FD file_dev d_state]. rewrite O. replace (length x =? 0)%nat with false by (unfold x; cbn; lia). cbn [negb andb is_ok]. unfold write_array. destruct (_ <=? _); auto. destruct (d_write _ _ _). reflexivity.
  - apply writes_then; [apply writes_array; [lia|auto]|]. exact (writes_data 1 0).
Qed.
Theorem ltxt_written : forall id a, Z.of_nat (length (ab_description a)) < M64 -> writes (fun s => write_ltxt FD s id a) (ltxt_bytes id a).
Proof.
  intros id a L. unfold write_ltxt, ltxt_bytes. replace (about_head id a) with (fbytes [(4, id); (4, ab_duration a); (4, ab_purpose a); (2, ab_country a); (2, ab_language a); (2, ab_dialect a); (2, ab_charset a)]%nat).
  - apply writes_then; [apply writes_fields|apply text_written; auto].
  - unfold about_head, fbytes. cbn [flat_map fst snd]. rewrite app_nil_r. reflexivity.
Qed.
Theorem label_written : forall id t, Z.of_nat (length t) < M64 -> writes (fun s => write_label FD s id t) (label_bytes id t).
Proof. intros. apply writes_then; [apply writes_data|apply text_written; auto]. Qed.
Lemma cue_mem_same : forall l, flat_map cue_mem l = flat_map cue_bytes l.
Proof. induction l as [|c l IH]; cbn [flat_map]; [reflexivity|]. rewrite cue_mem_bytes, IH. reflexivity. Qed.
Theorem cues_written : forall l, Z.of_nat (length l) < 2 ^ 32 -> writes (fun s => write_cues_plain FD s l) (cues_bytes l).
Proof.
  intros l L. unfold write_cues_plain. replace (4294967295 <? _) with false by lia. apply writes_then; [apply writes_data|]. rewrite cue_mem_same.
  apply (writes_ext (fun s => let* (s1, _) := write_array FD s (flat_map cue_bytes l) 24 (length l) in Ret s1)).
  - intros s O. unfold d_ok. cbn [FD file_dev d_state]. rewrite O. reflexivity.
  - apply writes_array; rewrite cues_len; lia.
Qed.

Lemma rd4 : forall s w pre v post, f_state F s = StOk -> (0 < w)%nat -> Z.of_nat w < M64 -> 0 <= v < 256 ^ Z.of_nat w ->
  content s = pre ++ le_bytes w v ++ post -> f_tell F s = length pre ->
  exists s', read_data FD s w [] = Ret (s', v) /\ content s' = content s /\ f_state F s' = StOk /\ f_tell F s' = (length pre + w)%nat.
Proof. intros. eapply (rd_at F fset content HF 4 4 2); eauto; lia. Qed.
Lemma size4 : forall c, chunk_ok 4 4 2 c -> Z.to_nat (tsize 4 (Z.of_nat (length (c_data c)) + padding 2 (Z.of_nat (length (c_data c))))) = (length (c_data c) + length (c_pad c))%nat.
Proof. intros c K. pose proof (chunk_size 4 4 2 ltac:(lia) ltac:(lia) ltac:(lia) c K) as H. change (Z.of_nat 2) with 2 in H. rewrite H. apply Nat2Z.id. Qed.
(** ** Records *)
Theorem rec_written : forall id user data, writes user data -> Z.of_nat (length data) < 2 ^ 32 -> writes (fun s => write_rec F fset s id user) (chunk_bytes 4 4 (rec_of id data)).
Proof.
  intros id user data W L s pre post (O & C & T). unfold write_rec.
  destruct (open_spec F fset content HF 4 4 s id pre post O C T) as (s1 & E1 & O1 & C1 & T1). rewrite E1. cbn [obind]. rewrite O1. cbn [is_ok negb].
  destruct (W s1 (pre ++ le_bytes 4 id ++ le_bytes 4 0) (skipn 8 post)) as (s2 & E2 & O2 & C2 & T2).
  { split; auto. rewrite C1, T1, !app_length, !le_bytes_length, <- !app_assoc. split; auto. lia. }
  rewrite E2. cbn [obind]. rewrite !app_length, !le_bytes_length in T2.
  destruct (close_spec F fset content HF 4 4 2 ltac:(lia) ltac:(lia) ltac:(lia) s2 pre (le_bytes 4 id) (le_bytes 4 0) data (skipn (length data) (skipn 8 post)) O2) as (s3 & pad & E3 & O3 & C3 & T3 & P1 & P2); auto using le_bytes_length; try lia.
  { rewrite C2, <- !app_assoc. reflexivity. }
  change (Z.of_nat 2) with 2 in E3. rewrite E3. cbn [obind]. assert (pad = length data mod 2)%nat as P by lia. exists s3. split; auto. unfold rec_of, chunk_bytes. cbn [c_id c_data c_pad]. rewrite !app_length, !le_bytes_length, repeat_length, <- P.
  split; auto. rewrite C3, T3, !app_length, !le_bytes_length, repeat_length, !skipn_add, <- !app_assoc. split; [do 6 f_equal; lia|lia].
Qed.
Lemma rec_of_ok : forall id data, fits 4 id -> Z.of_nat (length data + length data mod 2) < 2 ^ 32 -> chunk_ok 4 4 2 (rec_of id data).
Proof. intros id data H L. unfold chunk_ok, rec_of. cbn [c_id c_data c_pad]. rewrite repeat_length. split; [exact H|]. change (256 ^ Z.of_nat 4) with (2 ^ 32). lia. Qed.
(** reading a record whose data the reader understands *)
Lemma rec_read : forall {A} (user : @limiter S -> outcome (@limiter S * A)) (old a : A) s c pre post,
  f_state F s = StOk -> chunk_ok 4 4 2 c -> content s = pre ++ chunk_bytes 4 4 c ++ post -> f_tell F s = (length pre + 4)%nat ->
  (forall k cl, limiter_inv (here F content (content s) k) cl -> lm_st cl = StOk -> limiter_left (left_of F content) cl = c_data c ->
     exists cl', user cl = Ret (cl', a) /\ limiter_inv (here F content (content s) k) cl' /\ lm_st cl' <> StFail) ->
  exists s', read_rec F fset s old user = Ret (s', a) /\ at_ s' (pre ++ chunk_bytes 4 4 c) post.
Proof.
  intros A user old a s c pre post O K C T U. unfold read_rec. unfold chunk_bytes in C. rewrite <- !app_assoc in C. rewrite app_assoc in C.
  destruct (rd4 s 4 _ (Z.of_nat (length (c_data c))) _ O ltac:(lia) ltac:(lia) ltac:(destruct K as (_ & _ & _ & ?); lia) C) as (s1 & E1 & C1 & O1 & T1). { rewrite app_length, le_bytes_length. auto. }
  fold FD. rewrite E1. cbn [obind]. rewrite O1. cbn [is_ok negb]. rewrite app_length, le_bytes_length in T1.
  destruct (U (Z.of_nat (f_tell F s1) + Z.of_nat (length (skipn (f_tell F s1) (content s)))) (limiter_new FD s1 (Z.of_nat (length (c_data c))) 0)) as (cl' & E2 & I2 & S2).
  - unfold limiter_inv, here. cbn [limiter_new lm_src lm_read lm_write]. destruct K as (_ & _ & _ & K). unfold fsize_max. cbn in K. repeat split; auto; lia.
  - exact O1.
  - unfold limiter_left, within, left_of. cbn [limiter_new lm_src lm_read]. destruct K as (_ & _ & _ & K). cbn in K. replace (_ =? fsize_max) with false by (unfold fsize_max; lia). rewrite Nat2Z.id, C1, T1, C.
    rewrite app_assoc. replace (length pre + 4 + 4)%nat with (length ((pre ++ le_bytes 4 (c_id c)) ++ le_bytes 4 (Z.of_nat (length (c_data c))))) by (rewrite !app_length, !le_bytes_length; lia). rewrite skip_here, first_here. reflexivity.
  - rewrite E2. cbn [obind]. destruct I2 as ((C2 & _) & _). rewrite (size4 c K).
    destruct (pf_seek F content (sf_plain _ _ _ HF) (lm_src cl') (f_tell F s1 + (length (c_data c) + length (c_pad c)))) as (C3 & T3 & O3).
    eexists. split; [destruct (lm_st cl'); [reflexivity|reflexivity|congruence]|]. split; auto. rewrite C3, T3, C2, C, T1. unfold chunk_bytes. rewrite !app_length, !le_bytes_length, <- !app_assoc. split; auto. lia.
Qed.

(** ** The cues *)
Lemma chunks_app : forall a b, chunks 4 4 (a ++ b) = chunks 4 4 a ++ chunks 4 4 b.
Proof. intros. unfold chunks. apply flat_map_app. Qed.
(** no text is too long for its record *)
Definition texts_short (c : cue_ex) : Prop := Forall (fun r => Z.of_nat (length (c_data r)) < 2 ^ 32) (texts_of c).
Lemma text_len : forall t, (length t <= length (text_bytes t))%nat.
Proof. intros [|c t]; unfold text_bytes; [auto|]. rewrite app_length. lia. Qed.
Lemma label_bound : forall id t, Z.of_nat (length (label_bytes id t)) < 2 ^ 32 -> Z.of_nat (length t) < M64.
Proof. intros id t. unfold label_bytes. rewrite app_length. pose proof (text_len t). lia. Qed.
Lemma texts_one : forall c, texts_short c -> writes (fun s =>
  let* s1 := write_rec F fset s id_ltxt (fun s => write_ltxt FD s (cu_id (cx_cue c)) (cx_about c)) in
  let* s2 := if (length (cx_title c) =? 0)%nat then Ret s1 else write_rec F fset s1 id_labl (fun s => write_label FD s (cu_id (cx_cue c)) (cx_title c)) in
  if (length (cx_note c) =? 0)%nat then Ret s2 else write_rec F fset s2 id_note (fun s => write_label FD s (cu_id (cx_cue c)) (cx_note c))) (chunks 4 4 (texts_of c)).
Proof.
  intros c H. unfold texts_short, texts_of in *. unfold chunks. cbn [flat_map]. inversion H as [|? ? H1 H2]; subst. apply Forall_app in H2 as [H2 H3]. cbn [c_data rec_of] in H1. fold (chunks 4 4). rewrite flat_map_app.
  apply writes_then; [|apply writes_then].
  - apply rec_written; auto. apply ltxt_written. unfold ltxt_bytes in H1. rewrite app_length in H1. pose proof (text_len (ab_description (cx_about c))). lia.
  - destruct (cx_title c) as [|t0 t] eqn:E; [exact writes_nil|]. rewrite <- E in *. cbn [flat_map]. rewrite app_nil_r. inversion H2 as [|? ? H4 _]; subst. cbn [c_data rec_of] in H4. replace (length (cx_title c) =? 0)%nat with false by (rewrite E; reflexivity).
    apply rec_written; auto. apply label_written. eapply label_bound; eauto.
  - destruct (cx_note c) as [|t0 t] eqn:E; [exact writes_nil|]. rewrite <- E in *. cbn [flat_map]. rewrite app_nil_r. inversion H3 as [|? ? H4 _]; subst. cbn [c_data rec_of] in H4. replace (length (cx_note c) =? 0)%nat with false by (rewrite E; reflexivity).
    apply rec_written; auto. apply label_written. eapply label_bound; eauto.
Qed.
Lemma bind_assoc : forall {A B C} (x : outcome A) (f : A -> outcome B) (g : B -> outcome C), obind (obind x f) g = obind x (fun a => obind (f a) g).
Proof. intros A B C [a| |] f g; reflexivity. Qed.
Lemma bind_ext : forall {A B} (x : outcome A) (f g : A -> outcome B), (forall a, f a = g a) -> obind x f = obind x g.
Proof. intros A B [a| |] f g H; cbn; auto. Qed.
Lemma texts_written : forall l, Forall texts_short l -> writes (fun s => write_texts F fset s l) (chunks 4 4 (flat_map texts_of l)).
Proof.
  induction l as [|c l IH]; intros H; [exact writes_nil|]. inversion H as [|? ? H1 H2]; subst. cbn [flat_map]. rewrite chunks_app.
  eapply writes_ext; [|apply (writes_then _ _ _ _ (texts_one c H1) (IH H2))]. intros s O. cbn [write_texts]. rewrite O. cbn [is_ok]. rewrite bind_assoc. apply bind_ext. intros s1. rewrite bind_assoc. reflexivity.
Qed.
Lemma mems_written : forall l, writes (fun s => write_cue_mems F fset s l) (flat_map cue_bytes (map cx_cue l)).
Proof.
  induction l as [|c l IH]; [exact writes_nil|]. cbn [map flat_map]. assert (W : writes (fun s => let* (s1, _) := write_array FD s (cue_mem (cx_cue c)) 24 1 in Ret s1) (cue_bytes (cx_cue c))) by (rewrite cue_mem_bytes; apply writes_array; rewrite cue_len; lia). eapply writes_ext; [|apply (writes_then _ _ _ _ W IH)].
  intros s O. cbn [write_cue_mems]. rewrite O. cbn [is_ok]. fold FD. unfold write_array. destruct (_ <=? _); [reflexivity|]. destruct (d_write _ _ _); reflexivity.
Qed.
(** write_rec, in state ok *)
Lemma rec_is : forall id user s, f_state F s = StOk -> write_rec F fset s id user = let* (s1, start) := open F fset 4 4 s id in let* s2 := user s1 in let* (s3, _) := close F fset 4 4 2 s2 start in Ret s3.
Proof.
  intros id user s O. unfold write_rec. destruct (open_spec F fset content HF 4 4 (f_seek F s 0) id [] (content s)) as (s1 & E1 & O1 & _).
  { apply pf_seek with (content := content). apply HF. } { apply (pf_seek F content). apply HF. } { apply (pf_seek F content). apply HF. }
  unfold open. destruct (write_data (file_dev F fset) s 4 id) as [t1| |] eqn:W; cbn [obind]; auto. destruct (write_data (file_dev F fset) t1 4 0) as [t2| |] eqn:W2; cbn [obind]; auto.
  assert (f_state F t2 = StOk) as ->; [|reflexivity]. unfold write_data, d_ok in W, W2. cbn [file_dev d_state d_write] in *. rewrite O in W. cbn [is_ok negb] in W.
  destruct (f_write F s (le_bytes 4 id)) as [u1 k1] eqn:Q1. injection W as <-. apply (pf_write F content (sf_plain _ _ _ HF)) in Q1. cbn [fst] in W2. destruct Q1 as (_ & _ & _ & Q1). rewrite Q1 in W2. cbn [is_ok negb] in W2.
  destruct (f_write F u1 (le_bytes 4 0)) as [u2 k2] eqn:Q2. injection W2 as <-. apply (pf_write F content (sf_plain _ _ _ HF)) in Q2. apply Q2.
Qed.
(** operator<< of extended cues stores exactly their two records *)
Theorem cues_ex_written : forall l, Forall texts_short l -> 24 * Z.of_nat (length l) + 4 < 2 ^ 32 -> Z.of_nat (length (list_data id_adtl (flat_map texts_of l))) < 2 ^ 32 ->
  writes (fun s => write_cues F fset s l) (chunks 4 4 (cue_records l)).
Proof.
  intros l H L1 L2. unfold cue_records, chunks. cbn [flat_map]. rewrite app_nil_r.
  assert (W1 : writes (fun s => write_rec F fset s id_cue (fun s => let* s2 := write_data FD s 4 (Z.of_nat (length l)) in write_cue_mems F fset s2 l)) (chunk_bytes 4 4 (rec_of id_cue (cues_bytes (map cx_cue l))))).
  { apply rec_written; [|unfold cues_bytes; rewrite app_length, le_bytes_length, cues_len, map_length; lia]. unfold cues_bytes. rewrite map_length. apply writes_then; [apply writes_data|apply mems_written]. }
  assert (W2 : writes (fun s => write_rec F fset s id_list (fun s => let* s2 := write_data FD s 4 id_adtl in write_texts F fset s2 l)) (chunk_bytes 4 4 (rec_of id_list (list_data id_adtl (flat_map texts_of l))))).
  { apply rec_written; auto. unfold list_data. apply writes_then; [apply writes_data|apply texts_written; auto]. }
  intros s pre post A. destruct (W1 _ _ _ A) as (s1 & E1 & A1). destruct (W2 _ _ _ A1) as (s2 & E2 & A2). exists s2. split.
  - unfold write_cues. rewrite rec_is in E1 by apply A. rewrite rec_is in E2 by apply A1. destruct (open F fset 4 4 s id_cue) as [[t1 start]| |]; cbn [obind] in *; try discriminate. replace (4294967295 <? _) with false by lia. fold FD.
    rewrite bind_assoc in E1. destruct (write_data FD t1 4 _) as [t2| |]; cbn [obind] in *; try discriminate. destruct (write_cue_mems F fset t2 l) as [t3| |]; cbn [obind] in *; try discriminate. destruct (close F fset 4 4 2 t3 start) as [[t4 x]| |]; cbn [obind] in *; try discriminate. injection E1 as ->.
    destruct (open F fset 4 4 s1 id_list) as [[t5 start2]| |]; cbn [obind] in *; try discriminate. rewrite bind_assoc in E2. destruct (write_data FD t5 4 _) as [t6| |]; cbn [obind] in *; try discriminate. destruct (write_texts F fset t6 l) as [t7| |]; cbn [obind] in *; try discriminate. exact E2.
  - rewrite skipn_add, <- app_assoc, <- app_length in A2. exact A2.
Qed.
End Files.
