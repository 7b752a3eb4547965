(** WAV files: read_first, what does not hold, and concrete cases. *)
From Coq Require Import ZifyBool ZifyNat Permutation Sorted.
From Verif Require Import Base StreamModel StreamSpec StreamProps StringModel StringSpec ConvModel ConvProps MemFileModel FileConvModel FileConvSpec IdrecModel IdrecSpec IdrecProps WavModel WavSpec WavProps WavWrite WavRead WavCues WavRound WavRemove.
Ltac Zify.zify_post_hook ::= Z.div_mod_to_equations.

Lemma small_ok : forall id b, fits 4 id -> (length b < 1000)%nat -> chunk_ok 4 4 2 (rec_of id b).
Proof. intros id b H L. apply rec_of_ok; auto. lia. Qed.
Ltac ok_chunks := repeat (apply Forall_cons; [apply small_ok; [unfold fits; split; [vm_compute; discriminate|vm_compute; reflexivity]|vm_compute; lia]|]); apply Forall_nil.

Section First.
Context {S : Type} (F : fdev S) (fset : S -> sstate -> S) (content : S -> list Z) (HF : settable_file F fset content).
Let FD := file_dev F fset.
Let at_ := at_ F content.
(** The first format record is the one that is read, wherever it is among the records *)
Theorem read_first_format : forall l1 c l2 f old s pre post e fuel, at_ s pre (chunks 4 4 (l1 ++ c :: l2) ++ post) -> Forall (chunk_ok 4 4 2) (l1 ++ c :: l2) -> Forall (fun x => c_id x <> id_fmt) l1 -> c_id c = id_fmt -> c_data c = format_bytes f -> format_ok f ->
  (length pre + length (chunks 4 4 l1) < e)%nat -> (length (content s) + 2 < fuel + length pre)%nat ->
  exists s', read_first F fset fuel s id_fmt old (read_format (limiter_dev FD) fuel) (Some e) = Ret (s', f, true) /\ at_ s' (pre ++ chunks 4 4 (l1 ++ [c])) (chunks 4 4 l2 ++ post).
Proof.
  intros l1 c l2 f old s pre post e fuel A K N Ec D Fo Le Hf. destruct (A) as (O & C & T). pose proof (clen c) as Lc. assert (LC : length (content s) = (length pre + length (chunks 4 4 l1) + length (chunk_bytes 4 4 c) + length (chunks 4 4 l2) + length post)%nat) by (rewrite C, !app_length, mid_len; lia).
  unfold read_first. destruct (find_hit F fset content HF l1 s id_fmt c l2 pre post (Some e) fuel A K N Ec) as (s1 & E1 & C1 & O1 & T1); [lia|lia|lia|]. rewrite E1. cbn [obind negb].
  assert (Kc : chunk_ok 4 4 2 c) by (apply Forall_app in K as [_ K]; inversion K; auto).
  destruct (format_rec_read F fset content HF s1 c (pre ++ chunks 4 4 l1) (chunks 4 4 l2 ++ post) old f fuel) as (s2 & E2 & A2); auto.
  { split; auto. split; [|rewrite T1, !app_length, le_bytes_length; lia]. rewrite C1, C, chunks_mid. unfold chunk_bytes. rewrite <- !app_assoc. reflexivity. } { lia. }
  unfold FD. rewrite E2. cbn [obind]. destruct A2 as (O2 & C2 & T2). rewrite O2. cbn [is_ok]. exists s2. split; auto. split; auto. unfold chunks in *. rewrite flat_map_app. cbn [flat_map]. rewrite app_nil_r. split; [rewrite C2, <- !app_assoc; reflexivity|rewrite T2, !app_length; lia].
Qed.
Theorem read_first_none : forall l old s pre post fuel, at_ s pre (chunks 4 4 l ++ post) -> Forall (chunk_ok 4 4 2) l -> Forall (fun x => c_id x <> id_fmt) l -> (length (content s) + 2 < fuel + length pre)%nat -> (0 < fuel)%nat ->
  exists s', read_first F fset fuel s id_fmt old (read_format (limiter_dev FD) fuel) (Some (length pre + length (chunks 4 4 l))%nat) = Ret (s', old, false) /\ content s' = content s.
Proof.
  intros l old s pre post fuel A K N Hf H0. unfold read_first. destruct (find_miss F fset content HF l s id_fmt pre post fuel A K N) as (s1 & E1 & (_ & C1 & _)); [lia|lia|]. rewrite E1. cbn [obind negb]. exists s1. split; auto. destruct A as (_ & C & _). rewrite C1, C, <- app_assoc. auto.
Qed.
(** At an even position the first record that starts with [subid] is found; the position is behind that number, the end is where the record ends *)
Theorem find_first_even_partial : forall l1 c l2 s id subid b pre post e fuel, at_ s pre (chunks 4 4 (l1 ++ c :: l2) ++ post) -> (length pre mod 2 = 0)%nat -> Forall (chunk_ok 4 4 2) (l1 ++ c :: l2) ->
  Forall (other_sub id subid) l1 -> c_id c = id -> c_data c = le_bytes 4 subid ++ b -> fits 4 subid -> (length pre + length (chunks 4 4 l1) < e)%nat -> (length (content s) + 2 < fuel + length pre)%nat ->
  exists s', wav_find_first F fset fuel s id subid (Some e) = Ret (s', Some (length pre + length (chunks 4 4 l1) + 8 + length (c_data c))%nat) /\ content s' = content s /\ f_state F s' = StOk /\ f_tell F s' = (length pre + length (chunks 4 4 l1) + 12)%nat.
Proof. intros. eapply (ff_hit F fset content HF); eauto. Qed.
Theorem find_first_none_partial : forall l s id subid pre post fuel, at_ s pre (chunks 4 4 l ++ post) -> (length pre mod 2 = 0)%nat -> Forall (chunk_ok 4 4 2) l ->
  Forall (other_sub id subid) l -> (length (content s) + 2 < fuel + length pre)%nat -> (1 < fuel)%nat ->
  exists s', wav_find_first F fset fuel s id subid (Some (length pre + length (chunks 4 4 l))%nat) = Ret (s', None) /\ at_ s' (pre ++ chunks 4 4 l) post.
Proof. intros. eapply (ff_miss F fset content HF); eauto. Qed.
(** find_content: the RIFF record that says WAVE *)
Theorem find_content_finds : forall c l2 s b pre post e fuel, at_ s pre (chunks 4 4 (c :: l2) ++ post) -> (length pre mod 2 = 0)%nat -> Forall (chunk_ok 4 4 2) (c :: l2) -> c_id c = id_riff -> c_data c = le_bytes 4 id_wave ++ b ->
  (length pre < e)%nat -> (length (content s) + 2 < fuel + length pre)%nat ->
  exists s', find_content F fset fuel s (Some e) = Ret (s', Some (length pre + 8 + length (c_data c))%nat) /\ content s' = content s /\ f_state F s' = StOk /\ f_tell F s' = (length pre + 12)%nat.
Proof.
  intros c l2 s b pre post e fuel A EV K E1 D L Hf. unfold find_content. destruct (find_first_even_partial [] c l2 s id_riff id_wave b pre post e fuel A EV K (Forall_nil _) E1 D) as (s' & E & R); auto.
  { unfold fits, id_wave. cbn. lia. } { cbn. lia. } cbn [chunks flat_map length] in E, R. rewrite !Nat.add_0_r in *. exists s'. auto.
Qed.
End First.

(** ** Files in memory, a sort, a search *)
Definition fset0 (s : list Z * nat * sstate) (st : sstate) := (fst s, st).
Definition fcont (s : list Z * nat * sstate) : list Z := fst (fst s).
Lemma array_ok : settable_file array_file fset0 fcont.
Proof. exact array_settable. Qed.
Fixpoint put (c : cue_ex) (l : list cue_ex) : list cue_ex := match l with [] => [c] | d :: r => if key_of c <=? key_of d then c :: l else d :: put c r end.
Definition isort (l : list cue_ex) : list cue_ex := fold_right put [] l.
Lemma put_perm : forall c l, Permutation (c :: l) (put c l).
Proof. induction l as [|d l IH]; cbn [put]; auto. destruct (_ <=? _); auto. eapply perm_trans; [apply perm_swap|]. constructor. auto. Qed.
Lemma put_order : forall c l, in_order l -> in_order (put c l).
Proof.
  unfold in_order. induction l as [|d l IH]; intros H; cbn [put]; [constructor; auto; constructor|]. inversion H as [|? ? H1 H2]; subst. destruct (_ <=? _) eqn:E.
  - constructor; auto. constructor; [unfold by_id; lia|]. revert H2. apply Forall_impl. intros x. unfold by_id. lia.
  - constructor; auto. apply (Permutation_Forall (put_perm c l)). constructor; auto. unfold by_id. lia.
Qed.
Lemma isort_ok : sorts isort.
Proof.
  intros l. induction l as [|c l [P Q]]; [split; constructor|]. cbn [isort fold_right]. fold (isort l). split; [|apply put_order; auto]. eapply perm_trans; [|apply put_perm]. constructor. auto.
Qed.
Fixpoint look (id : Z) (l : list cue_ex) : option nat := match l with [] => None | c :: r => if key_of c =? id then Some 0%nat else option_map Datatypes.S (look id r) end.
Lemma look_ok : searches look.
Proof.
  intros id l _. induction l as [|c l IH]; cbn [look]; [constructor|]. destruct (key_of c =? id) eqn:E; [exists c; split; [reflexivity|lia]|]. destruct (look id l) as [k|]; cbn [option_map]; [exact IH|]. constructor; auto. lia.
Qed.
(** two cues, not in order, with texts *)
Definition ex_cues : list cue_ex :=
  [CueEx (Cue 7 100 0x61746164 0 0 100) (About 5 0 1 2 3 4 [104; 105]) [116] [110; 111];
   CueEx (Cue 3 200 0x61746164 0 0 200) about0 [] [120; 121; 122]].
Example ex_cues_ok : Forall cue_ex_ok ex_cues /\ NoDup (map key_of ex_cues) /\ Z.of_nat (length (list_data id_adtl (flat_map texts_of ex_cues))) = 110 /\ Forall wav_rec_ok (cue_records ex_cues).
Proof.
  assert (K : Forall cue_ex_ok ex_cues). { repeat constructor; cbn; try lia; try discriminate. }
  split; [exact K|]. split; [repeat constructor; cbn; intuition lia|]. split; [vm_compute; reflexivity|]. apply records_ok; [exact K|vm_compute; reflexivity|vm_compute; reflexivity].
Qed.
(** stored behind four bytes of something else and read back: the same cues, in order *)
Example ex_round_trip : exists s1, write_cues array_file fset0 ([9; 9; 9; 9], 4%nat, StOk) ex_cues = Ret s1 /\
  exists s2, read_cues array_file fset0 isort look 300 (f_seek array_file s1 4) [] (Some (f_tell array_file s1)) = Ret (s2, Some (rev ex_cues)).
Proof.
  destruct ex_cues_ok as (K & ND & LL & _).
  destruct (cues_round_trip array_file fset0 fcont array_ok isort look isort_ok look_ok ex_cues ([9; 9; 9; 9], 4%nat, StOk) [9; 9; 9; 9] [] eq_refl eq_refl eq_refl eq_refl K ND ltac:(cbn; lia) ltac:(lia)) as (s1 & E1 & O1 & C1 & T1 & R).
  exists s1. split; [exact E1|]. destruct (R 300%nat) as (s2 & new & E2 & P & IN & _). { rewrite C1. vm_compute. lia. }
  exists s2. change (length [9; 9; 9; 9]) with 4%nat in E2. rewrite E2. do 3 f_equal. symmetry. apply order_unique; auto.
  - eapply perm_trans; [apply Permutation_sym; apply Permutation_rev|]. exact P.
  - repeat constructor; unfold by_id; cbn; lia.
  - repeat constructor; cbn; intuition lia.
Qed.
(** the first list of the kind looked for, at an even position *)
Definition ex_lists : list chunk := [rec_of id_list (list_data 0x4F464E49 []); rec_of id_list (list_data id_adtl [])].
Example ex_lists_ok : Forall (chunk_ok 4 4 2) ex_lists /\ other_sub id_list id_adtl (hd (Chunk 0 [] []) ex_lists).
Proof. unfold ex_lists. split; [ok_chunks|]. intros _. exists 0x4F464E49, []. split; [reflexivity|]. split; [unfold fits; cbn; lia|vm_compute; discriminate]. Qed.
Example ex_find : wav_find_first array_file fset0 40 (chunks 4 4 ex_lists, 0%nat, StOk) id_list id_adtl (Some 24%nat) = Ret ((chunks 4 4 ex_lists, 24%nat, StOk), Some 24%nat).
Proof. vm_compute. reflexivity. Qed.
(** ... at an odd position the list that is there is not found *)
Theorem find_first_odd_refuted : exists pre l1 c l2, Forall (chunk_ok 4 4 2) (l1 ++ c :: l2) /\ Forall (other_sub id_list id_adtl) l1 /\ c_id c = id_list /\ c_data c = list_data id_adtl [] /\
  exists s', wav_find_first array_file fset0 60 (pre ++ chunks 4 4 (l1 ++ c :: l2), length pre, StOk) id_list id_adtl (Some (length (pre ++ chunks 4 4 (l1 ++ c :: l2)))) = Ret (s', None).
Proof.
  exists [9], [rec_of id_list (list_data 0x4F464E49 []); rec_of id_data [0; 1; 1; 1; 1; 13; 0; 0; 0]], (rec_of id_list (list_data id_adtl [])), []. destruct ex_lists_ok as [K N]. split; [cbn [app]; ok_chunks|]. split; [constructor; [exact N|constructor; [intros X; vm_compute in X; discriminate|constructor]]|]. split; [reflexivity|]. split; [reflexivity|]. eexists. vm_compute. reflexivity.
Qed.
(** ** The default limit *)
Theorem default_limit_refuted : exists s, fcont s = chunks 4 4 (cue_records ex_cues) /\ f_tell array_file s = 0%nat /\ f_state array_file s = StOk /\ forall fuel, read_cues array_file fset0 isort look fuel s [] None = UB.
Proof.
  exists (chunks 4 4 (cue_records ex_cues), 0%nat, StOk). split; [reflexivity|]. split; [reflexivity|]. split; [reflexivity|]. intros fuel.
  eapply (read_cues_hangs array_file fset0 fcont array_ok isort look isort_ok (cue_records ex_cues) _ [] [] fuel); try reflexivity. apply ex_cues_ok.
Qed.
(** ** remove_cues *)
Definition ex_rem : list chunk := [rec_of id_fmt [1; 0]; rec_of id_cue (cues_bytes [Cue 1 2 3 4 5 6]); rec_of id_data [7; 8; 9]].
Theorem remove_refuted : exists l a b a' b', Forall (chunk_ok 4 4 2) l /\ at_ array_file fcont a [] (chunks 4 4 l) /\ at_ array_file fcont b [] [] /\ remove_cues array_file fset0 array_file fset0 99 a b None = Ret (a', b', true) /\
  fcont b' <> chunks 4 4 (filter (fun c => negb (removable (c_id c))) l) /\ fcont b' = chunks 4 4 (filter (fun c => removable (c_id c)) l).
Proof.
  assert (K : Forall (chunk_ok 4 4 2) ex_rem) by (unfold ex_rem; ok_chunks).
  exists ex_rem, (chunks 4 4 ex_rem, 0%nat, StOk), ([], 0%nat, StOk). assert (A : at_ array_file fcont (chunks 4 4 ex_rem, 0%nat, StOk) [] (chunks 4 4 ex_rem)) by (split; auto). assert (B : at_ array_file fcont ([], 0%nat, StOk) [] []) by (split; auto).
  destruct (remove_keeps_all array_file fset0 fcont array_ok array_file fset0 fcont array_ok ex_rem _ _ [] [] [] 99 A B K) as (a' & b' & E & C & _); [vm_compute; lia|lia|].
  exists a', b'. split; [exact K|]. split; [exact A|]. split; [exact B|]. split; [exact E|]. rewrite C. split; [vm_compute; discriminate|vm_compute; reflexivity].
Qed.
(** a format record with data behind it *)
Definition ex_format : format := Format 1 2 44100 176400 4 16 [5; 6; 7].
Example ex_format_ok : format_ok ex_format /\ length (format_bytes ex_format) = 21%nat /\ chunk_ok 4 4 2 (rec_of id_fmt (format_bytes ex_format)).
Proof. split; [repeat split; cbn; lia|]. split; [reflexivity|]. apply small_ok; [unfold fits; split; [vm_compute; discriminate|vm_compute; reflexivity]|vm_compute; lia]. Qed.
Example ex_read_first : exists s', read_first array_file fset0 90 (chunks 4 4 [rec_of id_cue [1]; rec_of id_fmt (format_bytes ex_format); rec_of id_data [8]], 0%nat, StOk) id_fmt (Format 0 0 0 0 0 0 []) (read_format (limiter_dev (file_dev array_file fset0)) 90) (Some 80%nat) = Ret (s', ex_format, true).
Proof.
  destruct (read_first_format array_file fset0 fcont array_ok [rec_of id_cue [1]] (rec_of id_fmt (format_bytes ex_format)) [rec_of id_data [8]] ex_format (Format 0 0 0 0 0 0 []) (chunks 4 4 [rec_of id_cue [1]; rec_of id_fmt (format_bytes ex_format); rec_of id_data [8]], 0%nat, StOk) [] [] 80 90) as (s' & E & _).
  - split; auto.
  - cbn [app]. ok_chunks.
  - repeat constructor. vm_compute. discriminate.
  - reflexivity.
  - reflexivity.
  - apply ex_format_ok.
  - vm_compute. lia.
  - vm_compute. lia.
  - exists s'. exact E.
Qed.
Print Assumptions cues_round_trip.
Print Assumptions read_cues_spec.
Print Assumptions remove_keeps.
