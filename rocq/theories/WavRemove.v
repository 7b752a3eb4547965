(** WAV files: remove_cues keeps the records of the cues and removes all others. *)
From Coq Require Import ZifyBool ZifyNat.
From Verif Require Import Base StreamModel StreamSpec StreamProps StringModel StringSpec ConvModel ConvProps MemFileModel FileConvModel FileConvSpec IdrecModel IdrecSpec IdrecProps WavModel WavSpec WavProps WavWrite WavRead.
Ltac Zify.zify_post_hook ::= Z.div_mod_to_equations.

(** the four kinds of records that are about cues *)
Definition about_cues (c : chunk) : Prop := c_id c = id_cue \/ c_id c = id_ltxt \/ c_id c = id_labl \/ c_id c = id_note.
(** the records of [l] that are about cues, as the library writes them *)
Definition cue_part (l : list chunk) : list chunk := map (fun c => rec_of (c_id c) (c_data c)) (filter (fun c => removable (c_id c)) l).
Lemma removable_iff : forall c, removable (c_id c) = true <-> about_cues c.
Proof. intros c. unfold removable, about_cues. lia. Qed.

(** the output file as a sink *)
Section Sink.
Context {S : Type} (F : fdev S) (fset : S -> sstate -> S) (content : S -> list Z) (HF : settable_file F fset content) (pre post : list Z).
Definition wrote (s : S) : Prop := exists w, content s = pre ++ w ++ skipn (length w) post /\ f_tell F s = length (pre ++ w).
Definition wout (s : S) : list Z := skipn (length pre) (firstn (f_tell F s) (content s)).
Lemma wout_is : forall s w, content s = pre ++ w ++ skipn (length w) post -> f_tell F s = length (pre ++ w) -> wout s = w.
Proof. intros s w C T. unfold wout. rewrite C, T, app_assoc, first_here, skip_here. reflexivity. Qed.
Lemma wsink : sink (file_dev F fset) wrote wout.
Proof.
  split.
  - intros s b s' k (w & C & T) E. pose proof (wout_is s w C T) as W. cbn [file_dev d_write d_state] in *. rewrite app_assoc in C.
    destruct (wr_at F fset content HF s b (pre ++ w) _ C T) as (s1 & E1 & C1 & T1 & O1). rewrite E1 in E. injection E as <- <-. rewrite W, firstn_all.
    assert (C2 : content s1 = pre ++ (w ++ b) ++ skipn (length (w ++ b)) post) by (rewrite C1, skipn_add, app_length, <- !app_assoc; reflexivity). assert (T2 : f_tell F s1 = length (pre ++ w ++ b)) by (rewrite T1, !app_length; lia).
    split; [exists (w ++ b); auto|]. rewrite (wout_is s1 (w ++ b)) by auto. auto.
  - intros s st (w & C & T). cbn [file_dev d_set d_state]. destruct (sf_set _ _ _ HF s st) as (C1 & T1 & O1). split; [exists w; rewrite C1, T1; auto|]. unfold wout. rewrite C1, T1. auto.
Qed.
Lemma walways : always_writes (file_dev F fset) wrote.
Proof. intros s b _. cbn [file_dev d_write d_state]. destruct (f_write F s b) as [s' k] eqn:E. cbn [fst]. apply (pf_write _ _ (sf_plain _ _ _ HF)) in E. apply E. Qed.
End Sink.

Section Remove.
Context {A B : Type} (F : fdev A) (fset : A -> sstate -> A) (fc : A -> list Z) (HF : settable_file F fset fc) (G : fdev B) (gset : B -> sstate -> B) (gc : B -> list Z) (HG : settable_file G gset gc).
Let FD := file_dev F fset.
Let GD := file_dev G gset.

(** copying the data of a record *)
Lemma copy_data : forall a b apre data apost bpre bpost fuel, at_ F fc a apre (data ++ apost) -> at_ G gc b bpre bpost -> (length (fc a) + 1 < fuel + length apre)%nat ->
  exists a' b' k, write_stream GD FD fuel b a (length data) = Ret (b', a', k) /\ at_ F fc a' (apre ++ data) apost /\ at_ G gc b' (bpre ++ data) (skipn (length data) bpost).
Proof.
  intros a b apre data apost bpre bpost fuel (O & C & T) (Ob & Cb & Tb) Hf. unfold write_stream. set (k := Z.of_nat (f_tell F a) + Z.of_nat (length (skipn (f_tell F a) (fc a)))).
  assert (LA : left_of F fc a = data ++ apost) by (unfold left_of; rewrite C, T; apply skip_here).
  assert (IA : here F fc (fc a) k a) by (split; auto).
  destruct (sf_set _ _ _ HG b StOk) as (C0 & T0 & O0). assert (C0' : gc (gset b StOk) = bpre ++ [] ++ skipn (length (@nil Z)) bpost) by (cbn [length skipn app]; congruence). assert (T0' : f_tell G (gset b StOk) = length (bpre ++ [])) by (rewrite app_nil_r; congruence).
  assert (NF : never_fails FD (here F fc (fc a) k)) by (apply (here_nf F fset fc HF)).
  assert (SRC : source FD (here F fc (fc a) k) (left_of F fc)) by (apply (here_source F fset fc HF 4 4 2); lia).
  assert (IB : wrote G gc bpre bpost (d_set GD b StOk)) by (exists []; auto).
  destruct (copy_loop_spec GD FD (wrote G gc bpre bpost) (wout G gc bpre) (here F fc (fc a) k) (left_of F fc) (wsink G gset gc HG bpre bpost) SRC (walways G gset gc HG bpre bpost) NF fuel (d_set GD b StOk) a 0 (length data) IB IA O0) as (b' & a' & E & (w & Cw & Tw) & (Ca & Ka) & OW & LW & SW).
  { rewrite LA. rewrite C, !app_length in Hf. rewrite app_length. lia. }
  pose proof (copy_state GD FD _ _ _ _ (wsink G gset gc HG bpre bpost) SRC (walways G gset gc HG bpre bpost) NF _ _ _ _ _ _ _ _ IB IA O E) as [_ SA]. rewrite LA, app_length in SA. specialize (SA ltac:(lia)).
  rewrite (wout_is G gc bpre bpost b' w Cw Tw) in OW. rewrite (wout_is G gc bpre bpost (d_set GD b StOk) [] C0' T0'), LA in OW. cbn [app] in OW. rewrite first_here in OW. subst w.
  exists a', b', (0 + length (firstn (length data) (left_of F fc a)))%nat. split; auto. split.
  - split; auto. split; [rewrite Ca, C, <- app_assoc; auto|]. rewrite LA, skip_here in LW. unfold left_of in LW. unfold k in Ka. rewrite <- Ca in Ka at 1. rewrite LW in Ka. rewrite C, T, skip_here in Ka. rewrite app_length in *. lia.
  - split; auto. rewrite <- app_assoc. auto.
Qed.
Lemma upper_differs : forall id, removable id = true -> exists u, upper_id id = Ret u /\ (id =? u) = false.
Proof.
  intros id R. unfold removable in R. assert (H : id = id_cue \/ id = id_ltxt \/ id = id_labl \/ id = id_note) by lia. clear R. destruct H as [-> | [-> | [-> | ->]]]; eexists; (split; [vm_compute; reflexivity|vm_compute; reflexivity]).
Qed.
(** a record that is about cues is copied *)
Lemma copy_rec : forall c a b apre apost bpre bpost fuel limit, at_ F fc a apre (chunk_bytes 4 4 c ++ apost) -> at_ G gc b bpre bpost -> chunk_ok 4 4 2 c -> removable (c_id c) = true -> below F limit a = true -> (length (fc a) + 1 < fuel + length apre)%nat ->
  exists a' b', remove_cues F fset G gset (Datatypes.S fuel) a b limit = remove_cues F fset G gset fuel a' b' limit /\
    at_ F fc a' (apre ++ chunk_bytes 4 4 c) apost /\ at_ G gc b' (bpre ++ chunk_bytes 4 4 (rec_of (c_id c) (c_data c))) (skipn (length (chunk_bytes 4 4 (rec_of (c_id c) (c_data c)))) bpost).
Proof.
  intros c a b apre apost bpre bpost fuel limit (O & C & T) (Ob & Cb & Tb) K R BL Hf. cbn [remove_cues]. rewrite BL. destruct (K) as (K1 & K2 & K3 & K4). change (256 ^ Z.of_nat 4) with (2 ^ 32) in *.
  pose proof C as C'. unfold chunk_bytes in C'. rewrite <- !app_assoc in C'.
  destruct (rd4 F fset fc HF a 4 apre (c_id c) _ O ltac:(lia) ltac:(lia) ltac:(change (256 ^ Z.of_nat 4) with (2 ^ 32); lia) C' T) as (a1 & E1 & C1 & O1 & T1). rewrite E1. cbn [obind]. rewrite O1. cbn [is_ok negb]. rewrite R. cbn [negb].
  assert (C1' : fc a1 = (apre ++ le_bytes 4 (c_id c)) ++ le_bytes 4 (Z.of_nat (length (c_data c))) ++ c_data c ++ c_pad c ++ apost) by (rewrite C1, C', <- app_assoc; reflexivity).
  destruct (rd4 F fset fc HF a1 4 (apre ++ le_bytes 4 (c_id c)) (Z.of_nat (length (c_data c))) _ O1 ltac:(lia) ltac:(lia) ltac:(change (256 ^ Z.of_nat 4) with (2 ^ 32); lia) C1') as (a2 & E2 & C2 & O2 & T2). { rewrite app_length, le_bytes_length. lia. }
  rewrite E2. cbn [obind]. rewrite O2. cbn [is_ok negb]. rewrite app_length, le_bytes_length in T2.
  destruct (open_spec G gset gc HG 4 4 b (c_id c) bpre bpost Ob Cb Tb) as (b1 & E3 & Ob1 & Cb1 & Tb1). rewrite E3. cbn [obind].
  destruct (upper_differs (c_id c) R) as (u & E4 & NU). rewrite E4. cbn [obind]. rewrite NU. cbn [negb orb]. rewrite Ob1. cbn [is_ok negb]. rewrite Nat2Z.id.
  destruct (copy_data a2 b1 (apre ++ le_bytes 4 (c_id c) ++ le_bytes 4 (Z.of_nat (length (c_data c)))) (c_data c) (c_pad c ++ apost) (bpre ++ le_bytes 4 (c_id c) ++ le_bytes 4 0) (skipn 8 bpost) fuel) as (a3 & b2 & k & E5 & (O5 & C5 & T5) & (Ob5 & Cb5 & Tb5)).
  { split; auto. rewrite C2, C1', T2, !app_length, !le_bytes_length, <- !app_assoc. split; [reflexivity|lia]. }
  { split; auto. rewrite Cb1, Tb1, !app_length, !le_bytes_length, <- !app_assoc. split; auto. lia. }
  { rewrite C2, C1, !app_length, !le_bytes_length. lia. }
  unfold GD, FD in E5. rewrite E5. cbn [obind]. rewrite O5. cbn [is_ok negb]. rewrite !app_length, !le_bytes_length in T5, Tb5.
  destruct (close_spec G gset gc HG 4 4 2 ltac:(lia) ltac:(lia) ltac:(lia) b2 bpre (le_bytes 4 (c_id c)) (le_bytes 4 0) (c_data c) (skipn (length (c_data c)) (skipn 8 bpost)) Ob5) as (b3 & pad & E6 & O6 & C6 & T6 & P1 & P2); auto using le_bytes_length; try lia.
  { rewrite Cb5, <- !app_assoc. reflexivity. }
  change (Z.of_nat 2) with 2 in E6. rewrite E6. cbn [obind]. assert (pad = length (c_data c) mod 2)%nat as P by lia.
  set (a4 := if _ =? 0 then a3 else _). assert (A4 : at_ F fc a4 (apre ++ chunk_bytes 4 4 c) apost).
  { assert (PE : (2 - Z.of_nat (length (c_data c))) mod 4294967296 mod 2 = Z.of_nat (length (c_pad c))) by lia. unfold a4. rewrite PE. unfold chunk_bytes, at_. rewrite !app_length, !le_bytes_length, <- !app_assoc. rewrite <- !app_assoc in C5. destruct (Z.of_nat (length (c_pad c)) =? 0) eqn:PZ.
    - split; auto. split; auto. lia.
    - destruct (pf_seek F fc (sf_plain _ _ _ HF) a3 (f_tell F a3 + Z.to_nat (Z.of_nat (length (c_pad c))))) as (C7 & T7 & O7). split; auto. rewrite C7, T7. split; auto. lia. }
  clearbody a4. exists a4, b3. split; auto. split; auto. split; auto. unfold rec_of, chunk_bytes. cbn [c_id c_data c_pad]. rewrite !app_length, !le_bytes_length, repeat_length, <- P. rewrite C6, T6, !skipn_add, <- !app_assoc. split; [do 6 f_equal; lia|lia].
Qed.
(** ... any other record is not *)
Lemma drop_rec : forall c a b apre apost fuel limit, at_ F fc a apre (chunk_bytes 4 4 c ++ apost) -> chunk_ok 4 4 2 c -> removable (c_id c) = false -> below F limit a = true ->
  exists a', remove_cues F fset G gset (Datatypes.S fuel) a b limit = remove_cues F fset G gset fuel a' b limit /\ at_ F fc a' (apre ++ chunk_bytes 4 4 c) apost.
Proof.
  intros c a b apre apost fuel limit (O & C & T) K R BL. cbn [remove_cues]. rewrite BL. destruct (K) as (K1 & K2 & K3 & K4).
  pose proof C as C'. unfold chunk_bytes in C'. rewrite <- !app_assoc in C'.
  destruct (rd4 F fset fc HF a 4 apre (c_id c) _ O ltac:(lia) ltac:(lia) K1 C' T) as (a1 & E1 & C1 & O1 & T1). rewrite E1. cbn [obind]. rewrite O1. cbn [is_ok negb]. rewrite R. cbn [negb].
  rewrite <- C1 in C. destruct (ignore_spec F fset fc HF 4 4 2 ltac:(lia) ltac:(lia) ltac:(lia) ltac:(lia) a1 c apre apost O1 K C T1) as (a2 & E2 & C2 & O2 & T2). change (Z.of_nat 2) with 2 in E2. rewrite E2. cbn [obind negb].
  exists a2. split; auto. split; auto. rewrite C2, C, T2, app_length, <- app_assoc. auto.
Qed.
Lemma cut_here : forall b bpre bpost, at_ G gc b bpre bpost -> gc (f_truncate G b) = bpre /\ f_state G (f_truncate G b) = StOk.
Proof.
  intros b bpre bpost (O & C & T). destruct (pf_truncate G gc (sf_plain _ _ _ HG) b) as (C1 & _ & O1). split; auto. rewrite C1, C, T. unfold cut_at. rewrite first_here, app_length. replace (_ - _)%nat with 0%nat by lia. apply app_nil_r.
Qed.
(** The limit is where the records end *)
Theorem remove_keeps : forall l a b apre apost bpre bpost fuel, at_ F fc a apre (chunks 4 4 l ++ apost) -> at_ G gc b bpre bpost -> Forall (chunk_ok 4 4 2) l -> (length (fc a) + 2 < fuel + length apre)%nat -> (0 < fuel)%nat ->
  exists a' b', remove_cues F fset G gset fuel a b (Some (length apre + length (chunks 4 4 l))%nat) = Ret (a', b', true) /\ gc b' = bpre ++ chunks 4 4 (cue_part l) /\ at_ F fc a' (apre ++ chunks 4 4 l) apost.
Proof.
  induction l as [|c l IH]; intros a b apre apost bpre bpost fuel AA AB K Hf H1; destruct fuel as [|fuel]; try lia.
  - destruct (AA) as (O & C & T). cbn [remove_cues]. unfold below. rewrite T. cbn [chunks flat_map length]. replace (_ <? _)%nat with false by lia. exists a, (f_truncate G b). split; auto. cbn [cue_part filter map chunks flat_map]. rewrite !app_nil_r. split; [eapply cut_here; eauto|auto].
  - inversion K as [|? ? Kc Kl]; subst. pose proof (clen c) as Lc. assert (CL : chunks 4 4 (c :: l) = chunk_bytes 4 4 c ++ chunks 4 4 l) by reflexivity. rewrite CL, <- app_assoc in AA. destruct (AA) as (O & C & T).
    assert (LF : length (fc a) = (length apre + length (chunk_bytes 4 4 c) + length (chunks 4 4 l ++ apost))%nat) by (rewrite C, !app_length; lia).
    assert (BL : below F (Some (length apre + length (chunks 4 4 (c :: l)))%nat) a = true) by (unfold below; rewrite T, CL, app_length; lia).
    rewrite CL. rewrite CL in BL. unfold cue_part. cbn [filter]. destruct (removable (c_id c)) eqn:R.
    + destruct (copy_rec c a b apre _ bpre bpost fuel _ AA AB Kc R BL ltac:(lia)) as (a1 & b1 & E1 & A1 & B1). rewrite E1.
      destruct (IH a1 b1 _ _ _ _ fuel A1 B1 Kl) as (a2 & b2 & E2 & C2 & A2). { destruct A1 as (_ & C1 & _). rewrite C1, !app_length. rewrite !app_length in LF. lia. } { rewrite app_length in *. lia. }
      exists a2, b2. rewrite app_length in *. rewrite Nat.add_assoc. rewrite E2. split; auto. rewrite <- app_assoc in A2. split; [|exact A2]. rewrite C2, <- app_assoc. reflexivity.
    + destruct (drop_rec c a b apre _ fuel _ AA Kc R BL) as (a1 & E1 & A1). rewrite E1.
      destruct (IH a1 b _ _ _ _ fuel A1 AB Kl) as (a2 & b2 & E2 & C2 & A2). { destruct A1 as (_ & C1 & _). rewrite C1, !app_length. rewrite !app_length in LF. lia. } { rewrite app_length in *. lia. }
      exists a2, b2. rewrite app_length in *. rewrite Nat.add_assoc. rewrite E2. split; auto. rewrite <- app_assoc in A2. split; [|exact A2]. exact C2.
Qed.
(** ... or the end of the file *)
Theorem remove_keeps_all : forall l a b apre bpre bpost fuel, at_ F fc a apre (chunks 4 4 l) -> at_ G gc b bpre bpost -> Forall (chunk_ok 4 4 2) l -> (length (fc a) + 2 < fuel + length apre)%nat -> (0 < fuel)%nat ->
  exists a' b', remove_cues F fset G gset fuel a b None = Ret (a', b', true) /\ gc b' = bpre ++ chunks 4 4 (cue_part l) /\ fc a' = fc a.
Proof.
  induction l as [|c l IH]; intros a b apre bpre bpost fuel AA AB K Hf H1; destruct fuel as [|fuel]; try lia.
  - destruct (AA) as (O & C & T). cbn [remove_cues below]. cbn [chunks flat_map] in C. rewrite app_nil_r in C.
    destruct (rd F fset fc HF 4 4 2 ltac:(lia) ltac:(lia) ltac:(lia) a 4 O ltac:(lia) ltac:(lia)) as (a1 & v1 & E1 & C1 & O1). rewrite T, C in O1. replace (_ <=? _)%nat with false in O1 by lia. destruct O1 as [O1 _].
    rewrite E1. cbn [obind]. rewrite O1. cbn [is_ok negb]. exists a1, (f_truncate G b). split; auto. cbn [cue_part filter map chunks flat_map]. rewrite app_nil_r. split; [eapply cut_here; eauto|auto].
  - inversion K as [|? ? Kc Kl]; subst. pose proof (clen c) as Lc. assert (CL : chunks 4 4 (c :: l) = chunk_bytes 4 4 c ++ chunks 4 4 l) by reflexivity. rewrite CL in AA. destruct (AA) as (O & C & T).
    assert (LF : length (fc a) = (length apre + length (chunk_bytes 4 4 c) + length (chunks 4 4 l))%nat) by (rewrite C, !app_length; lia).
    unfold cue_part. cbn [filter]. destruct (removable (c_id c)) eqn:R.
    + destruct (copy_rec c a b apre _ bpre bpost fuel None AA AB Kc R eq_refl ltac:(lia)) as (a1 & b1 & E1 & A1 & B1). rewrite E1. destruct (A1) as (_ & C1 & _).
      destruct (IH a1 b1 _ _ _ fuel A1 B1 Kl) as (a2 & b2 & E2 & C2 & A2). { rewrite C1, !app_length. lia. } { lia. }
      exists a2, b2. rewrite E2. split; auto. split; [rewrite C2, <- app_assoc; reflexivity|]. rewrite A2, C1, C, <- app_assoc. auto.
    + destruct (drop_rec c a b apre _ fuel None AA Kc R eq_refl) as (a1 & E1 & A1). rewrite E1. destruct (A1) as (_ & C1 & _).
      destruct (IH a1 b _ _ _ fuel A1 AB Kl) as (a2 & b2 & E2 & C2 & A2). { rewrite C1, !app_length. lia. } { lia. }
      exists a2, b2. rewrite E2. split; auto. split; [exact C2|]. rewrite A2, C1, C, <- app_assoc. auto.
Qed.
End Remove.
