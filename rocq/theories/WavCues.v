(** WAV files: read_cues. *)
From Coq Require Import ZifyBool ZifyNat Permutation Sorted.
From Verif Require Import Base StreamModel StreamSpec StreamProps StringModel StringSpec ConvModel ConvProps MemFileModel FileConvModel FileConvSpec IdrecModel IdrecSpec IdrecProps WavModel WavSpec WavProps WavWrite WavRead.
Ltac Zify.zify_post_hook ::= Z.div_mod_to_equations.

(** ** Changing one cue *)
Lemma order_keys : forall l, in_order l <-> StronglySorted Z.le (map key_of l).
Proof.
  split.
  - induction 1 as [|a l H IH F]; cbn [map]; constructor; auto. apply Forall_map. exact F.
  - induction l as [|a l IH]; cbn [map]; intros H; [constructor|]. inversion H as [|? ? H1 H2]; subst. constructor; [apply IH; auto|]. rewrite Forall_map in H2. exact H2.
Qed.
Lemma change_at : forall k g l c, nth_error l k = Some c -> exists l1 l2, l = l1 ++ c :: l2 /\ change k g l = l1 ++ g c :: l2.
Proof.
  induction k; intros g [|a l] c E; cbn [nth_error change] in *; try discriminate.
  - injection E as ->. exists [], l. auto.
  - destruct (IHk g l c E) as (l1 & l2 & -> & ->). exists (a :: l1), l2. auto.
Qed.
Lemma with_id_marked : forall bsearch id g l, searches bsearch -> in_order l -> (forall c, key_of (g c) = key_of c) -> marked id g l (with_id bsearch id g l) /\ in_order (with_id bsearch id g l).
Proof.
  intros bsearch id g l SE IO G. unfold with_id. specialize (SE id l IO). destruct (bsearch id l) as [k|].
  - destruct SE as (c & E & K). destruct (change_at k g l c E) as (l1 & l2 & E1 & E2). rewrite E2. split; [left; exists l1, c, l2; auto|].
    apply order_keys. apply order_keys in IO. rewrite E1 in IO. rewrite map_app in *. cbn [map] in *. rewrite G. exact IO.
  - split; [right; auto|auto].
Qed.

Section Files.
Context {S : Type} (F : fdev S) (fset : S -> sstate -> S) (content : S -> list Z) (HF : settable_file F fset content).
Let FD := file_dev F fset.
Let at_ := at_ F content.
Lemma lim_source : forall d k, source (limiter_dev FD) (limiter_inv (here F content d k)) (limiter_left (left_of F content)).
Proof. intros. apply limiter_source. apply (here_source F fset content HF 4 4 2); lia. Qed.
Lemma lim_nf : forall d k, never_fails (limiter_dev FD) (limiter_inv (here F content d k)).
Proof. intros. apply limiter_never_fails. apply (here_nf F fset content HF). Qed.
Lemma size_small : forall c, chunk_ok 4 4 2 c -> Z.of_nat (length (c_data c)) < 2 ^ 32.
Proof. intros c (_ & _ & _ & K). change (256 ^ Z.of_nat 4) with (2 ^ 32) in K. lia. Qed.

(** ** Records: what is read from a record is what is in it *)
Theorem ltxt_rec_read : forall s c pre post old id a b fuel, at_ s (pre ++ le_bytes 4 (c_id c)) (le_bytes 4 (Z.of_nat (length (c_data c))) ++ c_data c ++ c_pad c ++ post) -> chunk_ok 4 4 2 c ->
  c_data c = about_head id a ++ b -> head_ok id a -> (length (c_data c) + 1 < fuel)%nat ->
  exists s', read_rec F fset s old (read_ltxt (limiter_dev FD) fuel) = Ret (s', (id, About (ab_duration a) (ab_purpose a) (ab_country a) (ab_language a) (ab_dialect a) (ab_charset a) (cstr b))) /\ at_ s' (pre ++ chunk_bytes 4 4 c) post.
Proof.
  intros s c pre post old id a b fuel (O & C & T) K D H Hf. pose proof (size_small c K). apply (rec_read F fset content HF); auto.
  - rewrite C. unfold chunk_bytes. rewrite <- !app_assoc. reflexivity.
  - rewrite T, app_length, le_bytes_length. reflexivity.
  - intros k cl I Scl L. apply (ltxt_read (limiter_dev FD) _ _ (lim_source _ _) (lim_nf _ _)); auto; rewrite L; auto. lia.
Qed.
Theorem label_rec_read : forall s c pre post old id b fuel, at_ s (pre ++ le_bytes 4 (c_id c)) (le_bytes 4 (Z.of_nat (length (c_data c))) ++ c_data c ++ c_pad c ++ post) -> chunk_ok 4 4 2 c ->
  c_data c = le_bytes 4 id ++ b -> fits 4 id -> (length (c_data c) + 1 < fuel)%nat ->
  exists s', read_rec F fset s old (read_label (limiter_dev FD) fuel) = Ret (s', (id, cstr b)) /\ at_ s' (pre ++ chunk_bytes 4 4 c) post.
Proof.
  intros s c pre post old id b fuel (O & C & T) K D H Hf. pose proof (size_small c K). apply (rec_read F fset content HF); auto.
  - rewrite C. unfold chunk_bytes. rewrite <- !app_assoc. reflexivity.
  - rewrite T, app_length, le_bytes_length. reflexivity.
  - intros k cl I Scl L. apply (label_read (limiter_dev FD) _ _ (lim_source _ _) (lim_nf _ _)); auto; rewrite L; auto. lia.
Qed.
Theorem header_rec_read : forall s c pre post old v b, at_ s (pre ++ le_bytes 4 (c_id c)) (le_bytes 4 (Z.of_nat (length (c_data c))) ++ c_data c ++ c_pad c ++ post) -> chunk_ok 4 4 2 c ->
  c_data c = le_bytes 4 v ++ b -> fits 4 v -> exists s', read_rec F fset s old (read_header (limiter_dev FD)) = Ret (s', v) /\ at_ s' (pre ++ chunk_bytes 4 4 c) post.
Proof.
  intros s c pre post old v b (O & C & T) K D H. pose proof (size_small c K). apply (rec_read F fset content HF); auto.
  - rewrite C. unfold chunk_bytes. rewrite <- !app_assoc. reflexivity.
  - rewrite T, app_length, le_bytes_length. reflexivity.
  - intros k cl I Scl L. apply (header_read (limiter_dev FD) _ _ (lim_source _ _) (lim_nf _ _) cl v b); auto; rewrite L; auto.
Qed.
Theorem format_rec_read : forall s c pre post old f fuel, at_ s (pre ++ le_bytes 4 (c_id c)) (le_bytes 4 (Z.of_nat (length (c_data c))) ++ c_data c ++ c_pad c ++ post) -> chunk_ok 4 4 2 c ->
  c_data c = format_bytes f -> format_ok f -> (length (c_data c) + 1 < fuel)%nat -> exists s', read_rec F fset s old (read_format (limiter_dev FD) fuel) = Ret (s', f) /\ at_ s' (pre ++ chunk_bytes 4 4 c) post.
Proof.
  intros s c pre post old f fuel (O & C & T) K D H Hf. pose proof (size_small c K). apply (rec_read F fset content HF); auto.
  - rewrite C. unfold chunk_bytes. rewrite <- !app_assoc. reflexivity.
  - rewrite T, app_length, le_bytes_length. reflexivity.
  - intros k cl I Scl L. apply (format_read (limiter_dev FD) _ _ (lim_source _ _) (lim_nf _ _)); auto; rewrite L; auto.
Qed.
Theorem content_rec_read : forall s c pre post old fuel, at_ s (pre ++ le_bytes 4 (c_id c)) (le_bytes 4 (Z.of_nat (length (c_data c))) ++ c_data c ++ c_pad c ++ post) -> chunk_ok 4 4 2 c ->
  (length (c_data c) + 1 < fuel)%nat -> exists s', read_rec F fset s old (read_content (limiter_dev FD) fuel) = Ret (s', c_data c) /\ at_ s' (pre ++ chunk_bytes 4 4 c) post.
Proof.
  intros s c pre post old fuel (O & C & T) K Hf. pose proof (size_small c K). apply (rec_read F fset content HF); auto.
  - rewrite C. unfold chunk_bytes. rewrite <- !app_assoc. reflexivity.
  - rewrite T, app_length, le_bytes_length. reflexivity.
  - intros k cl I Scl L. rewrite <- L. apply (content_read (limiter_dev FD) _ _ (lim_source _ _) (lim_nf _ _)); auto; rewrite L; lia.
Qed.
Theorem cues_rec_read : forall s c pre post old l b, at_ s (pre ++ le_bytes 4 (c_id c)) (le_bytes 4 (Z.of_nat (length (c_data c))) ++ c_data c ++ c_pad c ++ post) -> chunk_ok 4 4 2 c ->
  c_data c = cues_bytes l ++ b -> Forall cue_ok l -> exists s', read_rec F fset s old (read_cues_plain (limiter_dev FD)) = Ret (s', l) /\ at_ s' (pre ++ chunk_bytes 4 4 c) post.
Proof.
  intros s c pre post old l b (O & C & T) K D H. pose proof (size_small c K). assert (Z.of_nat (length l) < 2 ^ 32). { rewrite D in *. unfold cues_bytes in *. rewrite !app_length, cues_len in *. lia. } apply (rec_read F fset content HF); auto.
  - rewrite C. unfold chunk_bytes. rewrite <- !app_assoc. reflexivity.
  - rewrite T, app_length, le_bytes_length. reflexivity.
  - intros k cl I Scl L. apply (cues_read (limiter_dev FD) _ _ (lim_source _ _) (lim_nf _ _) cl l b); auto; rewrite L; auto.
Qed.

(** ** The lists *)
Context (sort : list cue_ex -> list cue_ex) (bsearch : Z -> list cue_ex -> option nat) (SORT : sorts sort) (SEARCH : searches bsearch).
Lemma texts_loop_spec : forall l s pre post cues fuel, at_ s pre (chunks 4 4 l ++ post) -> Forall text_rec_ok l -> (length (content s) + 2 < fuel + length pre)%nat -> (0 < fuel)%nat -> in_order cues ->
  exists s' new, texts_loop F fset bsearch fuel s cues (length pre + length (chunks 4 4 l)) = Ret (s', Some new) /\ at_ s' (pre ++ chunks 4 4 l) post /\ noted l cues new /\ in_order new.
Proof.
  induction l as [|c l IH]; intros s pre post cues fuel A K Hf H0 IO; destruct (A) as (O & C & T); destruct fuel as [|fuel]; try lia; cbn [texts_loop]; rewrite T.
  { unfold chunks. cbn [flat_map length]. replace (_ <? _)%nat with false by lia. exists s, cues. rewrite app_nil_r. repeat split; auto; try apply A. constructor. }
  inversion K as [|? ? K1 K2]; subst. destruct K1 as (KC & KL & KN). pose proof (clen c) as Cc.
  assert (CL : length (chunks 4 4 (c :: l)) = (length (chunk_bytes 4 4 c) + length (chunks 4 4 l))%nat) by (unfold chunks; cbn [flat_map]; rewrite app_length; lia).
  assert (CB : chunks 4 4 (c :: l) = chunk_bytes 4 4 c ++ chunks 4 4 l) by reflexivity.
  assert (CO : length (content s) = (length pre + length (chunks 4 4 (c :: l)) + length post)%nat) by (rewrite C, !app_length; lia). replace (_ <? _)%nat with true by lia.
  destruct (rd4 F fset content HF s 4 pre (c_id c) (le_bytes 4 (Z.of_nat (length (c_data c))) ++ c_data c ++ c_pad c ++ chunks 4 4 l ++ post) O ltac:(lia) ltac:(lia) ltac:(apply KC)) as (s1 & E1 & C1 & O1 & T1).
  { rewrite C, CB. unfold chunk_bytes. rewrite <- !app_assoc. reflexivity. } { auto. }
  rewrite E1. cbn [obind]. rewrite O1. cbn [is_ok negb].
  assert (A1 : at_ s1 (pre ++ le_bytes 4 (c_id c)) (le_bytes 4 (Z.of_nat (length (c_data c))) ++ c_data c ++ c_pad c ++ (chunks 4 4 l ++ post))).
  { split; auto. split; [rewrite C1, C, CB; unfold chunk_bytes; rewrite <- !app_assoc; reflexivity|]. rewrite app_length, le_bytes_length. auto. }
  (* the rest *)
  assert (REST : forall s2 mid, at_ s2 (pre ++ chunk_bytes 4 4 c) (chunks 4 4 l ++ post) -> in_order mid -> (forall new, noted l mid new -> noted (c :: l) cues new) ->
    exists s' new, texts_loop F fset bsearch fuel s2 mid (length pre + length (chunks 4 4 (c :: l))) = Ret (s', Some new) /\ at_ s' (pre ++ chunks 4 4 (c :: l)) post /\ noted (c :: l) cues new /\ in_order new).
  { intros s2 mid A2 IM NX. assert (CS : length (content s2) = length (content s)) by (destruct A2 as (_ & -> & _); rewrite !app_length in *; lia).
    destruct (IH s2 _ post mid fuel A2 K2) as (s3 & new & E3 & A3 & N3 & I3); [rewrite CS, app_length; lia|lia|auto|]. exists s3, new. rewrite app_length in E3. rewrite CL. rewrite Nat.add_assoc. split; auto. rewrite CB, app_assoc. auto. }
  clear IH. destruct (Z.eqb_spec (c_id c) id_ltxt) as [Q|Q1]; [|destruct (Z.eqb_spec (c_id c) id_labl) as [Q|Q2]; [|destruct (Z.eqb_spec (c_id c) id_note) as [Q|Q3]]].
  - destruct (KL Q) as (id & a & b & D & Hd). destruct (ltxt_rec_read s1 c pre (chunks 4 4 l ++ post) (0, about0) id a b fuel A1 KC D Hd) as (s2 & E2 & A2); [lia|]. fold FD. rewrite E2. cbn [obind fst snd].
    set (a' := About _ _ _ _ _ _ _). destruct (with_id_marked bsearch id (set_about a') cues SEARCH IO ltac:(reflexivity)) as [M IM]. apply REST; auto. intros new N. eapply (nt_ltxt c l cues _ new id a' b); eauto.
  - destruct (KN (or_introl Q)) as (id & b & D & Hd). destruct (label_rec_read s1 c pre (chunks 4 4 l ++ post) (0, []) id b fuel A1 KC D Hd) as (s2 & E2 & A2); [lia|]. fold FD. rewrite E2. cbn [obind fst snd].
    destruct (with_id_marked bsearch id (set_title (cstr b)) cues SEARCH IO ltac:(reflexivity)) as [M IM]. apply REST; auto. intros new N. eapply (nt_label c l cues _ new id b); eauto.
  - destruct (KN (or_intror Q)) as (id & b & D & Hd). destruct (label_rec_read s1 c pre (chunks 4 4 l ++ post) (0, []) id b fuel A1 KC D Hd) as (s2 & E2 & A2); [lia|]. fold FD. rewrite E2. cbn [obind fst snd].
    destruct (with_id_marked bsearch id (set_note (cstr b)) cues SEARCH IO ltac:(reflexivity)) as [M IM]. apply REST; auto. intros new N. eapply (nt_note c l cues _ new id b); eauto.
  - destruct A1 as (_ & C1' & T1'). rewrite app_length, le_bytes_length in T1'.
    destruct (ignore_spec F fset content HF 4 4 2 ltac:(lia) ltac:(lia) ltac:(lia) ltac:(lia) s1 c pre (chunks 4 4 l ++ post) O1 KC) as (s2 & E2 & C2 & O2 & T2). { rewrite C1'. unfold chunk_bytes. rewrite <- !app_assoc. reflexivity. } { auto. }
    change (Z.of_nat 2) with 2 in E2. rewrite E2. cbn [obind negb]. apply REST; auto.
    + split; auto. split; [rewrite C2, C1'; unfold chunk_bytes; rewrite <- !app_assoc; reflexivity|]. rewrite T2, app_length. auto.
    + intros new N. apply nt_other; auto.
Qed.
(** the first associated data list *)
Definition is_adtl (c : chunk) : Prop := c_id c = id_list /\ exists l, c_data c = list_data id_adtl l /\ Forall text_rec_ok l.
Lemma split_adtl : forall l, Forall wav_rec_ok l -> Forall (other_sub id_list id_adtl) l \/ exists l1 c l2, l = l1 ++ c :: l2 /\ is_adtl c /\ Forall (other_sub id_list id_adtl) l1.
Proof.
  induction 1 as [|c l (KC & _ & KL) H [N|(l1 & x & l2 & -> & Q & N)]]; [left; auto| |].
  all: assert (D : other_sub id_list id_adtl c \/ is_adtl c) by (unfold other_sub, is_adtl; destruct (Z.eq_dec (c_id c) id_list) as [Q'|Q']; [destruct (KL Q') as [X|X]; [left; intros _; exact X|right; split; auto]|left; intros; congruence]).
  all: destruct D as [D|D].
  - left. auto.
  - right. exists [], c, l. auto.
  - right. exists (c :: l1), x, l2. auto.
  - right. exists [], c, (l1 ++ x :: l2). auto.
Qed.
Lemma listed_skip : forall l1 l2 cues new, Forall (other_sub id_list id_adtl) l1 -> listed l2 cues new -> listed (l1 ++ l2) cues new.
Proof.
  induction 1 as [|c l1 Oc H IH]; intros L; auto. cbn [app]. destruct (Z.eq_dec (c_id c) id_list) as [Q|Q]; [|apply ls_other; auto]. destruct (Oc Q) as (sub & b & D & Fs & N). eapply ls_list; eauto.
Qed.
Lemma lists_loop_spec : forall n l, (length l <= n)%nat -> forall s pre post cues fuel, at_ s pre (chunks 4 4 l ++ post) -> (length pre mod 2 = 0)%nat -> Forall wav_rec_ok l ->
  (length (content s) + 3 < fuel + length pre)%nat -> (2 < fuel)%nat -> in_order cues ->
  exists s' new, lists_loop F fset bsearch fuel s cues (Some (length pre + length (chunks 4 4 l))%nat) = Ret (s', Some new) /\ content s' = content s /\ listed l cues new /\ in_order new.
Proof.
  induction n as [|n IH]; intros l Hn s pre post cues fuel A EV K Hf H2 IO.
  all: assert (KO : Forall (chunk_ok 4 4 2) l) by (revert K; apply Forall_impl; intros c Kc; apply Kc).
  all: destruct fuel as [|fuel]; [lia|]; cbn [lists_loop]; unfold below; destruct (A) as (O & C & T); rewrite T.
  { destruct l; [|cbn in Hn; lia]. unfold chunks. cbn [flat_map length]. replace (_ <? _)%nat with false by lia. exists s, cues. repeat split; auto. constructor. }
  destruct (split_adtl l K) as [NO|(l1 & c & l2 & -> & (Ec & sub & Dc & Ks) & NO)].
  - assert (LS : listed l cues cues) by (rewrite <- (app_nil_r l); apply listed_skip; auto; constructor). destruct (_ <? _)%nat eqn:B; [|exists s, cues; auto].
    destruct (ff_miss F fset content HF (length l) l ltac:(lia) s id_list id_adtl pre post fuel A EV KO NO ltac:(lia) ltac:(lia)) as (s1 & E1 & (O1 & C1 & T1)). rewrite E1. cbn [obind]. destruct fuel as [|fuel]; [lia|]. cbn [lists_loop]. unfold below. rewrite T1, app_length.
    replace (_ <? _)%nat with false by lia. exists s1, cues. split; auto. split; auto. rewrite C1, C, <- app_assoc. auto.
  - pose proof (mid_len l1 c l2) as CL. pose proof (clen c) as Cc. assert (CO : length (content s) = (length pre + length (chunks 4 4 (l1 ++ c :: l2)) + length post)%nat) by (rewrite C, !app_length; lia). replace (_ <? _)%nat with true by lia.
    set (e := (length pre + length (chunks 4 4 (l1 ++ c :: l2)))%nat) in *.
    destruct (ff_hit F fset content HF (length l1) l1 ltac:(lia) c l2 s id_list id_adtl (chunks 4 4 sub) pre post e fuel A EV KO NO Ec Dc) as (s1 & E1 & C1 & O1 & T1); [unfold fits, id_adtl; cbn; lia|unfold e; lia|lia|]. rewrite E1. cbn [obind].
    apply Forall_app in K as [K1 K2]. inversion K2 as [|? ? K3 K4]; subst. apply Forall_app in KO as [KO1 KO2]. inversion KO2 as [|? ? KC KO4]; subst.
    assert (LD : length (c_data c) = (4 + length (chunks 4 4 sub))%nat) by (rewrite Dc; unfold list_data; rewrite app_length, le_bytes_length; lia).
    assert (Ksub : Forall (chunk_ok 4 4 2) sub) by (revert Ks; apply Forall_impl; intros x Kx; apply Kx). pose proof (chunks_even sub Ksub) as EV2. pose proof (chunks_even l1 KO1) as EV1.
    assert (PAD : c_pad c = []). { destruct KC as (_ & P1 & P2 & _). rewrite LD in P2. destruct (c_pad c) as [|x [|y p]]; auto; cbn [length] in *; lia. }
    set (hd := pre ++ chunks 4 4 l1 ++ le_bytes 4 (c_id c) ++ le_bytes 4 (Z.of_nat (length (c_data c))) ++ le_bytes 4 id_adtl).
    assert (Lhd : length hd = (length pre + length (chunks 4 4 l1) + 12)%nat) by (unfold hd; rewrite !app_length, !le_bytes_length; lia).
    assert (A1 : at_ s1 hd (chunks 4 4 sub ++ (chunks 4 4 l2 ++ post))).
    { split; auto. split; [|rewrite Lhd; auto]. rewrite C1, C, chunks_mid. unfold hd, chunk_bytes. rewrite PAD, Dc. unfold list_data. rewrite <- !app_assoc. reflexivity. }
    destruct (texts_loop_spec sub s1 hd (chunks 4 4 l2 ++ post) cues fuel A1 Ks) as (s2 & mid & E2 & A2 & N2 & I2); [rewrite C1, Lhd; lia|lia|auto|].
    replace (length hd + length (chunks 4 4 sub))%nat with (length pre + length (chunks 4 4 l1) + 8 + length (c_data c))%nat in E2 by lia. rewrite E2. cbn [obind].
    assert (HB : hd ++ chunks 4 4 sub = pre ++ chunks 4 4 l1 ++ chunk_bytes 4 4 c) by (unfold hd, chunk_bytes; rewrite PAD, Dc; unfold list_data; rewrite app_nil_r, <- !app_assoc; reflexivity). rewrite HB in A2.
    assert (CS : content s2 = content s). { destruct A2 as (_ & -> & _). rewrite C, chunks_mid, <- !app_assoc. reflexivity. }
    assert (LP : length (pre ++ chunks 4 4 l1 ++ chunk_bytes 4 4 c) = (length pre + length (chunks 4 4 l1) + length (chunk_bytes 4 4 c))%nat) by (rewrite !app_length; lia).
    destruct (IH l2 ltac:(rewrite app_length in Hn; cbn [length] in Hn; lia) s2 _ post mid fuel A2) as (s3 & new & E3 & C3 & L3 & I3); auto; rewrite ?LP, ?CS; try lia.
    { rewrite PAD in Cc. cbn [length] in Cc. lia. }
    exists s3, new. split; [rewrite LP in E3; replace e with (length pre + length (chunks 4 4 l1) + length (chunk_bytes 4 4 c) + length (chunks 4 4 l2))%nat by (unfold e; lia); exact E3|]. split; [congruence|]. split; auto.
    apply listed_skip; auto. eapply ls_adtl; eauto.
Qed.
(** read_cues, over the records between the position and block_end *)
Theorem read_cues_spec : forall l s pre post old fuel, f_state F s = StOk -> content s = pre ++ chunks 4 4 l ++ post -> f_tell F s = length pre -> (length pre mod 2 = 0)%nat -> Forall wav_rec_ok l -> in_order old ->
  (length (content s) + 3 < fuel)%nat ->
  exists s' mid new, read_cues F fset sort bsearch fuel s old (Some (length pre + length (chunks 4 4 l))%nat) = Ret (s', Some new) /\ content s' = content s /\ f_state F s' = StOk /\ f_tell F s' = f_tell F s /\
    loaded l old mid /\ listed l mid new /\ in_order new.
Proof.
  intros l s pre post old fuel O C T EV K IO Hf. unfold read_cues.
  destruct (cues_loop_spec F fset content HF sort SORT (length l) l ltac:(lia) s pre post old fuel) as (s1 & mid & E1 & C1 & L1 & I1); auto; [split; auto|lia|lia|]. rewrite E1. cbn [obind].
  destruct (pf_seek F content (sf_plain _ _ _ HF) s1 (f_tell F s)) as (C2 & T2 & O2).
  destruct (lists_loop_spec (length l) l ltac:(lia) (f_seek F s1 (f_tell F s)) pre post mid fuel) as (s3 & new & E3 & C3 & L3 & I3); auto; [split; auto; split; congruence|rewrite C2, C1; lia|lia|]. rewrite E3. cbn [obind].
  destruct (pf_seek F content (sf_plain _ _ _ HF) s3 (f_tell F s)) as (C4 & T4 & O4). eexists _, mid, new. split; [reflexivity|]. split; [congruence|]. auto.
Qed.
End Files.
