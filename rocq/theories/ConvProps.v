(** Properties C48-C50 and C90-C93: buffer, limiter, window. *)
From Coq Require Import ZifyBool ZifyNat.
From Verif Require Import Base StreamModel StreamSpec StreamProps ConvModel.
Ltac Zify.zify_post_hook ::= Z.div_mod_to_equations.

(** ** C48: buffer *)
(** What can still be read through the buffer: what it holds, then what the source has left. *)
Definition buffer_left {S} (left : S -> list Z) (c : buffer) : list Z := skipn (bf_rh c) (bf_r c) ++ left (bf_src c).
(** What was written through the buffer: what the source got, then what the buffer holds. *)
Definition buffer_out {S} (out : S -> list Z) (c : buffer) : list Z := out (bf_src c) ++ skipn (bf_wh c) (bf_w c).
Definition buffer_rinv {S} (Inv : S -> Prop) (c : buffer) : Prop := Inv (bf_src c) /\ (bf_rh c <= length (bf_r c))%nat.
Definition buffer_winv {S} (Inv : S -> Prop) (c : buffer) : Prop := Inv (bf_src c) /\ (bf_wh c = 0 \/ bf_wh c < length (bf_w c))%nat /\ (length (bf_w c) <= bf_wcap c)%nat.

Section Read.
Context {S : Type} (D : dev S) (Inv : S -> Prop) (left : S -> list Z) (SRC : source D Inv left).

Lemma read_loop_ends : forall c n, buffer_rinv Inv c -> exists c' b, buffer_read_loop D 2 c n n [] = Some (c', b) /\
  buffer_rinv Inv c' /\ buffer_left left c = b ++ buffer_left left c' /\ (length b <= n)%nat /\
  bf_w c' = bf_w c /\ bf_wh c' = bf_wh c /\ bf_wcap c' = bf_wcap c /\
  (bf_st c' = StFail -> exists s m, Inv s /\ d_state D (fst (d_read D s m)) = StFail) /\
  match bf_st c' with
  | StOk => (0 < n)%nat -> b <> []
  | StEof => (0 < n)%nat /\ b = [] /\ buffer_left left c = []
  | StFail => b = []
  end.
Proof.
  intros [src st r rh rcap w wh wcap] n [I H]. unfold buffer_left. cbn [bf_src bf_r bf_rh] in *. cbn [buffer_read_loop bf_src bf_st bf_r bf_rh bf_rcap bf_w bf_wh bf_wcap].
  destruct (n <=? length r - rh)%nat eqn:Q1.
  - eexists _, _. split; [reflexivity|]. cbn [bf_src bf_st bf_r bf_rh bf_rcap bf_w bf_wh bf_wcap app]. split; [split; cbn [bf_src bf_r bf_rh]; auto; lia|].
    split; [rewrite app_assoc, <- skipn_add, firstn_skipn; auto|]. rewrite firstn_length, skipn_length. repeat split; auto; try lia; try discriminate.
    intros Hn E. apply (f_equal (@length Z)) in E. rewrite firstn_length, skipn_length in E. cbn in E. lia.
  - rewrite (firstn_all2 (skipn rh r)) by (rewrite skipn_length; lia). set (x := skipn rh r) in *. assert (Lx : length x = (length r - rh)%nat) by apply skipn_length. rewrite <- Lx in *. clearbody x. cbn [app].
    destruct (rcap <? n - length x)%nat eqn:Q2.
    + destruct (read_step D Inv left SRC src (n - length x) I) as (s' & b & E & I' & L & Lb & St). rewrite E. eexists _, _. split; [reflexivity|]. cbn [bf_src bf_st bf_r bf_rh bf_rcap bf_w bf_wh bf_wcap skipn app]. split; [split; cbn; auto|].
      split; [rewrite L, app_assoc; auto|]. rewrite app_length. split; [lia|]. split; auto. split; auto. split; auto.
      destruct (n - length x - length b <? n)%nat eqn:Q3.
      * split; [discriminate|]. intros Hn F. apply (f_equal (@length Z)) in F. rewrite app_length in F. cbn in F. lia.
      * assert (x = [] /\ b = []) as [Ex Eb] by (split; apply length_zero_iff_nil; lia). rewrite Ex, Eb in *. cbn [length app] in *.
        split; [intros F; exists src, (n - 0)%nat; rewrite E; auto|]. destruct (d_state D s'); auto.
        { intros Hn. exfalso. apply St; auto. lia. } { destruct St as (_ & _ & ->). repeat split; auto. lia. }
    + destruct (read_step D Inv left SRC src rcap I) as (s' & b & E & I' & L & Lb & St). rewrite E. destruct ((length b <? rcap)%nat && (length b <? n - length x)%nat) eqn:Q3.
      * eexists _, _. split; [reflexivity|]. cbn [bf_src bf_st bf_r bf_rh bf_rcap bf_w bf_wh bf_wcap]. split; [split; cbn; auto|].
        rewrite skipn_all. cbn [app]. split; [rewrite L, app_assoc; auto|]. rewrite app_length. split; [lia|]. split; auto. split; auto. split; auto.
        destruct (n - length x - length b <? n)%nat eqn:Q4.
        { split; [discriminate|]. intros Hn F. apply (f_equal (@length Z)) in F. rewrite app_length in F. cbn in F. lia. }
        assert (x = [] /\ b = []) as [Ex Eb] by (split; apply length_zero_iff_nil; lia). rewrite Ex, Eb in *. cbn [length app] in *.
        split; [intros F; exists src, rcap; rewrite E; auto|]. destruct (d_state D s'); auto.
        { intros Hn. exfalso. apply St; auto. lia. } { destruct St as (_ & _ & ->). repeat split; auto. lia. }
      * rewrite Nat.sub_0_r. replace (n - length x <=? length b)%nat with true by lia. eexists _, _. split; [reflexivity|]. cbn [bf_src bf_st bf_r bf_rh bf_rcap bf_w bf_wh bf_wcap skipn Nat.add]. split; [split; cbn [bf_src bf_r bf_rh]; auto; lia|].
        split; [rewrite L, <- app_assoc; f_equal; rewrite app_assoc, firstn_skipn; auto|]. rewrite app_length, firstn_length. repeat split; auto; try lia; try discriminate.
        intros Hn F. apply (f_equal (@length Z)) in F. rewrite app_length, firstn_length in F. cbn in F. lia.
Qed.
(** Reading through a buffer is reading a source whose remaining bytes are the buffered ones followed
    by the source's: the same bytes in the same order, eof exactly at the source's end. *)
Theorem buffer_source : source (buffer_dev D) (buffer_rinv Inv) (buffer_left left).
Proof.
  split.
  - intros c n c' b I E. cbn [buffer_dev d_read d_state] in *. unfold buffer_read in E. destruct (read_loop_ends c n I) as (c1 & b1 & E1 & I1 & L & Lb & _ & _ & _ & _ & St). rewrite E1 in E. injection E as <- <-. auto.
  - intros c st [I H]. cbn. repeat split; auto.
Qed.
Theorem buffer_never_fails : never_fails D Inv -> never_fails (buffer_dev D) (buffer_rinv Inv).
Proof.
  intros NF c n I. cbn [buffer_dev d_read d_state]. unfold buffer_read. destruct (read_loop_ends c n I) as (c1 & b1 & E1 & _ & _ & _ & _ & _ & _ & F & _). rewrite E1. cbn [fst]. intros E. destruct (F E) as (s & m & Is & Es). exact (NF s m Is Es).
Qed.
(** A new buffer hides nothing. *)
Theorem buffer_new_left : forall s rcap wcap, Inv s -> buffer_rinv Inv (buffer_new D s rcap wcap) /\ buffer_left left (buffer_new D s rcap wcap) = left s.
Proof. intros. cbn. repeat split; auto. Qed.
End Read.

Section Write.
Context {S : Type} (D : dev S) (Inv : S -> Prop) (out : S -> list Z) (SNK : sink D Inv out).

Lemma flush_spec : forall c, buffer_winv Inv c -> buffer_winv Inv (flush_write D c) /\ buffer_out out (flush_write D c) = buffer_out out c /\
  (bf_st (flush_write D c) = StOk -> skipn (bf_wh (flush_write D c)) (bf_w (flush_write D c)) = []) /\
  (always_writes D Inv -> bf_st (flush_write D c) = StOk).
Proof.
  intros [src st r rh rcap w wh wcap] (I & H & H'). unfold flush_write, buffer_out. cbn [bf_src bf_st bf_r bf_rh bf_rcap bf_w bf_wh bf_wcap] in *.
  destruct (length w - wh =? 0)%nat eqn:Q.
  - cbn [bf_src bf_st bf_r bf_rh bf_rcap bf_w bf_wh bf_wcap]. repeat split; auto; try lia. intros _. apply skipn_all2. lia.
  - rewrite (firstn_all2 (skipn wh w)) by (rewrite skipn_length; lia). destruct (write_step D Inv out SNK src (skipn wh w) I) as (s' & k & E & I' & K & O & St). rewrite E. rewrite skipn_length in K, St.
    destruct (wh + k =? length w)%nat eqn:Q2; cbn [bf_src bf_st bf_r bf_rh bf_rcap bf_w bf_wh bf_wcap].
    + split; [split; cbn; auto; lia|]. cbn [skipn]. rewrite O, app_nil_r, firstn_all2 by (rewrite skipn_length; lia). auto.
    + split; [split; cbn [bf_src bf_w bf_wh bf_wcap]; auto; lia|]. rewrite O, <- app_assoc, <- skipn_add, firstn_skipn. split; auto.
      split; [intros F; specialize (St F); lia|]. intros AW. specialize (AW src (skipn wh w) I). rewrite E in AW. cbn in AW. auto.
Qed.
Lemma write_loop_ends : forall c data, buffer_winv Inv c -> exists c' k, buffer_write_loop D 2 c (length data) data = Some (c', k) /\
  buffer_winv Inv c' /\ (k <= length data)%nat /\ buffer_out out c' = buffer_out out c ++ firstn k data /\
  (bf_st c' = StOk -> k = length data) /\ (always_writes D Inv -> bf_st c' = StOk).
Proof.
  intros [src st r rh rcap w wh wcap] data (I & H & H'). unfold buffer_out. cbn [bf_src bf_w bf_wh bf_wcap] in *. remember (length data) as len eqn:Ed. cbn [buffer_write_loop bf_src bf_st bf_r bf_rh bf_rcap bf_w bf_wh bf_wcap]. rewrite <- Ed.
  destruct (len <=? wcap - length w)%nat eqn:Q1.
  - eexists _, _. split; [reflexivity|]. cbn [bf_src bf_st bf_r bf_rh bf_rcap bf_w bf_wh bf_wcap]. split; [split; cbn [bf_src bf_w bf_wh bf_wcap]; auto; rewrite app_length; lia|].
    split; auto. rewrite Ed, firstn_all, skipn_app. replace (wh - length w)%nat with 0%nat by lia. rewrite <- app_assoc. auto.
  - set (av := (wcap - length w)%nat) in *. set (w1 := w ++ firstn av data). assert (Lw1 : length w1 = wcap) by (unfold w1; rewrite app_length, firstn_length; lia).
    set (d1 := skipn av data). assert (Ld1 : length d1 = (len - av)%nat) by (unfold d1; rewrite skipn_length, <- Ed; auto).
    assert (Ed1 : data = firstn av data ++ d1) by (symmetry; apply firstn_skipn).
    assert (Sw : skipn wh w1 = skipn wh w ++ firstn av data) by (unfold w1; rewrite skipn_app; replace (wh - length w)%nat with 0%nat by lia; auto).
    assert (REST : forall s st' w2, Inv s -> w2 = [] -> out s = out src ++ skipn wh w ++ firstn av data ->
      exists c' k, (if (wcap <? length d1)%nat then let '(s2, st2, k2) := conv_write D s d1 in Some (Buffer s2 st2 r rh rcap w2 0%nat wcap, (len - (length d1 - k2))%nat)
                    else buffer_write_loop D 1 (Buffer s st' r rh rcap w2 0%nat wcap) len d1) = Some (c', k) /\
      buffer_winv Inv c' /\ (k <= len)%nat /\ out (bf_src c') ++ skipn (bf_wh c') (bf_w c') = (out src ++ skipn wh w) ++ firstn k data /\ (bf_st c' = StOk -> k = len) /\ (always_writes D Inv -> bf_st c' = StOk)).
    { intros s st' w2 Is -> Os. destruct (wcap <? length d1)%nat eqn:Q4.
      - unfold conv_write. destruct (write_step D Inv out SNK s d1 Is) as (s2 & k2 & E2 & I2 & K2 & O2 & St2). rewrite E2. eexists _, _. split; [reflexivity|]. cbn [bf_src bf_st bf_r bf_rh bf_rcap bf_w bf_wh bf_wcap skipn]. split; [split; cbn; auto; lia|]. split; [lia|].
        split; [|split; [intros F; specialize (St2 F); lia|intros AW; specialize (AW s d1 Is); rewrite E2 in AW; exact AW]].
        rewrite O2, Os, app_nil_r, <- !app_assoc. do 2 f_equal. rewrite Ed1 at 2. rewrite firstn_app, firstn_length. replace (len - (length d1 - k2) - Nat.min av (length data))%nat with k2 by lia. rewrite firstn_firstn. replace (Nat.min (len - (length d1 - k2)) av) with av by lia. auto.
      - cbn [buffer_write_loop bf_src bf_st bf_r bf_rh bf_rcap bf_w bf_wh bf_wcap length]. replace (length d1 <=? wcap - 0)%nat with true by lia. eexists _, _. split; [reflexivity|]. cbn [bf_src bf_st bf_r bf_rh bf_rcap bf_w bf_wh bf_wcap skipn app]. split; [split; cbn [bf_src bf_w bf_wh bf_wcap]; auto; lia|]. split; auto.
        split; auto. rewrite Os, <- !app_assoc. do 2 f_equal. rewrite Ed, firstn_all. symmetry. exact Ed1. }
    clearbody w1 d1. cbv zeta. destruct (length w1 - wh =? 0)%nat eqn:Q2.
    + (* nothing to flush: wh = tail = capacity *)
      assert (wh = 0%nat /\ wcap = 0%nat) as [-> C0] by lia. assert (w = []) as -> by (apply length_zero_iff_nil; lia). assert (av = 0%nat) as A0 by (unfold av; lia). assert (w1 = []) as -> by (apply length_zero_iff_nil; lia). clearbody av.
      apply (REST src st []); auto. rewrite A0. cbn. rewrite app_nil_r. auto.
    + rewrite (firstn_all2 (skipn wh w1)) by (rewrite skipn_length; lia). unfold conv_write at 1. destruct (write_step D Inv out SNK src (skipn wh w1) I) as (s' & k & E & I' & K & O & St). rewrite E. rewrite skipn_length in K, St.
      destruct (wh + k =? length w1)%nat eqn:Q3.
      * apply (REST s' (d_state D s') []); auto. rewrite O, firstn_all2, Sw by (rewrite skipn_length; lia). auto.
      * eexists _, _. split; [reflexivity|]. cbn [bf_src bf_st bf_r bf_rh bf_rcap bf_w bf_wh bf_wcap]. split; [split; cbn [bf_src bf_w bf_wh bf_wcap]; auto; lia|]. split; [lia|].
        split; [|split; [intros F; specialize (St F); lia|intros AW; specialize (AW src (skipn wh w1) I); rewrite E in AW; cbn in AW; specialize (St AW); lia]].
        rewrite O, <- (app_assoc (out src)), <- skipn_add, firstn_skipn, Sw, <- !app_assoc. do 2 f_equal. replace (len - length d1)%nat with av by lia. auto.
Qed.

(** Writing through a buffer is writing to a sink. *)
Theorem buffer_sink : sink (buffer_dev D) (buffer_winv Inv) (buffer_out out).
Proof.
  split.
  - intros c b c' k I E. cbn [buffer_dev d_write d_state] in *. unfold buffer_write in E. destruct (length b =? 0)%nat eqn:Q.
    + assert (b = []) as -> by (apply length_zero_iff_nil; lia). destruct (flush_spec c I) as (I1 & O1 & F1 & _). destruct (is_ok (bf_st (flush_write D c))) eqn:Q2.
      * unfold conv_write in E. destruct I1 as (I1 & H1 & H1'). destruct (write_step D Inv out SNK _ [] I1) as (s' & k' & E2 & I2 & K & O & St). rewrite E2 in E. injection E as <- <-. cbn [length] in *. split; [split; auto|]. split; auto. unfold buffer_out in *. cbn [bf_src bf_w bf_wh]. rewrite O. rewrite firstn_nil, !app_nil_r. split; auto.
      * injection E as <- <-. cbn [length firstn]. rewrite app_nil_r. auto.
    + destruct (write_loop_ends c b I) as (c1 & k1 & E1 & I1 & K & O & St & _). rewrite E1 in E. injection E as <- <-. auto.
  - intros c st I. cbn. repeat split; auto; apply I.
Qed.
Theorem buffer_always_writes : always_writes D Inv -> always_writes (buffer_dev D) (buffer_winv Inv).
Proof.
  intros AW c b I. cbn [buffer_dev d_write d_state]. unfold buffer_write. destruct (length b =? 0)%nat eqn:Q.
  - destruct (flush_spec c I) as ((I1 & _) & O1 & F1 & A). rewrite (A AW). cbn [is_ok]. unfold conv_write. specialize (AW _ [] I1). destruct (d_write D _ []) as [s' k] eqn:E. exact AW.
  - destruct (write_loop_ends c b I) as (c1 & k1 & E1 & _ & _ & _ & _ & A). rewrite E1. cbn [fst]. auto.
Qed.
(** After flush, when the state is ok, and after destruction when the source does not fail, the source
    has everything that was written. *)
Theorem buffer_flush_out : forall c, buffer_winv Inv c -> buffer_out out (buffer_flush D c) = buffer_out out c /\
  (bf_st (buffer_flush D c) = StOk -> out (bf_src (buffer_flush D c)) = buffer_out out c).
Proof.
  intros c I. destruct (flush_spec c I) as (I1 & O1 & F1 & _). unfold buffer_flush. destruct (is_ok (bf_st (flush_write D c))) eqn:Q.
  - cbn [buffer_set buffer_out bf_src bf_w bf_wh bf_st] in *. unfold buffer_out in *. cbn [buffer_set bf_src bf_w bf_wh]. split; auto. intros _. rewrite <- O1, F1, app_nil_r; auto. destruct (bf_st _); auto; discriminate.
  - split; auto. intros F. rewrite F in Q. discriminate.
Qed.
Theorem buffer_done_out : always_writes D Inv -> forall c, buffer_winv Inv c -> out (buffer_done D c) = buffer_out out c.
Proof.
  intros AW c I. destruct (flush_spec c I) as (I1 & O1 & F1 & A). unfold buffer_done. rewrite <- O1. unfold buffer_out. rewrite F1 by auto. rewrite app_nil_r. auto.
Qed.
Theorem buffer_new_out : forall s rcap wcap, Inv s -> buffer_winv Inv (buffer_new D s rcap wcap) /\ buffer_out out (buffer_new D s rcap wcap) = out s.
Proof. intros. unfold buffer_winv, buffer_out. cbn. rewrite app_nil_r. repeat split; auto; lia. Qed.
End Write.

(** The whole life of a writing buffer: whatever pieces are written, of whatever sizes, the source has
    got their concatenation when the buffer is destroyed. *)
Fixpoint writes {S} (D : dev S) (s : S) (bs : list (list Z)) : S :=
  match bs with [] => s | b :: r => writes D (fst (d_write D s b)) r end.
Lemma writes_out : forall {S} (D : dev S) Inv out, sink D Inv out -> always_writes D Inv -> forall bs s, Inv s -> Inv (writes D s bs) /\ out (writes D s bs) = out s ++ concat bs.
Proof.
  intros S D Inv out SNK AW. induction bs as [|b r IH]; intros s I; cbn [writes concat]; [rewrite app_nil_r; auto|].
  destruct (write_step D Inv out SNK s b I) as (s' & k & E & I' & K & O & St). specialize (AW s b I). rewrite E in *. cbn [fst] in *. destruct (IH s' I') as [I2 O2]. split; auto. rewrite O2, O, (St AW), firstn_all, <- app_assoc. auto.
Qed.
Theorem buffer_life : forall {S} (D : dev S) Inv out, sink D Inv out -> always_writes D Inv -> forall s rcap wcap bs, Inv s ->
  out (buffer_done D (writes (buffer_dev D) (buffer_new D s rcap wcap) bs)) = out s ++ concat bs.
Proof.
  intros S D Inv out SNK AW s rcap wcap bs I. destruct (buffer_new_out D Inv out s rcap wcap I) as [I1 O1].
  destruct (writes_out (buffer_dev D) _ _ (buffer_sink D Inv out SNK) (buffer_always_writes D Inv out SNK AW) bs _ I1) as [I2 O2]. rewrite (buffer_done_out D Inv out SNK AW) by auto. rewrite O2, O1. auto.
Qed.
(** Reading everything through a buffer gives everything the source had left. *)
Theorem buffer_read_all : forall {S} (D : dev S) Inv left, source D Inv left -> never_fails D Inv -> forall s rcap wcap n, Inv s -> Z.of_nat n < M64 ->
  exists c' k, read_array (buffer_dev D) (buffer_new D s rcap wcap) 1 n = Ret (c', firstn n (left s), k) /\ bf_st c' = (if (length (left s) <? n)%nat then StEof else StOk).
Proof.
  intros S D Inv left SRC NF s rcap wcap n I Hn. destruct (buffer_new_left D Inv left s rcap wcap I) as [I1 L1].
  destruct (read_array_full (buffer_dev D) _ _ (buffer_source D Inv left SRC) (buffer_never_fails D Inv left SRC NF) (buffer_new D s rcap wcap) 1 n I1) as (c' & k & E & _ & _ & St & _); [lia|].
  rewrite L1, Nat.mul_1_l in *. exists c', k. auto.
Qed.
(** Non-vacuity, and a concrete run: a buffer of 2 bytes over an array. *)
Example buffer_life_ex : fst (buffer_done array_dev (writes (buffer_dev array_dev) (buffer_new array_dev ([9], StOk) 2 2) [[1]; [2; 3]; []; [4; 5; 6; 7]; [8]])) = [9; 1; 2; 3; 4; 5; 6; 7; 8].
Proof. vm_compute. reflexivity. Qed.
Example buffer_read_ex : exists c k, read_array (buffer_dev array_dev) (buffer_new array_dev ([1; 2; 3; 4; 5], StOk) 3 2) 1 2 = Ret (c, [1; 2], k) /\ fst (bf_src c) = [4; 5] /\ buffer_left fst c = [3; 4; 5].
Proof. eexists _, _. vm_compute. repeat split. Qed.

(** ** C90: a buffer over a stream with one position, such as a file *)
(** A file as a stream: content, position *)
Definition file_dev : dev (list Z * nat * sstate) := {|
  d_read := fun s n => let '(d, p, _) := s in let b := firstn n (skipn p d) in
                       ((d, (p + length b)%nat, if (n =? 0)%nat then StOk else match b with [] => StEof | _ => StOk end), b);
  d_write := fun s b => let '(d, p, _) := s in ((firstn p d ++ b ++ skipn (p + length b) d, (p + length b)%nat, StOk), length b);
  d_state := snd;
  d_set := fun s st => (fst s, st) |}.
(** Full statement: reading then writing through a buffer changes the file as doing so directly does.
    False: the buffer has read ahead, so the bytes are written further on, and nothing tells. *)
Theorem buffer_mixed_refuted : exists s0,
  (let s1 := fst (d_read file_dev s0 1) in fst (fst (fst (d_write file_dev s1 [99])))) = [1; 99; 3; 4] /\
  (let c1 := fst (d_read (buffer_dev file_dev) (buffer_new file_dev s0 3 3) 1) in
   let c2 := fst (d_write (buffer_dev file_dev) c1 [99]) in fst (fst (buffer_done file_dev c2))) = [1; 2; 3; 99].
Proof. exists ([1; 2; 3; 4], 0%nat, StOk). vm_compute. split; reflexivity. Qed.
(** What holds: a buffer that was not read from (or used to the end of what it holds) writes where
    the source stands. *)
Theorem buffer_mixed_partial : forall d p st rcap wcap bs, (p <= length d)%nat ->
  fst (fst (buffer_done file_dev (writes (buffer_dev file_dev) (buffer_new file_dev (d, p, st) rcap wcap) bs))) = firstn p d ++ concat bs ++ skipn (p + length (concat bs)) d.
Proof.
  intros d p st rcap wcap bs Hp.
  pose (out := fun s : list Z * nat * sstate => let '(x, q, _) := s in firstn q x).
  pose (Inv := fun s : list Z * nat * sstate => let '(x, q, _) := s in (q <= length x)%nat /\ skipn q x = skipn q d).
  assert (SNK : sink file_dev Inv out).
  { split.
    - intros [[x q] t] b s' k (H1 & H3) E. cbn [file_dev d_write] in E. injection E as <- <-. cbn [Inv out]. split; [split|].
      + rewrite !app_length, firstn_length. lia.
      + rewrite app_assoc, skipn_app, skipn_all2 by (rewrite app_length, firstn_length; lia). rewrite app_length, firstn_length. replace (q + length b - (Nat.min q (length x) + length b))%nat with 0%nat by lia. cbn [skipn app]. rewrite <- !skipn_add, H3. auto.
      + split; auto. split; auto. rewrite firstn_all. rewrite app_assoc, firstn_app. rewrite app_length, firstn_length. replace (q + length b - (Nat.min q (length x) + length b))%nat with 0%nat by lia. cbn [firstn]. rewrite app_nil_r, firstn_all2 by (rewrite app_length, firstn_length; lia). auto.
    - intros [[x q] t] t' I. cbn. auto. }
  assert (AW : always_writes file_dev Inv) by (intros [[x q] t] b I; reflexivity).
  assert (I0 : Inv (d, p, st)) by (cbn; auto).
  destruct (buffer_new_out file_dev Inv out (d, p, st) rcap wcap I0) as [I1 O1].
  destruct (writes_out (buffer_dev file_dev) _ _ (buffer_sink file_dev Inv out SNK) (buffer_always_writes file_dev Inv out SNK AW) bs _ I1) as [I2 O2].
  pose proof (buffer_done_out file_dev Inv out SNK AW _ I2) as O3. rewrite O2, O1 in O3. destruct (flush_spec file_dev Inv out SNK _ I2) as ((I3 & _) & _). fold (buffer_done file_dev (writes (buffer_dev file_dev) (buffer_new file_dev (d, p, st) rcap wcap) bs)) in I3.
  destruct (buffer_done _ _) as [[x q] t]. cbn [fst Inv out] in *. destruct I3 as [Hq Hs]. rewrite <- (firstn_skipn q x), Hs, O3, <- app_assoc. do 3 f_equal.
  apply (f_equal (@length Z)) in O3. rewrite app_length, !firstn_length in O3. lia.
Qed.

(** ** C49: limiter *)
(** what may still be read, or written, under a limit; the largest limit is no limit *)
Definition within (limit : Z) (l : list Z) : list Z := if limit =? fsize_max then l else firstn (Z.to_nat limit) l.
Definition limiter_inv {S} (Inv : S -> Prop) (c : limiter) : Prop := Inv (lm_src c) /\ 0 <= lm_read c <= fsize_max /\ 0 <= lm_write c <= fsize_max.
Definition limiter_left {S} (left : S -> list Z) (c : limiter) : list Z := within (lm_read c) (left (lm_src c)).

Lemma firstn_split : forall (b x : list Z) m, (length b <= m)%nat -> firstn m (b ++ x) = b ++ firstn (m - length b) x.
Proof. intros. rewrite firstn_app, (firstn_all2 b) by lia. auto. Qed.

(** A limited stream is a source of the first read_limit bytes the source has left. *)
Theorem limiter_source : forall {S} (D : dev S) Inv left, source D Inv left -> source (limiter_dev D) (limiter_inv Inv) (limiter_left left).
Proof.
  intros S D Inv left SRC. split.
  - intros [src st rl wl] n c' b (I & Hr & Hw) E. cbn [limiter_dev d_read d_state lm_src lm_read lm_write] in *. unfold limiter_read, conv_read in E. unfold limiter_left, within. cbn [lm_src lm_st lm_read lm_write] in *.
    destruct (rl =? fsize_max) eqn:Q1.
    + destruct (read_step D Inv left SRC src n I) as (s' & x & E2 & I' & L & Lb & St). rewrite E2 in E. injection E as <- <-. cbn [lm_src lm_st lm_read lm_write]. rewrite Q1. split; [split; auto|]. auto.
    + destruct (Z.of_nat n <=? rl) eqn:Q2; [|destruct (negb (Z.of_nat n =? 0) && (rl =? 0)) eqn:Q3].
      * destruct (read_step D Inv left SRC src n I) as (s' & x & E2 & I' & L & Lb & St). rewrite E2 in E. injection E as <- <-. cbn [lm_src lm_st lm_read lm_write]. replace (rl - Z.of_nat (length x) =? fsize_max) with false by lia. split; [split; cbn [lm_src lm_read lm_write]; auto; lia|].
        split; [rewrite L, firstn_split by lia; repeat f_equal; lia|]. split; auto. destruct (d_state D s'); auto. destruct St as (H1 & H2 & ->). rewrite firstn_nil. auto.
      * injection E as <- <-. cbn [lm_src lm_st lm_read lm_write]. rewrite Q1. assert (rl = 0) as -> by lia. cbn [Z.to_nat firstn app length]. unfold limiter_inv. cbn [lm_src lm_read lm_write]. repeat split; auto; try lia.
      * destruct (read_step D Inv left SRC src (Z.to_nat rl) I) as (s' & x & E2 & I' & L & Lb & St). rewrite E2 in E. injection E as <- <-. cbn [lm_src lm_st lm_read lm_write]. replace (rl - Z.of_nat (length x) =? fsize_max) with false by lia. split; [split; cbn [lm_src lm_read lm_write]; auto; lia|].
        split; [rewrite L, firstn_split by lia; repeat f_equal; lia|]. split; [lia|]. destruct (d_state D s'); auto. { intros _. apply St. lia. } destruct St as (H1 & H2 & ->). rewrite firstn_nil. repeat split; auto. lia.
  - intros [src st rl wl] st' (I & Hr & Hw). cbn [limiter_dev d_set d_state]. unfold limiter_inv. cbn [lm_src lm_read lm_write lm_st] in *. repeat split; auto; lia.
Qed.
Theorem limiter_never_fails : forall {S} (D : dev S) Inv, never_fails D Inv -> never_fails (limiter_dev D) (limiter_inv Inv).
Proof.
  intros S D Inv NF [src st rl wl] n (I & _). cbn [limiter_dev d_read d_state lm_src] in *. unfold limiter_read, conv_read. cbn [lm_src lm_st lm_read lm_write].
  destruct (rl =? fsize_max); [|destruct (Z.of_nat n <=? rl); [|destruct (negb _ && _); [discriminate|]]].
  - specialize (NF src n I). destruct (d_read D src n). exact NF.
  - specialize (NF src n I). destruct (d_read D src n). exact NF.
  - specialize (NF src (Z.to_nat rl) I). destruct (d_read D src (Z.to_nat rl)). exact NF.
Qed.
(** So reading through a limiter gives the first read_limit bytes, then eof. *)
Theorem limiter_read_all : forall {S} (D : dev S) Inv left, source D Inv left -> never_fails D Inv -> forall s r w n, Inv s -> 0 <= r < fsize_max -> 0 <= w <= fsize_max -> Z.of_nat n < M64 ->
  exists c' k, read_array (limiter_dev D) (limiter_new D s r w) 1 n = Ret (c', firstn (Nat.min n (Z.to_nat r)) (left s), k) /\
    (Nat.min (Z.to_nat r) (length (left s)) < n -> lm_st c' = StEof)%nat.
Proof.
  intros S D Inv left SRC NF s r w n I Hr Hw Hn.
  assert (I1 : limiter_inv Inv (limiter_new D s r w)) by (repeat split; cbn; auto; lia).
  destruct (read_array_full (limiter_dev D) _ _ (limiter_source D Inv left SRC) (limiter_never_fails D Inv NF) (limiter_new D s r w) 1 n I1) as (c' & k & E & _ & _ & St & _); [lia|].
  unfold limiter_left, within in *. cbn [limiter_new lm_read lm_src] in *. replace (r =? fsize_max) with false in * by lia. rewrite firstn_firstn in E. rewrite Nat.mul_1_l in *. exists c', k. split; auto. intros H. cbn [limiter_dev d_state] in St. rewrite St, firstn_length. replace (_ <? _)%nat with true by lia. auto.
Qed.
(** Writing: what reaches the source over any history is a prefix, of at most write_limit bytes, of
    what was accepted; the limit goes down by as much. *)
Theorem limiter_write_spec : forall {S} (D : dev S) Inv out, sink D Inv out -> forall c b c' k, limiter_inv Inv c -> limiter_write D c b = (c', k) ->
  limiter_inv Inv c' /\ (k <= length b)%nat /\ out (lm_src c') = out (lm_src c) ++ firstn k b /\ lm_read c' = lm_read c /\
  (if lm_write c =? fsize_max then lm_write c' = fsize_max else lm_write c' = lm_write c - Z.of_nat k) /\
  (lm_st c' = StOk -> k = length (within (lm_write c) b)) /\
  (lm_write c = 0 -> b <> [] -> k = 0%nat /\ lm_st c' = StFail).
Proof.
  intros S D Inv out SNK [src st rl wl] b c' k (I & Hr & Hw) E. unfold limiter_write, conv_write in E. unfold within. cbn [lm_src lm_st lm_read lm_write] in *.
  destruct (wl =? fsize_max) eqn:Q1; [|destruct (Z.of_nat (length b) <=? wl) eqn:Q2; [|destruct (negb (Z.of_nat (length b) =? 0) && (wl =? 0)) eqn:Q3]].
  - destruct (write_step D Inv out SNK src b I) as (s' & x & E2 & I' & K & O & St). rewrite E2 in E. injection E as <- <-. cbn [lm_src lm_st lm_read lm_write]. split; [split; cbn [lm_src lm_read lm_write]; auto|]. split; auto. split; auto. split; auto. split; [lia|]. split; auto. intros F. exfalso. unfold fsize_max in *. lia.
  - destruct (write_step D Inv out SNK src b I) as (s' & x & E2 & I' & K & O & St). rewrite E2 in E. injection E as <- <-. cbn [lm_src lm_st lm_read lm_write]. rewrite firstn_length. split; [split; cbn [lm_src lm_read lm_write]; auto; lia|]. split; auto. split; auto. split; auto. split; auto. split; [intros F; rewrite (St F); lia|]. intros F G. exfalso. apply G. apply length_zero_iff_nil. lia.
  - injection E as <- <-. cbn [lm_src lm_st lm_read lm_write firstn]. rewrite app_nil_r. split; [split; cbn [lm_src lm_read lm_write]; auto|]. split; [lia|]. split; auto. split; auto. split; [lia|]. split; [discriminate|auto].
  - destruct (write_step D Inv out SNK src (firstn (Z.to_nat wl) b) I) as (s' & x & E2 & I' & K & O & St). rewrite E2 in E. injection E as <- <-. cbn [lm_src lm_st lm_read lm_write]. rewrite firstn_length in *. rewrite firstn_firstn in O. replace (Nat.min x (Z.to_nat wl)) with x in O by lia.
    split; [split; cbn [lm_src lm_read lm_write]; auto; lia|]. split; [lia|]. split; auto. split; auto. split; auto. split; [intros F; rewrite (St F); lia|]. intros F G. exfalso. lia.
Qed.
Fixpoint limiter_writes {S} (D : dev S) (c : limiter) (bs : list (list Z)) : @limiter S :=
  match bs with [] => c | b :: r => limiter_writes D (fst (limiter_write D c b)) r end.
Theorem limiter_write_total : forall {S} (D : dev S) Inv out, sink D Inv out -> forall bs c, limiter_inv Inv c -> lm_write c < fsize_max ->
  exists x, out (lm_src (limiter_writes D c bs)) = out (lm_src c) ++ x /\ Z.of_nat (length x) <= lm_write c.
Proof.
  intros S D Inv out SNK. induction bs as [|b r IH]; intros c I H; cbn [limiter_writes].
  - exists []. rewrite app_nil_r. split; auto. apply I.
  - destruct (limiter_write D c b) as [c1 k] eqn:E. destruct (limiter_write_spec D Inv out SNK c b c1 k I E) as (I1 & K & O & _ & W & _). cbn [fst]. replace (lm_write c =? fsize_max) with false in W by lia.
    destruct (IH c1 I1) as (x & Ox & Lx); [lia|]. exists (firstn k b ++ x). rewrite Ox, O, app_assoc. split; auto. rewrite app_length, firstn_length. lia.
Qed.
(** With a source that does not fail, exactly the first write_limit bytes get through. *)
Theorem limiter_write_exact : forall {S} (D : dev S) Inv out, sink D Inv out -> always_writes D Inv -> forall b s r w, Inv s -> 0 <= r <= fsize_max -> 0 <= w <= fsize_max ->
  out (lm_src (fst (limiter_write D (limiter_new D s r w) b))) = out s ++ within w b.
Proof.
  intros S D Inv out SNK AW b s r w I Hr Hw. unfold limiter_write, conv_write, within. cbn [limiter_new lm_src lm_st lm_read lm_write].
  destruct (w =? fsize_max) eqn:Q1; [|destruct (Z.of_nat (length b) <=? w) eqn:Q2; [|destruct (negb (Z.of_nat (length b) =? 0) && (w =? 0)) eqn:Q3]].
  - destruct (write_step D Inv out SNK s b I) as (s' & x & E2 & I' & K & O & St). specialize (AW s b I). rewrite E2 in *. cbn [fst lm_src] in *. rewrite O, (St AW), firstn_all. auto.
  - destruct (write_step D Inv out SNK s b I) as (s' & x & E2 & I' & K & O & St). specialize (AW s b I). rewrite E2 in *. cbn [fst lm_src] in *. rewrite O, (St AW), firstn_all, firstn_all2 by lia. auto.
  - cbn [fst lm_src]. replace w with 0 by lia. cbn. rewrite app_nil_r. auto.
  - destruct (write_step D Inv out SNK s (firstn (Z.to_nat w) b) I) as (s' & x & E2 & I' & K & O & St). specialize (AW s (firstn (Z.to_nat w) b) I). rewrite E2 in *. cbn [fst lm_src] in *. rewrite O, (St AW), firstn_all. auto.
Qed.
Example limiter_ex : read_array (limiter_dev array_dev) (limiter_new array_dev ([1; 2; 3; 4], StOk) 3 0) 1 10 = Ret (Limiter ([4], StOk) StEof 0 0, [1; 2; 3], 3%nat).
Proof. vm_compute. reflexivity. Qed.
Example limiter_ex2 : limiter_inv (fun _ => True) (limiter_new array_dev ([1], StOk) 3 2) /\ lm_src (limiter_writes array_dev (limiter_new array_dev ([1], StOk) 3 2) [[7]; [8; 9]; [10]]) = ([1; 7; 8], StOk).
Proof. vm_compute. repeat split; discriminate. Qed.
(** ** C91.  Full statement: a write that leaves the stream in state ok has written everything.  False
    for a limiter: the write that reaches the limit is cut and the state is ok; a typed write puts
    half a value in the stream and reports success. *)
Theorem limiter_short_refuted : exists s', write_data (limiter_dev array_dev) (limiter_new array_dev ([], StOk) 0 2) 4 0x01020304 = Ret s' /\ d_state (limiter_dev array_dev) s' = StOk /\ lm_src s' = ([4; 3], StOk).
Proof. eexists. vm_compute. auto. Qed.
(** It holds for writes within the limit. *)
Theorem limiter_short_partial : forall {S} (D : dev S) Inv out, sink D Inv out -> forall c b c' k, limiter_inv Inv c -> limiter_write D c b = (c', k) -> Z.of_nat (length b) <= lm_write c -> lm_st c' = StOk -> k = length b.
Proof.
  intros S D Inv out SNK c b c' k I E H St. destruct (limiter_write_spec D Inv out SNK c b c' k I E) as (_ & _ & _ & _ & _ & A & _). rewrite (A St). unfold within. destruct (_ =? _); auto. rewrite firstn_length. lia.
Qed.

(** ** C50: window *)
Section Win.
Context {S : Type} (D : dev S).

(** Skipping what is there leaves the state ok, when it was. *)
Lemma skip_ok : forall Inv left, source D Inv left -> never_fails D Inv -> forall s amount, Inv s -> (0 < amount <= length (left s))%nat ->
  exists s', skip D s amount = Ret s' /\ Inv s' /\ left s' = skipn amount (left s) /\ d_state D s' = StOk.
Proof.
  intros Inv left SRC NF s amount I H. unfold skip.
  assert (B : forall n s, Inv s -> (0 < n <= length (left s))%nat -> exists s', skip_bytes D n s = Ret s' /\ Inv s' /\ left s' = skipn n (left s) /\ d_state D s' = StOk).
  { induction n; intros t It Ht; [lia|]. cbn [skip_bytes]. pose proof (read_byte_spec D Inv left SRC NF t It) as R. destruct (left t) as [|c r]; [cbn in Ht; lia|].
    destruct R as (s' & E & I' & L & St). rewrite E. cbn [obind]. unfold d_ok. rewrite St. cbn [is_ok]. destruct n; [exists s'; cbn; auto|]. destruct (IHn s' I') as (s2 & E2 & I2 & L2 & St2); [rewrite L; cbn in Ht; lia|]. exists s2. rewrite L2, L. auto. }
  destruct (amount =? 1)%nat eqn:E1.
  - pose proof (read_byte_spec D Inv left SRC NF s I) as R. destruct (left s) as [|c r]; [cbn in H; lia|]. destruct R as (s' & E & I' & L & St). rewrite E. cbn [obind]. exists s'. replace amount with 1%nat by lia. auto.
  - destruct (amount <? iterate_count)%nat eqn:E2; [apply B; auto|].
    destruct (skip_blocks_spec D Inv left SRC NF (Datatypes.S amount) s amount (Nat.min amount default_block_size) I) as (s' & E & I' & L & St); unfold iterate_count, default_block_size in *; try lia. exists s'. rewrite St by lia. replace (length (left s) <? amount)%nat with false by lia. auto.
Qed.

Lemma window_in_spec : forall Inv left, source D Inv left -> forall c n, limiter_inv Inv c -> (lm_read c <> 0 \/ n = 0%nat) ->
  window_read_in D c n = Ret (limiter_read D c n).
Proof.
  intros Inv left SRC [src st rl wl] n (I & Hr & Hw) H. unfold window_read_in, limiter_read. cbn [lm_src lm_st lm_read lm_write] in *.
  destruct (rl =? fsize_max); [destruct (conv_read D src n) as [[? ?] ?]; auto|]. destruct (Z.of_nat n <=? rl); [destruct (conv_read D src n) as [[? ?] ?]; auto|].
  destruct (negb (Z.of_nat n =? 0) && (rl =? 0)) eqn:Q; [lia|]. destruct (conv_read D src (Z.to_nat rl)) as [[? ?] ?]; auto.
Qed.

(** What the window shows: after the offset, no more than the limit. *)
Definition window_left (left : S -> list Z) (c : window) : list Z := within (lm_read (wn_lim c)) (skipn (Z.to_nat (wn_roff c)) (left (lm_src (wn_lim c)))).
Definition window_inv (Inv : S -> Prop) (left : S -> list Z) (c : window) : Prop :=
  limiter_inv Inv (wn_lim c) /\ 0 <= wn_roff c <= Z.of_nat (length (left (lm_src (wn_lim c)))) /\ 0 <= wn_woff c.

Lemma window_skip : forall Inv left, source D Inv left -> never_fails D Inv -> forall c n, window_inv Inv left c ->
  exists c1, limiter_inv Inv (wn_lim c1) /\ wn_roff c1 = 0 /\ window_left left c1 = window_left left c /\ wn_woff c1 = wn_woff c /\ lm_read (wn_lim c1) = lm_read (wn_lim c) /\
    left (lm_src (wn_lim c1)) = skipn (Z.to_nat (wn_roff c)) (left (lm_src (wn_lim c))) /\
    window_read D c n = (let* (l2, b) := window_read_in D (wn_lim c1) n in Ret (Window l2 0 (wn_woff c), b)).
Proof.
  intros Inv left SRC NF [[src st rl wl] ro wo] n ((I & Hr & Hw) & Ho & Hwo). unfold window_read, window_left. cbn [wn_lim wn_roff wn_woff lm_src lm_st lm_read lm_write] in *. destruct (negb (ro =? 0)) eqn:Q.
  - destruct (skip_ok Inv left SRC NF src (Z.to_nat ro) I) as (s' & E & I' & L & St); [lia|]. rewrite E. cbn [obind]. rewrite St. cbn [is_ok negb]. exists (Window (Limiter s' StOk rl wl) 0 wo). cbn [wn_lim wn_roff wn_woff lm_src lm_st lm_read lm_write Z.to_nat skipn]. rewrite L. repeat split; auto; cbn [lm_src lm_read lm_write]; lia.
  - exists (Window (Limiter src st rl wl) 0 wo). cbn [wn_lim wn_roff wn_woff lm_src lm_st lm_read lm_write Z.to_nat skipn]. replace ro with 0 by lia. cbn [Z.to_nat skipn]. repeat split; auto; cbn [lm_src lm_read lm_write]; lia.
Qed.
(** As long as the window is not exhausted, reads give its bytes, and some whenever any are asked for. *)
Theorem window_read_spec : forall Inv left, source D Inv left -> never_fails D Inv -> forall c n, window_inv Inv left c -> (window_left left c <> [] \/ n = 0%nat) ->
  exists c' b, window_read D c n = Ret (c', b) /\ window_inv Inv left c' /\ window_left left c = b ++ window_left left c' /\ (length b <= n)%nat /\
    ((0 < n)%nat -> b <> []) /\ lm_st (wn_lim c') = StOk.
Proof.
  intros Inv left SRC NF c n I H. destruct (window_skip Inv left SRC NF c n I) as (c1 & I1 & R1 & L1 & W1 & RL & SL & E). rewrite E.
  assert (WL : window_left left c1 = limiter_left left (wn_lim c1)) by (unfold window_left, limiter_left; rewrite R1; reflexivity).
  assert (H1 : lm_read (wn_lim c1) <> 0 \/ n = 0%nat). { destruct H as [H|H]; auto. left. intros F. apply H. rewrite <- L1, WL. unfold limiter_left, within. rewrite F. reflexivity. }
  rewrite (window_in_spec Inv left SRC (wn_lim c1) n I1 H1). destruct (limiter_read D (wn_lim c1) n) as [l2 b] eqn:E2. cbn [obind].
  destruct (src_read _ _ _ (limiter_source D Inv left SRC) (wn_lim c1) n l2 b I1 E2) as (I2 & L2 & Lb & St). exists (Window l2 0 (wn_woff c)), b. split; auto.
  pose proof (limiter_never_fails D Inv NF (wn_lim c1) n I1) as NF2. cbn [limiter_dev d_read d_state] in *. rewrite E2 in NF2. cbn [fst] in NF2.
  assert (OK : lm_st l2 = StOk). { destruct (lm_st l2); auto; [|congruence]. exfalso. destruct St as (Hn & _ & F). destruct H as [H|H]; [apply H; rewrite <- L1, WL; auto|lia]. }
  rewrite OK in St. split; [split; cbn [wn_lim wn_roff wn_woff]; auto; destruct I as (_ & _ & ?); lia|]. split; [rewrite <- L1, WL, L2; reflexivity|]. auto.
Qed.
(** Whatever reads succeed, what they return is the window's content from its start, nothing left out. *)
Theorem window_reads_spec : forall Inv left, source D Inv left -> never_fails D Inv -> forall ns c c' bs, window_inv Inv left c -> window_reads D c ns = Ret (c', bs) ->
  window_left left c = concat bs ++ window_left left c'.
Proof.
  intros Inv left SRC NF. induction ns as [|n r IH]; intros c c' bs I E; cbn [window_reads] in E; [injection E as <- <-; auto|].
  destruct (window_read D c n) as [[c1 b]| |] eqn:E1; try discriminate. cbn [obind] in E.
  assert (A : window_inv Inv left c1 /\ window_left left c = b ++ window_left left c1).
  { destruct (Nat.eq_dec n 0) as [N|N]; [|destruct (window_left left c) as [|w0 wr] eqn:WL].
    - destruct (window_read_spec Inv left SRC NF c n I (or_intror N)) as (c2 & b2 & E2 & I2 & L2 & _). rewrite E2 in E1. injection E1 as <- <-. auto.
    - destruct (window_skip Inv left SRC NF c n I) as (c2 & I2 & R2 & L2 & W2 & RL & SL & E2). rewrite E2 in E1. destruct (Z.eq_dec (lm_read (wn_lim c2)) 0) as [Z0|NZ].
      + unfold window_read_in in E1. rewrite Z0 in E1. replace (0 =? fsize_max) with false in E1 by reflexivity. replace (Z.of_nat n <=? 0) with false in E1 by lia. replace (negb (Z.of_nat n =? 0) && (0 =? 0)) with true in E1 by lia.
        destruct (skip D (lm_src (wn_lim c2)) n) as [s'| |] eqn:E3; try discriminate. cbn [obind] in E1. injection E1 as <- <-. cbn [app]. split; [|unfold window_left; cbn [wn_lim lm_read lm_src]; reflexivity].
        assert (I3 : Inv s'). { destruct I2 as (I2 & _). destruct (Nat.leb_spec n (length (left (lm_src (wn_lim c2))))) as [Q|Q].
          - destruct (skip_spec D Inv left SRC NF (lm_src (wn_lim c2)) n I2 Q) as (s3 & E4 & I3 & _). rewrite E4 in E3. injection E3 as <-. auto.
          - pose proof (skip_short_partial D Inv left SRC NF (lm_src (wn_lim c2)) n I2 Q) as T. destruct (n <? 16)%nat; [congruence|]. destruct T as (s3 & E4 & I3 & _). rewrite E4 in E3. injection E3 as <-. auto. }
        destruct I2 as (_ & Hr & Hw), I as (_ & _ & ?). rewrite Z0 in *. split; cbn [wn_lim wn_roff wn_woff lm_src lm_read lm_write]; [split; cbn [lm_src lm_read lm_write]; auto|]. lia.
      + rewrite (window_in_spec Inv left SRC (wn_lim c2) n I2 (or_introl NZ)) in E1. destruct (limiter_read D (wn_lim c2) n) as [l3 b3] eqn:E3. cbn [obind] in E1. injection E1 as <- <-.
        destruct (src_read _ _ _ (limiter_source D Inv left SRC) (wn_lim c2) n l3 b3 I2 E3) as (I3 & L3 & _). split; [split; cbn [wn_lim wn_roff wn_woff]; auto; destruct I as (_ & _ & ?); lia|].
        rewrite <- WL, <- L2. unfold window_left at 1. rewrite R2. exact L3.
    - destruct (window_read_spec Inv left SRC NF c n I) as (c2 & b2 & E2 & I2 & L2 & _); [left; congruence|]. rewrite E2 in E1. injection E1 as <- <-. rewrite <- WL. auto. }
  destruct A as [I1 L1]. destruct (window_reads D c1 r) as [[c2 bs2]| |] eqn:E2; try discriminate. cbn [obind] in E. injection E as <- <-. cbn [concat]. rewrite L1, (IH c1 c2 bs2 I1 E2), app_assoc. auto.
Qed.
(** Full statement (C92): reading an exhausted window tells eof and leaves the source where the window
    ends.  What holds: eof, when the source goes on for at least as many bytes as asked for (then those
    bytes are consumed), or 16 or more bytes are asked for, or the source ended before the window did. *)
Theorem window_end_partial : forall Inv left, source D Inv left -> never_fails D Inv -> forall c n, window_inv Inv left c -> window_left left c = [] -> (0 < n)%nat ->
  (lm_read (wn_lim c) = 0 -> (n <= length (left (lm_src (wn_lim c))) - Z.to_nat (wn_roff c) \/ 16 <= n)%nat) ->
  exists c', window_read D c n = Ret (c', []) /\ lm_st (wn_lim c') = StEof.
Proof.
  intros Inv left SRC NF c n I H Hn Hs. destruct (window_skip Inv left SRC NF c n I) as (c1 & I1 & R1 & L1 & W1 & RL & SL & E). rewrite E.
  destruct (Z.eq_dec (lm_read (wn_lim c1)) 0) as [Z0|NZ].
  - unfold window_read_in. rewrite Z0. replace (0 =? fsize_max) with false by reflexivity. replace (Z.of_nat n <=? 0) with false by lia. replace (negb (Z.of_nat n =? 0) && (0 =? 0)) with true by lia.
    assert (exists s', skip D (lm_src (wn_lim c1)) n = Ret s') as (s' & ->); [|eexists; split; [reflexivity|reflexivity]].
    destruct I1 as (I1 & _). destruct (Nat.leb_spec n (length (left (lm_src (wn_lim c1))))) as [Q|Q].
    + destruct (skip_spec D Inv left SRC NF _ n I1 Q) as (s3 & E4 & _). eauto.
    + pose proof (skip_short_partial D Inv left SRC NF _ n I1 Q) as T. rewrite SL, skipn_length in Q. rewrite RL in Z0. specialize (Hs Z0). replace (n <? 16)%nat with false in T by lia. destruct T as (s3 & E4 & _). eauto.
  - rewrite (window_in_spec Inv left SRC (wn_lim c1) n I1 (or_introl NZ)). destruct (limiter_read D (wn_lim c1) n) as [l3 b3] eqn:E3. cbn [obind].
    destruct (src_read _ _ _ (limiter_source D Inv left SRC) (wn_lim c1) n l3 b3 I1 E3) as (I3 & L3 & _ & St). pose proof (limiter_never_fails D Inv NF (wn_lim c1) n I1) as NF2. cbn [limiter_dev d_read d_state] in *. rewrite E3 in NF2. cbn [fst] in NF2.
    assert (limiter_left left (wn_lim c1) = []) as F by (rewrite <- H, <- L1; unfold window_left; rewrite R1; reflexivity). rewrite F in L3. symmetry in L3. apply app_eq_nil in L3 as [-> _].
    eexists. split; [reflexivity|]. cbn [wn_lim]. destruct (lm_st l3); auto; [|congruence]. exfalso. apply St; auto.
Qed.

(** Writing: the bytes at the window's place get through, all others are accepted and dropped. *)
Lemma window_write_step : forall Inv out, sink D Inv out -> always_writes D Inv -> forall c b, limiter_inv Inv (wn_lim c) -> 0 <= wn_woff c ->
  exists c', window_write D c b = (c', Z.of_nat (length b)) /\ limiter_inv Inv (wn_lim c') /\ lm_st (wn_lim c') = StOk /\
    out (lm_src (wn_lim c')) = out (lm_src (wn_lim c)) ++ within (lm_write (wn_lim c)) (skipn (Z.to_nat (wn_woff c)) b) /\
    wn_woff c' = Z.max 0 (wn_woff c - Z.of_nat (length b)) /\
    lm_write (wn_lim c') = (if lm_write (wn_lim c) =? fsize_max then fsize_max else Z.max 0 (lm_write (wn_lim c) - (Z.max 0 (Z.of_nat (length b) - wn_woff c)))).
Proof.
  intros Inv out SNK AW [[src st rl wl] ro wo] b (I & Hr & Hw) Ho. unfold window_write, conv_write. cbn [wn_lim wn_roff wn_woff lm_src lm_st lm_read lm_write] in *.
  destruct (Z.of_nat (length b) <=? wo) eqn:Q0.
  { eexists. split; [reflexivity|]. cbn [wn_lim wn_roff wn_woff lm_src lm_st lm_read lm_write]. rewrite skipn_all2 by lia. split; [split; cbn [lm_src lm_read lm_write]; auto|]. split; auto. unfold within. rewrite firstn_nil. destruct (wl =? fsize_max) eqn:Q; rewrite app_nil_r; repeat split; auto; lia. }
  set (x := skipn (Z.to_nat wo) b). assert (Lx : length x = (length b - Z.to_nat wo)%nat) by (apply skipn_length). unfold within.
  destruct (wl =? fsize_max) eqn:Q1; [|destruct (Z.of_nat (length b) - wo <=? wl) eqn:Q2; [|destruct (negb (Z.of_nat (length b) - wo =? 0) && (wl =? 0)) eqn:Q3]].
  - destruct (write_step D Inv out SNK src x I) as (s' & k & E2 & I' & K & O & St). specialize (AW src x I). rewrite E2 in *. cbn [fst] in AW. specialize (St AW). eexists. split; [f_equal; lia|]. cbn [wn_lim wn_roff wn_woff lm_src lm_st lm_read lm_write]. rewrite O, St, firstn_all. split; [split; cbn [lm_src lm_read lm_write]; auto|]. repeat split; auto; lia.
  - destruct (write_step D Inv out SNK src x I) as (s' & k & E2 & I' & K & O & St). specialize (AW src x I). rewrite E2 in *. cbn [fst] in AW. specialize (St AW). eexists. split; [f_equal; lia|]. cbn [wn_lim wn_roff wn_woff lm_src lm_st lm_read lm_write]. rewrite O, St, firstn_all, firstn_all2 by lia. split; [split; cbn [lm_src lm_read lm_write]; auto; lia|]. repeat split; auto; lia.
  - eexists. split; [f_equal; lia|]. cbn [wn_lim wn_roff wn_woff lm_src lm_st lm_read lm_write]. replace (Z.to_nat wl) with 0%nat by lia. cbn [firstn]. rewrite app_nil_r. split; [split; cbn [lm_src lm_read lm_write]; auto; lia|]. repeat split; auto; lia.
  - destruct (write_step D Inv out SNK src (firstn (Z.to_nat wl) x) I) as (s' & k & E2 & I' & K & O & St). specialize (AW src (firstn (Z.to_nat wl) x) I). rewrite E2 in *. cbn [fst] in AW. specialize (St AW). rewrite firstn_length in *. eexists. split; [f_equal; lia|]. cbn [wn_lim wn_roff wn_woff lm_src lm_st lm_read lm_write]. rewrite O, (firstn_all2 (firstn _ x)) by (rewrite firstn_length; lia). split; [split; cbn [lm_src lm_read lm_write]; auto; lia|]. repeat split; auto; lia.
Qed.
Theorem window_writes_spec : forall Inv out, sink D Inv out -> always_writes D Inv -> forall bs c, limiter_inv Inv (wn_lim c) -> 0 <= wn_woff c ->
  exists c', window_writes D c bs = (c', map (fun b => Z.of_nat (length b)) bs) /\
    out (lm_src (wn_lim c')) = out (lm_src (wn_lim c)) ++ within (lm_write (wn_lim c)) (skipn (Z.to_nat (wn_woff c)) (concat bs)).
Proof.
  intros Inv out SNK AW. induction bs as [|b r IH]; intros c I Ho; cbn [window_writes map concat].
  - exists c. split; auto. rewrite skipn_nil. unfold within. rewrite firstn_nil. destruct (_ =? _); rewrite app_nil_r; auto.
  - destruct (window_write_step Inv out SNK AW c b I Ho) as (c1 & E1 & I1 & _ & O1 & W1 & L1). rewrite E1. destruct (IH c1 I1) as (c2 & E2 & O2); [lia|]. rewrite E2. exists c2. split; auto. rewrite O2, O1, <- app_assoc, W1, L1. f_equal.
    rewrite skipn_app. unfold within. destruct (lm_write (wn_lim c) =? fsize_max) eqn:Q.
    + rewrite Z.eqb_refl. do 2 f_equal. lia.
    + destruct I as (_ & _ & Hw). replace (Z.max 0 _ =? fsize_max) with false by lia. rewrite firstn_app, skipn_length. f_equal. replace (Z.to_nat (Z.max 0 (wn_woff c - Z.of_nat (length b)))) with (Z.to_nat (wn_woff c) - length b)%nat by lia. f_equal. lia.
Qed.
End Win.
Example window_ex : exists c, window_reads array_dev (window_new array_dev ([1; 2; 3; 4; 5; 6; 7], StOk) 2 3 0 0) [2; 2; 2]%nat = Ret (c, [[3; 4]; [5]; []]) /\ fst (lm_src (wn_lim c)) = [].
Proof. eexists. vm_compute. auto. Qed.
Example window_ex2 : window_inv (fun _ => True) fst (window_new array_dev ([1; 2; 3; 4; 5; 6; 7], StOk) 2 3 0 0) /\ window_left fst (window_new array_dev ([1; 2; 3; 4; 5; 6; 7], StOk) 2 3 0 0) = [3; 4; 5].
Proof. vm_compute. repeat split; discriminate. Qed.
Example window_ex3 : fst (lm_src (wn_lim (fst (window_writes array_dev (window_new array_dev ([], StOk) 0 0 2 3) [[1]; [2; 3]; [4; 5; 6]; [7]])))) = [3; 4; 5].
Proof. vm_compute. reflexivity. Qed.
(** C92: reading a window that is exactly the rest of the source throws at its end instead of telling
    eof; and where the source goes on, bytes outside the window are consumed. *)
Theorem window_end_refuted : window_reads array_dev (window_new array_dev ([1; 2; 3], StOk) 0 3 0 0) [3; 1]%nat = Throw /\
  exists c, window_reads array_dev (window_new array_dev ([1; 2; 3; 4; 5], StOk) 0 3 0 0) [3; 1]%nat = Ret (c, [[1; 2; 3]; []]) /\ fst (lm_src (wn_lim c)) = [5].
Proof. split; [vm_compute; reflexivity|]. eexists. vm_compute. auto. Qed.
(** C93.  Full statement: the count a window write returns is the length of the prefix of the data that
    was dealt with.  False when the source fails: the bytes after the window's end are counted although
    bytes before it were not written. *)
Definition short_dev : dev (list Z * sstate) := {| d_read := d_read array_dev; d_write := fun s b => ((fst s ++ firstn 1 b, StFail), Nat.min 1 (length b)); d_state := snd; d_set := fun s st => (fst s, st) |}.
Theorem window_count_refuted : exists c, window_write short_dev (window_new short_dev ([], StOk) 0 0 0 3) [1; 2; 3; 4; 5] = (c, 3) /\ lm_src (wn_lim c) = ([1], StFail).
Proof. eexists. vm_compute. auto. Qed.
(** It holds when the data end inside the window. *)
Theorem window_count_partial : forall {S} (D : dev S) Inv out, sink D Inv out -> forall c b c' k, limiter_inv Inv (wn_lim c) -> 0 <= wn_woff c ->
  Z.of_nat (length b) - wn_woff c <= lm_write (wn_lim c) -> window_write D c b = (c', k) ->
  0 <= k <= Z.of_nat (length b) /\ out (lm_src (wn_lim c')) = out (lm_src (wn_lim c)) ++ skipn (Z.to_nat (wn_woff c)) (firstn (Z.to_nat k) b).
Proof.
  intros S D Inv out SNK [[src st rl wl] ro wo] b c' k (I & Hr & Hw) Ho H E. unfold window_write, conv_write in E. cbn [wn_lim wn_roff wn_woff lm_src lm_st lm_read lm_write] in *.
  destruct (Z.of_nat (length b) <=? wo) eqn:Q0.
  { injection E as <- <-. cbn [wn_lim lm_src]. split; [lia|]. rewrite skipn_all2 by (rewrite firstn_length; lia). rewrite app_nil_r. auto. }
  destruct (write_step D Inv out SNK src (skipn (Z.to_nat wo) b) I) as (s' & j & E2 & I' & K & O & St). rewrite skipn_length in K.
  assert (R : out s' = out src ++ skipn (Z.to_nat wo) (firstn (Z.to_nat (wo + Z.of_nat j)) b)).
  { rewrite O. f_equal. replace (Z.to_nat (wo + Z.of_nat j)) with (Z.to_nat wo + j)%nat by lia. rewrite firstn_skipn_comm. auto. }
  rewrite E2 in E. destruct (wl =? fsize_max) eqn:Q1; [injection E as <- <-; cbn [wn_lim lm_src]; split; [lia|auto]|].
  replace (Z.of_nat (length b) - wo <=? wl) with true in E by lia. injection E as <- <-; cbn [wn_lim lm_src]; split; [lia|auto].
Qed.

Print Assumptions buffer_source.
Print Assumptions buffer_life.
Print Assumptions buffer_read_all.
Print Assumptions limiter_source.
Print Assumptions limiter_write_total.
Print Assumptions window_reads_spec.
Print Assumptions window_writes_spec.
Print Assumptions window_end_partial.
Print Assumptions window_count_partial.
