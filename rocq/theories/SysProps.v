(** basic_sys is a stream (C125), file is an ordinary file (C126), positions and locks (C127, C128), diag_file (C129, C130). *)
From Verif Require Import Base StreamModel StreamSpec MemFileModel FileConvModel FileConvSpec SysModel SysSpec.
From Verif Require FileConvProps.
From Coq Require Import ZifyBool ZifyNat.

Lemma skip_add : forall A (l : list A) a b, skipn (a + b) l = skipn b (skipn a l).
Proof. intros A l a. revert l. induction a; intros l b; auto. destruct l; [rewrite !skipn_nil; auto|]. apply IHa. Qed.
Lemma first_add : forall A (l : list A) a b, firstn (a + b) l = firstn a l ++ firstn b (skipn a l).
Proof. intros A l a. revert l. induction a; intros l b; auto. destruct l; [cbn; rewrite firstn_nil; auto|]. cbn. f_equal. apply IHa. Qed.

(** ** C125 *)
Section Stream.
Context {S : Type} (fd : osfd S) (bs : nat) (Hbs : (0 < bs)%nat).

Lemma sys_read_loop_spec : forall Inv left, os_source fd Inv left -> forall fuel s n to acc, Inv s -> (to < fuel)%nat -> (length acc + to = n)%nat ->
  exists s' st b, sys_read_loop fd bs fuel s n to acc = Ret (s', st, acc ++ b) /\ Inv s' /\ left s = b ++ left s' /\ (length b <= to)%nat /\
    match st with
    | StOk => (0 < n)%nat -> acc ++ b <> []
    | StEof => (0 < n)%nat /\ acc ++ b = [] /\ left s = []
    | StFail => acc ++ b = []
    end.
Proof.
  intros Inv left OS. induction fuel; intros s n to acc I F L; [lia|]. cbn [sys_read_loop]. destruct (os_read fd s (Nat.min to bs)) as [s' r] eqn:E.
  destruct (OS _ _ _ _ I E) as [I' H]. destruct r as [[|x b]|].
  - destruct H as (H1 & H2 & H3). exists s'. eexists. exists []. rewrite app_nil_r. split; [reflexivity|]. split; auto. split; auto. split; [cbn; lia|].
    destruct ((to <? n)%nat || (n =? 0)%nat) eqn:B.
    + intros Hn. destruct acc; [cbn in L; lia|discriminate].
    + destruct acc; [|cbn in L; lia]. split; [lia|]. split; auto. destruct (H3 eq_refl); auto. lia.
  - destruct H as (H1 & H2 & _). set (y := x :: b) in *. assert (Hy : (0 < length y)%nat) by (cbn; lia). clearbody y. destruct (to - length y =? 0)%nat eqn:E0.
    + exists s', StOk, y. split; auto. split; auto. split; auto. split; [lia|]. intros _ K. apply app_eq_nil in K as [_ ->]. cbn in Hy. lia.
    + destruct (IHfuel s' n (to - length y)%nat (acc ++ y)) as (s2 & st & b2 & E2 & I2 & L2 & B2 & M); auto; try lia. { rewrite app_length. lia. }
      exists s2, st, (y ++ b2). rewrite <- !app_assoc in *. split; auto. split; auto. split. { rewrite H1, L2, app_assoc. auto. } split; [rewrite app_length; lia|].
      destruct st; auto. destruct M as (_ & K & _). apply app_eq_nil in K as [_ K]. apply app_eq_nil in K as [-> _]. cbn in Hy. lia.
  - exists s'. eexists. exists []. rewrite app_nil_r. split; [reflexivity|]. split; auto. split; auto. split; [cbn; lia|]. destruct (to <? n)%nat eqn:B.
    + intros _. destruct acc; [cbn in L; lia|discriminate]. + destruct acc; auto. cbn in L. lia.
Qed.
Lemma sys_write_loop_spec : forall Inv out, os_sink fd Inv out -> forall fuel s b num, Inv s -> (length b < fuel)%nat ->
  exists s' st k, sys_write_loop fd bs fuel s b num = Ret (s', st, (num + k)%nat) /\ Inv s' /\ (k <= length b)%nat /\ out s' = out s ++ firstn k b /\
    (st = StOk /\ k = length b \/ st = StFail /\ (k < length b \/ b = [])%nat).
Proof.
  intros Inv out OS. induction fuel; intros s b num I F; [lia|]. cbn [sys_write_loop].
  set (m := Nat.min (length b) bs). destruct (os_write fd s (firstn m b)) as [s' r] eqn:E. destruct (OS _ _ _ _ I E) as [I' H]. destruct r as [k|].
  - destruct H as (H1 & H2 & H3). rewrite firstn_length in H1. replace (firstn k (firstn m b)) with (firstn k b) in H3 by (rewrite firstn_firstn; f_equal; lia).
    destruct (length b - k =? 0)%nat eqn:E0.
    + exists s', StOk, (length b). split; auto. split; auto. split; auto. split; [|left; auto]. replace (length b) with k by lia. auto.
    + assert (K : (0 < k)%nat). { apply H2. intros K. apply (f_equal (@length Z)) in K. rewrite firstn_length in K. cbn in K. lia. }
      destruct (IHfuel s' (skipn k b) (num + k)%nat) as (s2 & st & k2 & E2 & I2 & K2 & O2 & St); auto. { rewrite skipn_length. lia. }
      rewrite skipn_length in *. exists s2, st, (k + k2)%nat. rewrite E2. split; [do 2 f_equal; lia|]. split; auto. split; [lia|]. split. { rewrite O2, H3, <- app_assoc, first_add. auto. }
      destruct St as [[-> ->]|[-> [K3|K3]]]; [left; split; auto; lia|right; split; auto; lia|]. exfalso. apply (f_equal (@length Z)) in K3. rewrite skipn_length in K3. cbn in K3. lia.
  - exists s', StFail, 0%nat. rewrite Nat.add_0_r. cbn [firstn]. rewrite app_nil_r. split; auto. split; auto. split; [lia|]. split; auto. right. split; auto. destruct b; auto. cbn. lia.
Qed.
End Stream.
(** the loops end, whatever the operating system answers within its promises *)
Theorem sys_read_total : forall S (fd : osfd S) bs Inv left, (0 < bs)%nat -> os_source fd Inv left -> forall fuel s n, Inv s -> (n < fuel)%nat ->
  exists s' st b, sys_read fd bs fuel s n = Ret (s', st, b).
Proof. intros S fd bs Inv left Hb OS fuel s n I F. destruct (sys_read_loop_spec fd bs Hb Inv left OS fuel s n n [] I F eq_refl) as (s' & st & b & E & _). exists s', st, b. auto. Qed.
Theorem sys_write_total : forall S (fd : osfd S) bs Inv out, (0 < bs)%nat -> os_sink fd Inv out -> forall fuel s b, Inv s -> (length b < fuel)%nat ->
  exists s' st k, sys_write fd bs fuel s b = Ret (s', st, k).
Proof. intros S fd bs Inv out Hb OS fuel s b I F. destruct (sys_write_loop_spec fd bs Hb Inv out OS fuel s b 0%nat I F) as (s' & st & k & E & _). eauto. Qed.
(** every byte of the descriptor is given once, in order; nothing given means end or failure *)
Theorem sys_is_source : forall S (fd : osfd S) bs Inv left, (0 < bs)%nat -> os_source fd Inv left ->
  source (sys_dev fd bs) (fun c => Inv (fst c)) (fun c => left (fst c)).
Proof.
  intros S fd bs Inv left Hb OS. split; [|intros [s st0] st I; cbn; auto]. intros [s st0] n [s' st'] b I E. cbn [d_read d_state sys_dev fst snd] in *.
  destruct (sys_read_loop_spec fd bs Hb Inv left OS (n + 1) s n n [] I ltac:(lia) eq_refl) as (s1 & st & b1 & E1 & I1 & L1 & B1 & M).
  unfold sys_read in E. rewrite E1 in E. injection E as <- <- <-. cbn [app] in *. auto.
Qed.
(** writing: what is taken is appended; all of it unless the state says otherwise *)
Theorem sys_is_sink : forall S (fd : osfd S) bs Inv out, (0 < bs)%nat -> os_sink fd Inv out ->
  sink (sys_dev fd bs) (fun c => Inv (fst c)) (fun c => out (fst c)).
Proof.
  intros S fd bs Inv out Hb OS. split; [|intros [s st0] st I; cbn; auto]. intros [s st0] b [s' st'] k I E. cbn [d_write d_state sys_dev fst snd] in *.
  destruct (sys_write_loop_spec fd bs Hb Inv out OS (length b + 1) s b 0%nat I ltac:(lia)) as (s1 & st & k1 & E1 & I1 & K1 & O1 & St).
  unfold sys_write in E. rewrite E1 in E. injection E as <- <- <-. split; auto. split; auto. split; auto. intros ->. destruct St as [[_ ->]|[K _]]; auto. discriminate.
Qed.

(** ** C126 *)
Lemma store_pad : forall d p b, b <> [] -> store_at d p b = store_at (d ++ repeat 0 (p - length d)) p b.
Proof.
  intros d p b N. unfold store_at. destruct b as [|x b]; [congruence|]. set (y := x :: b).
  rewrite firstn_app, skipn_app, app_length, repeat_length. replace (p - (length d + (p - length d)))%nat with 0%nat by lia. cbn [repeat app].
  rewrite <- app_assoc. f_equal. rewrite firstn_all2 by (rewrite repeat_length; lia). f_equal. rewrite (skipn_all2 (repeat 0 _)) by (rewrite repeat_length; lia). rewrite app_nil_r. auto.
Qed.
Lemma store_two : forall d p a b, a <> [] -> store_at (store_at d p a) (p + length a) b = store_at d p (a ++ b).
Proof. intros d p a b N. rewrite (store_pad d p a N), (store_pad d p (a ++ b)). 2: destruct a; [congruence|discriminate]. apply FileConvProps.store_twice. rewrite app_length, repeat_length. lia. Qed.
Section File.
Context {S : Type} (fd : osfd S) (bs : nat) (Hbs : (0 < bs)%nat) (content : S -> list Z) (pos : S -> nat) (PX : posix_file fd content pos).

Lemma posix_source : forall d, os_source fd (fun s => content s = d) (fun s => skipn (pos s) (content s)).
Proof.
  intros d s n s' r I E. destruct (px_read _ _ _ PX _ _ _ _ E) as (b & -> & C & P & (rest & R) & L & N). rewrite C, P. split; auto. split; auto.
  rewrite skip_add, R. rewrite skipn_app, skipn_all, Nat.sub_diag. auto.
Qed.
Lemma file_read_spec : forall s st0 n s' b, f_read (sys_file fd bs) (s, st0) n = (s', b) ->
  b = firstn n (skipn (pos s) (content s)) /\ content (fst s') = content s /\ pos (fst s') = (pos s + length b)%nat /\ snd s' = (if (0 <? n)%nat && (length b =? 0)%nat then StEof else StOk).
Proof.
  intros s st0 n s' b. cbn [f_read sys_file d_read sys_dev fst]. unfold sys_read.
  assert (G : forall fuel s to acc, (to < fuel)%nat -> (length acc + to = n)%nat -> exists s' , let b := firstn to (skipn (pos s) (content s)) in
    sys_read_loop fd bs fuel s n to acc = Ret (s', if (0 <? n)%nat && (length (acc ++ b) =? 0)%nat then StEof else StOk, acc ++ b) /\ content s' = content s /\ pos s' = (pos s + length b)%nat).
  { clear s st0 s' b. induction fuel; intros s to acc F L; [lia|]. cbn [sys_read_loop]. destruct (os_read fd s (Nat.min to bs)) as [s' r] eqn:E.
    destruct (px_read _ _ _ PX _ _ _ _ E) as (b & -> & C & P & (rest & R) & Lb & N). cbv zeta. destruct b as [|x b].
    - exists s'. assert (K : firstn to (skipn (pos s) (content s)) = []). { destruct (N eq_refl) as [K|K]; [replace to with 0%nat by lia; auto|rewrite K; apply firstn_nil]. }
      rewrite K, app_nil_r. cbn [length]. split; auto. f_equal. f_equal. f_equal. destruct ((to <? n)%nat || (n =? 0)%nat) eqn:B; [|replace (length acc =? 0)%nat with true by lia; replace (0 <? n)%nat with true by lia; auto].
      destruct ((0 <? n)%nat && (length acc =? 0)%nat) eqn:B2; auto. lia.
    - set (y := x :: b) in *. assert (Hy : (0 < length y)%nat) by (cbn; lia). clearbody y.
      assert (K : firstn to (skipn (pos s) (content s)) = y ++ firstn (to - length y) (skipn (pos s') (content s'))).
      { rewrite C, P, skip_add, R. rewrite firstn_app, (firstn_all2 y) by lia. f_equal. rewrite skipn_app, skipn_all, Nat.sub_diag. auto. }
      rewrite K. destruct (to - length y =? 0)%nat eqn:E0.
      + exists s'. replace (to - length y)%nat with 0%nat by lia. cbn [firstn]. rewrite app_nil_r, app_length. split; auto. replace ((0 <? n)%nat && (length acc + length y =? 0)%nat) with false by lia. auto.
      + destruct (IHfuel s' (to - length y)%nat (acc ++ y)) as (s2 & E2 & C2 & P2); try lia. { rewrite app_length; lia. } rewrite E2. exists s2. rewrite <- app_assoc. split; auto. split; [congruence|]. rewrite P2, P, app_length. lia. }
  destruct (G (n + 1)%nat s n []) as (s1 & E & C & P); [lia|auto|]. cbv zeta in E. rewrite E. cbn [app]. intros H. injection H as <- <-. auto.
Qed.
Lemma file_write_spec : forall s st0 b s' k, f_write (sys_file fd bs) (s, st0) b = (s', k) ->
  content (fst s') = store_at (content s) (pos s) b /\ k = length b /\ pos (fst s') = (pos s + length b)%nat /\ snd s' = StOk.
Proof.
  intros s st0 b s' k. cbn [f_write sys_file d_write sys_dev fst]. unfold sys_write.
  assert (G : forall fuel s b num, (length b < fuel)%nat -> exists s', sys_write_loop fd bs fuel s b num = Ret (s', StOk, (num + length b)%nat) /\ content s' = store_at (content s) (pos s) b /\ pos s' = (pos s + length b)%nat).
  { clear s st0 s' b k. induction fuel; intros s b num F; [lia|]. cbn [sys_write_loop]. set (m := Nat.min (length b) bs). destruct (os_write fd s (firstn m b)) as [s' r] eqn:E.
    destruct (px_write _ _ _ PX _ _ _ _ E) as (k & -> & K & N & C & P). rewrite firstn_length in K. replace (firstn k (firstn m b)) with (firstn k b) in C by (rewrite firstn_firstn; f_equal; lia).
    destruct (length b - k =? 0)%nat eqn:E0. { exists s'. replace k with (length b) in * by lia. rewrite firstn_all in C. auto. }
    assert (Kp : (0 < k)%nat). { apply N. intros Q. apply (f_equal (@length Z)) in Q. rewrite firstn_length in Q. cbn in Q. lia. }
    destruct (IHfuel s' (skipn k b) (num + k)%nat) as (s2 & E2 & C2 & P2). { rewrite skipn_length. lia. } rewrite skipn_length in *. exists s2. rewrite E2. split; [do 2 f_equal; lia|]. split; [|lia].
    rewrite C2, C, P. assert (Lk : length (firstn k b) = k) by (rewrite firstn_length; lia). rewrite <- Lk at 2. rewrite store_two, firstn_skipn; auto. intros Q. rewrite Q in Lk. cbn in Lk. lia. }
  destruct (G (length b + 1)%nat s b 0%nat) as (s1 & E & C & P); [lia|]. rewrite E. intros H. injection H as <- <-. auto.
Qed.
Lemma lseek_at : forall s o how, 0 <= seek_place (length (content s)) (pos s) o how -> exists s', os_lseek fd s o how = (s', seek_place (length (content s)) (pos s) o how) /\ content s' = content s /\ pos s' = Z.to_nat (seek_place (length (content s)) (pos s) o how).
Proof.
  intros s o how H. destruct (os_lseek fd s o how) as [s' r] eqn:E. destruct (px_lseek _ _ _ PX _ _ _ _ _ E) as [C K]. cbv zeta in K. destruct (seek_place _ _ o how <? 0) eqn:B; [lia|]. destruct K as [-> K]. eauto.
Qed.
Lemma file_tell_spec : forall c, f_tell (sys_file fd bs) c = pos (fst c).
Proof.
  intros [s st]. cbn [f_tell sys_file]. unfold sf_tell. cbn [fst snd]. destruct (lseek_at s 0 FromCur) as (s' & E & C & P); [cbn; lia|]. rewrite E. cbn [seek_place snd]. replace (0 <=? Z.of_nat (pos s) + 0) with true by lia. lia.
Qed.
(** size, lock and unlock leave the file and the position alone *)
Lemma file_size_spec : forall c, snd (sf_size fd c) = Some (Z.of_nat (length (content (fst c)))) /\
  content (fst (fst (sf_size fd c))) = content (fst c) /\ pos (fst (fst (sf_size fd c))) = pos (fst c) /\ snd (fst (sf_size fd c)) = snd c.
Proof.
  intros [s st]. unfold sf_size. cbn [fst snd]. destruct (lseek_at s 0 FromCur) as (s1 & E1 & C1 & P1); [cbn; lia|]. rewrite E1. cbn [seek_place] in *. replace (_ <? 0) with false by lia.
  destruct (lseek_at s1 0 FromEnd) as (s2 & E2 & C2 & P2); [cbn; lia|]. rewrite E2. destruct (lseek_at s2 (Z.of_nat (pos s) + 0) FromBeg) as (s3 & E3 & C3 & P3); [cbn; lia|]. rewrite E3. cbn [seek_place fst snd] in *.
  replace (0 <=? _) with true by lia. split; [f_equal; rewrite C1; lia|]. split; [congruence|]. split; [lia|auto].
Qed.
Lemma lock_keeps : forall c (lock : bool) o l s', (if lock then sf_lock fd c o l else sf_unlock fd c o l) = Ret s' ->
  content (fst s') = content (fst c) /\ pos (fst s') = pos (fst c).
Proof.
  intros [s st] lock o l s'. unfold sf_lock, sf_unlock. cbn [fst snd]. destruct (lseek_at s 0 FromCur) as (s1 & E1 & C1 & P1); [cbn; lia|]. rewrite E1. cbn [seek_place] in *. replace (_ <? 0) with false by lia.
  intros H. destruct (os_lseek fd s1 o FromBeg) as [s2 r] eqn:E2. pose proof (proj1 (px_lseek _ _ _ PX _ _ _ _ _ E2)) as C2.
  assert (K : forall lk s3 b, (if 0 <=? r then os_lockf fd s2 lk l else (s2, false)) = (s3, b) -> content s3 = content s).
  { intros lk s3 b. destruct (0 <=? r); [|intros Q; injection Q as <- <-; congruence]. intros Q. pose proof (px_lockf _ _ _ PX s2 lk l) as K. rewrite Q in K. destruct K; congruence. }
  destruct lock; (destruct (9223372036854775807 <? o); [discriminate|]); (destruct (9223372036854775807 <? l); [discriminate|]).
  - destruct (if 0 <=? r then os_lockf fd s2 true l else (s2, false)) as [s3 b] eqn:E3. specialize (K true s3 b E3). destruct (lseek_at s3 (Z.of_nat (pos s) + 0) FromBeg) as (s4 & E4 & C4 & P4); [cbn; lia|].
    rewrite E4 in H. cbn [seek_place] in *. injection H as <-. cbn [fst]. split; [congruence|lia].
  - destruct (if 0 <=? r then os_lockf fd s2 false l else (s2, false)) as [s3 b] eqn:E3. specialize (K false s3 b E3). destruct (lseek_at s3 (Z.of_nat (pos s) + 0) FromBeg) as (s4 & E4 & C4 & P4); [cbn; lia|].
    rewrite E4 in H. cbn [seek_place] in *. injection H as <-. cbn [fst]. split; [congruence|lia].
Qed.
Lemma file_is_plain : plain_file (sys_file fd bs) (fun c => content (fst c)).
Proof.
  split.
  - intros [s st] n s' b E. rewrite !file_tell_spec. apply file_read_spec in E. exact E.
  - intros [s st] b s' k E. rewrite !file_tell_spec. apply file_write_spec in E. exact E.
  - intros [s st] p. rewrite !file_tell_spec. cbn [f_seek sys_file f_state]. unfold sf_seek. cbn [fst]. destruct (lseek_at s (Z.of_nat p) FromBeg) as (s' & E & C & P); [cbn; lia|]. rewrite E. cbn [seek_place] in *. replace (0 <=? Z.of_nat p) with true by lia. cbn [fst snd]. split; auto. split; [lia|auto].
  - intros [s st]. rewrite !file_tell_spec. cbn [f_truncate sys_file f_state]. unfold sf_truncate. cbn [fst]. destruct (lseek_at s 0 FromCur) as (s' & E & C & P); [cbn; lia|]. rewrite E. cbn [seek_place] in *. rewrite Z.add_0_r in *. replace (0 <=? _) with true by lia.
    pose proof (px_ftruncate _ _ _ PX s' (pos s)) as K. destruct (os_ftruncate fd s' (Z.of_nat (pos s))) as [s2 b]. destruct K as (-> & K1 & K2). cbn [fst snd]. rewrite K1, C. split; auto. split; [lia|auto].
  - intros [s st]. cbn [f_size sys_file fst]. destruct (file_size_spec (s, st)) as (E & _). rewrite E. cbn [fst]. lia.
Qed.
Lemma file_seek_spec : forall c o how, let t := seek_place (length (content (fst c))) (pos (fst c)) o how in let '(c', r) := sf_seek fd c o how in content (fst c') = content (fst c) /\
  if t <? 0 then r = None /\ snd c' = StFail /\ pos (fst c') = pos (fst c) else r = Some t /\ snd c' = StOk /\ pos (fst c') = Z.to_nat t.
Proof.
  intros [s st] o how. unfold sf_seek. cbn [fst snd]. destruct (os_lseek fd s o how) as [s' r] eqn:E. destruct (px_lseek _ _ _ PX _ _ _ _ _ E) as [C K]. cbv zeta in *. destruct (seek_place _ _ o how <? 0) eqn:B.
  - destruct K as [-> K]. ceq. cbn [fst snd]. auto. - destruct K as [-> K]. replace (0 <=? _) with true by lia. cbn [fst snd]. auto.
Qed.
End File.
(** [file] is an ordinary file, however short the reads and writes of the operating system are *)
Theorem file_plain : forall S (fd : osfd S) bs content pos, (0 < bs)%nat -> posix_file fd content pos -> plain_file (sys_file fd bs) (fun c => content (fst c)).
Proof. intros S fd bs content pos Hb PX. eapply file_is_plain; eauto. Qed.
(** ... so a cached_file (a cache over a file) gives direct access, as far as the cache does *)
Theorem cached_file_partial : forall S (fd : osfd S) bs content pos, (0 < bs)%nat -> posix_file fd content pos ->
  forall s cap junk ops, (0 < cap)%nat -> length junk = cap -> let a := (content s, pos s, StOk) in tame_all cap ops a ->
  exists c' s', cache_run (sys_file fd bs) ops (cache_new (sys_file fd bs) (s, StOk) cap junk) = Ret (c', snd (direct_run ops a)) /\ cache_done (sys_file fd bs) c' = Ret s' /\
    content (fst s') = fst (fst (fst (direct_run ops a))) /\ pos (fst s') = snd (fst (fst (direct_run ops a))).
Proof.
  intros S fd bs content pos Hb PX s cap junk ops Hc Hj a T. assert (TS : forall c, f_tell (sys_file fd bs) c = pos (fst c)) by (intros; eapply file_tell_spec; eauto).
  destruct (FileConvProps.cache_transparent_partial (sys_file fd bs) (fun c => content (fst c)) (file_plain S fd bs content pos Hb PX) (s, StOk) cap junk ops Hc Hj eq_refl) as (c' & s' & E & D & C & P).
  { rewrite TS. exact T. } rewrite !TS in *. cbn [fst] in *. exists c', s'. auto.
Qed.
(** ** C127: seek says where it went, and stays when it fails; size, lock and unlock keep content and position *)
Theorem file_seek : forall S (fd : osfd S) content pos, posix_file fd content pos -> forall c o how,
  let t := seek_place (length (content (fst c))) (pos (fst c)) o how in let '(c', r) := sf_seek fd c o how in content (fst c') = content (fst c) /\
  if t <? 0 then r = None /\ snd c' = StFail /\ pos (fst c') = pos (fst c) else r = Some t /\ snd c' = StOk /\ pos (fst c') = Z.to_nat t.
Proof. intros S fd content pos PX. apply (file_seek_spec fd 1 Nat.lt_0_1 content pos PX). Qed.
Theorem file_queries_keep : forall S (fd : osfd S) content pos, posix_file fd content pos -> forall c,
  snd (sf_size fd c) = Some (Z.of_nat (length (content (fst c)))) /\ content (fst (fst (sf_size fd c))) = content (fst c) /\ pos (fst (fst (sf_size fd c))) = pos (fst c) /\
  forall (lock : bool) o l s', (if lock then sf_lock fd c o l else sf_unlock fd c o l) = Ret s' -> content (fst s') = content (fst c) /\ pos (fst s') = pos (fst c).
Proof. intros S fd content pos PX c. destruct (file_size_spec fd 1 Nat.lt_0_1 content pos PX c) as (A & B & C & _). split; auto. split; auto. split; auto. intros lock o l s' H. eapply (lock_keeps fd 1 Nat.lt_0_1); eauto. Qed.

(** ** C159: flush is ok exactly when the operating system has written everything to the device *)
Theorem flush_reports : forall S (fd : osfd S) c, (snd (sys_flush fd c) = StOk <-> snd (os_fsync fd (fst c)) = true) /\ (snd (sys_flush fd c) = StOk \/ snd (sys_flush fd c) = StFail).
Proof. intros S fd c. unfold sys_flush. destruct (os_fsync fd (fst c)) as [s' b]. cbn [snd]. destruct b; split; auto; split; intros; auto; discriminate. Qed.

(** ** C128: a lock that is refused is reported *)
(** unlock does it *)
Theorem unlock_reports_partial : forall S (fd : osfd S) c o l s', sf_unlock fd c o l = Ret s' -> snd s' = StOk -> exists s1 s2 s3 s4 orig r x,
  os_lseek fd (fst c) 0 FromCur = (s1, orig) /\ os_lseek fd s1 o FromBeg = (s2, r) /\ 0 <= r /\ os_lockf fd s2 false l = (s3, true) /\ os_lseek fd s3 orig FromBeg = (s4, x) /\ fst s' = s4.
Proof.
  intros S fd c o l s'. unfold sf_unlock. destruct (os_lseek fd (fst c) 0 FromCur) as [s1 orig]. destruct (orig <? 0); [intros H; injection H as <-; discriminate|].
  destruct (9223372036854775807 <? o); [discriminate|]. destruct (9223372036854775807 <? l); [discriminate|]. destruct (os_lseek fd s1 o FromBeg) as [s2 r] eqn:E2. destruct (0 <=? r) eqn:Er.
  - destruct (os_lockf fd s2 false l) as [s3 b] eqn:E3. destruct (os_lseek fd s3 orig FromBeg) as [s4 x] eqn:E4. intros H K. injection H as <-. cbn in K. destruct b; [|discriminate]. exists s1, s2, s3, s4, orig, r, x. repeat split; auto. lia.
  - destruct (os_lseek fd s2 orig FromBeg) as [s4 x] eqn:E4. intros H K. injection H as <-. discriminate.
Qed.
(** lock does not: with a descriptor that refuses every lock the state is ok *)
Theorem lock_reports_refuted : forall S (fd : osfd S) content pos, posix_file fd content pos -> (forall s l, snd (os_lockf fd s true l) = false) ->
  forall c o l, o <= 9223372036854775807 -> l <= 9223372036854775807 -> exists s', sf_lock fd c o l = Ret (s', StOk).
Proof.
  intros S fd content pos PX Hl [s st] o l Ho Hle. unfold sf_lock. cbn [fst]. destruct (lseek_at fd 1 Nat.lt_0_1 content pos PX s 0 FromCur) as (s1 & E1 & C1 & P1); [cbn; lia|]. rewrite E1. cbn [seek_place]. replace (_ <? 0) with false by lia.
  replace (9223372036854775807 <? o) with false by lia. replace (9223372036854775807 <? l) with false by lia.
  destruct (os_lseek fd s1 o FromBeg) as [s2 r]. destruct (if 0 <=? r then os_lockf fd s2 true l else (s2, false)) as [s3 b]. destruct (os_lseek fd s3 _ FromBeg) as [s4 x]. eauto.
Qed.

(** *** The promises can be kept, with the shortest reads and writes *)
Theorem toy_posix : forall m, (0 < m)%nat -> posix_file (toy_fd m) fst snd.
Proof.
  intros m Hm. split.
  - intros [d p] n s' r E. cbn in E. injection E as <- <-. eexists. split; [reflexivity|]. cbn [fst snd]. split; auto. split; auto. split; [eexists; symmetry; apply firstn_skipn|]. rewrite firstn_length. split; [lia|].
    intros K. apply (f_equal (@length Z)) in K. rewrite firstn_length in K. cbn in K. destruct (Nat.eq_dec n 0); auto. right. destruct (skipn p d); auto. cbn in K. lia.
  - intros [d p] b s' r E. cbn in E. injection E as <- <-. eexists. split; [reflexivity|]. cbn [fst snd]. rewrite firstn_length. split; [lia|]. split; [intros N; destruct b; [congruence|]; cbn [length]; lia|].
    split; auto. f_equal. destruct (Nat.le_ge_cases m (length b)); [rewrite Nat.min_l; auto|]. rewrite Nat.min_r, firstn_all, firstn_all2; auto.
  - intros [d p] o how s' r E. cbn in E. cbn [fst snd]. cbv zeta. destruct (seek_place (length d) p o how <? 0); injection E as <- <-; auto.
  - intros [d p] n. cbn. rewrite Nat2Z.id. auto.
  - intros [d p] b n. cbn. auto.
Qed.
Example sys_ex : sys_read (toy_fd 2) 100 9 ([1; 2; 3; 4; 5], 1%nat) 3 = Ret (([1; 2; 3; 4; 5], 4%nat), StOk, [2; 3; 4]) /\
  sys_write (toy_fd 2) 100 9 ([1; 2], 3%nat) [7; 8; 9] = Ret (([1; 2; 0; 7; 8; 9], 6%nat), StOk, 3%nat) /\ sf_lock (toy_fd 2) (([1], 0%nat), StOk) 0 1 = Ret (([1], 0%nat), StOk).
Proof. repeat split; vm_compute; reflexivity. Qed.

(** ** C129: diag_file gives what all its files agree on, and throws when two differ *)
Section Diag.
Context {S : Type} (exec : S -> dop -> S * dres * sstate).
Lemma dres_eqb_spec : forall a b, dres_eqb a b = true <-> a = b.
Proof.
  intros a b. destruct a as [u| |], b as [v| |]; cbn; try (split; [discriminate|congruence]); try tauto.
  - split.
    + intros H. apply andb_prop in H as [L H]. f_equal. revert v L H. induction u as [|x u IH]; intros [|y v] L H; cbn in *; auto; try discriminate. apply andb_prop in H as [H1 H2]. f_equal; [lia|apply IH; auto].
    + intros H. injection H as <-. rewrite Nat.eqb_refl. cbn. induction u; cbn; auto. rewrite Z.eqb_refl. auto.
  - rewrite Z.eqb_eq. split; [intros ->; auto|intros H; injection H; auto].
Qed.
Lemma sstate_eqb_spec : forall a b, sstate_eqb a b = true <-> a = b.
Proof. intros [] []; cbn; split; congruence. Qed.
(* the file gives the result; for the changing operations also the state *)
Definition gives (op : dop) (r : dres) (st : sstate) (f : S) : Prop := snd (fst (exec f op)) = r /\ (is_query op = false -> snd (exec f op) = st).
Definition after (op : dop) (f : S) : S := fst (fst (exec f op)).
Lemma diag_rest_spec : forall op r st fs fs' b, diag_rest exec op r st fs = (fs', b) ->
  if b then fs' = map (after op) fs /\ Forall (gives op r st) fs
  else exists pre f post, fs = pre ++ f :: post /\ Forall (gives op r st) pre /\ ~ gives op r st f /\ fs' = map (after op) pre ++ after op f :: post.
Proof.
  intros op r st. induction fs as [|f fs IH]; intros fs' b H; cbn in H. { injection H as <- <-. auto. }
  destruct (exec f op) as [[f' res] st'] eqn:E. destruct (dres_eqb res r) eqn:B1; cbn in H.
  2: { injection H as <- <-. exists [], f, fs. split; auto. split; auto. split; [|unfold after; rewrite E; auto]. intros [K _]. rewrite E in K. cbn in K. apply dres_eqb_spec in K. congruence. }
  apply dres_eqb_spec in B1. destruct (negb (is_query op) && negb (sstate_eqb st' st)) eqn:B2.
  { injection H as <- <-. apply andb_prop in B2 as [B2 B3]. exists [], f, fs. split; auto. split; auto. split; [|unfold after; rewrite E; auto]. intros [_ K]. rewrite E in K. cbn in K. destruct (is_query op); [discriminate|]. specialize (K eq_refl). apply sstate_eqb_spec in K. rewrite K in B3. discriminate. }
  assert (G : gives op r st f). { split; rewrite E; cbn; auto. intros Q. rewrite Q in B2. cbn in B2. apply sstate_eqb_spec. destruct (sstate_eqb st' st); auto; discriminate. }
  assert (A : f' = after op f) by (unfold after; rewrite E; auto).
  destruct (diag_rest exec op r st fs) as [r2 b2] eqn:E2. injection H as <- <-. specialize (IH _ _ eq_refl). destruct b2.
  - destruct IH as [-> IH]. rewrite A. cbn. auto.
  - destruct IH as (pre & g & post & -> & F & N & ->). exists (f :: pre), g, post. rewrite A. cbn. auto.
Qed.
Lemma diag_spec : forall f fs st0 op, exists fs' st out, diag exec (f :: fs, st0) op = (fs', st, out) /\
  let r := snd (fst (exec f op)) in let st1 := snd (exec f op) in
  st = (if is_query op then st0 else st1) /\
  ((out = DRet r /\ fs' = map (after op) (f :: fs) /\ Forall (gives op r st1) fs) \/
   (out = DThrow /\ exists pre g post, fs = pre ++ g :: post /\ Forall (gives op r st1) pre /\ ~ gives op r st1 g)).
Proof.
  intros f fs st0 op. unfold diag. cbn [fst snd]. destruct (exec f op) as [[f' res] st'] eqn:E. cbn [fst snd]. destruct (diag_rest exec op res st' fs) as [r' b] eqn:R.
  do 3 eexists. split; [reflexivity|]. cbv zeta. split; auto. apply diag_rest_spec in R. destruct b.
  - left. destruct R as [-> R]. split; auto. split; auto. cbn [map]. unfold after at 2. rewrite E. auto.
  - right. split; auto. destruct R as (pre & g & post & A & B & C & _). eauto 8.
Qed.
End Diag.
Theorem diag_file_spec : forall S (exec : S -> dop -> S * dres * sstate) f fs st0 op, exists fs' st out, diag exec (f :: fs, st0) op = (fs', st, out) /\
  let r := snd (fst (exec f op)) in let st1 := snd (exec f op) in
  st = (if is_query op then st0 else st1) /\
  ((out = DRet r /\ fs' = map (fun g => fst (fst (exec g op))) (f :: fs) /\ Forall (fun g => snd (fst (exec g op)) = r /\ (is_query op = false -> snd (exec g op) = st1)) fs) \/
   (out = DThrow /\ exists pre g post, fs = pre ++ g :: post /\ Forall (fun g => snd (fst (exec g op)) = r /\ (is_query op = false -> snd (exec g op) = st1)) pre /\ ~ (snd (fst (exec g op)) = r /\ (is_query op = false -> snd (exec g op) = st1)))).
Proof. intros. apply (diag_spec exec). Qed.
(** over any history without an exception: a diag_file cannot be told from its first file alone, and every file has made the same history *)
Fixpoint diag_run {S} (exec : S -> dop -> S * dres * sstate) (c : list S * sstate) (ops : list dop) : option (list S * sstate * list dres) :=
  match ops with
  | [] => Some (c, [])
  | op :: r => match diag exec c op with
               | (fs, st, DRet x) => match diag_run exec (fs, st) r with Some (c', l) => Some (c', x :: l) | None => None end
               | _ => None
               end
  end.
Fixpoint alone_run {S} (exec : S -> dop -> S * dres * sstate) (f : S) (ops : list dop) : S * list dres :=
  match ops with [] => (f, []) | op :: r => let '(f', x, _) := exec f op in let '(f2, l) := alone_run exec f' r in (f2, x :: l) end.
Theorem diag_file_run : forall S (exec : S -> dop -> S * dres * sstate) ops f fs st0 c' l, diag_run exec (f :: fs, st0) ops = Some (c', l) ->
  fst c' = map (fun g => fst (alone_run exec g ops)) (f :: fs) /\ Forall (fun g => snd (alone_run exec g ops) = l) (f :: fs).
Proof.
  intros S exec. induction ops as [|op ops IH]; intros f fs st0 c' l H.
  { injection H as <- <-. cbn. split; [f_equal; symmetry; apply map_id|]. constructor; auto. induction fs; auto. }
  cbn [diag_run] in H. destruct (diag_spec exec f fs st0 op) as (fs' & st & out & E & Hst & K). rewrite E in H. cbv zeta in K. destruct K as [(-> & -> & F)|(-> & _)]; [|discriminate].
  cbn [map] in H. destruct (diag_run exec _ ops) as [[c2 l2]|] eqn:R; [|discriminate]. injection H as <- <-. apply IH in R. destruct R as [R1 R2].
  assert (A : forall g, fst (alone_run exec g (op :: ops)) = fst (alone_run exec (after exec op g) ops) /\ snd (alone_run exec g (op :: ops)) = snd (fst (exec g op)) :: snd (alone_run exec (after exec op g) ops)).
  { intros g. cbn [alone_run]. unfold after. destruct (exec g op) as [[g' x] s]. cbn [fst snd]. destruct (alone_run exec g' ops). auto. }
  split.
  - rewrite R1. cbn [map]. rewrite (proj1 (A f)), map_map. f_equal. apply map_ext. intros g. symmetry. apply A.
  - pose proof (Forall_inv R2) as R3. pose proof (Forall_inv_tail R2) as R4. cbv beta in R3. constructor. { rewrite (proj2 (A f)). rewrite R3. reflexivity. }
    rewrite Forall_map in R4. rewrite Forall_forall in *. intros g Hg. rewrite (proj2 (A g)). rewrite (R4 g Hg). f_equal. apply F. auto.
Qed.
(** ** C130: a diag_file without files answers without touching a file *)
Theorem diag_empty_partial : forall S (exec : S -> dop -> S * dres * sstate) st op, match op with DTruncate | DLock _ _ | DUnlock _ _ => False | _ => True end ->
  exists st' r, diag exec ([], st) op = ([], st', DRet r) /\ match op with DRead _ => st' = StFail /\ r = RBytes [] | DWrite _ => st' = StFail /\ r = RNum 0 | DSeek _ _ => st' = StFail /\ r = RNum (M64 - 1) | DTell | DSize => st' = st /\ r = RNum (M64 - 1) | _ => st' = StOk /\ r = RNone end.
Proof. intros S exec st op H. destruct op; try contradiction; cbn; eauto 6. Qed.
Theorem diag_empty_refuted : forall S (exec : S -> dop -> S * dres * sstate) st o l, snd (diag exec ([], st) DTruncate) = DUB /\ snd (diag exec ([], st) (DLock o l)) = DUB /\ snd (diag exec ([], st) (DUnlock o l)) = DUB.
Proof. intros. cbn. auto. Qed.

(* two arrays with a position *)
Definition toy_exec (f : list Z * nat) (op : dop) : list Z * nat * dres * sstate :=
  match op with
  | DRead n => let b := firstn n (skipn (snd f) (fst f)) in ((fst f, (snd f + length b)%nat), RBytes b, if (0 <? n)%nat && (length b =? 0)%nat then StEof else StOk)
  | DSize => (f, RNum (Z.of_nat (length (fst f))), StOk)
  | _ => (f, RNone, StOk)
  end.
Example diag_ex : diag_run toy_exec ([([1; 2; 3], 0%nat); ([1; 2; 3; 4], 0%nat)], StOk) [DRead 2] = Some ([([1; 2; 3], 2%nat); ([1; 2; 3; 4], 2%nat)], StOk, [RBytes [1; 2]]) /\
  snd (diag toy_exec ([([1; 2; 3], 0%nat); ([1; 2; 3; 4], 0%nat)], StOk) DSize) = DThrow.
Proof. split; reflexivity. Qed.

Print Assumptions sys_is_source. Print Assumptions sys_is_sink. Print Assumptions file_plain. Print Assumptions cached_file_partial. Print Assumptions file_seek.
Print Assumptions file_queries_keep. Print Assumptions lock_reports_refuted. Print Assumptions toy_posix. Print Assumptions diag_file_spec. Print Assumptions diag_file_run.
