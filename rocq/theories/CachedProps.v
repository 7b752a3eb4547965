(** Properties C263-C269: a cached_file opened again, closed and destroyed; locks through file_window and cache; buffered_sys;
    scoped_executor; sanitizing_allocator. *)
From Coq Require Import ZifyBool ZifyNat.
From Verif Require Import Base StreamModel StreamSpec MemFileModel FileConvModel FileConvSpec FileConvProps ConvModel ConvProps CachedModel.

Section Cached.
Context {S : Type} (F : fdev S) (content : S -> list Z) (PF : plain_file F content).
Lemma invalidate_ok : forall c L, shows content c L -> let c' := invalidate_cache F c in
  ca_st c' = StOk /\ ca_status c' = CEmpty /\ content (ca_src c') = L /\ ca_cap c' = ca_cap c /\ ca_data c' = ca_data c /\ ca_off c' = ca_off c.
Proof.
  intros c L H. cbv zeta. destruct (flush_ok F content PF c L H) as (H2 & C2 & St2 & O2 & K2 & _ & _ & D2 & _). cbv zeta in *.
  pose proof (shows_clean content _ L H2 C2) as E. unfold flush_cache in *. unfold invalidate_cache. destruct (ca_status c).
  - cbn in *. auto 10.
  - cbn in *. auto 10.
  - destruct (ca_start c <? ca_end c)%nat.
    + cbv zeta in *. destruct (is_ok (ca_st (write_cache F c))) eqn:Q; cbn [negb] in *; [cbn in *; auto 10|]. rewrite St2 in Q. discriminate.
    + cbn in *. auto 10.
Qed.
(** C263: a cached file that showed [d] (in any state a history of calls leaves: [cache_run_ok]) is opened again.  First the pending
    writes go to the old file; if the new file opens, every tame history is like direct access to it from its position; if it does
    not, the state is fail and nothing of the old file is left in the cache. *)
Theorem cached_reopen : forall (reopen : S -> S) c d p st, agrees content c (d, p, st) -> exists s1, content s1 = d /\ let s2 := reopen s1 in let c' := cached_open F reopen c in
  ca_src c' = s2 /\ ca_status c' = CEmpty /\
  (f_state F s2 = StOk -> let a := (content s2, f_tell F s2, StOk) in forall ops, tame_all (ca_cap c) ops a ->
     exists c2 s3, cache_run F ops c' = Ret (c2, snd (direct_run ops a)) /\ cached_destroy F c2 = Ret s3 /\
       content s3 = fst (fst (fst (direct_run ops a))) /\ f_tell F s3 = snd (fst (fst (direct_run ops a)))) /\
  (f_state F s2 <> StOk -> ca_st c' = StFail).
Proof.
  intros reopen c d p st (H & _ & _). destruct (invalidate_ok c d H) as (St1 & X1 & E1 & K1 & D1 & O1). cbv zeta in *. exists (ca_src (invalidate_cache F c)). split; auto. cbv zeta.
  unfold cached_open. rewrite St1. cbn [is_ok negb ca_on ca_src]. set (s2 := reopen (ca_src (invalidate_cache F c))). destruct H as (Hc & Hd & _). destruct (f_state F s2) eqn:Q; cbn [is_ok].
  - split; [reflexivity|]. split; [exact X1|]. split; [|congruence]. intros _ ops T. set (c' := cache_init F (ca_on (invalidate_cache F c) s2)).
    assert (A : agrees content c' (content s2, f_tell F s2, StOk)).
    { split; [|split; [reflexivity|exact Q]]. unfold shows, c'. cbn. rewrite X1, K1, D1. auto. }
    assert (K : ca_cap c' = ca_cap c) by exact K1. rewrite <- K in T. destruct (cache_run_ok F content PF ops c' _ A T) as (c2 & E & A2 & _). destruct (direct_run ops _) as [[[d2 p2] st2] y]. cbn [fst snd] in *. destruct A2 as (H2 & O2 & _).
    destruct (flush_ok F content PF c2 d2 H2) as (H3 & C3 & St3 & O3 & _). cbv zeta in *. destruct (pf_seek _ _ PF (ca_src (flush_cache F c2)) (ca_off (flush_cache F c2))) as (C4 & T4 & _).
    exists c2. eexists. split; [exact E|]. split; [unfold cached_destroy; rewrite St3; reflexivity|]. rewrite C4, T4, (shows_clean content _ d2 H3 C3), O3. auto.
  - split; [reflexivity|]. split; [exact X1|]. split; [discriminate|]. reflexivity.
  - split; [reflexivity|]. split; [exact X1|]. split; [discriminate|]. reflexivity.
Qed.
(** closing writes what is pending first *)
Theorem cached_close_spec : forall (src_close : S -> S) c d p st, agrees content c (d, p, st) -> exists s1, content s1 = d /\ let c' := fst (cached_close F src_close c) in
  ca_src c' = src_close s1 /\ ca_st c' = f_state F (src_close s1) /\ ca_status c' = CEmpty /\ snd (cached_close F src_close c) = false.
Proof.
  intros src_close c d p st (H & _ & _). destruct (invalidate_ok c d H) as (St1 & X1 & E1 & _). cbv zeta in *. exists (ca_src (invalidate_cache F c)). split; auto. unfold cached_close. rewrite St1. cbn. auto.
Qed.

(** ** C266: a lock of a section through a cache.  What holds: the source locks the same section, and its state is taken; where
    nothing is cached, what is read afterwards is what the file has once the lock is held. *)
Theorem cache_lock_partial : forall src_lock lk (c : @cache S) o l, cache_lock F src_lock lk c o l = let* s := src_lock lk (ca_src c) o l in Ret (Cache s (f_state F s) (ca_off c) (ca_cap c) (ca_status c) (ca_start c) (ca_end c) (ca_data c)).
Proof. intros. unfold cache_lock. destruct (src_lock lk (ca_src c) o l); reflexivity. Qed.
Theorem cache_lock_fresh_partial : forall src_lock (c : @cache S) o l s d p st, agrees content c (d, p, st) -> ca_status c = CEmpty -> src_lock true (ca_src c) o l = Ret s -> exists c',
  cache_lock F src_lock true c o l = Ret c' /\ agrees content c' (content s, p, f_state F s).
Proof.
  intros src_lock c o l s d p st ((Hc & Hd & H) & O & St) X E. rewrite cache_lock_partial, E. cbn [obind]. eexists. split; [reflexivity|]. split; [|split; [exact O|reflexivity]].
  unfold shows. cbn. rewrite X. auto.
Qed.
(** and where everything was flushed, the file has all that was written when the lock is given back *)
Theorem cache_unlock_partial : forall src_lock (c : @cache S) o l d p st, agrees content c (d, p, st) -> let c := cache_flush F c in
  content (ca_src c) = d /\ cache_lock F src_lock false c o l = let* s := src_lock false (ca_src c) o l in Ret (ca_set (ca_on c s) (f_state F s)).
Proof. intros src_lock c o l d p st A. cbv zeta. split; [apply (cache_flush_content F content PF c d p st A)|reflexivity]. Qed.
End Cached.

(** ** C264, refuted: what cannot be written when a cached_file is destroyed gives an exception (data loss is reported).  On a file
    that does not write, the second destructor uses what the first destroyed. *)
Definition full_file : fdev (list Z * nat * sstate) := {|
  f_read := f_read array_file; f_seek := f_seek array_file; f_tell := f_tell array_file; f_size := f_size array_file; f_truncate := f_truncate array_file; f_state := f_state array_file;
  f_write := fun s b => let '(d, p, _) := s in ((d, p, StFail), 0%nat) |}.
Theorem cached_destroy_refuted : exists c, cache_run full_file [FoSeek 1 FromBeg; FoWrite [7]] (cache_new full_file ([1; 2; 3; 4], 0%nat, StOk) 4 [0; 0; 0; 0]) = Ret (c, [(FrPos (Some 1%nat), StOk); (FrCount 1, StOk)]) /\
  cached_destroy full_file c = UB.
Proof. eexists. split; vm_compute; reflexivity. Qed.
(** what holds: a flush before says it, and nothing is lost: the cache still shows what was written *)
Theorem cached_destroy_partial : forall S (F : fdev S) c, cached_destroy F c <> Throw /\ (ca_st (flush_cache F c) = StOk -> cached_destroy F c <> UB) /\
  (ca_st (flush_cache F c) <> StOk -> ca_status (flush_cache F c) = CDirty /\ ca_data (flush_cache F c) = ca_data c /\ ca_start (flush_cache F c) = ca_start c /\ ca_end (flush_cache F c) = ca_end c).
Proof.
  intros S F c. unfold cached_destroy. split; [destruct (negb _); discriminate|]. split; [intros ->; discriminate|]. unfold flush_cache. destruct (ca_status c) eqn:X; try (cbn; congruence). destruct (ca_start c <? ca_end c)%nat; [|cbn; congruence].
  unfold write_cache. destruct (f_write F _ _) as [s k]. cbv zeta. cbn [ca_st]. destruct (is_ok (f_state F s)) eqn:Q; cbn [is_ok ca_st ca_mark ca_status ca_data ca_start ca_end]; rewrite ?Q; cbn; intros K; [|auto]. exfalso. destruct (f_state F s); cbn in *; congruence.
Qed.
(** opening over pending writes that cannot be written, too: the old file stays and nothing is lost *)
Theorem cached_open_keeps : forall S (F : fdev S) reopen c, ca_st (invalidate_cache F c) <> StOk -> let c' := cached_open F reopen c in
  ca_st c' = StFail /\ ca_src c' = ca_src (invalidate_cache F c) /\ ca_status c' = CDirty /\ ca_data c' = ca_data c /\ ca_start c' = ca_start c /\ ca_end c' = ca_end c.
Proof.
  intros S F reopen c. cbv zeta. unfold cached_open, invalidate_cache. destruct (ca_status c) eqn:X; try (cbn; congruence). destruct (ca_start c <? ca_end c)%nat; [|cbn; congruence].
  unfold write_cache. destruct (f_write F _ _) as [s k]. cbv zeta. cbn [ca_st]. destruct (is_ok (f_state F s)) eqn:Q; cbn [negb].
  - cbn. intros K. destruct (f_state F s); cbn in *; congruence.
  - cbn [ca_st]. rewrite Q. cbn. auto 10.
Qed.
(** ... and closing: it throws, and the file is not closed *)
Theorem cached_close_fails : forall S (F : fdev S) src_close c, snd (cached_close F src_close c) = true <-> ca_st (invalidate_cache F c) <> StOk.
Proof. intros S F src_close c. unfold cached_close. cbv zeta. destruct (ca_st (invalidate_cache F c)); cbn; split; intros; auto; congruence. Qed.
Theorem cached_close_keeps : forall S (F : fdev S) src_close c, snd (cached_close F src_close c) = true -> let c' := fst (cached_close F src_close c) in
  ca_st c' <> StOk /\ ca_src c' = ca_src (invalidate_cache F c) /\ ca_status c' = CDirty /\ ca_data c' = ca_data c /\ ca_start c' = ca_start c /\ ca_end c' = ca_end c.
Proof.
  intros S F src_close c H. pose proof (proj1 (cached_close_fails S F src_close c) H) as K. destruct (cached_open_keeps S F src_close c K) as (A & B & C & D & E & G). cbv zeta in *. unfold cached_close, cached_open in *. cbv zeta in *.
  destruct (is_ok (ca_st (invalidate_cache F c))) eqn:Q; [destruct (ca_st (invalidate_cache F c)); cbn in Q; congruence|]. cbn [negb fst snd] in *. auto 10.
Qed.
Definition locks_none : bool -> (list Z * nat * sstate) -> nat -> nat -> outcome (list Z * nat * sstate) := fun _ s _ _ => Ret s.
(** C266, refuted: under a lock taken through a cache one reads what the file has, and when it is given back the file has what was
    written.  Another process writes 9s before the lock is granted: *)
Theorem cache_lock_refuted :
  (exists c c', cache_run array_file [FoRead 1; FoSeek 0 FromBeg] (cache_new array_file ([1; 2; 3; 4], 0%nat, StOk) 4 [0; 0; 0; 0]) = Ret (c, [(FrBytes [1], StOk); (FrPos (Some 0%nat), StOk)]) /\
     cache_lock array_file (fun _ _ _ _ => Ret ([9; 9; 9; 9], 0%nat, StOk)) true c 0 4 = Ret c' /\ exists c'', cache_read array_file c' 2 = Ret (c'', [1; 2])) /\
  (exists c c', cache_run array_file [FoWrite [7]] (cache_new array_file ([1; 2; 3; 4], 0%nat, StOk) 4 [0; 0; 0; 0]) = Ret (c, [(FrCount 1, StOk)]) /\
     cache_lock array_file locks_none false c 0 4 = Ret c' /\ fst (fst (ca_src c')) = [1; 2; 3; 4]).
Proof.
  split.
  - eexists. eexists. split; [vm_compute; reflexivity|]. split; [vm_compute; reflexivity|]. eexists. vm_compute. reflexivity.
  - eexists. eexists. split; [vm_compute; reflexivity|]. split; vm_compute; reflexivity.
Qed.

(** ** C265, refuted: lock(o, l) through a window locks the bytes o to o + l of the window.  Of a window of 4 bytes from 4, bytes 2 and
    3 cannot be locked, and locking one byte at 5, which it does not have, locks byte 9 of the file. *)
Theorem fw_lock_refuted : forall S (F : fdev S) src_lock lk src, let c := fw_new F src 4 4 in
  fw_lock F src_lock lk c 2 2 = Ret (FWindow src StFail (f_tell F src) 4 8) /\
  fw_lock F src_lock lk c 5 1 = (let* s := src_lock lk src 9%nat 1%nat in Ret (FWindow s (f_state F s) (f_tell F src) 4 8)).
Proof. intros S F src_lock lk src c. split; reflexivity. Qed.
(** what holds: a window from the start of the file locks the section as far as it is in the window, with the state of the source *)
Theorem fw_lock_partial : forall S (F : fdev S) src_lock lk (c : @fwindow S) o l, fw_start c = 0%nat ->
  fw_lock F src_lock lk c o l =
    if (o <? fw_end c)%nat then let* s := src_lock lk (fw_src c) o (Nat.min (o + l) (fw_end c) - o)%nat in Ret (FWindow s (f_state F s) (fw_off c) 0 (fw_end c))
    else Ret (FWindow (fw_src c) StFail (fw_off c) 0 (fw_end c)).
Proof.
  intros S F src_lock lk c o l Z. unfold fw_lock, fw_contains. rewrite Z. cbn [Nat.leb andb Nat.add]. destruct (Nat.ltb_spec o (fw_end c)) as [L|L]; auto.
  replace (Nat.min (o + l) (fw_end c) - o)%nat with (Nat.min l (fw_end c - o)) by lia. reflexivity.
Qed.

(** ** C267: a buffered_sys.  All that was written through it is written before the handle is closed, if the operating system writes. *)
Theorem buffered_sys_spec : forall S (D : dev S) Inv out (close : S -> S), sink D Inv out -> always_writes D Inv -> forall s rcap wcap bs, Inv s -> exists s',
  buffered_destroy D close (writes (buffer_dev D) (buffer_new D s rcap wcap) bs) = close s' /\ out s' = out s ++ concat bs.
Proof.
  intros S D Inv out close SNK AW s rcap wcap bs I. destruct (buffer_new_out D Inv out s rcap wcap I) as (I0 & O0).
  assert (G : forall bs c, buffer_winv Inv c -> buffer_winv Inv (writes (buffer_dev D) c bs) /\ buffer_out out (writes (buffer_dev D) c bs) = buffer_out out c ++ concat bs).
  { induction bs0 as [|b r IH]; intros c Ic; cbn [writes concat]; [rewrite app_nil_r; auto|]. destruct (d_write (buffer_dev D) c b) as [c1 k] eqn:E. pose proof (snk_write _ _ _ (buffer_sink D Inv out SNK) c b c1 k Ic E) as (I1 & K & O & St).
    pose proof (buffer_always_writes D Inv out SNK AW c b Ic) as A. rewrite E in A. cbn [fst] in *. rewrite (St A), firstn_all in O. destruct (IH c1 I1) as (I2 & O2). split; auto. rewrite O2, O, app_assoc. reflexivity. }
  destruct (G bs _ I0) as (I2 & O2). rewrite O0 in O2. eexists. split; [reflexivity|]. rewrite (buffer_done_out D Inv out SNK AW _ I2), O2. reflexivity.
Qed.
(** refuted without: what the operating system does not write at the end is lost, and nothing tells *)
Theorem buffered_sys_refuted : exists (D : dev (list Z * sstate)) c,
  d_write (buffer_dev D) (buffer_new D ([], StOk) 4 4) [7] = (c, 1%nat) /\ bf_st c = StOk /\ fst (buffered_destroy D (fun s => s) c) = [].
Proof. exists {| d_read := fun s _ => (s, []); d_write := fun s _ => ((fst s, StFail), 0%nat); d_state := snd; d_set := fun s st => (fst s, st) |}. eexists. repeat split; vm_compute; reflexivity. Qed.

(** ** C268, refuted: [done] runs once whenever the scope is left: not with lambdas written in the call, and not where [init] throws. *)
Theorem scoped_refuted : (forall body, snd (scoped true false body) = UB) /\ (forall t body, scoped t true body = ([Init], Throw)).
Proof. split; intros; reflexivity. Qed.
Theorem scoped_partial : forall body, scoped false false body = ([Init; Body; Done], if body then Throw else Ret tt).
Proof. reflexivity. Qed.

(** ** C269: what was stored in memory of a sanitizing_allocator is not there when it is given back *)
(** blocks are given back with the size they were asked for, and their contents keep their sizes *)
Fixpoint proper (w : nat) (live : list (nat * nat)) (ops : list heap_op) : Prop :=
  match ops with
  | [] => True
  | Allocate p junk :: r => ~ In p (map fst live) /\ proper w ((p, length junk) :: live) r
  | Store p d :: r => In (p, length d) live /\ proper w live r
  | Deallocate p n :: r => In (p, (w * n)%nat) live /\ proper w (filter (fun b => negb (fst b =? p)%nat) live) r
  end.
Fixpoint heap_run (w : nat) (h : heap) (ops : list heap_op) : outcome heap := match ops with [] => Ret h | op :: r => let* h := heap_step w h op in heap_run w h r end.
Definition sizes (h : heap) : list (nat * nat) := map (fun b => (fst b, length (snd b))) (blocks h).
Lemma find_in : forall h p, NoDup (map fst (sizes h)) -> forall n, In (p, n) (sizes h) -> exists d, find_block h p = Some d /\ length d = n.
Proof.
  intros [l z] p. unfold sizes, find_block. cbn [blocks]. clear z. induction l as [|[q d] l IH]; intros N n I; [destruct I|]. cbn [map fst snd find] in *. inversion N as [|? ? N1 N2]; subst. destruct (Nat.eqb_spec q p) as [->|Q].
  - destruct I as [I|I]; [injection I as <-; exists d; auto|]. exfalso. apply N1. apply in_map_iff. exists (p, n). auto.
  - destruct I as [I|I]; [congruence|]. auto.
Qed.
Lemma sizes_set : forall h p d, NoDup (map fst (sizes h)) -> In (p, length d) (sizes h) -> sizes (set_block h p d) = sizes h.
Proof.
  intros [l z] p d. unfold sizes, set_block. cbn [blocks]. clear z. induction l as [|[q e] l IH]; intros N I; [reflexivity|]. cbn [map fst snd] in *. inversion N as [|? ? N1 N2]; subst. destruct (Nat.eqb_spec q p) as [->|Q].
  - cbn [fst snd]. destruct I as [I|I].
    + injection I as E. rewrite <- E. f_equal. rewrite map_map. apply map_ext_in. intros [a b] J. cbn [fst snd]. destruct (Nat.eqb_spec a p) as [->|A]; auto. exfalso. apply N1. rewrite map_map. apply in_map_iff. exists (p, b). auto.
    + exfalso. apply N1. apply in_map_iff. exists (p, length d). auto.
  - cbn [fst snd]. destruct I as [I|I]; [congruence|]. f_equal. auto.
Qed.
Lemma find_set : forall h p d e, find_block h p = Some e -> find_block (set_block h p d) p = Some d.
Proof.
  intros [l z] p d e. unfold find_block, set_block. cbn [blocks]. induction l as [|[q x] l IH]; intros H; [discriminate|]. cbn [map find fst snd] in *. destruct (Nat.eqb_spec q p) as [->|Q]; cbn [fst snd].
  - rewrite Nat.eqb_refl. reflexivity.
  - replace (q =? p)%nat with false by lia. auto.
Qed.
Theorem sanitized : forall w ops h, NoDup (map fst (sizes h)) -> Forall (eq 0) (returned h) -> proper w (sizes h) ops -> exists h',
  heap_run w h ops = Ret h' /\ Forall (eq 0) (returned h').
Proof.
  intros w. induction ops as [|op ops IH]; intros h N R P; [exists h; auto|]. cbn [heap_run proper] in *. destruct op as [p junk|p d|p n]; cbn [heap_step].
  - destruct P as [P1 P2]. cbn [obind]. apply IH; auto. cbn. constructor; auto.
  - destruct P as [P1 P2]. cbn [obind]. apply IH; rewrite ?sizes_set by auto; auto.
  - destruct P as [P1 P2]. destruct (find_in h p N _ P1) as (d & E & L). unfold san_deallocate, memset0. rewrite E, L, Nat.leb_refl. cbn [obind]. set (z := repeat 0 (w * n) ++ skipn (w * n) d).
    assert (Lz : length z = (w * n)%nat) by (unfold z; rewrite app_length, repeat_length, skipn_length; lia). assert (Z0 : z = repeat 0 (w * n)) by (unfold z; rewrite <- L, skipn_all, app_nil_r; auto).
    assert (SZ : sizes (set_block h p z) = sizes h) by (apply sizes_set; auto; rewrite Lz; auto).
    assert (FL : sizes (std_deallocate (set_block h p z) p) = filter (fun b => negb (fst b =? p)%nat) (sizes h)).
    { unfold std_deallocate. rewrite (find_set h p z d E). rewrite <- SZ. unfold sizes. cbn [blocks]. induction (blocks (set_block h p z)) as [|[a b] r IHr]; auto. cbn [filter map fst snd]. destruct (negb (a =? p)%nat); cbn [map fst snd]; rewrite IHr; auto. }
    apply IH.
    + rewrite FL. clear - N. induction (sizes h) as [|[a b] r IHr]; auto. cbn [filter map fst] in *. inversion N as [|? ? N1 N2]; subst. destruct (negb (a =? p)%nat); auto. cbn [map fst]. constructor; auto. intros X. apply N1. apply in_map_iff in X as (y & Y & I). apply filter_In in I as [I _]. apply in_map_iff. exists y. auto.
    + unfold std_deallocate. rewrite (find_set h p z d E). cbn [returned]. apply Forall_app. split; [rewrite Z0; clear; induction (w * n)%nat; cbn; auto|exact R].
    + rewrite FL. exact P2.
Qed.
(** one deallocation: the block is gone, as many zeros as it had bytes are given back, and no other block changes *)
Theorem deallocate_spec : forall w h p n d, find_block h p = Some d -> length d = (w * n)%nat -> exists h', san_deallocate w h p n = Ret h' /\
  find_block h' p = None /\ returned h' = repeat 0 (w * n) ++ returned h /\ forall q, q <> p -> find_block h' q = find_block h q.
Proof.
  intros w h p n d E L. unfold san_deallocate, memset0. rewrite E, L, Nat.leb_refl. cbn [obind]. eexists. split; [reflexivity|]. assert (Z0 : repeat 0 (w * n) ++ skipn (w * n) d = repeat 0 (w * n)) by (rewrite <- L, skipn_all, app_nil_r; auto). rewrite Z0.
  unfold std_deallocate. rewrite (find_set h p _ d E). cbn [returned set_block]. split; [|split; [reflexivity|]].
  - unfold find_block, set_block. cbn [blocks]. clear. induction (blocks h) as [|[a b] r IH]; [reflexivity|]. cbn [map fst]. destruct (Nat.eqb_spec a p) as [->|A]; cbn [filter fst].
    + rewrite Nat.eqb_refl. exact IH.
    + replace (a =? p)%nat with false by lia. cbn [negb find fst]. replace (a =? p)%nat with false by lia. exact IH.
  - intros q Q. unfold find_block, set_block. cbn [blocks]. clear - Q. induction (blocks h) as [|[a b] r IH]; [reflexivity|]. cbn [map fst find]. destruct (Nat.eqb_spec a p) as [->|A]; cbn [filter fst].
    + rewrite Nat.eqb_refl. cbn [negb]. replace (p =? q)%nat with false by lia. exact IH.
    + replace (a =? p)%nat with false by lia. cbn [negb find fst]. destruct (a =? q)%nat; auto.
Qed.
Example cached_ex :
  (exists h, heap_run 4 (Heap [] []) [Allocate 8 [1; 2; 3; 4; 5; 6; 7; 8]; Store 8 [115; 101; 99; 114; 101; 116; 0; 0]; Deallocate 8 2] = Ret h /\ returned h = repeat 0 8) /\
  proper 4 [] [Allocate 8 [1; 2; 3; 4; 5; 6; 7; 8]; Store 8 [115; 101; 99; 114; 101; 116; 0; 0]; Deallocate 8 2] /\
  agrees (fun s => fst (fst s)) (cache_new array_file ([1; 2; 3; 4], 0%nat, StOk) 4 [0; 0; 0; 0]) ([1; 2; 3; 4], 0%nat, StOk).
Proof.
  split; [eexists; split; vm_compute; reflexivity|]. split; [cbn; intuition|]. repeat split; cbn; auto; lia.
Qed.
