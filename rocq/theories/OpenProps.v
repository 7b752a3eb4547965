(** Properties C249-C255: opening files, their times, socket streams. *)
From Coq Require Import ZifyBool ZifyNat.
From Verif Require Import Base Bits StreamModel StreamSpec StreamProps SysModel SysSpec SysProps OpenModel.

(** ** The mode.  Which accesses it asks for and which disposition, by its binary digits *)
Definition wants_reading (mode : Z) : bool := mode mod 2 =? 1.
Definition wants_writing (mode : Z) : bool := mode / 2 mod 2 =? 1.
Definition wants_append (mode : Z) : bool := mode / 64 mod 2 =? 1.
(** what the dispositions make of a file; None: open fails *)
Definition disposed (d : Z) (c : option (list Z)) : option (list Z) :=
  match d, c with
  | 0, Some c => Some c          (* mode_open_existing *)
  | 1, Some _ => Some []         (* mode_truncate_existing *)
  | 2, Some c => Some c          (* mode_preserve_existing *)
  | 2, None => Some []
  | 3, None => Some []           (* mode_create_new *)
  | 4, _ => Some []              (* mode_create *)
  | _, _ => None
  end.
Lemma has_bit : forall m k, 0 <= k -> has m (2 ^ k) = (m / 2 ^ k mod 2 =? 1).
Proof.
  intros m k K. unfold has. pose proof (Z.testbit_spec' m k K) as T. destruct (Z.testbit m k) eqn:B; cbn [Z.b2z] in T; rewrite <- T.
  - apply negb_true_iff, Z.eqb_neq. intros E. apply (f_equal (fun x => Z.testbit x k)) in E. rewrite Z.land_spec, B, Z.pow2_bits_true, Z.bits_0 in E by auto. discriminate.
  - apply negb_false_iff, Z.eqb_eq. apply Z.bits_inj'. intros n N. rewrite Z.land_spec, Z.bits_0, Z.pow2_bits_eqb by auto. destruct (Z.eqb_spec k n) as [<-|]; [rewrite B; reflexivity|apply andb_false_r].
Qed.
Lemma land3 : forall m, Z.land m 3 = m mod 4.
Proof. intros. change 3 with (Z.ones 2). rewrite Z.land_ones by lia. reflexivity. Qed.
Lemma land56 : forall m, Z.land m 56 = 8 * (m / 8 mod 8).
Proof.
  intros. change 56 with (Z.shiftl (Z.ones 3) 3). replace (Z.land m (Z.shiftl (Z.ones 3) 3)) with (Z.shiftl (Z.land (Z.shiftr m 3) (Z.ones 3)) 3).
  - rewrite Z.land_ones, Z.shiftl_mul_pow2, Z.shiftr_div_pow2 by lia. change (2 ^ 3) with 8. lia.
  - apply Z.bits_inj'. intros n N. rewrite Z.land_spec, !Z.shiftl_spec by auto. destruct (Z.ltb_spec n 3).
    + rewrite !(Z.testbit_neg_r _ (n - 3)) by lia. rewrite andb_false_r. reflexivity.
    + rewrite Z.land_spec, Z.shiftr_spec by lia. replace (n - 3 + 3) with n by lia. reflexivity.
Qed.
(** the flags of open(2) by the parts of the mode *)
Definition flags4 (a d : Z) (dsync rsync : bool) : outcome Z :=
  let acc := if a =? 2 then 1 else if a =? 3 then 2 else 0 in
  let* f := if d =? 0 then Ret acc else if d =? 1 then Ret (acc + 512) else if d =? 2 then Ret (acc + 64) else if d =? 3 then Ret (acc + 192) else if d =? 4 then Ret (acc + 576) else Throw in
  Ret (f + (if dsync then 4096 else 0) + (if rsync then (if dsync then 1048576 else 1052672) else 0)).
Ltac cases8 d H := let K := fresh in assert (K : d = 0 \/ d = 1 \/ d = 2 \/ d = 3 \/ d = 4 \/ d = 5 \/ d = 6 \/ d = 7) by lia; clear H; destruct K as [K|[K|[K|[K|[K|[K|[K|K]]]]]]]; rewrite K in *; clear K.
Ltac cases4 d H := let K := fresh in assert (K : d = 0 \/ d = 1 \/ d = 2 \/ d = 3) by lia; clear H; destruct K as [K|[K|[K|K]]]; rewrite K in *; clear K.
Lemma open_flags_parts : forall m, open_flags m = flags4 (m mod 4) (m / 8 mod 8) (has m 4096) (has m 8192).
Proof.
  intros m. unfold open_flags, mode_disposition_mask. change (Z.lor mode_for_reading mode_for_writing) with 3. rewrite land3, land56. unfold hint_write_thru, hint_no_buffering.
  pose proof (Z.mod_pos_bound m 4 ltac:(lia)) as A. pose proof (Z.mod_pos_bound (m / 8) 8 ltac:(lia)) as D. generalize dependent (m mod 4). generalize dependent (m / 8 mod 8). intros d D a A.
  destruct (has m 4096), (has m 8192); cases8 d D; cases4 a A; vm_compute; reflexivity.
Qed.
Lemma acc_bits : forall m, wants_reading m = (m mod 4 =? 1) || (m mod 4 =? 3) /\ wants_writing m = (m mod 4 =? 2) || (m mod 4 =? 3).
Proof. intros m. unfold wants_reading, wants_writing. split; apply eq_true_iff_eq; rewrite orb_true_iff, !Z.eqb_eq; lia. Qed.

Lemma seek_end_is : forall o h d c, table o h = Some d -> files o (of_name d) = Some c ->
  sys_seek_end o h = Os (files o) (set_fd (table o) h (Some (Ofd (of_name d) (Z.of_nat (length c)) (of_rd d) (of_wr d)))).
Proof. intros o h d c E F. unfold sys_seek_end. rewrite E, F. reflexivity. Qed.
(** ** C249: what open does, for every mode.  [o1] is the operating system after the file opened before is closed. *)
Theorem open_spec : forall close_ok allowed newfd o f name mode, newfd <> -1 ->
  let o1 := if f_h f =? -1 then o else Os (files o) (set_fd (table o) (f_h f) None) in
  let d := mode / 8 mod 8 in
  let '(o2, f2, thrown) := f_open close_ok allowed newfd o f name mode in
  (forall n, n <> name -> files o2 n = files o n) /\ (forall h, h <> newfd -> table o2 h = table o1 h) /\
  (thrown = true <-> 5 <= d) /\
  match (if allowed then disposed d (files o name) else None) with
  | Some c =>
      f_h f2 = newfd /\ f_st f2 = StOk /\ files o2 name = Some c /\
      exists x, table o2 newfd = Some x /\ of_name x = name /\ of_pos x = (if wants_append mode then Z.of_nat (length c) else 0) /\
        of_wr x = wants_writing mode /\ (of_rd x = true <-> wants_reading mode = true \/ wants_writing mode = false)
  | None =>
      files o2 name = files o name /\ table o2 newfd = table o1 newfd /\ (thrown = false -> f_h f2 = -1 /\ f_st f2 = StFail)
  end.
Proof.
  intros close_ok allowed newfd o f name mode NF o1 d.
  assert (E1 : exists f1, (if f_h f =? -1 then (o, f) else f_close close_ok o f) = (o1, f1)).
  { unfold o1, f_close. destruct (f_h f =? -1); eauto. }
  destruct E1 as (f1 & E1). assert (F1 : files o1 = files o) by (unfold o1; destruct (f_h f =? -1); reflexivity).
  unfold f_open. rewrite E1, open_flags_parts. destruct (acc_bits mode) as [RD WR]. change (has mode mode_append) with (has mode (2 ^ 6)). rewrite has_bit by lia. change (mode / 2 ^ 6 mod 2 =? 1) with (wants_append mode). rewrite RD, WR.
  fold d. assert (D : 0 <= d < 8) by (apply Z.mod_pos_bound; lia). assert (A : 0 <= mode mod 4 < 4) by (apply Z.mod_pos_bound; lia).
  clearbody d o1. clear E1 RD WR. revert A. generalize (mode mod 4). intros a A. generalize (has mode 4096) as ds. generalize (has mode 8192) as rs. generalize (wants_append mode) as ap. intros ap rs ds.
  destruct (Z.ltb_spec d 5) as [L|L].
  2: { assert (T : flags4 a d ds rs = Throw) by (unfold flags4; repeat match goal with |- context [d =? ?k] => replace (d =? k) with false by lia end; reflexivity). rewrite T.
       rewrite F1. split; auto. split; auto. split; [split; auto|]. replace (disposed d (files o name)) with (@None (list Z)); [destruct allowed; repeat split; auto; discriminate|].
       assert (K : d = 5 \/ d = 6 \/ d = 7) by lia. destruct K as [->|[->| ->]]; reflexivity. }
  assert (NEG : (newfd =? -1) = false) by lia.
  assert (DONE : forall c fl, (negb (Z.land fl 3 =? O_WRONLY)) = ((a =? 1) || (a =? 3) || negb ((a =? 2) || (a =? 3))) -> negb (Z.land fl 3 =? 0) = ((a =? 2) || (a =? 3)) ->
    let o2 := Os (set_file (files o1) name c) (set_fd (table o1) newfd (Some (Ofd name 0 (negb (Z.land fl 3 =? O_WRONLY)) (negb (Z.land fl 3 =? 0))))) in
    let o3 := if ap then sys_seek_end o2 newfd else o2 in
    (forall n, n <> name -> files o3 n = files o n) /\ (forall h, h <> newfd -> table o3 h = table o1 h) /\ files o3 name = Some c /\
    exists x, table o3 newfd = Some x /\ of_name x = name /\ of_pos x = (if ap then Z.of_nat (length c) else 0) /\ of_wr x = ((a =? 2) || (a =? 3)) /\
      (of_rd x = true <-> (a =? 1) || (a =? 3) = true \/ (a =? 2) || (a =? 3) = false)).
  { intros c fl W1 W2 o2 o3.
    assert (X : files o3 = set_file (files o1) name c /\ table o3 newfd = Some (Ofd name (if ap then Z.of_nat (length c) else 0) (negb (Z.land fl 3 =? O_WRONLY)) (negb (Z.land fl 3 =? 0))) /\ forall h, h <> newfd -> table o3 h = table o1 h).
    { unfold o3, o2. destruct ap; cbn [files table].
      - rewrite (seek_end_is _ newfd (Ofd name 0 (negb (Z.land fl 3 =? O_WRONLY)) (negb (Z.land fl 3 =? 0))) c).
        + cbn [files table of_name of_rd of_wr]. split; auto. split; [unfold set_fd; rewrite Z.eqb_refl; reflexivity|]. intros h N. unfold set_fd. destruct (Z.eqb_spec h newfd); [contradiction|reflexivity].
        + cbn [table]. unfold set_fd. rewrite Z.eqb_refl. reflexivity.
        + cbn [files of_name]. unfold set_file. rewrite Nat.eqb_refl. reflexivity.
      - split; auto. split; [unfold set_fd; rewrite Z.eqb_refl; reflexivity|]. intros h N. unfold set_fd. destruct (Z.eqb_spec h newfd); [contradiction|reflexivity]. }
    destruct X as (X1 & X2 & X3). rewrite X1, X2. split; [intros n N; unfold set_file; destruct (Nat.eqb_spec n name); [contradiction|rewrite F1; reflexivity]|]. split; auto. split; [unfold set_file; rewrite Nat.eqb_refl; reflexivity|].
    eexists. split; [reflexivity|]. cbn [of_name of_pos of_wr of_rd]. split; auto. split; auto. split; [rewrite W2; reflexivity|]. rewrite W1, orb_true_iff, negb_true_iff. reflexivity. }
  destruct allowed.
  2: { assert (T : exists fl, flags4 a d ds rs = Ret fl) by (unfold flags4; assert (K : d = 0 \/ d = 1 \/ d = 2 \/ d = 3 \/ d = 4) by lia; destruct K as [->|[->|[->|[->| ->]]]]; eexists; reflexivity).
       destruct T as (fl & ->). unfold sys_open. cbn [negb]. change (-1 =? -1) with true. cbn [negb f_h f_st]. rewrite ?F1. repeat split; auto; try discriminate. intros X. lia. }
  assert (FL : exists fl, flags4 a d ds rs = Ret fl /\ (negb (Z.land fl 3 =? O_WRONLY)) = ((a =? 1) || (a =? 3) || negb ((a =? 2) || (a =? 3))) /\ negb (Z.land fl 3 =? 0) = ((a =? 2) || (a =? 3)) /\
    has fl O_CREAT = (2 <=? d) /\ has fl O_EXCL = (d =? 3) /\ has fl O_TRUNC = ((d =? 1) || (d =? 4))).
  { clear - A D L. assert (K : d = 0 \/ d = 1 \/ d = 2 \/ d = 3 \/ d = 4) by lia. clear D L. assert (Q : a = 0 \/ a = 1 \/ a = 2 \/ a = 3) by lia. clear A.
    destruct K as [->|[->|[->|[->| ->]]]], Q as [->|[->|[->| ->]]], ds, rs; eexists; vm_compute; repeat split. }
  destruct FL as (fl & -> & W1 & W2 & B1 & B2 & B3). unfold sys_open. cbn [negb]. rewrite B1, B2, B3, F1.
  assert (TH : (false = true <-> 5 <= d)) by (split; [discriminate|lia]).
  pose proof (fun c => DONE c fl W1 W2) as DN. cbv zeta in DN. rewrite F1 in DN. clear DONE B1 B2 B3.
  assert (OK : forall c, let '(o2, f2, thrown) := (let '(o, h) := (Os (set_file (files o) name c) (set_fd (table o1) newfd (Some (Ofd name 0 (negb (Z.land fl 3 =? O_WRONLY)) (negb (Z.land fl 3 =? 0))))), newfd) in
      if negb (h =? -1) then ((if ap then sys_seek_end o h else o), Fobj h StOk, false) else (o, Fobj h StFail, false)) in
    (forall n, n <> name -> files o2 n = files o n) /\ (forall h, h <> newfd -> table o2 h = table o1 h) /\ (thrown = true <-> 5 <= d) /\
    f_h f2 = newfd /\ f_st f2 = StOk /\ files o2 name = Some c /\
      exists x, table o2 newfd = Some x /\ of_name x = name /\ of_pos x = (if ap then Z.of_nat (length c) else 0) /\
        of_wr x = ((a =? 2) || (a =? 3)) /\ (of_rd x = true <-> (a =? 1) || (a =? 3) = true \/ (a =? 2) || (a =? 3) = false)).
  { intros c. rewrite NEG. cbn [negb f_h f_st]. destruct (DN c) as (D1 & D2 & D3 & D4). split; [exact D1|]. split; [exact D2|]. split; [exact TH|]. split; [reflexivity|]. split; [reflexivity|]. split; [exact D3|exact D4]. }
  assert (NO : let '(o2, f2, thrown) := (let '(o, h) := (o1, -1) in if negb (h =? -1) then ((if ap then sys_seek_end o h else o), Fobj h StOk, false) else (o, Fobj h StFail, false)) in
    (forall n, n <> name -> files o2 n = files o n) /\ (forall h, h <> newfd -> table o2 h = table o1 h) /\ (thrown = true <-> 5 <= d) /\
    files o2 name = files o name /\ table o2 newfd = table o1 newfd /\ (thrown = false -> f_h f2 = -1 /\ f_st f2 = StFail)).
  { change (-1 =? -1) with true. cbn [negb f_h f_st]. rewrite F1. repeat split; auto; try discriminate. intros X. lia. }
  clear DN TH. assert (K : d = 0 \/ d = 1 \/ d = 2 \/ d = 3 \/ d = 4) by lia.
  destruct (files o name) as [c|] eqn:FN; destruct K as [->|[->|[->|[->| ->]]]]; first [exact NO|exact (OK c)|exact (OK [])].
Qed.

(** ** C250, refuted: a file opened for exclusive access (share_none, the default) cannot be opened while it is open *)
Theorem exclusive_refuted : exists o name mode fd1 fd2, mode / 256 mod 8 = share_none /\ fd1 <> fd2 /\ fd2 <> -1 /\
  let '(o1, f1, _) := f_open true true fd1 o (Fobj (-1) StOk) name mode in
  let '(o2, f2, _) := f_open true true fd2 o1 (Fobj (-1) StOk) name mode in
  f_st f1 = StOk /\ f_st f2 = StOk /\ table o2 (f_h f1) <> None /\ table o2 (f_h f2) <> None /\ files o2 name <> None.
Proof. exists (Os (fun _ => Some [7]) (fun _ => None)), 0%nat, 3, 3, 4. repeat split; discriminate. Qed.

(** ** C251: a cached_file is opened so that the cache can be read, and else as asked *)
Lemma lor1 : forall m, Z.lor m 1 mod 2 = 1 /\ Z.lor m 1 / 2 = m / 2.
Proof.
  intros m. split.
  - rewrite <- Z.bit0_mod, Z.lor_spec, orb_true_r. reflexivity.
  - rewrite <- !Z.div2_div. apply Z.bits_inj'. intros n N. rewrite !Z.div2_spec, !Z.shiftr_spec, Z.lor_spec by auto. change 1 with (2 ^ 0) at 2. rewrite Z.pow2_bits_false by lia. apply orb_false_r.
Qed.
Theorem cached_mode_spec : forall mode, let m := cached_mode mode in
  wants_reading m = wants_reading mode || wants_writing mode /\ wants_writing m = wants_writing mode /\ wants_append m = wants_append mode /\ m / 8 mod 8 = mode / 8 mod 8 /\
  (wants_reading m = true \/ wants_writing m = false).
Proof.
  intros mode m. unfold m, cached_mode. change mode_for_writing with (2 ^ 1). rewrite has_bit by lia. change (mode / 2 ^ 1 mod 2 =? 1) with (wants_writing mode). change mode_for_reading with 1.
  destruct (wants_writing mode) eqn:W.
  - destruct (lor1 mode) as [A B]. assert (B2 : forall k, 0 < k -> Z.lor mode 1 / (2 * k) = mode / (2 * k)) by (intros k K; rewrite <- !Z.div_div by lia; rewrite B; reflexivity).
    unfold wants_reading, wants_append in *. change (Z.lor mode 1 / 64) with (Z.lor mode 1 / (2 * 32)). change (Z.lor mode 1 / 8) with (Z.lor mode 1 / (2 * 4)). rewrite !B2 by lia. rewrite A, orb_true_r.
    unfold wants_writing in *. rewrite B, W. repeat split; auto.
  - rewrite orb_false_r. auto 6.
Qed.

(** ** Times.  C252: setting one time leaves the other; if the operating system refuses nothing changes and an exception says so *)
Theorem set_time_other : forall ok t date t', 
  (f_set_atime ok t date = Ret t' -> t_mtime t' = t_mtime t /\ ok = true) /\ (f_set_mtime ok t date = Ret t' -> t_atime t' = t_atime t /\ ok = true) /\
  (ok = false -> f_set_atime ok t date = Throw /\ f_set_mtime ok t date = Throw).
Proof. intros ok t date t'. unfold f_set_atime, f_set_mtime, futimens. destruct ok; (split; [|split]); intros H; try discriminate; try (injection H as <-); auto. Qed.
(** the times read are those of the file in whole seconds, never later *)
Theorem time_reads : forall t, let a := f_atime (Some t) in let m := f_mtime (Some t) in
  a mod giga = 0 /\ a <= t_atime t < a + giga /\ m mod giga = 0 /\ m <= t_mtime t < m + giga.
Proof. intros t. cbv zeta. unfold f_atime, f_mtime, from_time_t, giga. rewrite !Z.mod_mul by lia. repeat split; try lia. Qed.
(** C253, refuted: after set_mtime with a time of whole seconds, mtime() is that time.  One second after 1970 becomes 2001: the count
    of nanoseconds is taken for one of seconds. *)
Theorem mtime_round_trip_refuted : exists t date t', date mod giga = 0 /\ f_set_mtime true t date = Ret t' /\ f_mtime (Some t') <> date /\ f_mtime (Some t') = 1000000000 * giga.
Proof. exists (Times 0 0), giga. eexists. split; [reflexivity|]. split; [reflexivity|]. split; [discriminate|reflexivity]. Qed.
(** exactly: the time read back is 10^9 times what was set, so that it is right for the start of 1970 only *)
Theorem time_round_trip_partial : forall t date, exists ta tm, f_set_atime true t date = Ret ta /\ f_set_mtime true t date = Ret tm /\
  f_atime (Some ta) = giga * date /\ f_mtime (Some tm) = giga * date /\ (f_mtime (Some tm) = date <-> date = 0) /\ (f_atime (Some ta) = date <-> date = 0).
Proof.
  intros t date. do 2 eexists. split; [reflexivity|]. split; [reflexivity|]. unfold f_atime, f_mtime, from_time_t. cbn [t_atime t_mtime fst snd]. rewrite Z.add_0_r, Z.div_mul by discriminate. unfold giga. repeat split; lia.
Qed.

(** ** Socket streams *)
Section Socket.
Context {S : Type} (conn : osfd S) (bs : nat) (Hbs : (0 < bs)%nat).
Lemma sock_read_eq : forall fuel s n to acc, sock_read_loop conn bs fuel s n to acc = sys_read_loop conn bs fuel s n to acc.
Proof. reflexivity. Qed.
Lemma sock_write_eq : forall fuel s b num, sock_write_loop conn bs fuel s b num = sys_write_loop conn bs fuel s b num.
Proof. reflexivity. Qed.
(** C254: a socket stream gives every byte received once and in order and sends what it takes, however the connection cuts it; the
    loops end *)
Theorem socket_stream : forall Inv inflow outflow, os_source conn Inv inflow -> os_sink conn Inv outflow ->
  source (sock_dev conn bs) (fun c => Inv (fst c)) (fun c => inflow (fst c)) /\ sink (sock_dev conn bs) (fun c => Inv (fst c)) (fun c => outflow (fst c)) /\
  forall s n b, Inv s -> (exists r, sock_read_loop conn bs (n + 1) s n n [] = Ret r) /\ (exists r, sock_write_loop conn bs (length b + 1) s b 0 = Ret r).
Proof.
  intros Inv inflow outflow SO SI. split; [|split].
  - destruct (sys_is_source S conn bs Inv inflow Hbs SO) as [A B]. split.
    + intros c n c' b I E. apply (A c n c' b I). cbn [d_read sock_dev sys_dev] in *. rewrite sock_read_eq in E. exact E.
    + exact B.
  - destruct (sys_is_sink S conn bs Inv outflow Hbs SI) as [A B]. split.
    + intros c b c' k I E. apply (A c b c' k I). cbn [d_write sock_dev sys_dev] in *. rewrite sock_write_eq in E. exact E.
    + exact B.
  - intros s n b I. rewrite sock_read_eq, sock_write_eq. destruct (sys_read_total S conn bs Inv inflow Hbs SO (n + 1) s n I ltac:(lia)) as (s1 & st & x & E). destruct (sys_write_total S conn bs Inv outflow Hbs SI (length b + 1) s b I ltac:(lia)) as (s2 & st2 & k & E2).
    unfold sys_read in E. unfold sys_write in E2. rewrite E, E2. eauto.
Qed.
End Socket.
(** C255, refuted: moving a socket stream moves its state: a stream that failed is ok afterwards, and a target that failed stays so *)
Theorem socket_move_state_refuted : exists a b c, s_st a = StFail /\ s_st (fst (sock_move a)) = StOk /\ s_st b = StFail /\ s_st c = StOk /\ s_h c <> -1 /\
  fst (sock_move_assign b c) = Sobj (s_h c) StFail.
Proof. exists (Sobj 3 StFail), (Sobj (-1) StFail), (Sobj 4 StOk). repeat split. discriminate. Qed.
(** what holds: the socket is moved, and the state with it where it is ok in both *)
Theorem socket_move_state_partial : forall a b, (let '(x, y) := sock_move a in s_h x = s_h a /\ s_h y = -1 /\ (s_st a = StOk -> s_st x = s_st a)) /\
  (let '(x, y) := sock_move_assign b a in s_h x = s_h a /\ s_h y = -1 /\ (s_st a = s_st b -> s_st x = s_st a)).
Proof. intros a b. cbn. auto 8. Qed.
(** not vacuous: a connection that gives at most two bytes at a time and takes at most m *)
Definition toy_conn (m : nat) : osfd (list Z * list Z) := {|
  os_read := fun s n => let b := firstn (Nat.min n 2) (fst s) in ((skipn (length b) (fst s), snd s), Some b);
  os_write := fun s b => ((fst s, snd s ++ firstn m b), Some (length (firstn m b)));
  os_lseek := fun s _ _ => (s, -1); os_ftruncate := fun s _ => (s, false); os_lockf := fun s _ _ => (s, false); os_fsync := fun s => (s, false) |}.
Lemma toy_conn_ok : forall m, (0 < m)%nat -> os_source (toy_conn m) (fun _ => True) fst /\ os_sink (toy_conn m) (fun _ => True) snd.
Proof.
  intros k Hk. split.
  - intros s n s' r _ E. cbn in E. injection E as <- <-. split; [exact Logic.I|]. cbn [fst]. set (m := Nat.min n 2). split; [|split].
    + transitivity (firstn m (fst s) ++ skipn m (fst s)); [symmetry; apply firstn_skipn|]. f_equal. rewrite firstn_length. destruct (Nat.le_ge_cases m (length (fst s))) as [L|L]; [rewrite Nat.min_l by auto; reflexivity|]. rewrite Nat.min_r, !skipn_all2 by auto. reflexivity.
    + rewrite firstn_length. lia.
    + intros K. apply (f_equal (@length Z)) in K. rewrite firstn_length in K. cbn in K. destruct (Nat.eq_dec n 0); auto. right. destruct (fst s); auto. cbn in K. lia.
  - intros s b s' r _ E. cbn in E. injection E as <- <-. split; [exact Logic.I|]. rewrite firstn_length. split; [lia|]. split.
    + intros N. destruct b; [congruence|]. cbn [length]. lia.
    + cbn [snd]. f_equal. destruct (Nat.le_ge_cases k (length b)); [rewrite Nat.min_l; auto|]. rewrite Nat.min_r, firstn_all, firstn_all2; auto.
Qed.
Example open_ex : let o := Os (fun n => if (n =? 0)%nat then Some [1; 2] else None) (fun _ => None) in
  (let '(o2, f, t) := f_open true true 3 o (Fobj (-1) StOk) 0 (3 + 64) in (files o2 0%nat, table o2 3, f, t)) = (Some [1; 2], Some (Ofd 0 2 true true), Fobj 3 StOk, false) /\
  (let '(o2, f, t) := f_open true true 3 o (Fobj (-1) StOk) 1 (2 + 24) in (files o2 1%nat, table o2 3, f, t)) = (Some [], Some (Ofd 1 0 false true), Fobj 3 StOk, false) /\
  (let '(o2, f, t) := f_open true true 3 o (Fobj (-1) StOk) 0 (2 + 24) in (files o2 0%nat, table o2 3, f, t)) = (Some [1; 2], None, Fobj (-1) StFail, false).
Proof. repeat split. Qed.
