(** Property C47: stream::fifo. *)
From Coq Require Import ZifyBool ZifyNat.
From Verif Require Import Base StreamModel StreamSpec StreamProps FifoModel.
Ltac Zify.zify_post_hook ::= Z.div_mod_to_equations.

(** what the queue holds *)
Definition pending (s : fifo) : list Z := skipn (ff_off s) (concat (ff_nodes s)).
(** the reading position is inside the first node; the size is that of the content *)
Definition fifo_inv (s : fifo) : Prop :=
  match ff_nodes s with [] => ff_off s = 0%nat | h :: _ => ff_off s = 0%nat \/ (ff_off s < length h)%nat end /\
  ff_size s = u64 (Z.of_nat (length (pending s))).

Lemma u64_eq : forall a b, a mod M64 = b mod M64 -> u64 a = u64 b.
Proof. auto. Qed.
Lemma loop_spec : forall nodes off size len n acc s' b, fifo_loop nodes off size len n acc = (s', b) -> (n <= len)%nat ->
  (match nodes with [] => off = 0%nat | h :: _ => off = 0%nat \/ (off < length h)%nat end) -> size = u64 (Z.of_nat (length (skipn off (concat nodes)))) ->
  fifo_inv s' /\ b = acc ++ firstn n (skipn off (concat nodes)) /\ pending s' = skipn n (skipn off (concat nodes)) /\
  ff_state s' = (if (length (skipn off (concat nodes)) =? 0)%nat && (n =? len)%nat && (0 <? len)%nat then StEof else StOk).
Proof.
  induction nodes as [|h r IH]; intros off size len n acc s' b E Hn Ho Hs; cbn [fifo_loop] in E.
  - injection E as <- <-. subst off. cbn [concat skipn length] in *. rewrite firstn_nil, app_nil_r, skipn_nil. unfold fifo_inv, pending. cbn [ff_nodes ff_off ff_size ff_state concat skipn length Nat.eqb andb]. repeat split; auto.
    destruct (n <? len)%nat eqn:Q1, (len =? 0)%nat eqn:Q2, (n =? len)%nat eqn:Q3, (0 <? len)%nat eqn:Q4; cbn; auto; lia.
  - assert (Hh : (off <= length h)%nat) by lia. cbn [concat] in *. assert (SK : skipn off (h ++ concat r) = skipn off h ++ concat r) by (rewrite skipn_app; replace (off - length h)%nat with 0%nat by lia; reflexivity). rewrite SK in *. rewrite app_length, skipn_length in *.
    destruct (n <? length h - off)%nat eqn:Q.
    + injection E as <- <-. rewrite firstn_app, skipn_length. replace (n - (length h - off))%nat with 0%nat by lia. cbn [firstn]. rewrite app_nil_r. unfold fifo_inv, pending. cbn [ff_nodes ff_off ff_size ff_state].
      assert (P : skipn (off + n) (concat (h :: r)) = skipn n (skipn off h ++ concat r)) by (cbn [concat]; rewrite <- SK, skipn_add; reflexivity). rewrite P. repeat split; auto.
      * right. lia.
      * rewrite skipn_length, app_length, skipn_length. subst size. unfold u64. lia.
      * replace (length h - off + length (concat r) =? 0)%nat with false by lia. reflexivity.
    + apply IH in E; try lia.
      * destruct E as (I' & -> & P & St). rewrite firstn_all2 in * by (rewrite skipn_length; lia). cbn [skipn] in *. split; auto. rewrite <- app_assoc. split; [f_equal; rewrite firstn_app, (firstn_all2 (skipn off h)) by (rewrite skipn_length; lia); rewrite skipn_length; auto|].
        split; [rewrite P, skipn_app, (skipn_all2 (skipn off h)) by (rewrite skipn_length; lia); rewrite skipn_length; auto|].
        rewrite St. destruct (Nat.eq_dec (length h - off) 0) as [Z0|NZ]; [rewrite Z0, Nat.sub_0_r; reflexivity|]. replace (n - (length h - off) =? len)%nat with false by lia. replace (length h - off + length (concat r) =? 0)%nat with false by lia. rewrite andb_false_r. reflexivity.
      * destruct r; auto.
      * cbn [skipn]. subst size. unfold u64. lia.
Qed.
Theorem fifo_source : forall g, source (fifo_dev g) fifo_inv pending.
Proof.
  intros g. split.
  - intros [nodes off size st] n s' b [I1 I2] E. cbn [fifo_dev d_read d_state] in *. unfold fifo_read in E. cbn [ff_nodes ff_off ff_size] in *. apply loop_spec in E; auto. destruct E as (I' & -> & P & St). cbn [app]. split; auto. unfold pending at 1 3. cbn [ff_off ff_nodes]. set (x := skipn off (concat nodes)) in *.
    split; [rewrite P, firstn_skipn; auto|]. split; [apply firstn_le_length|]. rewrite St. destruct (length x =? 0)%nat eqn:Q; cbn [andb].
    + assert (x = []) by (destruct x; auto; discriminate). destruct (0 <? n)%nat eqn:Q2; rewrite Nat.eqb_refl; cbn [andb]; [|lia]. rewrite H, firstn_nil. repeat split; auto. lia.
    + intros Hn F. destruct x; [discriminate|]. destruct n; [lia|discriminate].
  - intros s st [I1 I2]. cbn. repeat split; auto.
Qed.
Theorem fifo_never_fails : forall g, never_fails (fifo_dev g) fifo_inv.
Proof.
  intros g [nodes off size st] n [I1 I2]. cbn [fifo_dev d_read d_state]. unfold fifo_read. cbn [ff_nodes ff_off ff_size] in *. destruct (fifo_loop nodes off size n n []) as [s' b] eqn:E. apply loop_spec in E; auto. destruct E as (_ & _ & _ & St). cbn [fst]. rewrite St. destruct (_ && _); discriminate.
Qed.
Lemma write_spec : forall g s b s' k, fifo_inv s -> fifo_write g s b = (s', k) -> fifo_inv s' /\ pending s' = pending s ++ firstn k b /\ (g = true -> k = length b /\ ff_state s' = StOk) /\ (g = false -> k = 0%nat /\ ff_state s' = StFail).
Proof.
  intros g [nodes off size st] b s' k [I1 I2] E. unfold fifo_write in E. cbn [ff_nodes ff_off ff_size] in *. destruct g; injection E as <- <-.
  - rewrite firstn_all. assert (P : skipn off (concat (nodes ++ [b])) = skipn off (concat nodes) ++ b).
    { rewrite concat_app. cbn [concat]. rewrite app_nil_r, skipn_app. f_equal. replace (off - length (concat nodes))%nat with 0%nat; auto. destruct nodes as [|h r]; [lia|]. cbn [concat]. rewrite app_length. lia. }
    unfold fifo_inv, pending in *. cbn [ff_nodes ff_off ff_size ff_state] in *. rewrite P. repeat split; auto; try discriminate.
    + destruct nodes; cbn; auto.
    + rewrite app_length. subst size. unfold u64. lia.
  - cbn [firstn]. rewrite app_nil_r. repeat split; auto; discriminate.
Qed.
Theorem fifo_sink : forall g, sink (fifo_dev g) fifo_inv pending.
Proof.
  intros g. split.
  - intros s b s' k I E. cbn [fifo_dev d_write d_state] in *. destruct (write_spec g s b s' k I E) as (I' & P & A & B). split; auto. destruct g.
    + destruct (A eq_refl) as [-> _]. split; [lia|]. split; [exact P|]. auto.
    + destruct (B eq_refl) as [-> St]. split; [lia|]. split; [exact P|]. congruence.
  - intros s st [I1 I2]. cbn. repeat split; auto.
Qed.
Theorem fifo_always_writes : always_writes (fifo_dev true) fifo_inv.
Proof. intros s b I. reflexivity. Qed.
Theorem fifo_new_inv : fifo_inv fifo_new /\ pending fifo_new = [].
Proof. repeat split. Qed.

(** C47: whatever the history of reads and writes (and of refused allocations), the bytes delivered
    followed by the bytes pending are the bytes accepted, and size() is the number of bytes pending. *)
Theorem fifo_history : forall ops s i o, fifo_run ops fifo_new = (s, i, o) ->
  i = o ++ pending s /\ (Z.of_nat (length (pending s)) < M64 -> ff_size s = Z.of_nat (length (pending s))).
Proof.
  assert (G : forall ops s0 s i o, fifo_inv s0 -> fifo_run ops s0 = (s, i, o) -> pending s0 ++ i = o ++ pending s /\ fifo_inv s).
  { induction ops as [|[g b|n] r IH]; intros s0 s i o I E; cbn [fifo_run] in E.
    - injection E as <- <- <-. rewrite app_nil_r. auto.
    - destruct (fifo_write g s0 b) as [s1 k] eqn:E1. destruct (fifo_run r s1) as [[s2 i2] o2] eqn:E2. injection E as <- <- <-. destruct (write_spec g s0 b s1 k I E1) as (I1 & P & _). destruct (IH s1 s2 i2 o2 I1 E2) as [Q I2]. rewrite P in Q. rewrite app_assoc. auto.
    - destruct (fifo_read s0 n) as [s1 x] eqn:E1. destruct (fifo_run r s1) as [[s2 i2] o2] eqn:E2. injection E as <- <- <-. destruct (src_read _ _ _ (fifo_source true) s0 n s1 x I E1) as (I1 & L & _). destruct (IH s1 s2 i2 o2 I1 E2) as [Q I2]. rewrite L, <- !app_assoc, Q. auto. }
  intros ops s i o E. destruct (G ops fifo_new s i o (proj1 fifo_new_inv) E) as [Q [_ I]]. split; auto. intros H. rewrite I. apply u64_small. lia.
Qed.
(** eof is reported exactly when something is asked for and nothing is pending; otherwise as much as
    is pending is delivered. *)
Theorem fifo_read_exact : forall s n s' b, fifo_inv s -> fifo_read s n = (s', b) ->
  b = firstn n (pending s) /\ pending s' = skipn n (pending s) /\ (ff_state s' = StEof <-> (0 < n)%nat /\ pending s = []) /\ ff_state s' <> StFail.
Proof.
  intros [nodes off size st] n s' b [I1 I2] E. unfold fifo_read in E. cbn [ff_nodes ff_off ff_size] in *. apply loop_spec in E; auto. destruct E as (_ & -> & P & St). unfold pending at 1 3 4. cbn [ff_off ff_nodes app] in *. set (x := skipn off (concat nodes)) in *. split; auto. split; auto. rewrite St, Nat.eqb_refl, andb_true_r.
  destruct (length x =? 0)%nat eqn:Q, (0 <? n)%nat eqn:Q2; cbn [andb]; split; try discriminate; split; intros H; try discriminate; try tauto.
  - split; [lia|]. destruct x; auto; discriminate.
  - lia.
  - destruct H as [_ ->]. discriminate.
  - lia.
Qed.
(** Values written to the queue are read back (StreamProps), here for every queue that is empty. *)
Theorem fifo_data_round_trip : forall s width v init, fifo_inv s -> ff_state s = StOk -> pending s = [] -> (0 < width)%nat -> Z.of_nat width < M64 -> 0 <= v < 256 ^ Z.of_nat width ->
  exists s1 s2, write_data (fifo_dev true) s width v = Ret s1 /\ read_data (fifo_dev true) s1 width init = Ret (s2, v) /\ ff_state s2 = StOk /\ pending s2 = [].
Proof. intros. apply (data_round_trip (fifo_dev true) fifo_inv pending (fifo_source true) (fifo_sink true) (fifo_never_fails true) fifo_always_writes); auto. Qed.
Theorem fifo_str_round_trip : forall s width str init junk, fifo_inv s -> ff_state s = StOk -> pending s = [] -> (0 < width <= 8)%nat -> Z.of_nat (length str) < M32 -> Forall (fun c => 0 <= c < 256 ^ Z.of_nat width) str ->
  exists s1 s2, write_str (fifo_dev true) s width str = Ret s1 /\ read_str (fifo_dev true) s1 width init junk = Ret (s2, str) /\ ff_state s2 = StOk /\ pending s2 = [].
Proof. intros. apply (str_round_trip (fifo_dev true) fifo_inv pending (fifo_source true) (fifo_sink true) (fifo_never_fails true) fifo_always_writes); auto. Qed.
Example fifo_ex : fifo_run [FWrite true [1; 2; 3]; FRead 1; FWrite true []; FWrite false [9]; FWrite true [4]; FRead 9; FRead 1] fifo_new = (Fifo [] 0 0 StEof, [1; 2; 3; 4], [1; 2; 3; 4]).
Proof. vm_compute. reflexivity. Qed.
Print Assumptions fifo_history.
Print Assumptions fifo_str_round_trip.
