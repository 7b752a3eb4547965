(** The SHA-1 compression function of hash.hpp computes that of FIPS 180-4. *)
From Verif Require Import Base Bits HashModel HashSpec HashRounds.
From Coq Require Import ZifyBool ZifyNat.

Lemma list_set_length : forall l i v, (i < length l)%nat -> length (list_set l i v) = length l.
Proof. intros l i v H. unfold list_set. rewrite !app_length, firstn_length, skipn_length. cbn [length]. lia. Qed.
Lemma list_set_nth : forall l i v j, (i < length l)%nat -> nth j (list_set l i v) 0 = if Nat.eqb j i then v else nth j l 0.
Proof.
  intros l i v j H. unfold list_set. destruct (Nat.eqb_spec j i) as [->|N].
  - rewrite app_nth2; rewrite firstn_length; [|lia]. replace (i - Nat.min i (length l))%nat with O by lia. reflexivity.
  - destruct (Nat.lt_ge_cases j i) as [C|C].
    + rewrite app_nth1 by (rewrite firstn_length; lia). rewrite <- (firstn_skipn i l) at 2. rewrite app_nth1 by (rewrite firstn_length; lia). reflexivity.
    + rewrite app_nth2; rewrite firstn_length; [|lia]. rewrite app_nth2; [|cbn; lia].
      rewrite nth_skipn'. f_equal. cbn [length]. lia.
Qed.
Lemma list_set_word : forall l i v, wlist l -> is_word v -> (i < length l)%nat -> wlist (list_set l i v).
Proof.
  intros l i v Hl Hv H. unfold list_set, wlist in *. rewrite <- (firstn_skipn i l) in Hl. apply Forall_app in Hl. destruct Hl as [H1 H2].
  apply Forall_app. split; [exact H1|]. constructor; [exact Hv|]. rewrite <- (firstn_skipn (S i) l) in *.
  apply Forall_forall. intros x Hx. rewrite firstn_skipn in *. rewrite Forall_forall in H2. apply H2.
  assert (E : skipn i l = firstn 1 (skipn i l) ++ skipn (S i) l).
  { rewrite <- (firstn_skipn 1 (skipn i l)) at 1. f_equal. clear. revert l. induction i as [|i IH]; intros l; [reflexivity|]. destruct l; [reflexivity|]. cbn [skipn]. apply IH. }
  rewrite E. apply in_or_app. right. exact Hx.
Qed.

Lemma sched_length : forall n ws, length (sha1_schedule n ws) = (length ws + n)%nat.
Proof. induction n as [|n IH]; intros ws; cbn [sha1_schedule]; [lia|]. rewrite IH, app_length. cbn [length]. lia. Qed.
Lemma sched_prefix : forall n ws t, (t < length ws)%nat -> at_ (sha1_schedule n ws) t = at_ ws t.
Proof.
  induction n as [|n IH]; intros ws t H; cbn [sha1_schedule]; [reflexivity|]. rewrite IH by (rewrite app_length; lia).
  unfold at_. apply app_nth1. exact H.
Qed.
Lemma sched_rec : forall n ws t, (16 <= length ws)%nat -> (length ws <= t < length ws + n)%nat ->
  let S := sha1_schedule n ws in
  at_ S t = rotl (Z.lxor (Z.lxor (Z.lxor (at_ S (t - 3)) (at_ S (t - 8))) (at_ S (t - 14))) (at_ S (t - 16))) 1.
Proof.
  induction n as [|n IH]; intros ws t L H; [lia|]. cbn [sha1_schedule].
  set (v := rotl _ 1). set (ws' := ws ++ [v]).
  assert (L' : length ws' = S (length ws)) by (unfold ws'; rewrite app_length; cbn [length]; lia).
  destruct (Nat.eq_dec t (length ws)) as [->|N].
  - cbn zeta. rewrite !sched_prefix by lia. unfold ws', at_. rewrite app_nth2, Nat.sub_diag by lia. cbn [nth].
    rewrite !app_nth1 by lia. reflexivity.
  - apply IH; lia.
Qed.

Lemma sha1_word_ok : forall q k, length q = 64%nat -> Forall is_byte q -> (k < 16)%nat -> at_ (sha1_W q) k = sha1_word q k.
Proof.
  intros q k L F Hk. unfold sha1_W. rewrite sched_prefix by (rewrite map_length, seq_length; exact Hk).
  unfold at_. rewrite nth_indep with (d' := sha1_word q 0) by (rewrite map_length, seq_length; exact Hk).
  rewrite map_nth. rewrite seq_nth by exact Hk. reflexivity.
Qed.
Lemma sha1_word_word : forall q k, Forall is_byte q -> is_word (sha1_word q k).
Proof.
  intros q k F. unfold sha1_word. pose proof (nth_byte q (4 * k) F). pose proof (nth_byte q (4 * k + 1) F).
  pose proof (nth_byte q (4 * k + 2) F). pose proof (nth_byte q (4 * k + 3) F). unfold is_byte, is_word in *.
  change (2 ^ 8) with 256. change (2 ^ 16) with 65536. change (2 ^ 24) with 16777216. change (2 ^ 32) with M32. lia.
Qed.

Definition tinv (q : list Z) (k : nat) (t : list Z) : Prop :=
  length t = 16%nat /\ wlist t /\
  (forall u, (u < k)%nat -> (k <= u + 16)%nat -> nth (Nat.modulo u 16) t 0 = at_ (sha1_W q) u) /\
  (forall u, (k <= u < 16)%nat -> nth u t 0 = md5_word q u).

Lemma tinv_init : forall q, length q = 64%nat -> Forall is_byte q -> tinv q 0 (temp_of q).
Proof.
  intros q L F. split; [apply words_length|]. split; [|split; [intros; lia|]].
  - unfold wlist. apply Forall_forall. intros x Hx. apply (In_nth _ _ 0) in Hx. destruct Hx as (k & Hk & <-).
    unfold temp_of in Hk. rewrite words_length in Hk. rewrite temp_nth by auto. apply md5_word_word. exact F.
  - intros u Hu. apply temp_nth; [exact L|lia].
Qed.

Definition sha1_fetch (k : nat) (t : list Z) : Z * list Z := if Nat.ltb k 16 then sha1_blk0 t k else sha1_blk t k.
Lemma fetch_ok : forall q k t, length q = 64%nat -> Forall is_byte q -> (k < 80)%nat -> tinv q k t ->
  fst (sha1_fetch k t) = at_ (sha1_W q) k /\ tinv q (S k) (snd (sha1_fetch k t)).
Proof.
  intros q k t L F Hk (T1 & T2 & T3 & T4). unfold sha1_fetch. destruct (Nat.ltb_spec k 16) as [C|C].
  - unfold sha1_blk0. cbn [fst snd]. rewrite T4 by lia. set (v := Z.lor _ _).
    assert (Ev : v = at_ (sha1_W q) k).
    { rewrite sha1_word_ok by auto. unfold v, md5_word. rewrite swap_ok by (apply nth_byte; exact F). unfold sha1_word. reflexivity. }
    assert (Wv : is_word v) by (rewrite Ev, sha1_word_ok by auto; apply sha1_word_word; exact F).
    split; [exact Ev|]. split; [rewrite list_set_length; lia|]. split; [apply list_set_word; auto; lia|]. split.
    + intros u Hu1 Hu2. rewrite list_set_nth by lia. rewrite Nat.mod_small by lia. destruct (Nat.eqb_spec u k) as [->|N]; [exact Ev|].
      rewrite <- (T3 u) by lia. rewrite Nat.mod_small by lia. reflexivity.
    + intros u Hu. rewrite list_set_nth by lia. destruct (Nat.eqb_spec u k) as [->|N]; [lia|]. apply T4. lia.
  - unfold sha1_blk. cbn [fst snd]. set (v := rol32 _ 1).
    assert (Hget : forall d, (0 < d <= 16)%nat -> nth (Nat.modulo (k + (16 - d)) 16) t 0 = at_ (sha1_W q) (k - d)).
    { intros d Hd. rewrite <- T3 by lia. f_equal. replace (k + (16 - d))%nat with (k - d + 1 * 16)%nat by lia. apply Nat.mod_add. lia. }
    assert (Ev : v = at_ (sha1_W q) k).
    { unfold v. pose proof (Hget 3%nat ltac:(lia)) as G3. pose proof (Hget 8%nat ltac:(lia)) as G8. pose proof (Hget 14%nat ltac:(lia)) as G14.
      pose proof (Hget 16%nat ltac:(lia)) as G16.
      change (k + (16 - 3))%nat with (k + 13)%nat in G3. change (k + (16 - 8))%nat with (k + 8)%nat in G8. change (k + (16 - 14))%nat with (k + 2)%nat in G14.
      change (k + (16 - 16))%nat with (k + 0)%nat in G16. rewrite Nat.add_0_r in G16.
      rewrite rol32_rotl by (try lia; auto using lxor_word, wlist_nth). rewrite G3, G8, G14, G16.
      unfold sha1_W. symmetry. apply sched_rec; rewrite map_length, seq_length; lia. }
    assert (Wv : is_word v) by (unfold v; rewrite rol32_rotl by (try lia; auto using lxor_word, wlist_nth); apply rotl_word; [auto using lxor_word, wlist_nth|lia]).
    pose proof (Nat.mod_upper_bound k 16 ltac:(lia)) as Hm.
    split; [exact Ev|]. split; [rewrite list_set_length; lia|]. split; [apply list_set_word; auto; lia|]. split.
    + intros u Hu1 Hu2. rewrite list_set_nth by lia. destruct (Nat.eqb_spec (Nat.modulo u 16) (Nat.modulo k 16)) as [E|N].
      * assert (u = k); [|subst; exact Ev].
        pose proof (Nat.div_mod u 16 ltac:(lia)). pose proof (Nat.div_mod k 16 ltac:(lia)). lia.
      * apply T3; [|lia]. destruct (Nat.eq_dec u k) as [->|]; [contradiction|lia].
    + intros u Hu. lia.
Qed.

(* ---- rounds ---- *)
Definition sha1_perm (k : nat) : reg * reg * reg * reg * reg :=
  match Nat.modulo k 5 with
  | O => (Ra, Rb, Rc, Rd, Re) | 1%nat => (Re, Ra, Rb, Rc, Rd) | 2%nat => (Rd, Re, Ra, Rb, Rc)
  | 3%nat => (Rc, Rd, Re, Ra, Rb) | _ => (Rb, Rc, Rd, Re, Ra)
  end.
Definition sha1_view (k : nat) (s : regs) : Z * Z * Z * Z * Z :=
  let '(a, b, c, d, e) := sha1_perm k in (get a s, get b s, get c s, get d s, get e s).
Definition sha1_kind (k : nat) : sha1_round :=
  if Nat.ltb k 16 then Q0 else if Nat.ltb k 20 then Q1 else if Nat.ltb k 40 then Q2 else if Nat.ltb k 60 then Q3 else Q4.
Lemma sha1_ops_ok : sha1_ops = map (fun k => (sha1_kind k, sha1_perm k, k)) (seq 0 80).
Proof. vm_compute. reflexivity. Qed.
Definition wregs5 (s : regs) : Prop := is_word (ra s) /\ is_word (rb s) /\ is_word (rc s) /\ is_word (rd s) /\ is_word (re s).
Lemma sha1_fun_ok : forall k w x y, is_word w -> is_word x -> is_word y -> sha1_fun (sha1_kind k) w x y = sha1_f k w x y.
Proof.
  intros k w x y Hw Hx Hy. unfold sha1_kind, sha1_f.
  destruct (Nat.ltb_spec k 16); [destruct (Nat.ltb_spec k 20); [|lia]; apply sha1_ch; auto|].
  destruct (Nat.ltb_spec k 20); [apply sha1_ch; auto|].
  destruct (Nat.ltb_spec k 40); [reflexivity|]. destruct (Nat.ltb_spec k 60); [apply sha1_maj|reflexivity].
Qed.
Lemma sha1_const_ok : forall k, sha1_const (sha1_kind k) = sha1_K k.
Proof.
  intros k. unfold sha1_kind, sha1_K. destruct (Nat.ltb_spec k 16); [destruct (Nat.ltb_spec k 20); [reflexivity|lia]|].
  destruct (Nat.ltb_spec k 20), (Nat.ltb_spec k 40), (Nat.ltb_spec k 60); try lia; reflexivity.
Qed.
Lemma sha1_fetch_kind : forall k t, match sha1_kind k with Q0 => sha1_blk0 t k | _ => sha1_blk t k end = sha1_fetch k t.
Proof. intros. unfold sha1_kind, sha1_fetch. destruct (Nat.ltb k 16), (Nat.ltb k 20), (Nat.ltb k 40), (Nat.ltb k 60); reflexivity. Qed.
Lemma sha1_sum : forall z f bl c r, u32 (z + u32 (f + bl + c + r)) = (r + f + z + c + bl) mod 2 ^ 32.
Proof. intros. unfold u32. change M32 with (2 ^ 32). rewrite Z.add_mod_idemp_r by lia. f_equal. lia. Qed.

Lemma sha1_exec_ok : forall q k t s, length q = 64%nat -> Forall is_byte q -> (k < 80)%nat -> tinv q k t -> wregs5 s ->
  let '(t', s') := sha1_exec (t, s) (sha1_kind k, sha1_perm k, k) in
  sha1_view (S k) s' = sha1_step (sha1_W q) (sha1_view k s) k /\ wregs5 s' /\ tinv q (S k) t'.
Proof.
  intros q k t s L F Hk T (Wa & Wb & Wc & Wd & We).
  destruct (fetch_ok q k t L F Hk T) as [F1 F2]. unfold sha1_exec. rewrite sha1_fetch_kind.
  destruct (sha1_fetch k t) as [bl t']. cbn [fst snd] in F1, F2. subst bl. unfold sha1_view, sha1_perm.
  assert (M5 : Nat.modulo (S k) 5 = Nat.modulo (S (Nat.modulo k 5)) 5).
  { change (S k) with (1 + k)%nat. change (S (Nat.modulo k 5)) with (1 + Nat.modulo k 5)%nat. rewrite Nat.add_mod_idemp_r by lia. reflexivity. }
  rewrite M5. pose proof (Nat.mod_upper_bound k 5 ltac:(lia)) as Hm.
  destruct (Nat.modulo k 5) as [|[|[|[|[|x]]]]]; try lia;
    (change (Nat.modulo (S 0) 5) with 1%nat || change (Nat.modulo 2 5) with 2%nat || change (Nat.modulo 3 5) with 3%nat || change (Nat.modulo 4 5) with 4%nat || change (Nat.modulo 5 5) with 0%nat);
    cbn [get set ra rb rc rd re]; rewrite sha1_fun_ok by auto; rewrite sha1_const_ok; rewrite !rol32_rotl by (auto; lia); rewrite sha1_sum;
    unfold sha1_step; (split; [reflexivity|]); (split; [|exact F2]); unfold wregs5; cbn [ra rb rc rd re];
    (repeat split; auto); try (apply rotl_word; [auto|lia]); try (apply Z.mod_pos_bound; lia); try (apply rotl_word; auto; lia);
    try (unfold is_word in *; tauto).
Qed.
Lemma sha1_fold_ok : forall q n k t s, length q = 64%nat -> Forall is_byte q -> (k + n <= 80)%nat -> tinv q k t -> wregs5 s ->
  let '(t', s') := fold_left sha1_exec (map (fun k => (sha1_kind k, sha1_perm k, k)) (seq k n)) (t, s) in
  sha1_view (k + n) s' = fold_left (sha1_step (sha1_W q)) (seq k n) (sha1_view k s) /\ wregs5 s' /\ tinv q (k + n) t'.
Proof.
  intros q n. induction n as [|n IH]; intros k t s L F Hk T W; cbn [seq map fold_left].
  - rewrite Nat.add_0_r. auto.
  - pose proof (sha1_exec_ok q k t s L F ltac:(lia) T W) as E. destruct (sha1_exec (t, s) (sha1_kind k, sha1_perm k, k)) as [t1 s1].
    destruct E as (E & W' & T'). rewrite <- E. replace (k + S n)%nat with (S k + n)%nat by lia. apply IH; auto; lia.
Qed.

Lemma sha1_block_ok : forall st q, wlist st -> length q = 64%nat -> Forall is_byte q ->
  fst (sha1_block st q) = sha1_compress st q /\ wlist (sha1_compress st q).
Proof.
  intros st q W L F. unfold sha1_block, sha1_compress. rewrite sha1_ops_ok.
  pose proof (sha1_fold_ok q 80 0 (temp_of q) (mkregs (nth 0 st 0) (nth 1 st 0) (nth 2 st 0) (nth 3 st 0) (nth 4 st 0)) L F ltac:(lia) (tinv_init q L F)) as E.
  destruct (fold_left sha1_exec _ _) as [t' w]. destruct E as (E & _ & _).
  { repeat split; apply wlist_nth; exact W. }
  change (sha1_view 0 (mkregs (nth 0 st 0) (nth 1 st 0) (nth 2 st 0) (nth 3 st 0) (nth 4 st 0))) with (at_ st 0, at_ st 1, at_ st 2, at_ st 3, at_ st 4) in E.
  rewrite <- E. change (sha1_view (0 + 80) w) with (ra w, rb w, rc w, rd w, re w). cbn [fst]. split; [reflexivity|].
  unfold wlist. repeat constructor; apply u32_range || (unfold is_word; apply Z.mod_pos_bound; lia).
Qed.

(* the queue keeps its 64 bytes whatever it holds *)
Lemma sha1_exec_len : forall st o, length (fst st) = 16%nat -> (let '(_, _, i) := o in (i < 16)%nat \/ let '(r, _, _) := o in r <> Q0) ->
  length (fst (sha1_exec st o)) = 16%nat.
Proof.
  intros [t s] [[r [[[[v w] x] y] z]] i] L H. unfold sha1_exec. cbn [fst] in L.
  pose proof (Nat.mod_upper_bound i 16 ltac:(lia)). destruct r; unfold sha1_blk0, sha1_blk; cbn [fst]; rewrite list_set_length; try lia.
  destruct H as [H|H]; [lia|congruence].
Qed.
Lemma sha1_fold_len : forall ops st, length (fst st) = 16%nat ->
  Forall (fun o => let '(r, _, i) := o in r = Q0 -> (i < 16)%nat) ops -> length (fst (fold_left sha1_exec ops st)) = 16%nat.
Proof.
  induction ops as [|o ops IH]; intros st L F; [exact L|]. inversion F as [|? ? F1 F2]; subst. cbn [fold_left]. apply IH; [|exact F2].
  apply sha1_exec_len; [exact L|]. destruct o as [[r p] i]. destruct r; [left; auto|right; discriminate..].
Qed.
Lemma sha1_block_len : forall st q, length (snd (sha1_block st q)) = 64%nat.
Proof.
  intros st q. unfold sha1_block.
  pose proof (sha1_fold_len sha1_ops (temp_of q, mkregs (nth 0 st 0) (nth 1 st 0) (nth 2 st 0) (nth 3 st 0) (nth 4 st 0)) (words_length 16 q)) as E.
  destruct (fold_left sha1_exec sha1_ops _) as [t w]. cbn [fst snd] in *. unfold queue_of.
  assert (L4 : forall l, length (flat_map le_bytes l) = (4 * length l)%nat) by (induction l as [|a l IHl]; [reflexivity|]; cbn [flat_map]; rewrite app_length, IHl; cbn [length le_bytes]; lia).
  rewrite L4, E; [lia|]. rewrite sha1_ops_ok. apply Forall_forall. intros o Ho. apply in_map_iff in Ho. destruct Ho as (k & <- & _).
  unfold sha1_kind. destruct (Nat.ltb_spec k 16); [auto|]. destruct (Nat.ltb k 20), (Nat.ltb k 40), (Nat.ltb k 60); discriminate.
Qed.
