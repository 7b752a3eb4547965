(** Properties C51, C52, C94-C98: file_window and cache. *)
From Coq Require Import ZifyBool ZifyNat.
From Verif Require Import Base StreamModel StreamProps MemFileModel FileConvModel FileConvSpec.
Ltac Zify.zify_post_hook ::= Z.div_mod_to_equations.

Ltac conj := repeat (match goal with |- _ /\ _ => split end); auto.

Theorem array_plain : plain_file array_file (fun s => fst (fst s)).
Proof.
  split.
  - intros [[d p] st] n s' b E. cbn [array_file f_read f_tell f_state fst] in *. injection E as <- <-. auto.
  - intros [[d p] st] b s' k E. cbn [array_file f_write f_tell f_state fst] in *. injection E as <- <-. auto.
  - intros [[d p] st] q. auto.
  - intros [[d p] st]. auto.
  - intros [[d p] st]. auto.
Qed.

(** ** lists by their elements *)
Lemma list_ext : forall a b : list Z, length a = length b -> (forall i, (i < length a)%nat -> nth i a 0 = nth i b 0) -> a = b.
Proof. intros. apply (nth_ext a b 0 0); auto. Qed.
Lemma nth_first : forall (l : list Z) n i, nth i (firstn n l) 0 = if (i <? n)%nat then nth i l 0 else 0.
Proof.
  induction l; intros n i; [rewrite firstn_nil; destruct i, (_ <? _)%nat; auto|]. destruct n; [destruct i; auto|]. cbn [firstn]. destruct i; auto. cbn [nth]. rewrite IHl. auto.
Qed.
Lemma nth_skip : forall (l : list Z) n i, nth i (skipn n l) 0 = nth (n + i) l 0.
Proof. induction l; intros n i; [rewrite skipn_nil; destruct i, (n + _)%nat; auto|]. destruct n; auto. cbn [skipn Nat.add nth]. apply IHl. Qed.
Lemma nth_app : forall (a b : list Z) i, nth i (a ++ b) 0 = if (i <? length a)%nat then nth i a 0 else nth (i - length a) b 0.
Proof. intros. destruct (i <? length a)%nat eqn:E; [apply app_nth1; lia|apply app_nth2; lia]. Qed.
Lemma nth_zero : forall n i, nth i (repeat 0 n) 0 = 0.
Proof. intros. apply nth_repeat. Qed.
Lemma nth_over : forall (l : list Z) i, (length l <= i)%nat -> nth i l 0 = 0.
Proof. intros. apply nth_overflow. auto. Qed.
Lemma store_length : forall d p b, (p <= length d)%nat -> length (store_at d p b) = Nat.max (length d) (p + length b).
Proof. intros. unfold store_at. destruct b; [cbn; lia|]. rewrite !app_length, repeat_length, firstn_length, skipn_length. lia. Qed.
Lemma store_nth : forall d p b i, (p <= length d)%nat -> nth i (store_at d p b) 0 = if (p <=? i)%nat && (i <? p + length b)%nat then nth (i - p) b 0 else nth i d 0.
Proof.
  intros d p b i H. unfold store_at. destruct b as [|x b].
  - cbn [length]. replace ((p <=? i)%nat && (i <? p + 0)%nat) with false by lia. auto.
  - set (y := x :: b) in *. clearbody y. rewrite !nth_app, nth_first, nth_skip, nth_zero, firstn_length, repeat_length.
    repeat match goal with |- context [if ?c then _ else _] => destruct c eqn:? end; try lia; f_equal; lia.
Qed.
Lemma put_length : forall d p b, (p + length b <= length d)%nat -> length (put d p b) = length d.
Proof. intros. unfold put. rewrite !app_length, firstn_length, skipn_length. lia. Qed.
Lemma put_nth : forall d p b i, (p + length b <= length d)%nat -> nth i (put d p b) 0 = if (p <=? i)%nat && (i <? p + length b)%nat then nth (i - p) b 0 else nth i d 0.
Proof.
  intros d p b i H. unfold put. rewrite !nth_app, nth_first, nth_skip, firstn_length.
  repeat match goal with |- context [if ?c then _ else _] => destruct c eqn:? end; try lia; f_equal; lia.
Qed.
Lemma seg_len : forall (l : list Z) n p, length (firstn n (skipn p l)) = Nat.min n (length l - p).
Proof. intros. rewrite firstn_length, skipn_length. auto. Qed.
Lemma seg_nth : forall (l : list Z) n p i, nth i (firstn n (skipn p l)) 0 = if (i <? n)%nat then nth (p + i) l 0 else 0.
Proof. intros. rewrite nth_first, nth_skip. auto. Qed.
Lemma seg_cut : forall (l : list Z) a b p, (a <= b)%nat -> firstn b (skipn p l) = firstn a (skipn p l) ++ firstn (b - a) (skipn (p + a) l).
Proof.
  intros. rewrite <- skipn_add. rewrite <- (firstn_skipn a (firstn b (skipn p l))). rewrite firstn_firstn, skipn_firstn_comm. f_equal. f_equal. lia.
Qed.
Lemma store_twice : forall d p a b, (p <= length d)%nat -> store_at (store_at d p a) (p + length a) b = store_at d p (a ++ b).
Proof.
  intros. apply list_ext.
  - rewrite !store_length; auto; rewrite ?store_length, ?app_length; auto; lia.
  - intros i _. rewrite !store_nth; auto; rewrite ?store_length; auto; [|lia]. rewrite nth_app, app_length.
    repeat match goal with |- context [if ?c then _ else _] => destruct c eqn:? end; try lia; f_equal; lia.
Qed.

Section Cache.
Context {S : Type} (F : fdev S) (content : S -> list Z) (PF : plain_file F content).

(** The cache shows a file with content L. *)
Definition shows (c : cache) (L : list Z) : Prop :=
  (0 < ca_cap c)%nat /\ length (ca_data c) = ca_cap c /\
  match ca_status c with
  | CEmpty => content (ca_src c) = L
  | x =>
      (ca_start c mod ca_cap c = 0)%nat /\ (ca_start c <= length (content (ca_src c)))%nat /\ ca_end c = Nat.min (ca_start c + ca_cap c) (length L) /\
      (ca_start c <= length L)%nat /\
      (forall i, (ca_start c <= i < ca_end c)%nat -> nth (i - ca_start c) (ca_data c) 0 = nth i L 0) /\
      match x with
      | CDirty => length L = Nat.max (length (content (ca_src c))) (ca_end c) /\
                  (forall i, (i < length (content (ca_src c)))%nat -> ~ (ca_start c <= i < ca_end c)%nat -> nth i (content (ca_src c)) 0 = nth i L 0)
      | _ => content (ca_src c) = L
      end
  end.
Definition clean (c : @cache S) : Prop := ca_status c <> CDirty.

Lemma shows_set : forall c L st, shows c L -> shows (ca_set c st) L.
Proof. intros [] L st H. exact H. Qed.
Lemma shows_go : forall c L p, shows c L -> shows (ca_go c p) L.
Proof. intros [] L st H. exact H. Qed.
Lemma shows_clean : forall c L, shows c L -> clean c -> content (ca_src c) = L.
Proof. intros c L (_ & _ & H) C. unfold clean in C. destruct (ca_status c); try congruence; apply H. Qed.

Lemma flush_ok : forall c L, shows c L -> let c' := flush_cache F c in
  shows c' L /\ clean c' /\ ca_st c' = StOk /\ ca_off c' = ca_off c /\ ca_cap c' = ca_cap c /\ ca_start c' = ca_start c /\ ca_end c' = ca_end c /\
  ca_data c' = ca_data c /\ is_empty (ca_status c') = is_empty (ca_status c).
Proof.
  intros [src st off cap x start en data] L H. unfold flush_cache. cbn [ca_status ca_start ca_end]. destruct x.
  - cbn. repeat split; auto; try discriminate; apply H.
  - cbn. repeat split; auto; try discriminate; apply H.
  - destruct H as (Hc & Hd & Hm & Hs & He & Hl & Hn & HL & Hr). cbn [ca_cap ca_data ca_start ca_end ca_src] in *. destruct (start <? en)%nat eqn:Q.
    + unfold write_cache. cbn [ca_src ca_start ca_end ca_data ca_off ca_cap ca_status]. destruct (pf_seek _ _ PF src start) as (C1 & T1 & St1). destruct (f_write F (f_seek F src start) (firstn (en - start) data)) as [s2 k] eqn:E.
      apply (pf_write _ _ PF) in E. destruct E as (C2 & -> & T2 & St2). cbv zeta. cbn [ca_st]. rewrite St2. cbn [is_ok ca_mark ca_st ca_off ca_cap ca_start ca_end ca_data ca_status ca_src is_empty].
      assert (content s2 = L).
      { rewrite C2, C1, T1. apply list_ext.
        - rewrite store_length by lia. rewrite firstn_length. lia.
        - intros i Hi. rewrite store_length in Hi by lia. rewrite firstn_length in Hi. rewrite store_nth by lia. rewrite firstn_length, nth_first. destruct ((start <=? i)%nat && (i <? start + Nat.min (en - start) (length data))%nat) eqn:Q2.
          + replace (i - start <? en - start)%nat with true by lia. apply Hn. lia.
          + apply Hr; lia. }
      split; [|repeat split; auto; discriminate].
      split; [auto|]. split; [auto|]. cbn [ca_mark ca_set ca_status ca_start ca_cap ca_src ca_end ca_data]. rewrite H. repeat split; auto.
    + cbv zeta. cbn [ca_mark ca_set ca_st ca_off ca_cap ca_start ca_end ca_data ca_status ca_src is_empty]. split; [|repeat split; auto; discriminate]. split; auto. split; auto. cbn [ca_mark ca_set ca_status ca_start ca_cap ca_src ca_end ca_data].
      assert (content src = L). { apply list_ext; [lia|]. intros i Hi. apply Hr; lia. }
      rewrite H. repeat split; auto.
Qed.
Lemma load_raw : forall c L, (0 < ca_cap c)%nat -> length (ca_data c) = ca_cap c -> content (ca_src c) = L -> (ca_off c <= length L)%nat -> let c' := load_cache F c (ca_off c) in
  shows c' L /\ clean c' /\ ca_st c' = StOk /\ ca_off c' = ca_off c /\ ca_cap c' = ca_cap c /\ (ca_start c' <= ca_off c < ca_start c' + ca_cap c)%nat /\
  ca_end c' = Nat.min (ca_start c' + ca_cap c) (length L) /\ ca_status c' = CLoaded /\ ca_start c' = (ca_off c - ca_off c mod ca_cap c)%nat.
Proof.
  intros c L Hc Hd HC Ho. unfold load_cache. set (start := (ca_off c - ca_off c mod ca_cap c)%nat). destruct (pf_seek _ _ PF (ca_src c) start) as (C1 & T1 & St1). rewrite St1. cbn [is_ok].
  destruct (f_read F (f_seek F (ca_src c) start) (ca_cap c)) as [s2 b] eqn:E. apply (pf_read _ _ PF) in E. destruct E as (Eb & C2 & T2 & _). rewrite T1, C1, HC in Eb. rewrite C1, HC in C2.
  assert (Hm : (ca_off c mod ca_cap c < ca_cap c)%nat) by (apply Nat.mod_upper_bound; lia). assert (Hle : (ca_off c mod ca_cap c <= ca_off c)%nat) by (apply Nat.mod_le; lia).
  assert (Lb : length b = Nat.min (ca_cap c) (length L - start)) by (rewrite Eb; apply seg_len).
  assert (Hal : (start mod ca_cap c = 0)%nat). { unfold start. rewrite (Nat.div_mod (ca_off c) (ca_cap c)) at 1 by lia. rewrite Nat.add_sub, Nat.mul_comm. apply Nat.mod_mul. lia. }
  cbn [ca_st ca_off ca_cap ca_start ca_end ca_data ca_status ca_src]. split; [|repeat split; auto; unfold clean; cbn; try discriminate; lia].
  split; [auto|]. split; [cbn [ca_data ca_cap]; rewrite put_length; lia|]. cbn [ca_mark ca_set ca_status ca_start ca_cap ca_src ca_end ca_data]. rewrite C2. repeat split; auto; try lia.
  intros i Hi. rewrite put_nth by lia. replace ((0 <=? i - start)%nat && (i - start <? 0 + length b)%nat) with true by lia. rewrite Nat.sub_0_r, Eb, seg_nth. replace (i - start <? ca_cap c)%nat with true by lia. f_equal. lia.
Qed.
Lemma load_ok : forall c L, shows c L -> clean c -> (ca_off c <= length L)%nat -> let c' := load_cache F c (ca_off c) in
  shows c' L /\ clean c' /\ ca_st c' = StOk /\ ca_off c' = ca_off c /\ ca_cap c' = ca_cap c /\ (ca_start c' <= ca_off c < ca_start c' + ca_cap c)%nat /\
  ca_end c' = Nat.min (ca_start c' + ca_cap c) (length L) /\ ca_status c' = CLoaded /\ ca_start c' = (ca_off c - ca_off c mod ca_cap c)%nat.
Proof. intros c L H C Ho. apply load_raw; auto; [apply H|apply H|apply (shows_clean c L H C)]. Qed.

(** *** reading *)
Definition r_load (f : nat) (c : cache) (len to_read : nat) (acc : list Z) : outcome (cache * list Z) :=
  let c1 := load_cache F c (ca_off c) in
  if negb (is_ok (ca_st c1)) then Ret (ca_set c1 (ok_if (to_read <? len)%nat StFail), acc)
  else if (ca_end c1 <=? ca_off c1)%nat then Ret (ca_set c1 (ok_if (to_read <? len)%nat StEof), acc)
  else cache_read_loop F f c1 len to_read acc.
Definition r_direct (f : nat) (c : cache) (len to_read : nat) (acc : list Z) : outcome (cache * list Z) :=
  let end_max := (ca_off c + to_read)%nat in
  if (ca_off c / ca_cap c <? end_max / ca_cap c)%nat then
    let s1 := f_seek F (ca_src c) (ca_off c) in
    let c1 := Cache s1 (ca_st c) (ca_off c) (ca_cap c) (ca_status c) (ca_start c) (ca_end c) (ca_data c) in
    if negb (is_ok (f_state F s1)) then Ret (ca_set c1 (ok_if (to_read <? len)%nat StFail), acc)
    else
      let '(s2, b) := f_read F s1 (to_read - end_max mod ca_cap c) in
      let c2 := Cache s2 (ca_st c) (ca_off c + length b) (ca_cap c) (ca_status c) (ca_start c) (ca_end c) (ca_data c) in
      let to2 := (to_read - length b)%nat in
      if (to2 =? 0)%nat then Ret (ca_set c2 StOk, acc ++ b)
      else
        let c3 := ca_set c2 (f_state F s2) in
        if negb (is_ok (f_state F s2)) then Ret (ca_set c3 (ok_if (to2 <? len)%nat (f_state F s2)), acc ++ b)
        else r_load f c3 len to2 (acc ++ b)
  else r_load f c len to_read acc.
Definition r_flush (f : nat) (c : cache) (len to_read : nat) (acc : list Z) : outcome (cache * list Z) :=
  let c1 := flush_cache F c in
  if negb (is_ok (ca_st c1)) then Ret (ca_set c1 (ok_if (to_read <? len)%nat (ca_st c1)), acc) else r_direct f c1 len to_read acc.
Lemma read_loop_eq : forall f c len to_read acc, cache_read_loop F (Datatypes.S f) c len to_read acc =
  if is_empty (ca_status c) then r_direct f c len to_read acc
  else if (ca_start c <=? ca_off c)%nat && (ca_off c <? ca_end c)%nat then
    let remaining := (ca_end c - ca_off c)%nat in
    if (to_read <=? remaining)%nat then
      Ret (ca_set (ca_go c (ca_off c + to_read)) StOk, acc ++ firstn to_read (skipn (ca_off c - ca_start c) (ca_data c)))
    else r_flush f (ca_go c (ca_off c + remaining)) len (to_read - remaining)%nat (acc ++ firstn remaining (skipn (ca_off c - ca_start c) (ca_data c)))
  else r_flush f c len to_read acc.
Proof. reflexivity. Qed.

(** what a read of [to] more bytes, of [len] asked for, must do *)
Definition read_goal (c : @cache S) (L : list Z) (len to : nat) (acc : list Z) (r : outcome (cache * list Z)) : Prop :=
  exists c' b, r = Ret (c', acc ++ b) /\ b = firstn to (skipn (ca_off c) L) /\ shows c' L /\ ca_cap c' = ca_cap c /\ ca_off c' = (ca_off c + length b)%nat /\
    ca_st c' = ok_if (to - length b <? len)%nat StEof.

Lemma cached_seg : forall c L n, shows c L -> ca_status c <> CEmpty -> (ca_start c <= ca_off c)%nat -> (ca_off c + n <= ca_end c)%nat ->
  firstn n (skipn (ca_off c - ca_start c) (ca_data c)) = firstn n (skipn (ca_off c) L).
Proof.
  intros c L n (Hc & Hd & H) Hx H1 H2. assert (HH : ca_end c = Nat.min (ca_start c + ca_cap c) (length L) /\ (forall i, (ca_start c <= i < ca_end c)%nat -> nth (i - ca_start c) (ca_data c) 0 = nth i L 0)) by (destruct (ca_status c); try congruence; destruct H as (_ & _ & H3 & _ & H4 & _); auto).
  destruct HH as [He Hn]. apply list_ext; [rewrite !seg_len; lia|]. intros i Hi. rewrite seg_len in Hi. rewrite !seg_nth. replace (i <? n)%nat with true by lia. rewrite <- Hn by lia. f_equal. lia.
Qed.
Lemma block_of : forall a cap start, (0 < cap)%nat -> (start mod cap = 0)%nat -> (start <= a < start + cap)%nat -> (a / cap = start / cap)%nat /\ (a - a mod cap = start)%nat.
Proof.
  intros a cap start Hc Hm H. pose proof (Nat.div_mod start cap ltac:(lia)) as D. rewrite Hm, Nat.add_0_r in D. set (q := (start / cap)%nat) in *.
  assert (a / cap = q)%nat. { symmetry. apply (Nat.div_unique a cap q (a - start)); lia. } split; auto. rewrite Nat.mod_eq by lia. rewrite H0. lia.
Qed.

Lemma load_miss : forall f c L len to acc, shows c L -> clean c -> (0 < len)%nat -> ca_off c = length L -> read_goal c L len to acc (r_load f c len to acc).
Proof.
  intros f c L len to acc H C Hl Ho. unfold r_load. destruct (load_ok c L H C ltac:(lia)) as (H1 & C1 & St1 & O1 & K1 & B1 & E1 & X1 & S1). rewrite St1. cbn [is_ok negb].
  replace (ca_end (load_cache F c (ca_off c)) <=? ca_off (load_cache F c (ca_off c)))%nat with true by lia. eexists _, []. rewrite app_nil_r. split; [reflexivity|]. rewrite skipn_all2 by lia. rewrite firstn_nil.
  split; auto. split; [apply shows_set; auto|]. cbn [length]. rewrite Nat.sub_0_r. unfold ca_set. cbn. repeat split; auto; lia.
Qed.
(** once the block is in the cache, one more round does it *)
Lemma loop_hit : forall f c L len to acc, shows c L -> ca_status c = CLoaded -> (0 < len)%nat -> (ca_start c <= ca_off c < ca_end c)%nat -> (ca_off c + to < ca_start c + ca_cap c)%nat ->
  read_goal c L len to acc (cache_read_loop F (Datatypes.S f) c len to acc).
Proof.
  intros f c L len to acc H X Hl Ho Hf. rewrite read_loop_eq, X. cbn [is_empty]. replace ((ca_start c <=? ca_off c)%nat && (ca_off c <? ca_end c)%nat) with true by lia. cbv zeta.
  assert (HE : ca_end c = Nat.min (ca_start c + ca_cap c) (length L) /\ (ca_start c mod ca_cap c = 0)%nat /\ (0 < ca_cap c)%nat) by (destruct H as (? & _ & H); rewrite X in H; destruct H as (? & _ & ? & _); auto). destruct HE as (He & Hm & Hcap).
  destruct (to <=? ca_end c - ca_off c)%nat eqn:Q.
  - rewrite (cached_seg c L to H) by (rewrite ?X; try discriminate; lia). eexists _, _. split; [reflexivity|]. split; auto. split; [apply shows_set, shows_go; auto|]. rewrite seg_len. cbn [ca_set ca_go ca_cap ca_off ca_st]. split; auto. split; [lia|]. replace (to - Nat.min to (length L - ca_off c))%nat with 0%nat by lia. replace (0 <? len)%nat with true by lia. auto.
  - set (rm := (ca_end c - ca_off c)%nat) in *. rewrite (cached_seg c L rm H) by (rewrite ?X; try discriminate; lia). set (c1 := ca_go c (ca_off c + rm)). assert (H1 : shows c1 L) by (apply shows_go; auto).
    unfold r_flush. destruct (flush_ok c1 L H1) as (H2 & C2 & St2 & O2 & K2 & S2 & E2 & D2 & X2). cbv zeta in *. rewrite St2. cbn [is_ok negb]. unfold r_direct.
    assert (O2' : ca_off (flush_cache F c1) = length L) by (rewrite O2; unfold c1, ca_go; cbn; lia). rewrite O2', K2.
    destruct (block_of (length L) (ca_cap c) (ca_start c) Hcap Hm) as [B1 _]; [lia|]. destruct (block_of (length L + (to - rm)) (ca_cap c) (ca_start c) Hcap Hm) as [B2 _]; [lia|]. replace (ca_cap c1) with (ca_cap c) by reflexivity. rewrite B1, B2, Nat.ltb_irrefl.
    destruct (load_miss f (flush_cache F c1) L len (to - rm) (acc ++ firstn rm (skipn (ca_off c) L)) H2 C2 Hl O2') as (c' & b & E & Eb & H' & K' & O' & St'). rewrite E.
    rewrite O2', skipn_all2, firstn_nil in Eb by lia. subst b. rewrite app_nil_r in *. exists c', (firstn rm (skipn (ca_off c) L)). cbn [length] in *.
    assert (FE : firstn to (skipn (ca_off c) L) = firstn rm (skipn (ca_off c) L)) by (rewrite !firstn_all2 by (rewrite skipn_length; lia); auto).
    rewrite seg_len. split; auto. split; auto. split; auto. split; [rewrite K', K2; reflexivity|]. split; [lia|]. rewrite St'. f_equal. f_equal. lia.
Qed.
Lemma load_fits : forall f c L len to acc, shows c L -> clean c -> (0 < len)%nat -> (ca_off c <= length L)%nat -> (ca_off c + to < ca_off c - ca_off c mod ca_cap c + ca_cap c)%nat ->
  read_goal c L len to acc (r_load (Datatypes.S f) c len to acc).
Proof.
  intros f c L len to acc H C Hl Ho Hf. destruct (Nat.eq_dec (ca_off c) (length L)) as [E|N]; [apply load_miss; auto|].
  unfold r_load. destruct (load_ok c L H C Ho) as (H1 & C1 & St1 & O1 & K1 & B1 & E1 & X1 & S1). rewrite St1. cbn [is_ok negb]. replace (ca_end _ <=? ca_off _)%nat with false by lia.
  destruct (loop_hit f (load_cache F c (ca_off c)) L len to acc H1 X1 Hl) as (c' & b & E & Eb & H' & K' & O' & St'); try lia. exists c', b. rewrite O1, K1 in *. conj.
Qed.
Lemma direct_ok : forall f c L len to acc, shows c L -> clean c -> (0 < len)%nat -> (ca_off c <= length L)%nat -> read_goal c L len to acc (r_direct (Datatypes.S f) c len to acc).
Proof.
  intros f c L len to acc H C Hl Ho. pose proof (shows_clean c L H C) as HC. assert (Hcap : (0 < ca_cap c)%nat) by apply H. unfold r_direct. destruct (ca_off c / ca_cap c <? (ca_off c + to) / ca_cap c)%nat eqn:Q.
  - destruct (pf_seek _ _ PF (ca_src c) (ca_off c)) as (C1 & T1 & St1). rewrite St1. cbn [is_ok negb]. set (em := ((ca_off c + to) mod ca_cap c)%nat). assert (Hem : (em < ca_cap c)%nat) by (apply Nat.mod_upper_bound; lia).
    assert (Hemt : (em < to)%nat).
    { pose proof (Nat.div_mod (ca_off c + to) (ca_cap c) ltac:(lia)) as D. fold em in D. pose proof (Nat.div_mod (ca_off c) (ca_cap c) ltac:(lia)) as D2. pose proof (Nat.mod_upper_bound (ca_off c) (ca_cap c) ltac:(lia)). nia. }
    destruct (f_read F (f_seek F (ca_src c) (ca_off c)) (to - em)) as [s2 b] eqn:E. apply (pf_read _ _ PF) in E. destruct E as (Eb & C2 & T2 & St2). rewrite T1, C1, HC in Eb. rewrite C1 in C2.
    assert (Lb : length b = Nat.min (to - em) (length L - ca_off c)) by (rewrite Eb; apply seg_len).
    assert (SH : forall st o, shows (Cache s2 st o (ca_cap c) (ca_status c) (ca_start c) (ca_end c) (ca_data c)) L).
    { intros st o. unfold shows in *. cbn [ca_src ca_cap ca_status ca_start ca_end ca_data]. rewrite C2. exact H. }
    destruct (to - length b =? 0)%nat eqn:Q2.
    + eexists _, b. split; [reflexivity|]. split; [rewrite Eb; f_equal; lia|]. split; [apply shows_set; auto|]. unfold ca_set. cbn [ca_cap ca_off ca_st]. repeat split; auto. replace (to - length b <? len)%nat with true by lia. auto.
    + rewrite St2. replace (0 <? to - em)%nat with true by lia. cbn [andb]. destruct (length b =? 0)%nat eqn:Q3; cbn [is_ok negb].
      * assert (b = []) as B0 by (apply length_zero_iff_nil; lia). exists (ca_set (ca_set (Cache s2 (ca_st c) (ca_off c + length b) (ca_cap c) (ca_status c) (ca_start c) (ca_end c) (ca_data c)) StEof) (ok_if (to - length b <? len)%nat StEof)), b. split; [reflexivity|].
        assert (ca_off c = length L) by lia. split; [rewrite B0, skipn_all2, firstn_nil by lia; auto|]. split; [apply shows_set, shows_set, SH|]. unfold ca_set. cbn [ca_cap ca_off ca_st]. auto.
      * set (c3 := ca_set (Cache s2 (ca_st c) (ca_off c + length b) (ca_cap c) (ca_status c) (ca_start c) (ca_end c) (ca_data c)) StOk). assert (H3 : shows c3 L) by (apply shows_set, SH). assert (C3 : clean c3) by exact C.
        assert (G : read_goal c3 L len (to - length b) (acc ++ b) (r_load (Datatypes.S f) c3 len (to - length b) (acc ++ b))).
        { destruct (Nat.eq_dec (ca_off c3) (length L)) as [E|N]; [apply load_miss; auto|]. apply load_fits; auto; unfold c3, ca_set in *; cbn [ca_off ca_cap] in *; [lia|].
          assert (length b = to - em)%nat by lia. replace (ca_off c + length b)%nat with (ca_off c + to - em)%nat by lia.
          assert (Z0 : ((ca_off c + to - em) mod ca_cap c = 0)%nat). { unfold em. rewrite (Nat.div_mod (ca_off c + to) (ca_cap c)) at 1 by lia. rewrite Nat.add_sub, Nat.mul_comm. apply Nat.mod_mul. lia. }
          rewrite Z0. lia. }
        destruct G as (c' & b2 & E & Eb2 & H' & K' & O' & St'). rewrite E. exists c', (b ++ b2). rewrite app_assoc. unfold c3, ca_set in Eb2, O', K'. cbn [ca_off ca_cap] in Eb2, O', K'. split; auto. rewrite app_length.
        split; [|conj; [lia|rewrite St'; do 2 f_equal; lia]].
        rewrite Eb2. destruct (Nat.eq_dec (length b) (to - em)) as [B|B].
        { rewrite (seg_cut L (length b) to) by lia. f_equal. rewrite Eb at 1. f_equal. lia. }
        assert (ca_off c + length b = length L)%nat by lia. rewrite (skipn_all2 L (n := ca_off c + length b)) by lia. rewrite firstn_nil, app_nil_r. rewrite Eb, !firstn_all2 by (rewrite skipn_length; lia). auto.
  - apply load_fits; auto. pose proof (Nat.div_mod (ca_off c + to) (ca_cap c) ltac:(lia)) as D. pose proof (Nat.div_mod (ca_off c) (ca_cap c) ltac:(lia)) as D2. pose proof (Nat.mod_upper_bound (ca_off c + to) (ca_cap c) ltac:(lia)).
    assert (ca_off c / ca_cap c <= (ca_off c + to) / ca_cap c)%nat by (apply Nat.div_le_mono; lia). assert ((ca_off c + to) / ca_cap c = ca_off c / ca_cap c)%nat by lia. nia.
Qed.
Theorem cache_read_ok : forall c L n, shows c L -> (ca_off c <= length L)%nat -> (0 < n)%nat -> read_goal c L n n [] (cache_read F c n).
Proof.
  intros c L n H Ho Hn. unfold cache_read. rewrite read_loop_eq. destruct (is_empty (ca_status c)) eqn:X.
  - apply direct_ok; auto. unfold clean. destruct (ca_status c); discriminate.
  - assert (FL : forall p to acc, (p <= length L)%nat -> read_goal (ca_go c p) L n to acc (r_flush 2 (ca_go c p) n to acc)).
    { intros p to acc Hp. unfold r_flush. destruct (flush_ok (ca_go c p) L (shows_go c L p H)) as (H2 & C2 & St2 & O2 & K2 & S2 & E2 & D2 & X2). cbv zeta in *. rewrite St2. cbn [is_ok negb].
      destruct (direct_ok 1 (flush_cache F (ca_go c p)) L n to acc H2 C2 Hn) as (c' & b & E & Eb & H' & K' & O' & St'); [rewrite O2; auto|]. exists c', b. rewrite O2, K2 in *. conj. }
    assert (HE : ca_end c = Nat.min (ca_start c + ca_cap c) (length L)) by (destruct H as (? & _ & H); destruct (ca_status c); [discriminate| |]; destruct H as (? & _ & ? & _); auto).
    destruct ((ca_start c <=? ca_off c)%nat && (ca_off c <? ca_end c)%nat) eqn:Q.
    + cbv zeta. assert (NE : ca_status c <> CEmpty) by (destruct (ca_status c); discriminate). destruct (n <=? ca_end c - ca_off c)%nat eqn:Q2.
      * rewrite (cached_seg c L n H) by (auto; lia). eexists _, _. split; [reflexivity|]. split; auto. split; [apply shows_set, shows_go; auto|]. rewrite seg_len. unfold ca_set, ca_go. cbn [ca_cap ca_off ca_st]. conj; try lia. replace (_ <? _)%nat with true by lia. auto.
      * set (rm := (ca_end c - ca_off c)%nat) in *. rewrite (cached_seg c L rm H) by (auto; lia). destruct (FL (ca_off c + rm)%nat (n - rm)%nat ([] ++ firstn rm (skipn (ca_off c) L))) as (c' & b & E & Eb & H' & K' & O' & St'); [lia|]. rewrite E. exists c', (firstn rm (skipn (ca_off c) L) ++ b).
        unfold ca_go in Eb, O', K'. cbn [ca_off ca_cap] in Eb, O', K'. rewrite app_assoc. split; auto. rewrite app_length, seg_len. split; [rewrite Eb; symmetry; apply seg_cut; lia|]. conj; [lia|]. rewrite St'. do 2 f_equal. lia.
    + destruct (FL (ca_off c) n []) as (c' & b & E & R); auto. replace (ca_go c (ca_off c)) with c in * by (destruct c; auto). rewrite E. exists c', b. auto.
Qed.

(** *** writing *)
Definition w_load (f : nat) (c : cache) (len : nat) (data : list Z) : outcome (cache * nat) :=
  let c1 := load_cache F c (ca_off c) in
  if negb (is_ok (ca_st c1)) then Ret (c1, (len - length data)%nat) else cache_write_loop F f c1 len data.
Definition w_direct (f : nat) (c : cache) (len : nat) (data : list Z) : outcome (cache * nat) :=
  let end_max := (ca_off c + length data)%nat in
  if (ca_off c / ca_cap c <? end_max / ca_cap c)%nat then
    let s1 := f_seek F (ca_src c) (ca_off c) in
    if negb (is_ok (ca_st c)) then
      Ret (Cache s1 (ca_st c) (ca_off c) (ca_cap c) (ca_status c) (ca_start c) (ca_end c) (ca_data c), (len - length data)%nat)
    else
      let '(s2, k) := f_write F s1 (firstn (length data - end_max mod ca_cap c) data) in
      let c2 := Cache s2 (f_state F s2) (ca_off c + k) (ca_cap c) (ca_status c) (ca_start c) (ca_end c) (ca_data c) in
      let data2 := skipn k data in
      if (length data2 =? 0)%nat || negb (is_ok (f_state F s2)) then Ret (c2, (len - length data2)%nat)
      else w_load f c2 len data2
  else w_load f c len data.
Definition w_flush (f : nat) (c : cache) (len : nat) (data : list Z) : outcome (cache * nat) :=
  let c1 := flush_cache F c in
  if negb (is_ok (ca_st c1)) then Ret (c1, (len - length data)%nat) else w_direct f c1 len data.
Lemma write_loop_eq : forall f c len data, cache_write_loop F (Datatypes.S f) c len data =
  if is_empty (ca_status c) then w_direct f c len data
  else
    let end_max := (ca_start c + ca_cap c)%nat in
    if (ca_start c <=? ca_off c)%nat && (ca_off c <? end_max)%nat then
      let remaining := (end_max - ca_off c)%nat in
      if (length data <=? remaining)%nat then
        let off' := (ca_off c + length data)%nat in
        Ret (Cache (ca_src c) StOk off' (ca_cap c) CDirty (ca_start c) (Nat.max (ca_end c) off') (put (ca_data c) (ca_off c - ca_start c) data), len)
      else w_flush f (Cache (ca_src c) (ca_st c) (ca_off c + remaining) (ca_cap c) CDirty (ca_start c) end_max (put (ca_data c) (ca_off c - ca_start c) (firstn remaining data)))
                   len (skipn remaining data)
    else w_flush f c len data.
Proof. reflexivity. Qed.

Definition write_goal (c : @cache S) (L : list Z) (len : nat) (data : list Z) (r : outcome (cache * nat)) : Prop :=
  exists c', r = Ret (c', len) /\ shows c' (store_at L (ca_off c) data) /\ ca_cap c' = ca_cap c /\ ca_off c' = (ca_off c + length data)%nat /\ ca_st c' = StOk.

Lemma put_shows : forall c L b st off' e, shows c L -> ca_status c <> CEmpty -> (ca_start c <= ca_off c < ca_start c + ca_cap c)%nat -> (ca_off c <= length L)%nat -> (ca_off c + length b <= ca_start c + ca_cap c)%nat ->
  e = Nat.max (ca_end c) (ca_off c + length b) ->
  shows (Cache (ca_src c) st off' (ca_cap c) CDirty (ca_start c) e (put (ca_data c) (ca_off c - ca_start c) b)) (store_at L (ca_off c) b).
Proof.
  intros [src st0 off cap x start en data] L b st off' e (Hc & Hd & H) NE Hb Ho Hf ->. cbn [ca_src ca_off ca_cap ca_status ca_start ca_end ca_data] in *.
  assert (HH : (start mod cap = 0)%nat /\ (start <= length (content src))%nat /\ en = Nat.min (start + cap) (length L) /\ (start <= length L)%nat /\ (forall i, (start <= i < en)%nat -> nth (i - start) data 0 = nth i L 0) /\
    length L = Nat.max (length (content src)) en /\ (forall i, (i < length (content src))%nat -> ~ (start <= i < en)%nat -> nth i (content src) 0 = nth i L 0)).
  { destruct x; [congruence| |]; destruct H as (A1 & A2 & A3 & A4 & A5 & A6); [|destruct A6; conj]. rewrite A6 in *. conj. lia. }
  clear H. destruct HH as (Hm & Hs & He & Hl & Hn & HL & Hr).
  split; [auto|]. cbn [ca_src ca_off ca_cap ca_status ca_start ca_end ca_data]. split; [rewrite put_length; lia|]. rewrite store_length by lia.
  split; [auto|]. split; [auto|]. split; [lia|]. split; [lia|]. split.
  - intros i Hi. rewrite put_nth, store_nth by lia. destruct ((off - start <=? i - start)%nat && (i - start <? off - start + length b)%nat) eqn:Q.
    + replace ((off <=? i)%nat && (i <? off + length b)%nat) with true by lia. f_equal. lia.
    + replace ((off <=? i)%nat && (i <? off + length b)%nat) with false by lia. apply Hn. lia.
  - split; [lia|]. intros i Hi Hni. rewrite store_nth by lia. replace ((off <=? i)%nat && (i <? off + length b)%nat) with false by lia. apply Hr; lia.
Qed.
Lemma write_hit : forall f c L len data, shows c L -> ca_status c <> CEmpty -> (ca_start c <= ca_off c)%nat -> (ca_off c <= length L)%nat -> (ca_off c + length data < ca_start c + ca_cap c)%nat ->
  write_goal c L len data (cache_write_loop F (Datatypes.S f) c len data).
Proof.
  intros f c L len data H NE H1 H2 H3. rewrite write_loop_eq. replace (is_empty (ca_status c)) with false by (destruct (ca_status c); auto; congruence). cbv zeta.
  replace ((ca_start c <=? ca_off c)%nat && (ca_off c <? ca_start c + ca_cap c)%nat) with true by lia. replace (length data <=? ca_start c + ca_cap c - ca_off c)%nat with true by lia.
  eexists. split; [reflexivity|]. split; [apply put_shows; auto; lia|]. cbn. auto.
Qed.
Lemma write_load : forall f c L len data, (0 < ca_cap c)%nat -> length (ca_data c) = ca_cap c -> content (ca_src c) = L -> (ca_off c <= length L)%nat -> (ca_off c + length data < ca_off c - ca_off c mod ca_cap c + ca_cap c)%nat ->
  write_goal c L len data (w_load (Datatypes.S f) c len data).
Proof.
  intros f c L len data Hc Hd HC Ho Hf. unfold w_load. destruct (load_raw c L Hc Hd HC Ho) as (H1 & C1 & St1 & O1 & K1 & B1 & E1 & X1 & S1). rewrite St1. cbn [is_ok negb].
  destruct (write_hit f (load_cache F c (ca_off c)) L len data H1) as (c' & E & H' & K' & O' & St'); try lia; [rewrite X1; discriminate|]. exists c'. rewrite O1, K1 in *. conj.
Qed.
Lemma write_direct : forall f c L len data, shows c L -> clean c -> ca_st c = StOk -> (ca_off c <= length L)%nat -> (length data <= len)%nat ->
  (ca_status c = CEmpty \/ ca_off c < ca_start c \/ ca_start c + ca_cap c <= ca_off c)%nat ->
  (ca_start c + ca_cap c <= ca_off c \/ length data <= ca_cap c \/ (ca_off c + length data) mod ca_cap c <> 0)%nat ->
  write_goal c L len data (w_direct (Datatypes.S f) c len data).
Proof.
  intros f c L len data H C St Ho Hlen NB HT. pose proof (shows_clean c L H C) as HC. assert (Hcap : (0 < ca_cap c)%nat) by apply H. assert (Hd : length (ca_data c) = ca_cap c) by apply H.
  unfold w_direct. destruct (ca_off c / ca_cap c <? (ca_off c + length data) / ca_cap c)%nat eqn:Q.
  - rewrite St. cbn [is_ok negb]. destruct (pf_seek _ _ PF (ca_src c) (ca_off c)) as (C1 & T1 & St1). set (em := ((ca_off c + length data) mod ca_cap c)%nat) in *. assert (Hem : (em < ca_cap c)%nat) by (apply Nat.mod_upper_bound; lia).
    assert (Hemt : (em < length data)%nat).
    { pose proof (Nat.div_mod (ca_off c + length data) (ca_cap c) ltac:(lia)) as D. fold em in D. pose proof (Nat.div_mod (ca_off c) (ca_cap c) ltac:(lia)) as D2. pose proof (Nat.mod_upper_bound (ca_off c) (ca_cap c) ltac:(lia)). nia. }
    assert (Zal : ((ca_off c + length data - em) mod ca_cap c = 0)%nat). { unfold em. rewrite (Nat.div_mod (ca_off c + length data) (ca_cap c)) at 1 by lia. rewrite Nat.add_sub, Nat.mul_comm. apply Nat.mod_mul. lia. }
    destruct (f_write F (f_seek F (ca_src c) (ca_off c)) (firstn (length data - em) data)) as [s2 k] eqn:E. apply (pf_write _ _ PF) in E. destruct E as (C2 & Ek & T2 & St2). rewrite C1, T1, HC in C2. rewrite St2. cbn [is_ok negb]. rewrite orb_false_r. rewrite firstn_length in Ek. replace (Nat.min (length data - em) (length data)) with (length data - em)%nat in Ek by lia. rewrite <- Ek in C2.
    destruct (length (skipn k data) =? 0)%nat eqn:Q2; rewrite skipn_length in Q2.
    + assert (E0 : em = 0%nat) by lia. rewrite firstn_all2 in C2 by lia. eexists. rewrite skipn_length. split; [repeat f_equal; lia|]. cbn [ca_cap ca_off ca_st]. split; [|conj; lia].
      unfold shows in *. cbn [ca_src ca_off ca_cap ca_status ca_start ca_end ca_data]. rewrite C2. destruct H as (_ & _ & H). split; auto. split; auto. unfold clean in C. destruct (ca_status c) eqn:X; [reflexivity| |congruence].
      destruct H as (A1 & A2 & A3 & A4 & A5 & A6). rewrite store_length by lia.
      assert (NO : (ca_start c + ca_cap c <= ca_off c \/ ca_off c + length data <= ca_start c)%nat).
      { destruct NB as [NB|[NB|NB]]; [discriminate| |lia]. destruct HT as [HT|[HT|HT]]; [lia| |lia]. right.
        (* the block of the data comes before the cached one *)
        rewrite E0, Nat.sub_0_r in Zal. pose proof (Nat.div_mod (ca_off c + length data) (ca_cap c) ltac:(lia)) as D. rewrite Zal in D. pose proof (Nat.div_mod (ca_start c) (ca_cap c) ltac:(lia)) as D2. rewrite A1, Nat.add_0_r in D2. rewrite Nat.add_0_r in D.
        assert (QQ : ((ca_off c + length data) / ca_cap c < Datatypes.S (ca_start c / ca_cap c))%nat) by (apply Nat.div_lt_upper_bound; lia). rewrite D, D2. apply Nat.mul_le_mono_l. lia. }
      split; auto. split; [lia|]. split; [lia|]. split; [lia|]. split; [|reflexivity]. intros i Hi. rewrite A5 by lia. rewrite store_nth by lia. replace ((ca_off c <=? i)%nat && (i <? ca_off c + length data)%nat) with false by lia. auto.
    + set (c2 := Cache s2 StOk (ca_off c + k) (ca_cap c) (ca_status c) (ca_start c) (ca_end c) (ca_data c)).
      assert (Lk : length (firstn k data) = k) by (rewrite firstn_length; lia).
      destruct (write_load f c2 (store_at L (ca_off c) (firstn k data)) len (skipn k data)) as (c' & E & H' & K' & O' & St'); unfold c2; cbn [ca_src ca_off ca_cap ca_status ca_start ca_end ca_data]; auto.
      { rewrite store_length by lia. lia. } { rewrite skipn_length. replace (ca_off c + k)%nat with (ca_off c + length data - em)%nat by lia. rewrite Zal. lia. }
      fold c2. rewrite E. exists c'. unfold c2 in H', K', O'. cbn [ca_off ca_cap] in *. split; auto. split; [|rewrite skipn_length in O'; conj; lia].
      pose proof (store_twice L (ca_off c) (firstn k data) (skipn k data) Ho) as STK. rewrite Lk, firstn_skipn in STK. rewrite <- STK. auto.
  - apply write_load; auto. pose proof (Nat.div_mod (ca_off c + length data) (ca_cap c) ltac:(lia)) as D. pose proof (Nat.div_mod (ca_off c) (ca_cap c) ltac:(lia)) as D2. pose proof (Nat.mod_upper_bound (ca_off c + length data) (ca_cap c) ltac:(lia)).
    assert (ca_off c / ca_cap c <= (ca_off c + length data) / ca_cap c)%nat by (apply Nat.div_le_mono; lia). assert ((ca_off c + length data) / ca_cap c = ca_off c / ca_cap c)%nat by lia. nia.
Qed.
Theorem cache_write_ok : forall c L data, shows c L -> ca_st c = StOk -> (ca_off c <= length L)%nat ->
  (length data <= ca_cap c \/ (ca_off c + length data) mod ca_cap c <> 0)%nat -> write_goal c L (length data) data (cache_write F c data).
Proof.
  intros c L data H St Ho HT. unfold cache_write. rewrite write_loop_eq. assert (Hcap : (0 < ca_cap c)%nat) by apply H. destruct (is_empty (ca_status c)) eqn:X.
  - assert (ca_status c = CEmpty) by (destruct (ca_status c); auto; discriminate). apply write_direct; auto. unfold clean. rewrite H0. discriminate.
  - cbv zeta. assert (NE : ca_status c <> CEmpty) by (destruct (ca_status c); discriminate).
    assert (HE : ca_end c = Nat.min (ca_start c + ca_cap c) (length L)) by (destruct H as (? & _ & H); destruct (ca_status c); [discriminate| |]; destruct H as (? & _ & ? & _); auto).
    destruct ((ca_start c <=? ca_off c)%nat && (ca_off c <? ca_start c + ca_cap c)%nat) eqn:Q.
    + set (rm := (ca_start c + ca_cap c - ca_off c)%nat) in *. destruct (length data <=? rm)%nat eqn:Q2.
      * eexists. split; [reflexivity|]. split; [apply put_shows; auto; lia|]. cbn. auto.
      * assert (Lr : length (firstn rm data) = rm) by (rewrite firstn_length; lia).
        set (c1 := Cache (ca_src c) (ca_st c) (ca_off c + rm) (ca_cap c) CDirty (ca_start c) (ca_start c + ca_cap c) (put (ca_data c) (ca_off c - ca_start c) (firstn rm data))).
        assert (H1 : shows c1 (store_at L (ca_off c) (firstn rm data))) by (apply put_shows; auto; lia).
        unfold w_flush. destruct (flush_ok c1 _ H1) as (H2 & C2 & St2 & O2 & K2 & S2 & E2 & D2 & X2). cbv zeta in *. rewrite St2. cbn [is_ok negb].
        replace (ca_off c1) with (ca_off c + rm)%nat in O2 by reflexivity. replace (ca_cap c1) with (ca_cap c) in K2 by reflexivity. replace (ca_start c1) with (ca_start c) in S2 by reflexivity.
        destruct (write_direct 1 (flush_cache F c1) _ (length data) (skipn rm data) H2 C2 St2) as (c' & E & H' & K' & O' & St'); rewrite ?store_length, ?O2, ?K2, ?S2, ?skipn_length; auto; try lia.
        rewrite E. exists c'. rewrite O2, K2 in *. split; auto. split; [|rewrite skipn_length in O'; conj; lia]. pose proof (store_twice L (ca_off c) (firstn rm data) (skipn rm data) Ho) as STK. rewrite Lr, firstn_skipn in STK. rewrite <- STK. auto.
    + unfold w_flush. destruct (flush_ok c _ H) as (H2 & C2 & St2 & O2 & K2 & S2 & E2 & D2 & X2). cbv zeta in *. rewrite St2. cbn [is_ok negb].
      destruct (write_direct 1 (flush_cache F c) L (length data) data H2 C2 St2) as (c' & E & H' & K' & O' & St'); rewrite ?O2, ?K2, ?S2; auto; try lia.
      rewrite E. exists c'. rewrite O2, K2 in *. conj.
Qed.

(** *** truncation, size *)
Lemma cut_length : forall d p, length (cut_at d p) = p.
Proof. intros. unfold cut_at. rewrite app_length, firstn_length, repeat_length. lia. Qed.
Lemma cut_nth : forall d p i, nth i (cut_at d p) 0 = if (i <? p)%nat then nth i d 0 else 0.
Proof.
  intros. unfold cut_at. rewrite nth_app, nth_first, nth_zero, firstn_length. repeat match goal with |- context [if ?c then _ else _] => destruct c eqn:? end; auto; try lia. rewrite nth_over; auto. lia.
Qed.
Theorem cache_truncate_ok : forall c L, shows c L -> (ca_off c <= length L)%nat -> let c' := cache_truncate F c in
  shows c' (cut_at L (ca_off c)) /\ ca_cap c' = ca_cap c /\ ca_off c' = ca_off c /\ ca_st c' = StOk.
Proof.
  intros [src st off cap x start en data] L (Hc & Hd & H) Ho. unfold cache_truncate. cbn [ca_src ca_st ca_off ca_cap ca_status ca_start ca_end ca_data] in *.
  destruct (pf_seek _ _ PF src off) as (C1 & T1 & St1). destruct (pf_truncate _ _ PF (f_seek F src off)) as (C2 & T2 & St2). rewrite C1, T1 in C2.
  destruct (if (en <=? off)%nat then (x, en) else if (start <=? off)%nat then (x, off) else (CEmpty, en)) as [x' e'] eqn:E. cbv zeta. cbn [ca_cap ca_off ca_st]. split; [|conj].
  unfold shows. cbn [ca_src ca_st ca_off ca_cap ca_status ca_start ca_end ca_data]. rewrite C2. split; auto. split; auto.
  destruct x.
  - assert (x' = CEmpty) as -> by (destruct (en <=? off)%nat, (start <=? off)%nat; congruence). rewrite H. auto.
  - destruct H as (A1 & A2 & A3 & A4 & A5 & A6). destruct (en <=? off)%nat eqn:Q1; [|destruct (start <=? off)%nat eqn:Q2]; injection E as <- <-; rewrite A6, ?cut_length; auto.
    + conj; try lia. intros i Hi. rewrite cut_nth. replace (i <? off)%nat with true by lia. apply A5. lia.
    + conj; try lia. intros i Hi. rewrite cut_nth. replace (i <? off)%nat with true by lia. apply A5. lia.
  - destruct H as (A1 & A2 & A3 & A4 & A5 & A6 & A7). destruct (en <=? off)%nat eqn:Q1; [|destruct (start <=? off)%nat eqn:Q2]; injection E as <- <-; rewrite ?cut_length; auto.
    + conj; try lia.
      * intros i Hi. rewrite cut_nth. replace (i <? off)%nat with true by lia. apply A5. lia.
      * intros i Hi Hni. rewrite !cut_nth. replace (i <? off)%nat with true by lia. apply A7; auto. lia.
    + conj; try lia.
      * intros i Hi. rewrite cut_nth. replace (i <? off)%nat with true by lia. apply A5. lia.
      * intros i Hi Hni. rewrite !cut_nth. replace (i <? off)%nat with true by lia. apply A7; lia.
    + apply list_ext; [rewrite !cut_length; auto|]. intros i Hi. rewrite cut_length in Hi. rewrite !cut_nth. replace (i <? off)%nat with true by lia. apply A7; lia.
Qed.
Theorem cache_size_ok : forall c L, shows c L -> cache_size F c = length L.
Proof.
  intros c L (Hc & Hd & H). unfold cache_size. rewrite (pf_size _ _ PF). destruct (ca_status c); cbn [is_empty]; [rewrite H; auto| |].
  - destruct H as (A1 & A2 & A3 & A4 & A5 & A6). rewrite A6. lia.
  - destruct H as (A1 & A2 & A3 & A4 & A5 & A6 & A7). lia.
Qed.

(** *** C52: any history *)
Definition agrees (c : @cache S) (a : afile2) : Prop := let '(d, p, st) := a in shows c d /\ ca_off c = p /\ ca_st c = st.
Theorem cache_step_ok : forall op c a, agrees c a -> tame (ca_cap c) op a -> exists c', cache_step F op c = Ret (c', snd (direct_step op a)) /\ agrees c' (fst (direct_step op a)) /\ ca_cap c' = ca_cap c.
Proof.
  intros op c [[d p] st] (H & <- & <-) T. destruct op as [n|b|o how| | | |]; cbn [cache_step direct_step fst snd tame] in *.
  - destruct T as [T1 T2]. destruct (cache_read_ok c d n H T1 T2) as (c' & b & E & Eb & H' & K' & O' & St'). rewrite E. cbn [obind app]. subst b. exists c'. split; auto. split; auto. cbn [agrees]. split; auto. split; auto. rewrite St'. unfold ok_if. replace (0 <? n)%nat with true by lia. cbn [andb].
    rewrite seg_len. destruct (n - Nat.min n (length d - ca_off c) <? n)%nat eqn:Q, (Nat.min n (length d - ca_off c) =? 0)%nat eqn:Q2; auto; lia.
  - destruct T as (T1 & T2 & T3). destruct (cache_write_ok c d b H T3 T1 T2) as (c' & E & H' & K' & O' & St'). rewrite E. cbn [obind]. exists c'. split; auto. split; auto. cbn [agrees]. auto.
  - unfold cache_seek. rewrite (cache_size_ok c d H). cbn [file_place].
    replace (match how with FromBeg => 0 | FromCur => Z.of_nat (ca_off c) | FromEnd => Z.of_nat (length d) end + o) with (match how with FromBeg => o | FromCur => Z.of_nat (ca_off c) + o | FromEnd => Z.of_nat (length d) + o end) by (destruct how; lia).
    destruct (_ <? 0).
    + eexists. split; [reflexivity|]. split; [|reflexivity]. cbn [agrees fst]. split; [apply shows_set; auto|]. auto.
    + eexists. split; [reflexivity|]. split; [|reflexivity]. cbn [agrees fst]. split; [apply shows_set, shows_go; auto|]. auto.
  - eexists. split; [reflexivity|]. destruct (cache_truncate_ok c d H T) as (H' & K' & O' & St'). cbv zeta in *. split; auto. cbn [agrees]. auto.
  - eexists. split; [reflexivity|]. destruct (flush_ok c d H) as (H2 & C2 & St2 & O2 & K2 & _). cbv zeta in *. unfold cache_flush. split; auto. cbn [agrees]. auto.
  - eexists. rewrite (cache_size_ok c d H). split; [reflexivity|]. split; auto. cbn [agrees]. auto.
  - eexists. split; [reflexivity|]. split; auto. cbn [agrees]. auto.
Qed.
Theorem cache_run_ok : forall ops c a, agrees c a -> tame_all (ca_cap c) ops a -> exists c', cache_run F ops c = Ret (c', snd (direct_run ops a)) /\ agrees c' (fst (direct_run ops a)) /\ ca_cap c' = ca_cap c.
Proof.
  induction ops as [|op r IH]; intros c a A T; cbn [cache_run direct_run tame_all] in *; [exists c; auto|].
  destruct T as [T1 T2]. destruct (cache_step_ok op c a A T1) as (c1 & E1 & A1 & K1). rewrite E1. cbn [obind]. destruct (direct_step op a) as [a1 x]. cbn [fst snd] in *. rewrite <- K1 in T2.
  destruct (IH c1 a1 A1 T2) as (c2 & E2 & A2 & K2). rewrite E2. cbn [obind]. destruct (direct_run r a1) as [a2 y]. cbn [fst snd] in *. exists c2. split; [|split; [auto|congruence]].
  repeat f_equal. destruct a1 as [[d p] st]. destruct A1 as (_ & _ & <-). auto.
Qed.
(** A new cache over a file, any tame history, destruction: every result and state is that of direct
    access, and the file is left with the content and position direct access leaves. *)
Theorem cache_transparent_partial : forall s cap junk ops, (0 < cap)%nat -> length junk = cap -> f_state F s = StOk ->
  let a := (content s, f_tell F s, StOk) in tame_all cap ops a ->
  exists c' s', cache_run F ops (cache_new F s cap junk) = Ret (c', snd (direct_run ops a)) /\ cache_done F c' = Ret s' /\
    content s' = fst (fst (fst (direct_run ops a))) /\ f_tell F s' = snd (fst (fst (direct_run ops a))).
Proof.
  intros s cap junk ops Hc Hj Hs a T. assert (A : agrees (cache_new F s cap junk) a) by (unfold a, agrees; split; [split; [exact Hc|split; [exact Hj|reflexivity]]|split; [reflexivity|exact Hs]]).
  destruct (cache_run_ok ops (cache_new F s cap junk) a A T) as (c' & E & A' & _). destruct (direct_run ops a) as [[[d p] st] y]. cbn [fst snd] in *. destruct A' as (H' & O' & _). destruct (flush_ok c' d H') as (H2 & C2 & St2 & O2 & _). cbv zeta in *.
  destruct (pf_seek _ _ PF (ca_src (flush_cache F c')) (ca_off (flush_cache F c'))) as (C3 & T3 & _). eexists c', _. split; eauto. split; [unfold cache_done; rewrite St2; reflexivity|]. rewrite C3, T3, (shows_clean _ d H2 C2), O2. auto.
Qed.
(** After flush the underlying file has the logical content. *)
Theorem cache_flush_content : forall c d p st, agrees c (d, p, st) -> content (ca_src (cache_flush F c)) = d.
Proof. intros c d p st (H & _). destruct (flush_ok c d H) as (H2 & C2 & _). apply (shows_clean _ d H2 C2). Qed.
End Cache.

(** Non-vacuity: a tame history that reads across blocks, overwrites, appends, truncates. *)
Definition mk (d : list Z) (cap : nat) : @cache (list Z * nat * sstate) := cache_new array_file (d, 0%nat, StOk) cap (repeat 170 cap).
Definition demo : list file_op := [FoRead 5; FoSeek (-2) FromCur; FoWrite [11; 12; 13; 14; 15; 16; 17]; FoSeek 0 FromEnd; FoWrite [21; 22]; FoSize; FoSeek 1 FromBeg; FoRead 20; FoSeek 4 FromBeg; FoTruncate; FoSeek 0 FromBeg; FoRead 9; FoRead 1].
Example demo_tame : tame_all 4 demo ([1; 2; 3; 4; 5; 6; 7], 0%nat, StOk).
Proof. vm_compute. repeat split; try (left; lia); try (right; discriminate); lia. Qed.
Example demo_run : exists c, cache_run array_file demo (mk [1; 2; 3; 4; 5; 6; 7] 4) = Ret (c,
  [(FrBytes [1; 2; 3; 4; 5], StOk); (FrPos (Some 3%nat), StOk); (FrCount 7, StOk); (FrPos (Some 10%nat), StOk); (FrCount 2, StOk); (FrCount 12, StOk); (FrPos (Some 1%nat), StOk);
   (FrBytes [2; 3; 11; 12; 13; 14; 15; 16; 17; 21; 22], StOk); (FrPos (Some 4%nat), StOk); (FrNone, StOk); (FrPos (Some 0%nat), StOk); (FrBytes [1; 2; 3; 11], StOk); (FrBytes [], StEof)]).
Proof. eexists. vm_compute. reflexivity. Qed.

(** The full statement of C52, without [tame], is false.  C94: after a write that covers the cached block
    and ends on a block boundary, old bytes are read. *)
Theorem cache_stale_refuted : let ops := [FoSeek 4 FromBeg; FoRead 1; FoSeek 0 FromBeg; FoWrite [11; 12; 13; 14; 15; 16]; FoSeek 4 FromBeg; FoRead 1] in
  let d := [1; 2; 3; 4; 5; 6; 7; 8] in
  exists c r, cache_run array_file ops (mk d 2) = Ret (c, r) /\ last r (FrNone, StOk) = (FrBytes [5], StOk) /\
  last (snd (direct_run ops (d, 0%nat, StOk))) (FrNone, StOk) = (FrBytes [15], StOk).
Proof. eexists _, _. vm_compute. repeat split. Qed.
(** ... and a small write there later puts the old bytes back in the file. *)
Theorem cache_stale_write_refuted : let ops := [FoSeek 4 FromBeg; FoRead 1; FoSeek 0 FromBeg; FoWrite [11; 12; 13; 14; 15; 16]; FoSeek 4 FromBeg; FoWrite [99]; FoFlush] in
  let d := [1; 2; 3; 4; 5; 6; 7; 8] in
  exists c r, cache_run array_file ops (mk d 2) = Ret (c, r) /\ fst (fst (ca_src c)) = [11; 12; 13; 14; 99; 6; 7; 8] /\
  fst (fst (fst (direct_run ops (d, 0%nat, StOk)))) = [11; 12; 13; 14; 99; 16; 7; 8].
Proof. eexists _, _. vm_compute. repeat split. Qed.
(** C95: writing past the end fills the gap with whatever the memory held, not with zeros. *)
Theorem cache_gap_refuted : let ops := [FoSeek 5 FromBeg; FoWrite [9]; FoFlush] in
  exists c r, cache_run array_file ops (mk [1; 2; 3] 8) = Ret (c, r) /\ fst (fst (ca_src c)) = [1; 2; 3; 170; 170; 9] /\
  fst (fst (fst (direct_run ops ([1; 2; 3], 0%nat, StOk)))) = [1; 2; 3; 0; 0; 9].
Proof. eexists _, _. vm_compute. repeat split. Qed.
(** C96: reading past the end changes the size told. *)
Theorem cache_size_refuted : let ops := [FoSeek 100 FromBeg; FoRead 1; FoSize] in
  exists c r, cache_run array_file ops (mk [1; 2; 3] 4) = Ret (c, r) /\ last r (FrNone, StOk) = (FrCount 100, StEof) /\
  last (snd (direct_run ops ([1; 2; 3], 0%nat, StOk))) (FrNone, StOk) = (FrCount 3, StEof).
Proof. eexists _, _. vm_compute. repeat split. Qed.
(** C97: a null read at the end of the file is documented to leave the state ok; here it tells eof. *)
Theorem cache_null_read_refuted : let ops := [FoSeek 3 FromBeg; FoRead 0] in
  exists c r, cache_run array_file ops (mk [1; 2; 3] 4) = Ret (c, r) /\ ca_st c = StEof /\ snd (fst (direct_run ops ([1; 2; 3], 0%nat, StOk))) = StOk.
Proof. eexists _, _. vm_compute. repeat split. Qed.
(** C98: after a long read that met the end, a long write writes nothing. *)
Theorem cache_after_eof_refuted : let ops := [FoRead 4; FoWrite [1; 2; 3; 4; 5]] in
  exists c, cache_run array_file ops (mk [] 2) = Ret (c, [(FrBytes [], StEof); (FrCount 0, StEof)]) /\
  snd (direct_run ops ([], 0%nat, StOk)) = [(FrBytes [], StEof); (FrCount 5, StOk)].
Proof. eexists. vm_compute. repeat split. Qed.

(** ** C51: file_window *)
(** Full statement: seek(x) then tell() is x, and reads give the window's bytes from x.  False: seek takes
    positions of the source, tell gives positions in the window. *)
Theorem fw_seek_refuted : let c := fw_new array_file ([1; 2; 3; 4; 5; 6; 7; 8], 2%nat, StOk) 2 4 in
  exists c' p, fw_seek array_file c 3 FromBeg = Ret (c', p) /\ p = 1 /\ fw_tell array_file c' = 1 /\ snd (fw_read array_file c' 1) = [4].
Proof. eexists _, _. vm_compute. repeat split. Qed.
(** Seeking to the start of a window gives a position before it: nothing can be read. *)
Theorem fw_seek_start_refuted : let c := fw_new array_file ([1; 2; 3; 4; 5; 6; 7; 8], 2%nat, StOk) 2 4 in
  exists c', fw_seek array_file c 0 FromBeg = Ret (c', M64 - 2) /\ fw_tell array_file c' = M64 - 1 /\ snd (fw_read array_file c' 1) = [].
Proof. eexists. vm_compute. repeat split. Qed.
(** A new window over a file standing elsewhere reads nothing: it does not move to its start. *)
Theorem fw_new_refuted : snd (fw_read array_file (fw_new array_file ([1; 2; 3; 4; 5; 6; 7; 8], 0%nat, StOk) 2 4) 1) = [].
Proof. reflexivity. Qed.
Section FW.
Context {S : Type} (F : fdev S) (content : S -> list Z) (PF : plain_file F content).
(** What holds: seeking to the source position start+x gives tell() = x, and reads then give the window's
    bytes from x up to the window's end. *)
Definition region (c : @fwindow S) : list Z := firstn (fw_end c - fw_start c) (skipn (fw_start c) (content (fw_src c))).
Theorem fw_seek_partial : forall c x, (fw_start c + x < fw_end c)%nat -> Z.of_nat (fw_end c) < M64 ->
  exists c', fw_seek F c (Z.of_nat (fw_start c + x)) FromBeg = Ret (c', Z.of_nat x) /\ fw_tell F c' = Z.of_nat x /\ fw_off c' = (fw_start c + x)%nat /\
    (forall n, snd (fw_read F c' n) = firstn n (skipn x (region c))).
Proof.
  intros c x H HM. unfold fw_seek, src_seek. replace (0 + Z.of_nat (fw_start c + x) <? 0) with false by lia. cbn [obind]. rewrite Z.add_0_l, Nat2Z.id. destruct (pf_seek _ _ PF (fw_src c) (fw_start c + x)) as (C1 & T1 & St1). rewrite T1, St1. cbn [is_ok].
  eexists. split; [do 2 f_equal; rewrite u64_small; lia|]. split; [|split; [reflexivity|]].
  - unfold fw_tell, fw_contains. cbn [fw_src fw_start fw_end]. rewrite T1. replace ((fw_start c <=? fw_start c + x)%nat && (fw_start c + x <? fw_end c)%nat) with true by lia. lia.
  - intros n. unfold fw_read, fw_contains. cbn [fw_src fw_start fw_end fw_off]. replace ((fw_start c <=? fw_start c + x)%nat && (fw_start c + x <? fw_end c)%nat) with true by lia.
    destruct (f_read F (f_seek F (fw_src c) (fw_start c + x)) _) as [s' b] eqn:E. apply (pf_read _ _ PF) in E. destruct E as (-> & _). rewrite T1, C1. cbn [snd]. unfold region. apply list_ext.
    + rewrite !seg_len. lia.
    + intros i Hi. rewrite seg_len in Hi. rewrite !seg_nth. replace (i <? Nat.min n (fw_end c - (fw_start c + x)))%nat with true by lia. replace (i <? n)%nat with true by lia. replace (x + i <? fw_end c - fw_start c)%nat with true by lia. f_equal. lia.
Qed.
(** Reads and writes keep inside the window as long as only they move the position. *)
Definition fw_inv (c : @fwindow S) : Prop := fw_off c = f_tell F (fw_src c).
Theorem fw_read_confined : forall c n c' b, fw_inv c -> fw_read F c n = (c', b) -> fw_inv c' /\ content (fw_src c') = content (fw_src c) /\ (length b <= n)%nat /\
  (b <> [] -> fw_start c <= fw_off c /\ fw_off c + length b <= fw_end c)%nat /\ b = firstn (length b) (skipn (fw_off c) (content (fw_src c))).
Proof.
  intros c n c' b I E. unfold fw_read, fw_contains in E. destruct ((fw_start c <=? fw_off c)%nat && (fw_off c <? fw_end c)%nat) eqn:Q.
  - destruct (f_read F (fw_src c) _) as [s' x] eqn:R. apply (pf_read _ _ PF) in R. destruct R as (Ex & C & T & _). injection E as <- <-. unfold fw_inv in *. cbn [fw_src fw_off]. rewrite C, T, I. assert (Lx : (length x <= Nat.min n (fw_end c - fw_off c))%nat) by (rewrite Ex; rewrite seg_len; lia). conj; try lia.
    rewrite Ex, seg_len. rewrite <- I. apply list_ext; [rewrite !seg_len; lia|]. intros i Hi. rewrite seg_len in Hi. rewrite !seg_nth. replace (i <? Nat.min n (fw_end c - fw_off c))%nat with true by lia. replace (i <? _)%nat with true by lia. auto.
  - injection E as <- <-. unfold fw_inv in *. cbn. conj; try lia. congruence.
Qed.
Theorem fw_write_confined : forall c b c' k, fw_inv c -> (fw_end c <= length (content (fw_src c)))%nat -> fw_write F c b = (c', k) -> fw_inv c' /\ (k <= length b)%nat /\ length (content (fw_src c')) = length (content (fw_src c)) /\
  (forall i, ~ (fw_start c <= i < fw_end c)%nat -> nth i (content (fw_src c')) 0 = nth i (content (fw_src c)) 0) /\
  (forall i, (i < k)%nat -> nth (fw_off c + i) (content (fw_src c')) 0 = nth i b 0).
Proof.
  intros c b c' k I HL E. unfold fw_write, fw_contains in E. destruct ((fw_start c <=? fw_off c)%nat && (fw_off c <? fw_end c)%nat) eqn:Q.
  - destruct (f_write F (fw_src c) _) as [s' x] eqn:R. apply (pf_write _ _ PF) in R. destruct R as (C & Ex & T & _). injection E as <- <-. rewrite firstn_length in Ex. unfold fw_inv in *. cbn [fw_src fw_off]. rewrite <- I in *. rewrite C, T, firstn_length. conj; try lia.
    + rewrite store_length, firstn_length by lia. lia.
    + intros i Hi. rewrite store_nth, firstn_length by lia. replace ((fw_off c <=? i)%nat && _) with false by lia. auto.
    + intros i Hi. rewrite store_nth, firstn_length, nth_first by lia. replace ((fw_off c <=? fw_off c + i)%nat && _) with true by lia. replace (fw_off c + i - fw_off c)%nat with i by lia. replace (i <? _)%nat with true by lia. auto.
  - injection E as <- <-. unfold fw_inv in *. cbn. conj; try lia.
Qed.
End FW.
Example fw_ex : let c := fw_new array_file ([1; 2; 3; 4; 5; 6; 7; 8], 2%nat, StOk) 2 4 in fw_inv array_file c /\ snd (fw_read array_file c 9) = [3; 4; 5; 6].
Proof. vm_compute. auto. Qed.
(** C99.  Full statement: whatever the calls, reads and writes through a file_window stay inside it.  False:
    skip moves the source but not the window's own position, so the next access goes past the end. *)
Theorem fw_skip_refuted : let c := fw_skip array_file (fw_new array_file ([1; 2; 3; 4; 5; 6; 7; 8], 2%nat, StOk) 2 3) 3 in
  snd (fw_read array_file c 2) = [6; 7] /\ fst (fst (fw_src (fst (fw_write array_file c [99])))) = [1; 2; 3; 4; 5; 99; 7; 8].
Proof. vm_compute. auto. Qed.

Print Assumptions cache_transparent_partial.
Print Assumptions cache_flush_content.
Print Assumptions fw_seek_partial.
Print Assumptions fw_read_confined.
Print Assumptions fw_write_confined.
