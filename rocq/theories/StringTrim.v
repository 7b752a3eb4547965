(** Lemmas about trimming and numeral parsing in the string model. *)
From Verif Require Import Base StringModel StringSpec StringProofs StringSearch.
From Coq Require Import ZifyBool ZifyNat.

(* ---- trimming ---- *)
Lemma rd_skip : forall a d off, rd (a ++ d) (off + length a) = rd d off.
Proof. intros. unfold rd. rewrite nth_error_app2 by lia. replace (off + length a - length a)%nat with off by lia. reflexivity. Qed.
Lemma rd_hd : forall s i, rd s i = match skipn i s with c :: _ => Ret c | [] => UB end.
Proof. induction s as [|c r IH]; intros [|i]; cbn; auto. rewrite <- IH. reflexivity. Qed.
Lemma skipn_tl : forall i (s : list Z) c r, skipn i s = c :: r -> skipn (S i) s = r.
Proof. induction i; intros [|x s] c r H; cbn in *; try discriminate; [injection H; auto|]. eapply IHi; eauto. Qed.

Lemma move_n_spec : forall n out d off, (0 < off)%nat -> readable n (skipn off d) ->
  let x := zstr n (skipn off d) in
  move_n (out ++ d) off n (length out) = Ret (out ++ copied x d (length x <? n)%nat, (length out + length x)%nat).
Proof.
  induction n; intros out d off Ho HR x.
  - subst x. cbn. unfold copied. cbn. do 2 f_equal. lia.
  - subst x. cbn [move_n]. rewrite rd_skip, rd_hd. destruct (skipn off d) as [|c r] eqn:E; [apply readable_nil in HR; lia|].
    cbn [obind]. destruct d as [|c0 d]; [rewrite skipn_nil in E; discriminate|]. rewrite wr_app. cbn [obind zstr].
    destruct (c =? 0) eqn:Ec. { cbn. unfold copied. replace c with 0 by lia. cbn. do 2 f_equal. lia. }
    assert (E2 : skipn off d = r) by exact (skipn_tl off (c0 :: d) c r E).
    replace (out ++ c :: d) with ((out ++ [c]) ++ d) by (rewrite <- app_assoc; auto).
    replace (S (length out)) with (length (out ++ [c])) by (rewrite app_length; cbn; lia).
    rewrite (IHn (out ++ [c]) d off Ho) by (rewrite E2; eapply readable_cons; eauto; lia). rewrite E2.
    cbn [length]. set (o := zstr n r). change (S (length o) <? S n)%nat with (length o <? n)%nat.
    unfold copied. rewrite app_length. cbn [length]. do 2 f_equal; [|lia].
    destruct (length o <? n)%nat; rewrite <- app_assoc; reflexivity.
Qed.

Lemma readable_skip : forall i n m, readable n m -> (forall c, In c (firstn i m) -> c <> 0) -> (i <= n)%nat -> (i <= length m)%nat -> readable (n - i) (skipn i m).
Proof.
  intros i n m [H|H] Hc Hi Hl; [left; rewrite skipn_length; lia|]. right.
  rewrite <- (firstn_skipn i m) in H. apply in_app_or in H. destruct H as [H|H]; auto. apply Hc in H. lia.
Qed.

Definition ltrimmed (sp : Z -> bool) (m : list Z) (count : nat) : list Z :=
  let t := zstr count m in
  let x := drop_while sp t in
  if (length x =? length t)%nat then m else x ++ 0 :: skipn (S (length x)) m.
Lemma drop_while_len : forall sp t, (length (drop_while sp t) <= length t)%nat.
Proof. induction t; cbn; auto. dif; cbn; lia. Qed.

Lemma ltrim_loop_spec : forall sp count n i m, readable count m -> count = (i + n)%nat -> (i <= length m)%nat ->
  (forall c, In c (firstn i m) -> c <> 0 /\ sp c = true) ->
  ltrim_loop sp m count n i =
    let t := zstr n (skipn i m) in let x := drop_while sp t in
    Ret (if (i + length t =? length x)%nat then m else x ++ 0 :: skipn (S (length x)) m, length x).
Proof.
  intros sp count n. induction n; intros i m HR Hc Hi HF; cbv zeta.
  - cbn [ltrim_loop zstr drop_while length]. destruct count as [|cn]; [replace i with 0%nat by lia; reflexivity|].
    destruct m as [|c r]; [apply readable_nil in HR; lia|]. cbn [wr obind]. replace (i + 0 =? 0)%nat with false by lia. reflexivity.
  - cbn [ltrim_loop]. rewrite rd_hd.
    pose proof (readable_skip i count m HR ltac:(intros; apply HF; auto) ltac:(lia) Hi) as HR2.
    replace (count - i)%nat with (S n) in HR2 by lia.
    destruct (skipn i m) as [|c r] eqn:E; [apply readable_nil in HR2; lia|]. cbn [obind zstr].
    assert (Hlen : (i < length m)%nat). { assert (length (skipn i m) = length (c :: r)) by (rewrite E; auto). rewrite skipn_length in H. cbn in H. lia. }
    destruct (c =? 0) eqn:Ec.
    + cbn [drop_while length app]. destruct m as [|c0 m]; [cbn in Hlen; lia|]. cbn [wr obind].
      destruct i; [|reflexivity]. cbn in E. injection E as -> ->. replace c with 0 by lia. reflexivity.
    + destruct (sp c) eqn:Es; cbn [negb].
      * rewrite IHn; auto; try lia.
        -- cbv zeta. rewrite (skipn_tl _ _ _ _ E). cbn [drop_while length]. rewrite Es.
           pose proof (drop_while_len sp (zstr n r)).
           replace (S i + length (zstr n r) =? length (drop_while sp (zstr n r)))%nat with false by lia.
           replace (i + S (length (zstr n r)) =? length (drop_while sp (zstr n r)))%nat with false by lia. reflexivity.
        -- intros y Hy. assert (firstn (S i) m = firstn i m ++ [c]) as F.
           { rewrite <- (firstn_skipn i m) at 1. rewrite E. rewrite firstn_app. rewrite firstn_firstn. rewrite firstn_length.
             replace (Nat.min (S i) i) with i by lia. replace (S i - Nat.min i (length m))%nat with 1%nat by lia. reflexivity. }
           rewrite F in Hy. apply in_app_or in Hy. destruct Hy as [Hy|[<-|[]]]; [auto|split; auto; lia].
      * cbn [drop_while]. rewrite Es. destruct i as [|i].
        -- cbn in E. subst m. rewrite strnlen_zstr by auto. cbn [obind]. subst count. cbn [Nat.add zstr]. rewrite Ec.
           rewrite Nat.eqb_refl. reflexivity.
        -- replace (count - S i)%nat with (S n) by lia.
           pose proof (move_n_spec (S n) [] m (S i) ltac:(lia)) as M. rewrite E in M. specialize (M HR2). cbv zeta in M. cbn [app] in M.
           change (length (@nil Z)) with 0%nat in M. rewrite M. cbn [obind zstr]. rewrite Ec. set (x := c :: zstr n r).
           cbn [Nat.add]. assert (Hx : (length x <= S n)%nat) by (unfold x; cbn; pose proof (zstr_le n r); lia).
           replace (S (i + length x) =? length x)%nat with false by lia.
           assert (HXm : (length x < length m)%nat).
           { assert (length (skipn (S i) m) = length (c :: r)) as K by (rewrite E; auto). rewrite skipn_length in K. unfold x. cbn [length] in *.
             pose proof (zstr_le n r). lia. }
           unfold copied. destruct (length x <? S n)%nat.
           ++ rewrite wr_app. reflexivity.
           ++ destruct (skipn (length x) m) as [|y ys] eqn:Ey.
              { assert (length (skipn (length x) m) = 0%nat) as K by (rewrite Ey; auto). rewrite skipn_length in K. lia. }
              rewrite wr_app. cbn [obind]. rewrite (skipn_tl _ _ _ _ Ey). reflexivity.
Qed.
Lemma ltrim_exact : forall sp m count, readable count m ->
  ltrim sp m count = Ret (ltrimmed sp m count, length (drop_while sp (zstr count m))).
Proof.
  intros. unfold ltrim. rewrite ltrim_loop_spec by (auto; try lia; cbn; tauto). cbv zeta. change (skipn 0 m) with m. cbn [Nat.add]. unfold ltrimmed.
  rewrite Nat.eqb_sym. reflexivity.
Qed.
Lemma zstr_app0 : forall n x r, (forall c, In c x -> c <> 0) -> (length x < n)%nat -> zstr n (x ++ 0 :: r) = x.
Proof.
  intros n x. revert n. induction x as [|c x IH]; intros n r H Hn; destruct n; try (cbn in Hn; lia); cbn.
  - reflexivity.
  - destruct (c =? 0) eqn:E. { exfalso. apply (H c); cbn; auto. lia. } f_equal. apply IH; [intros; apply H; cbn; auto|cbn in Hn; lia].
Qed.
Lemma drop_while_in : forall sp t c, In c (drop_while sp t) -> In c t.
Proof. induction t; cbn; auto. intros c. destruct (sp a); cbn; intros; auto. Qed.
Lemma drop_while_same : forall sp t, length (drop_while sp t) = length t -> drop_while sp t = t.
Proof. destruct t; cbn; auto. destruct (sp z); auto. pose proof (drop_while_len sp t). lia. Qed.
Lemma ltrimmed_spec : forall sp m count, readable count m ->
  zstr count (ltrimmed sp m count) = drop_while sp (zstr count m) /\
  length (ltrimmed sp m count) = length m /\ skipn count (ltrimmed sp m count) = skipn count m.
Proof.
  intros sp m count HR. unfold ltrimmed. set (t := zstr count m). set (x := drop_while sp t).
  destruct (length x =? length t)%nat eqn:E; [split; [|auto]; symmetry; apply (drop_while_same sp t); unfold x in E; apply Nat.eqb_eq in E; exact E|].
  pose proof (drop_while_len sp t). fold x in H. pose proof (zstr_le count m). fold t in H0.
  split; [apply zstr_app0; [|lia]; intros c Hc; unfold x in Hc; apply drop_while_in in Hc; apply zstr_nonzero in Hc; auto|]. split.
  - rewrite app_length. cbn [length]. rewrite skipn_length. lia.
  - replace count with (length x + (count - length x))%nat at 1 by lia.
    rewrite skipn_app. rewrite skipn_all2 by lia. replace (length x + (count - length x) - length x)%nat with (S (count - length x - 1))%nat by lia.
    rewrite skipn_cons; cbn [app]. revert H H0 E. generalize (length x). intros k H H0 E. clear - H H0 E.
    assert (G : forall a b (l : list Z), skipn a (skipn b l) = skipn (b + a) l).
    { intros a b. induction b; intros [|y l]; cbn; auto; rewrite ?skipn_nil; auto. }
    rewrite G. f_equal. lia.
Qed.

Fixpoint rpos (sp : Z -> bool) (i j : nat) (l : list Z) : nat :=
  match l with [] => j | c :: r => rpos sp (S i) (if negb (sp c) then S i else j) r end.
Lemma rpos_app : forall sp l i j c, rpos sp i j (l ++ [c]) = if negb (sp c) then (i + length l + 1)%nat else rpos sp i j l.
Proof.
  induction l as [|x l IH]; intros i j c; cbn.
  - destruct (negb (sp c)); lia.
  - rewrite IH. destruct (negb (sp c)); auto. lia.
Qed.
Lemma rpos_len : forall sp t, rpos sp 0 0 t = length (rtrim_str sp t).
Proof.
  intros sp t. induction t as [|c t IH] using rev_ind; [reflexivity|]. rewrite rpos_app. unfold rtrim_str in *. rewrite rev_app_distr. cbn [rev app ltrim_str].
  destruct (sp c); cbn [negb]; auto. rewrite !rev_length. cbn [length]. rewrite rev_length. lia.
Qed.
Lemma rtrim_loop_spec : forall sp count n i j m, readable count m -> count = (i + n)%nat -> (i <= length m)%nat ->
  (forall c, In c (firstn i m) -> c <> 0) -> (j <= i)%nat ->
  rtrim_loop sp m count n i j =
    let k := rpos sp i j (zstr n (skipn i m)) in
    Ret (if (k <? count)%nat then firstn k m ++ 0 :: skipn (S k) m else m, k).
Proof.
  intros sp count n.
  assert (Fin : forall j m, readable count m -> (j <= length m)%nat ->
     (if (j <? count)%nat then let* m' := wr m j 0 in Ret (m', j) else Ret (m, j)) =
     Ret (if (j <? count)%nat then firstn j m ++ 0 :: skipn (S j) m else m, j) \/ (j = length m /\ (j < count)%nat)).
  { intros j m HR Hj. destruct (j <? count)%nat eqn:E; [|left; reflexivity]. destruct (Nat.eq_dec j (length m)); [right; lia|]. left. rewrite wr_spec by lia. reflexivity. }
  induction n; intros i j m HR Hc Hi HF Hj; cbv zeta.
  - cbn [rtrim_loop zstr rpos]. destruct (Fin j m HR ltac:(lia)) as [F|[F1 F2]]; [exact F|]. lia.
  - cbn [rtrim_loop]. rewrite rd_hd.
    pose proof (readable_skip i count m HR HF ltac:(lia) Hi) as HR2. replace (count - i)%nat with (S n) in HR2 by lia.
    destruct (skipn i m) as [|c r] eqn:E; [apply readable_nil in HR2; lia|]. cbn [obind zstr].
    assert (Hlen : (i < length m)%nat). { assert (length (skipn i m) = length (c :: r)) by (rewrite E; auto). rewrite skipn_length in H. cbn in H. lia. }
    destruct (c =? 0) eqn:Ec.
    + cbn [rpos]. destruct (Fin j m HR ltac:(lia)) as [F|[F1 F2]]; [exact F|]. lia.
    + cbn [rpos]. rewrite IHn; auto; try lia.
      * cbv zeta. rewrite (skipn_tl _ _ _ _ E). reflexivity.
      * intros y Hy. assert (firstn (S i) m = firstn i m ++ [c]) as F.
        { rewrite <- (firstn_skipn i m) at 1. rewrite E. rewrite firstn_app. rewrite firstn_firstn. rewrite firstn_length.
          replace (Nat.min (S i) i) with i by lia. replace (S i - Nat.min i (length m))%nat with 1%nat by lia. reflexivity. }
        rewrite F in Hy. apply in_app_or in Hy. destruct Hy as [Hy|[<-|[]]]; [auto|lia].
      * destruct (negb (sp c)); lia.
Qed.
Lemma rtrim_prefix : forall sp t, exists w, t = rtrim_str sp t ++ w /\ forallb sp w = true.
Proof.
  intros sp t. induction t as [|c t IH] using rev_ind; [exists []; auto|]. unfold rtrim_str in *. rewrite rev_app_distr. cbn [rev app ltrim_str].
  destruct (sp c) eqn:E.
  - destruct IH as (w & E1 & E2). exists (w ++ [c]). rewrite app_assoc, <- E1. rewrite forallb_app, E2. cbn. rewrite E. auto.
  - exists []. cbn [rev]. rewrite rev_involutive, app_nil_r. auto.
Qed.
Lemma ltrim_str_drop : forall sp t, ltrim_str sp t = drop_while sp t.
Proof. induction t as [|c t IH]; cbn; [reflexivity|destruct (sp c); [exact IH|reflexivity]]. Qed.
Lemma rtrim_exact : forall sp m count, readable count m ->
  let u := rtrim_str sp (zstr count m) in
  exists m', rtrim sp m count = Ret (m', length u) /\ zstr count m' = u /\ length m' = length m /\ skipn count m' = skipn count m /\
             ((length u < count)%nat -> exists r, m' = u ++ 0 :: r) /\ (count <= length u -> m' = m)%nat.
Proof.
  intros sp m count HR u. unfold rtrim. rewrite rtrim_loop_spec by (auto; try lia; cbn; tauto). cbv zeta. change (skipn 0 m) with m. rewrite rpos_len. fold u.
  destruct (rtrim_prefix sp (zstr count m)) as (w & Ew & _). fold u in Ew.
  destruct (zstr_prefix count m) as (rest & Em & _).
  pose proof (zstr_le count m) as L. assert (Lu : (length u <= length (zstr count m))%nat) by (rewrite Ew, app_length; lia).
  assert (Fu : firstn (length u) m = u). { rewrite Em, Ew, <- app_assoc, firstn_app, firstn_all, Nat.sub_diag, firstn_O, app_nil_r. auto. }
  eexists. split; [reflexivity|]. destruct (length u <? count)%nat eqn:E.
  - rewrite Fu. split; [apply zstr_app0; [|lia]; intros c Hc; apply (zstr_nonzero count m); rewrite Ew; apply in_or_app; auto|].
    assert (Lm : (length u < length m)%nat).
    { destruct (Nat.eq_dec (length u) (length m)); [|lia]. exfalso. destruct HR as [HR|HR]; [lia|].
      assert (m = u). { rewrite <- Fu. rewrite e. symmetry. apply firstn_all. }
      rewrite H in HR. apply (zstr_nonzero count m 0); [rewrite Ew; apply in_or_app; auto|auto]. }
    split; [rewrite app_length; change (length (0 :: skipn (S (length u)) m)) with (S (length (skipn (S (length u)) m))); rewrite skipn_length; lia|]. split; [|split; [eauto|lia]].
    replace count with (length u + S (count - length u - 1))%nat at 1 by lia.
    rewrite skipn_app, skipn_all2 by lia. replace (length u + S (count - length u - 1) - length u)%nat with (S (count - length u - 1)) by lia. rewrite skipn_cons; cbn [app].
    assert (G : forall a b (l : list Z), skipn a (skipn b l) = skipn (b + a) l).
    { intros a b. induction b; intros [|y l]; cbn; auto; rewrite ?skipn_nil; auto. }
    rewrite G. f_equal. lia.
  - split; [|split; [|split; [|split]]]; auto; [|lia].
    assert (length u = length (zstr count m)) by lia. rewrite Ew in *. rewrite app_length in H. destruct w; [rewrite app_nil_r; auto|cbn in H; lia].
Qed.
Lemma zstr_shrink : forall n k m, (k <= n)%nat -> zstr k m = firstn k (zstr n m).
Proof.
  induction n; intros [|k] m H; try lia; cbn; auto. destruct m as [|c r]; [auto|]. destruct (c =? 0); cbn; [auto|].
  f_equal. apply IHn. lia.
Qed.

(* ---- numerals ---- *)
Lemma digit_of_value : forall c radix, 2 <= radix <= 36 ->
  digit_of c radix = if digit_value c <? radix then Some (digit_value c) else None.
Proof.
  intros c radix H. unfold digit_of, digit_value.
  destruct ((48 <=? c) && (c <=? 57)) eqn:E1. { destruct (c - 48 >=? radix) eqn:?, (c - 48 <? radix) eqn:?; auto; lia. }
  destruct ((65 <=? c) && (c <=? 90)) eqn:E2. { replace (c - 65 + 10) with (c - 55) by lia. destruct (c - 55 >=? radix) eqn:?, (c - 55 <? radix) eqn:?; auto; lia. }
  destruct ((97 <=? c) && (c <=? 122)) eqn:E3. { replace (c - 97 + 10) with (c - 87) by lia. destruct (c - 87 >=? radix) eqn:?, (c - 87 <? radix) eqn:?; auto; lia. }
  destruct (99 <? radix) eqn:?; auto; lia.
Qed.
Lemma digit_value_nonneg : forall c, 0 <= digit_value c.
Proof. intros. unfold digit_value. dif; lia. Qed.
Lemma fold_grows : forall radix ds v, 2 <= radix -> 0 <= v -> v <= fold_left (fun v c => v * radix + digit_value c) ds v.
Proof.
  intros radix. induction ds as [|c r IH]; intros v Hr Hv; cbn; [lia|]. pose proof (digit_value_nonneg c).
  specialize (IH (v * radix + digit_value c) Hr ltac:(nia)). nia.
Qed.
Lemma fits_spec : forall maxv radix v d, 2 <= radix -> 0 <= v -> 0 <= d < radix -> 0 <= maxv ->
  (v <? maxv / radix) || ((v =? maxv / radix) && (d <=? maxv mod radix)) = (v * radix + d <=? maxv).
Proof.
  intros. pose proof (Z.div_mod maxv radix ltac:(lia)). pose proof (Z.mod_pos_bound maxv radix ltac:(lia)).
  set (q := maxv / radix) in *. set (m := maxv mod radix) in *.
  destruct (v <? q) eqn:E1; cbn [orb].
  - symmetry. apply Z.leb_le. nia.
  - destruct (v =? q) eqn:E2; cbn [andb].
    + assert (v = q) by lia. subst v. destruct (d <=? m) eqn:?; symmetry; [apply Z.leb_le|apply Z.leb_gt]; lia.
    + symmetry. apply Z.leb_gt. nia.
Qed.
Lemma at_end_zstr : forall s n i, readable n s -> at_end (Cur s n i) = Ret (match zstr n s with [] => true | _ => false end).
Proof.
  intros s n i H. unfold at_end. cbn [cn cs]. destruct n; [destruct s; auto|]. destruct s as [|c r]; [apply readable_nil in H; lia|].
  unfold rd. cbn. destruct (c =? 0); auto.
Qed.
Lemma zstr_cons_inv : forall n s c t, zstr n s = c :: t -> exists k r, n = S k /\ s = c :: r /\ c <> 0 /\ t = zstr k r.
Proof.
  intros [|k] [|x r] c t H; cbn in H; try discriminate. destruct (x =? 0) eqn:E; [discriminate|]. injection H as -> <-.
  exists k, r. repeat split; auto; lia.
Qed.
Lemma digits_loop_spec : forall n s i radix maxv value neg ovf, 2 <= radix <= 36 -> 0 <= maxv -> 0 <= value <= maxv ->
  readable n s -> zstr n s <> [] ->
  let ds := take_while (fun c => digit_value c <? radix) (zstr n s) in
  let w := fold_left (fun v c => v * radix + digit_value c) ds value in
  exists v', digits_loop s n i radix maxv value neg ovf = Ret (Num v' (i + length ds) neg (ovf || negb (w <=? maxv))) /\ 0 <= v' <= maxv /\ (w <= maxv -> v' = w).
Proof.
  intros n. induction n; intros s i radix maxv value neg ovf Hr Hm Hv HR Hne; cbv zeta; [destruct s; cbn in Hne; congruence|].
  destruct s as [|c r]; [cbn in Hne; congruence|]. cbn [zstr digits_loop] in *. destruct (c =? 0) eqn:Ec; [congruence|].
  rewrite digit_of_value by lia. cbn [take_while]. destruct (digit_value c <? radix) eqn:Ed.
  2:{ exists value. cbn [length fold_left]. rewrite Nat.add_0_r. replace (value <=? maxv) with true by lia. rewrite orb_false_r. split; auto. }
  pose proof (digit_value_nonneg c) as Hd.
  rewrite fits_spec by lia. set (v1 := value * radix + digit_value c).
  assert (R1 : readable n r) by (eapply readable_cons; eauto; lia).
  rewrite at_end_zstr by auto. cbn [obind length fold_left]. fold v1.
  pose proof (fold_grows radix (take_while (fun c => digit_value c <? radix) (zstr n r)) v1 ltac:(lia) ltac:(nia)) as G.
  destruct (zstr n r) as [|c2 t] eqn:Ez.
  - cbn [take_while fold_left length] in *. destruct (v1 <=? maxv) eqn:Ef.
    + exists v1. rewrite orb_false_r. replace (i + 1)%nat with (S i) by lia. split; auto. split; [nia|auto].
    + exists value. rewrite orb_true_r. replace (i + 1)%nat with (S i) by lia. split; auto. split; [lia|lia].
  - assert (N : zstr n r <> []) by congruence.
    destruct (v1 <=? maxv) eqn:Ef.
    + destruct (IHn r (S i) radix maxv v1 neg ovf Hr Hm ltac:(nia) R1 N) as (v' & E1 & E2 & E3). rewrite Ez in *.
      exists v'. rewrite E1. split; [|auto]. do 2 f_equal. lia.
    + destruct (IHn r (S i) radix maxv value neg true Hr Hm ltac:(lia) R1 N) as (v' & E1 & E2 & E3). rewrite Ez in *.
      exists v'. rewrite E1. split; [|split; [auto|lia]]. cbn [orb].
      replace (fold_left (fun v c => v * radix + digit_value c) (take_while (fun c => digit_value c <? radix) (c2 :: t)) v1 <=? maxv) with false by lia.
      rewrite orb_true_r. do 2 f_equal. lia.
Qed.
Lemma isspace_white : forall c, isspace c = white c.
Proof. intros. unfold isspace, white. destruct (c =? 32) eqn:?, (c =? 9) eqn:?, (c =? 10) eqn:?, (c =? 13) eqn:?, (c =? 11) eqn:?, (c =? 12) eqn:?, (9 <=? c) eqn:?, (c <=? 13) eqn:?; auto; lia. Qed.
Lemma skip_spaces_spec : forall n s i, readable n s ->
  let w := take_while white (zstr n s) in let t := drop_while white (zstr n s) in
  exists s' n', skip_spaces s n i = Ret (match t with [] => false | _ => true end, Cur s' n' (i + length w)) /\
    readable n' s' /\ zstr n' s' = t.
Proof.
  induction n; intros s i HR; cbv zeta.
  - exists s, 0%nat. cbn. rewrite Nat.add_0_r. auto.
  - destruct s as [|c r]; [apply readable_nil in HR; lia|]. cbn [skip_spaces zstr]. destruct (c =? 0) eqn:E.
    { exists (c :: r), (S n). cbn. rewrite E, Nat.add_0_r. auto. }
    rewrite isspace_white. cbn [take_while drop_while]. destruct (white c) eqn:Ew; cbn [negb].
    + destruct (IHn r (S i)) as (s' & n' & E1 & E2 & E3). { eapply readable_cons; eauto; lia. }
      exists s', n'. cbn [length]. rewrite E1. split; auto. do 3 f_equal. lia.
    + exists (c :: r), (S n). cbn [zstr length]. rewrite E, Nat.add_0_r. auto.
Qed.

Lemma zstr_adv1 : forall c k r, c <> 0 -> readable (S k) (c :: r) -> readable (S k - 1) (skipn 1 (c :: r)) /\ zstr (S k - 1) (skipn 1 (c :: r)) = zstr k r.
Proof. intros. cbn [Nat.sub skipn]. rewrite Nat.sub_0_r. split; auto. eapply readable_cons; eauto. Qed.

Lemma strtoint_core_spec : forall maxv s count radix, 0 <= maxv -> readable count s -> radix = 0 \/ 2 <= radix <= 36 ->
  let q := read_numeral radix (zstr count s) in
  let v := numeral_value (radix_of q) (digits_of q) in
  exists v', strtoint_core maxv s count radix = Ret (Num v' (consumed q) (negative q) (negb (v <=? maxv))) /\ 0 <= v' <= maxv /\ (v <= maxv -> v' = v).
Proof.
  intros maxv s count radix Hm HR Hr q v. unfold strtoint_core.
  destruct (skip_spaces_spec count s 0 HR) as (s1 & n1 & E1 & R1 & Z1). rewrite E1. cbn [obind]. cbn [Nat.add].
  assert (Stop : forall i neg, exists v', Ret (Num 0 i neg false) = Ret (Num v' i neg (negb (0 <=? maxv))) /\ 0 <= v' <= maxv /\ (0 <= maxv -> v' = 0)).
  { intros. exists 0. replace (0 <=? maxv) with true by lia. split; auto. lia. }
  (* digits from a cursor *)
  assert (Dig : forall sx nx i rx neg, 2 <= rx <= 36 -> readable nx sx -> zstr nx sx <> [] ->
     exists v', digits_loop sx nx i rx maxv 0 neg false =
       Ret (Num v' (i + length (take_while (fun c => digit_value c <? rx) (zstr nx sx))) neg
             (negb (numeral_value rx (take_while (fun c => digit_value c <? rx) (zstr nx sx)) <=? maxv))) /\ 0 <= v' <= maxv /\
       (numeral_value rx (take_while (fun c => digit_value c <? rx) (zstr nx sx)) <= maxv -> v' = numeral_value rx (take_while (fun c => digit_value c <? rx) (zstr nx sx)))).
  { intros sx nx i rx neg H1 H2 H3. exact (digits_loop_spec nx sx i rx maxv 0 neg false H1 Hm ltac:(lia) H2 H3). }
  subst v q. unfold read_numeral. set (W := length (take_while white (zstr count s))) in *.
  destruct (drop_while white (zstr count s)) as [|c1 t1] eqn:ET.
  { cbn [negb]. destruct (radix =? 16) eqn:E16; [|destruct (radix =? 0) eqn:E0]; cbn [consumed negative radix_of digits_of take_while length ci];
      rewrite !Nat.add_0_r; apply Stop. }
  cbn [negb cs cn ci].
  apply zstr_cons_inv in Z1. destruct Z1 as (k1 & r1 & -> & -> & Hc1 & ->).
  unfold rd at 1. cbn [nth_error obind].
  (* after the sign: state (sx, nx, ix) with string t2 *)
  assert (After : forall neg sx nx p, readable nx sx ->
    exists v',
      (let* e := (if match p with O => false | _ => true end then at_end (Cur sx nx (W + p)) else Ret false) in
       if e then Ret (Num 0 (ci (Cur sx nx (W + p))) neg false) else
       let* c := rd (cs (Cur sx nx (W + p))) 0 in
       if radix =? 16 then
         let* pre := (if (c =? 48) && (1 <? cn (Cur sx nx (W + p)))%nat then let* x := rd (cs (Cur sx nx (W + p))) 1 in Ret ((x =? 120) || (x =? 88)) else Ret false) in
         let k := if pre then adv (Cur sx nx (W + p)) 2 else (Cur sx nx (W + p)) in
         let* e := (if pre then at_end k else Ret false) in
         if e then Ret (Num 0 (ci k) neg false) else digits_loop (cs k) (cn k) (ci k) 16 maxv 0 neg false
       else if radix =? 0 then
         if c =? 48 then
           let k := adv (Cur sx nx (W + p)) 1 in
           let* e := at_end k in
           if e then Ret (Num 0 (ci k) neg false) else
           let* x := rd (cs k) 0 in
           if (x =? 120) || (x =? 88) then
             let k := adv k 1 in
             let* e := at_end k in
             if e then Ret (Num 0 (ci k) neg false) else digits_loop (cs k) (cn k) (ci k) 16 maxv 0 neg false
           else digits_loop (cs k) (cn k) (ci k) 8 maxv 0 neg false
         else digits_loop (cs (Cur sx nx (W + p))) (cn (Cur sx nx (W + p))) (ci (Cur sx nx (W + p))) 10 maxv 0 neg false
       else digits_loop (cs (Cur sx nx (W + p))) (cn (Cur sx nx (W + p))) (ci (Cur sx nx (W + p))) radix maxv 0 neg false) =
       (let '(rx, pp, t3) :=
          (if radix =? 16 then match zstr nx sx with
                          | z :: x :: r => if (z =? 48) && ((x =? 120) || (x =? 88)) then (16, 2%nat, r) else (16, 0%nat, zstr nx sx)
                          | _ => (16, 0%nat, zstr nx sx)
                          end
    else if radix =? 0 then match zstr nx sx with
                            | z :: r => if z =? 48 then match r with
                                                        | x :: r' => if (x =? 120) || (x =? 88) then (16, 2%nat, r') else (8, 1%nat, r)
                                                        | [] => (8, 1%nat, [])
                                                        end
                                        else (10, 0%nat, zstr nx sx)
                            | [] => (10, 0%nat, [])
                            end
    else (radix, 0%nat, zstr nx sx)) in
        let ds := take_while (fun c => digit_value c <? rx) t3 in
        Ret (Num v' (W + p + pp + length ds) neg (negb (numeral_value rx ds <=? maxv)))) /\ 0 <= v' <= maxv /\
       (let '(rx, pp, t3) :=
          (if radix =? 16 then match zstr nx sx with
                          | z :: x :: r => if (z =? 48) && ((x =? 120) || (x =? 88)) then (16, 2%nat, r) else (16, 0%nat, zstr nx sx)
                          | _ => (16, 0%nat, zstr nx sx)
                          end
    else if radix =? 0 then match zstr nx sx with
                            | z :: r => if z =? 48 then match r with
                                                        | x :: r' => if (x =? 120) || (x =? 88) then (16, 2%nat, r') else (8, 1%nat, r)
                                                        | [] => (8, 1%nat, [])
                                                        end
                                        else (10, 0%nat, zstr nx sx)
                            | [] => (10, 0%nat, [])
                            end
    else (radix, 0%nat, zstr nx sx)) in
        let ds := take_while (fun c => digit_value c <? rx) t3 in numeral_value rx ds <= maxv -> v' = numeral_value rx ds) \/ (p = 0%nat /\ zstr nx sx = [])).
  { intros neg sx nx p R2.
    destruct (zstr nx sx) as [|c t] eqn:EZ.
    { destruct p as [|p]; [exists 0; auto|]. rewrite at_end_zstr by auto. rewrite EZ. cbn [obind ci].
      destruct (Stop (W + S p)%nat neg) as (v' & S1 & S2 & S3). exists v'. left.
      destruct (radix =? 16); [|destruct (radix =? 0)]; cbn [take_while length]; rewrite !Nat.add_0_r; auto. }
    replace (if match p with 0%nat => false | S _ => true end then at_end (Cur sx nx (W + p)) else Ret false) with (@Ret bool false)
      by (rewrite at_end_zstr, EZ by auto; destruct p; auto). cbn [obind cs cn ci].
    pose proof EZ as EZ'. apply zstr_cons_inv in EZ'. destruct EZ' as (k & r & -> & -> & Hc & ->).
    unfold rd at 1. cbn [nth_error obind].
    assert (RT : readable k r) by (eapply readable_cons; eauto).
    assert (Plain : forall rx, 2 <= rx <= 36 -> exists v', digits_loop (c :: r) (S k) (W + p) rx maxv 0 neg false =
       Ret (Num v' (W + p + 0 + length (take_while (fun c => digit_value c <? rx) (c :: zstr k r))) neg
             (negb (numeral_value rx (take_while (fun c => digit_value c <? rx) (c :: zstr k r)) <=? maxv))) /\ 0 <= v' <= maxv /\
       (numeral_value rx (take_while (fun c => digit_value c <? rx) (c :: zstr k r)) <= maxv -> v' = numeral_value rx (take_while (fun c => digit_value c <? rx) (c :: zstr k r)))).
    { intros rx Hrx. destruct (Dig (c :: r) (S k) (W + p)%nat rx neg Hrx R2) as (v' & D1 & D2 & D3). { rewrite EZ. discriminate. }
      rewrite EZ in *. exists v'. rewrite Nat.add_0_r. auto. }
    (* after a two-unit prefix *)
    assert (Pre2 : forall rx, 2 <= rx <= 36 -> forall x r', r = x :: r' -> x <> 0 -> forall k', k = S k' -> exists v',
       (let* e := at_end (Cur r' k' (W + p + 2)) in
        if e then Ret (Num 0 (W + p + 2) neg false) else digits_loop r' k' (W + p + 2) rx maxv 0 neg false) =
       Ret (Num v' (W + p + 2 + length (take_while (fun c => digit_value c <? rx) (zstr k' r'))) neg
             (negb (numeral_value rx (take_while (fun c => digit_value c <? rx) (zstr k' r')) <=? maxv))) /\ 0 <= v' <= maxv /\
       (numeral_value rx (take_while (fun c => digit_value c <? rx) (zstr k' r')) <= maxv -> v' = numeral_value rx (take_while (fun c => digit_value c <? rx) (zstr k' r')))).
    { intros rx Hrx x r' -> Hx k' ->. assert (R3 : readable k' r') by (eapply readable_cons; eauto).
      rewrite at_end_zstr by auto. cbn [obind]. destruct (zstr k' r') as [|y t'] eqn:EY.
      - cbn [take_while length]. rewrite Nat.add_0_r. apply Stop.
      - destruct (Dig r' k' (W + p + 2)%nat rx neg Hrx R3) as (v' & D1 & D2 & D3). { rewrite EY. discriminate. }
        rewrite EY in *. exists v'. auto. }
    destruct (radix =? 16) eqn:E16.
    - destruct k as [|k].
      { cbn [Nat.ltb Nat.leb]. rewrite andb_false_r. cbn [obind cs cn ci]. destruct (Plain 16 ltac:(lia)) as (v' & P). exists v'. left. exact P. }
      destruct r as [|x r']; [apply readable_nil in RT; lia|]. cbn [Nat.ltb Nat.leb]. rewrite andb_true_r.
      destruct (c =? 48) eqn:E48.
      + unfold rd. cbn [nth_error obind]. cbn [zstr]. destruct ((x =? 120) || (x =? 88)) eqn:EX.
        * unfold adv. cbn [cs cn ci skipn Nat.sub obind]. rewrite ?Nat.sub_0_r. replace (x =? 0) with false by lia. cbn [andb].
          destruct (Pre2 16 ltac:(lia) x r' eq_refl ltac:(lia) k eq_refl) as (v' & P). exists v'. left. rewrite ?E48, ?EX. exact P.
        * cbn [obind cs cn ci]. destruct (Plain 16 ltac:(lia)) as (v' & P). exists v'. left. cbn [zstr] in P.
          destruct (x =? 0); [exact P|]. rewrite ?E48, ?EX. cbn [andb]. exact P.
      + cbn [obind cs cn ci]. destruct (Plain 16 ltac:(lia)) as (v' & P). exists v'. left. cbn [zstr] in *.
        destruct (x =? 0); [exact P|]. rewrite ?E48. cbn [andb]. exact P.
    - destruct (radix =? 0) eqn:E0.
      + destruct (c =? 48) eqn:E48.
        * unfold adv. cbn [cs cn ci skipn Nat.sub]. rewrite Nat.sub_0_r. rewrite at_end_zstr by auto. cbn [obind].
          destruct (zstr k r) as [|x t'] eqn:EX.
          { cbn [take_while length]. rewrite Nat.add_0_r. destruct (Stop (W + p + 1)%nat neg) as (v' & P). exists v'. left. exact P. }
          pose proof EX as EX'. apply zstr_cons_inv in EX'. destruct EX' as (k' & r' & -> & -> & Hx & ->).
          unfold rd. cbn [nth_error obind]. destruct ((x =? 120) || (x =? 88)) eqn:EXX.
          -- cbn [skipn Nat.sub]. rewrite Nat.sub_0_r. replace (W + p + 1 + 1)%nat with (W + p + 2)%nat by lia.
             destruct (Pre2 16 ltac:(lia) x r' eq_refl Hx k' eq_refl) as (v' & P). exists v'. left. exact P.
          -- destruct (Dig (x :: r') (S k') (W + p + 1)%nat 8 neg ltac:(lia) RT) as (v' & P). { rewrite EX. discriminate. }
             rewrite EX in P. exists v'. left. exact P.
        * cbn [obind]. destruct (Plain 10 ltac:(lia)) as (v' & P). exists v'. left. exact P.
      + destruct (Plain radix ltac:(lia)) as (v' & P). exists v'. left. exact P. }
  assert (N1 : zstr (S k1) (c1 :: r1) <> []) by (cbn; destruct (c1 =? 0) eqn:?; [lia|discriminate]).
  assert (ZZ : zstr (S k1) (c1 :: r1) = c1 :: zstr k1 r1) by (cbn; destruct (c1 =? 0) eqn:?; [lia|reflexivity]).
  assert (Rr : readable k1 r1) by (eapply readable_cons; eauto).
  destruct (c1 =? 43) eqn:E43; [|destruct (c1 =? 45) eqn:E45].
  - replace (c1 =? 45) with false by lia. cbn [orb]. replace (adv (Cur (c1 :: r1) (S k1) W) 1) with (Cur r1 k1 (W + 1)) by (unfold adv; cbn [cs cn ci skipn Nat.sub]; rewrite Nat.sub_0_r; reflexivity).
    destruct (After false r1 k1 1%nat Rr) as (v' & [P|[P _]]); [|lia]. cbn [cs cn ci] in P. destruct P as (P1 & P2 & P3).
    exists v'. destruct (if radix =? 16 then _ else _) as [[rx pp] t3] in P1, P3 |- *. cbn [consumed negative radix_of digits_of]. split; [exact P1|split; [exact P2|exact P3]].
  - cbn [orb]. replace (adv (Cur (c1 :: r1) (S k1) W) 1) with (Cur r1 k1 (W + 1)) by (unfold adv; cbn [cs cn ci skipn Nat.sub]; rewrite Nat.sub_0_r; reflexivity).
    destruct (After true r1 k1 1%nat Rr) as (v' & [P|[P _]]); [|lia]. cbn [cs cn ci] in P. destruct P as (P1 & P2 & P3).
    exists v'. destruct (if radix =? 16 then _ else _) as [[rx pp] t3] in P1, P3 |- *. cbn [consumed negative radix_of digits_of]. split; [exact P1|split; [exact P2|exact P3]].
  - cbn [orb cs cn ci]. destruct (After false (c1 :: r1) (S k1) 0%nat R1) as (v' & [P|[_ P]]); [|congruence]. cbn [cs cn ci] in P. rewrite Nat.add_0_r in P.
    destruct P as (P1 & P2 & P3). rewrite ZZ in P1, P3.
    exists v'. destruct (if radix =? 16 then _ else _) as [[rx pp] t3] in P1, P3 |- *. cbn [consumed negative radix_of digits_of]. rewrite Nat.add_0_r. split; [exact P1|split; [exact P2|exact P3]].
Qed.
