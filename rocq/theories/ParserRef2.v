(** Property C114: creditor references. *)
From Coq Require Import ZifyBool ZifyNat.
From Verif Require Import Base StringModel StringSpec StringProofs ParserModel ParserSpec ParserProps ParserNumModel ParserNumProps ParserPeg ParserInt ParserIpModel ParserIp4 ParserRefModel ParserRefSpec ParserRefNum ParserRef.
Ltac Zify.zify_post_hook ::= Z.div_mod_to_equations.

(** ** moving the characters to the right *)
Lemma first_set : forall (A : Type) i n (x : A) l, (n <= i)%nat -> firstn n (set_at i x l) = firstn n l.
Proof. intros A i n x l. revert i n. induction l as [|y l IH]; intros [|i] [|n] H; cbn [set_at firstn]; try reflexivity; try lia. rewrite IH by lia. reflexivity. Qed.
Lemma skip_set : forall (A : Type) i (x : A) l, (i < length l)%nat -> skipn i (set_at i x l) = x :: skipn (S i) l.
Proof. intros A i x l. revert i. induction l as [|y l IH]; intros [|i] H; cbn [length] in H; try lia; cbn [set_at]; [reflexivity|]. cbn [skipn] in *. rewrite IH by lia. reflexivity. Qed.
Lemma skip_set_after : forall (A : Type) i n (x : A) l, (i < n)%nat -> skipn n (set_at i x l) = skipn n l.
Proof. intros A i n x l. revert i n. induction l as [|y l IH]; intros [|i] [|n] H; cbn [set_at skipn]; try reflexivity; try lia. apply IH. lia. Qed.
Lemma first_step : forall (A : Type) i (l : list A) c, nth_error l i = Some c -> firstn (S i) l = firstn i l ++ [c].
Proof. intros A i l c. revert i. induction l as [|y l IH]; intros [|i] H; cbn [nth_error] in H; try discriminate; [injection H as ->; reflexivity|]. change (firstn (S (S i)) (y :: l)) with (y :: firstn (S i) l). rewrite (IH i H). reflexivity. Qed.
Lemma shift_spec : forall i j rf, (i <= j <= length rf)%nat -> exists a, shift_loop i j rf = Ret (a ++ firstn i rf ++ skipn j rf) /\ length a = (j - i)%nat.
Proof.
  induction i as [|i IH]; intros j rf H.
  - exists (firstn j rf). cbn [shift_loop firstn app]. rewrite firstn_skipn, firstn_length. split; auto. lia.
  - cbn [shift_loop]. unfold rd. destruct (nth_error rf i) as [c|] eqn:E. 2:{ apply nth_error_None in E. lia. } cbn [obind]. destruct (IH (j - 1)%nat (set_at (j - 1) c rf)) as (a & -> & La). { rewrite set_at_length. lia. }
    exists a. split; [|lia]. rewrite first_set, skip_set by lia. replace (S (j - 1)) with j by lia. rewrite (first_step _ _ _ _ E), <- app_assoc. reflexivity.
Qed.
Lemma zero_spec : forall j rf, (j <= length rf)%nat -> zero_loop j rf = repeat 48 j ++ skipn j rf.
Proof.
  induction j as [|j IH]; intros rf H; [reflexivity|]. cbn [zero_loop]. rewrite IH by (rewrite set_at_length; lia). rewrite skip_set by lia. replace (S j) with (j + 1)%nat by lia. rewrite repeat_app, <- app_assoc. reflexivity.
Qed.

Section Ref.
Context (txt : list Z) (toup : Z -> Z) (sp : option espec) (Gp : o_good txt sp).
Local Notation text_ok := (text_ok txt).
Local Notation vis := (vis txt).
Local Notation spf := (o_f sp).
Local Notation run_at := (run_at txt toup).
Local Notation blocks_at := (blocks_at txt toup spf).
Local Notation ends_at := (ends_at txt toup).

Lemma alnum_is : forall c, alnum c = cap_or_dec c.
Proof. reflexivity. Qed.
Lemma run_ok : forall e fl cs x y, text_ok x e -> run_at e fl cs x y -> text_ok y e /\ in_vis txt x y e /\ y = (x + length cs)%nat /\ Forall (fun c => cap_or_dec c = true) cs.
Proof.
  intros e fl cs. induction cs as [|k cs IH]; intros x y H R; cbn [ParserRefSpec.run_at] in R.
  - subst y. split; auto. split; [split; lia|]. cbn [length]. split; [lia|constructor].
  - destruct R as (c & t & V & -> & C & R). destruct (vis_cons txt x e c t H V) as (_ & H1 & V1 & _). destruct (IH _ _ H1 R) as (Hy & Wy & Ly & F). split; auto. split; [unfold in_vis in *; rewrite V1 in Wy; rewrite V; cbn [length]; lia|]. cbn [length]. split; [lia|]. constructor; auto.
Qed.
Lemma four_spec : forall j n rf x e fl cs y, text_ok x e -> length rf = 22%nat -> (n <= 21)%nat -> (length cs <= j)%nat -> run_at e fl cs x y -> (length cs = j \/ ends_at e fl y) ->
  if (n + length cs <=? 21)%nat then exists rf', four_loop txt toup j n rf x e fl = Ret (Some ((n + length cs)%nat, rf', y, negb (length cs =? j)%nat)) /\ length rf' = 22%nat /\ firstn (n + length cs) rf' = firstn n rf ++ cs
  else four_loop txt toup j n rf x e fl = Ret None.
Proof.
  induction j as [|j IH]; intros n rf x e fl cs y H L Hn Lj R E.
  - destruct cs; [|cbn in Lj; lia]. cbn [ParserRefSpec.run_at] in R. subst y. cbn [length]. rewrite Nat.add_0_r. replace (n <=? 21)%nat with true by lia. exists rf. rewrite app_nil_r. auto.
  - cbn [four_loop]. rewrite (peek_spec txt x e H). cbn [obind]. destruct cs as [|k cs].
    + cbn [ParserRefSpec.run_at] in R. subst y. cbn [length]. rewrite Nat.add_0_r. replace (n <=? 21)%nat with true by lia. destruct E as [E|E]; [cbn in E; lia|]. exists rf. rewrite app_nil_r. split; [|auto]. unfold ParserRefSpec.ends_at in E. destruct (vis x e) as [|c t]; cbn [hd_error]; [reflexivity|]. rewrite alnum_is. change (up toup fl c) with (seen toup fl c). rewrite E. reflexivity.
    + cbn [ParserRefSpec.run_at] in R. destruct R as (c & t & V & -> & C & R). rewrite V. cbn [hd_error]. rewrite alnum_is. change (up toup fl c) with (seen toup fl c). rewrite C. destruct (vis_cons txt x e c t H V) as (_ & H1 & V1 & _). cbn [length] in *. destruct (21 <=? n)%nat eqn:E21.
      * replace (n + S (length cs) <=? 21)%nat with false by lia. reflexivity.
      * specialize (IH (S n) (set_at n (seen toup fl c) rf) (S x) e fl cs y H1). rewrite set_at_length in IH. specialize (IH L ltac:(lia) ltac:(lia) R ltac:(destruct E; [left; lia|right; auto])). replace (S n + length cs)%nat with (n + S (length cs))%nat in IH by lia. destruct (n + S (length cs) <=? 21)%nat; auto.
        destruct IH as (rf' & E' & L' & F'). exists rf'. rewrite E'. split; auto. split; auto. rewrite F'. destruct (nth_error rf n) as [z|] eqn:En; [|apply nth_error_None in En; lia].
        assert (X : firstn (S n) (set_at n (seen toup fl c) rf) = firstn n rf ++ [seen toup fl c]). { rewrite (first_step _ n _ (seen toup fl c)). { rewrite first_set by lia. reflexivity. } rewrite <- (firstn_skipn n (set_at n _ rf)), skip_set by lia. rewrite nth_error_app2 by (rewrite firstn_length, set_at_length; lia). rewrite firstn_length, set_at_length, Nat.min_l, Nat.sub_diag by lia. reflexivity. }
        rewrite X, <- app_assoc. reflexivity.
Qed.
Lemma run_max : forall j x e fl, text_ok x e -> exists cs y, run_at e fl cs x y /\ (length cs <= j)%nat /\ (length cs = j \/ ends_at e fl y).
Proof.
  induction j as [|j IH]; intros x e fl H. { exists [], x. split; [reflexivity|]. cbn. auto. }
  destruct (vis x e) as [|c t] eqn:V. { exists [], x. split; [reflexivity|]. split; [cbn; lia|]. right. unfold ParserRefSpec.ends_at. rewrite V. exact I. }
  destruct (cap_or_dec (seen toup fl c)) eqn:C. 2:{ exists [], x. split; [reflexivity|]. split; [cbn; lia|]. right. unfold ParserRefSpec.ends_at. rewrite V. exact C. }
  destruct (vis_cons txt x e c t H V) as (_ & H1 & _). destruct (IH (S x) e fl H1) as (cs & y & R & L & E). exists (seen toup fl c :: cs), y. split; [cbn [ParserRefSpec.run_at]; eauto 6|]. cbn [length]. split; [lia|]. destruct E; [left; lia|auto].
Qed.
Lemma skip_ok : forall s e fl, text_ok s e -> text_ok (skip_space spf e fl s) e /\ in_vis txt s (skip_space spf e fl s) e.
Proof.
  intros s e fl H. unfold skip_space. destruct (ran_o txt sp _ s e fl Gp (ini_o txt sp Gp) H) as (k & _ & _ & R). destruct (spf s e fl) as [x|]; [tauto|]. split; auto. split; lia.
Qed.
Lemma blocks_exist : forall n s e fl, text_ok s e -> (length (vis s e) < n)%nat -> exists cs y, blocks_at e fl s cs y /\ in_vis txt s y e /\ Forall (fun c => cap_or_dec c = true) cs.
Proof.
  induction n as [|n IH]; intros s e fl H L; [lia|]. destruct (skip_ok s e fl H) as [H1 V1]. destruct (run_max 4 _ e fl H1) as (cs & y & R & L4 & E). destruct (run_ok e fl cs _ y H1 R) as (Hy & Vy & Ly & Fy).
  destruct (Nat.eq_dec (length cs) 4) as [E4|N4].
  - assert (Vs : in_vis txt s y e) by (apply (in_trans txt s (skip_space spf e fl s)); auto). destruct (vis_to txt s e y H Vs) as [_ Vl]. destruct (IH y e fl Hy) as (ds & z & B & W & F). { rewrite Vl, skipn_length. unfold in_vis in *. lia. }
    exists (cs ++ ds), z. split; [eapply blocks_more; eauto|]. split; [apply (in_trans txt s y); auto|]. apply Forall_app. auto.
  - exists cs, y. split; [apply blocks_last; auto; [lia|destruct E; [lia|auto]]|]. split; [apply (in_trans txt s (skip_space spf e fl s)); auto|auto].
Qed.
Lemma ref_loop_spec : forall e fl s cs y, blocks_at e fl s cs y -> forall fuel ks n rf, o_wf sp ks -> text_ok s e -> length rf = 22%nat -> (n <= 21)%nat -> (length (vis s e) < fuel)%nat ->
  exists ks', o_wf sp ks' /\
  if (n + length cs <=? 21)%nat then exists rf', ref_loop txt toup fuel (o_P sp) ks n rf s e fl = Ret (ks', Some ((n + length cs)%nat, rf', y)) /\ length rf' = 22%nat /\ firstn (n + length cs) rf' = firstn n rf ++ cs
  else ref_loop txt toup fuel (o_P sp) ks n rf s e fl = Ret (ks', None).
Proof.
  intros e fl s cs y B. induction B as [s cs y L R E|s cs x ds y L R B IH]; intros fuel ks n rf W H Lr Hn F; (destruct fuel as [|fuel]; [lia|]); cbn [ref_loop].
  all: destruct (ran_o txt sp ks s e fl Gp W H) as (k1 & E1 & W1 & R1); rewrite E1; cbn [obind]; clear E1; destruct (skip_ok s e fl H) as [H1 V1].
  all: assert (Ex : (if found (spf s e fl) then i_end k1 else s) = skip_space spf e fl s) by (unfold skip_space; destruct (spf s e fl) as [z|]; cbn [found]; [tauto|reflexivity]); rewrite Ex; clear Ex R1.
  - pose proof (four_spec 4 n rf _ e fl cs y H1 Lr Hn ltac:(lia) R ltac:(auto)) as Q. exists k1. split; auto. destruct (n + length cs <=? 21)%nat.
    + destruct Q as (rf' & -> & Q). cbn [obind]. replace (length cs =? 4)%nat with false by lia. cbn [negb]. exists rf'. auto.
    + rewrite Q. reflexivity.
  - pose proof (four_spec 4 n rf _ e fl cs x H1 Lr Hn ltac:(lia) R ltac:(auto)) as Q. destruct (run_ok e fl cs _ x H1 R) as (Hx & Vx & Lx & _). rewrite app_length. destruct (n + length cs <=? 21)%nat eqn:E21.
    + destruct Q as (rf' & -> & Lr' & Fr). cbn [obind]. rewrite L. change (4 =? 4)%nat with true. cbn [negb].
      destruct (IH fuel k1 (n + length cs)%nat rf' W1 Hx Lr' ltac:(lia)) as (ks' & W' & Q'). { assert (Vs : in_vis txt s x e) by (apply (in_trans txt s (skip_space spf e fl s)); auto). destruct (vis_to txt s e x H Vs) as [_ Vl]. rewrite Vl, skipn_length. unfold in_vis in *. lia. }
      exists ks'. split; auto. rewrite Nat.add_assoc. rewrite L in *. destruct (n + 4 + length ds <=? 21)%nat; auto. destruct Q' as (rf2 & -> & L2 & F2). exists rf2. split; auto. split; auto. rewrite F2, Fr, <- app_assoc. reflexivity.
    + rewrite Q. exists k1. split; auto. replace (n + (length cs + length ds) <=? 21)%nat with false by lia. reflexivity.
Qed.

Definition ref_wf (st : pst) : Prop := length (vals st) = 26%nat /\ exists k, kids st = [k] /\ o_wf sp k.
Lemma zeros_iso : forall n l, iso_number (repeat 48 n ++ l) = iso_number l.
Proof. intros n l. unfold iso_number. rewrite fold_left_app. f_equal. induction n; [reflexivity|]. cbn [repeat fold_left]. exact IHn. Qed.
Lemma zeros_cap : forall n, Forall (fun c => cap_or_dec c = true) (repeat 48 n).
Proof. induction n; constructor; auto. Qed.
Lemma letters_zeros : forall n l, letters (repeat 48 n ++ l) = letters l.
Proof. intros n l. unfold letters. induction n; auto. Qed.
(** What a match gives.  The local array has 47 cells; a reference with 20 or 21 letters overruns it. *)
Theorem reference_spec_partial : toup 0 = 0 ->
  ref_wf (p_init (creditor_reference txt toup (o_P sp))) /\
  forall st s e fl, ref_wf st -> text_ok s e ->
   let m := p_match (creditor_reference txt toup (o_P sp)) st s e fl in
   (forall k l cs y, reference_at txt toup spf e fl k l cs s y -> (letters cs <= 19)%nat ->
      exists st', m = Ret (st', true) /\ ref_wf st' /\ iv st' = (s, y) /\ ref_check st' = [k; l] /\ ref_reference st' = repeat 48 (21 - length cs) ++ cs /\
      (ref_valid st' = true <-> iso_number (cs ++ [82; 70; k; l]) mod 97 = 1)) /\
   (forall k l cs y, reference_at txt toup spf e fl k l cs s y -> (20 <= letters cs)%nat -> m = UB) /\
   ((forall k l cs y, ~ reference_at txt toup spf e fl k l cs s y) ->
      exists st', m = Ret (st', false) /\ ref_wf st' /\ iv st' = no_iv /\ ref_check st' = [] /\ ref_reference st' = [] /\ ref_valid st' = false).
Proof.
  intros T0. split. { split; [reflexivity|]. eexists. split; [reflexivity|]. apply (ini_o txt); auto. }
  intros st s e fl (L & ks & Ek & Wk) H. cbv zeta. cbn [creditor_reference p_match]. rewrite Ek.
  set (cd := firstn 3 (vals st)). set (rf := firstn 22 (skipn 3 (vals st))).
  assert (Lcd : length cd = 3%nat) by (subst cd; rewrite firstn_length; lia). assert (Lrf : length rf = 22%nat) by (subst rf; rewrite firstn_length, skipn_length; lia).
  clearbody cd rf.
  assert (Fields : forall s' y' a b v ks', length a = 3%nat -> length b = 22%nat -> let st' := Pst s' y' (a ++ b ++ [v]) [ks'] in ref_check st' = zstring a /\ ref_reference st' = zstring b /\ ref_valid st' = (v =? 1) /\ length (vals st') = 26%nat).
  { clear. intros s' y' a b v ks' La Lb. cbv zeta. unfold ref_check, ref_reference, ref_valid. cbn [vals]. rewrite !app_length, La, Lb.
    assert (E1 : firstn 3 (a ++ b ++ [v]) = a) by (rewrite <- La, firstn_app, Nat.sub_diag, firstn_all; apply app_nil_r).
    assert (E2 : skipn 3 (a ++ b ++ [v]) = b ++ [v]) by (rewrite <- La, skipn_app, Nat.sub_diag, skipn_all; reflexivity).
    assert (E3 : firstn 22 (b ++ [v]) = b) by (rewrite <- Lb, firstn_app, Nat.sub_diag, firstn_all; apply app_nil_r).
    rewrite E1, E2, E3. split; auto. split; auto. split; auto. rewrite !app_assoc. rewrite app_nth2 by (rewrite !app_length; lia). rewrite !app_length. replace (25 - (length a + length b))%nat with 0%nat by lia. reflexivity. }
  assert (Err : forall a b ks' m, length a = 3%nat -> length b = 22%nat -> o_wf sp ks' -> (forall k l cs y, ~ reference_at txt toup spf e fl k l cs s y) ->
    m = Ret (Pst 1 0 (set_at 0 0 a ++ set_at 0 0 b ++ [0]) [ks'], false) ->
   (forall k l cs y, reference_at txt toup spf e fl k l cs s y -> (letters cs <= 19)%nat ->
      exists st', m = Ret (st', true) /\ ref_wf st' /\ iv st' = (s, y) /\ ref_check st' = [k; l] /\ ref_reference st' = repeat 48 (21 - length cs) ++ cs /\
      (ref_valid st' = true <-> iso_number (cs ++ [82; 70; k; l]) mod 97 = 1)) /\
   (forall k l cs y, reference_at txt toup spf e fl k l cs s y -> (20 <= letters cs)%nat -> m = UB) /\
   ((forall k l cs y, ~ reference_at txt toup spf e fl k l cs s y) ->
      exists st', m = Ret (st', false) /\ ref_wf st' /\ iv st' = no_iv /\ ref_check st' = [] /\ ref_reference st' = [] /\ ref_valid st' = false)).
  { intros a b ks' m La Lb W N ->. destruct (Fields 1%nat 0%nat (set_at 0 0 a) (set_at 0 0 b) 0 ks') as (F1 & F2 & F3 & F4); [rewrite set_at_length; auto..|].
    rewrite zstring_zero in F1, F2 by (intros ->; discriminate). split; [intros k l cs y D; destruct (N _ _ _ _ D)|]. split; [intros k l cs y D; destruct (N _ _ _ _ D)|]. intros _. eexists. split; [reflexivity|]. split; [split; [exact F4|eexists; split; [reflexivity|auto]]|]. split; auto. }
  (* the identifier *)
  assert (Id : exists ok, (if (e <=? s + 1)%nat then Ret false else let* c := rd txt s in if negb (up toup fl c =? 82) then Ret false else let* c := rd txt (s + 1) in Ret (up toup fl c =? 70)) = Ret ok /\
    if ok then exists a b r, vis s e = a :: b :: r /\ seen toup fl a = 82 /\ seen toup fl b = 70 /\ text_ok (s + 2) e /\ vis (s + 2) e = r else forall a b r, vis s e = a :: b :: r -> seen toup fl a = 82 -> seen toup fl b = 70 -> False).
  { assert (U0 : up toup fl 0 = 0) by (unfold up; destruct (fl_ci fl); auto). destruct (e <=? s + 1)%nat eqn:Ee. { eexists. split; [reflexivity|]. intros a b r V. destruct (vis_end txt s e H) as [X _]. rewrite V in X. cbn [length] in X. lia. }
    destruct (rd_vis txt toup s e H ltac:(lia)) as (c & -> & Z0 & Z1). cbn [obind]. destruct (Z.eq_dec c 0) as [->|N0]. { rewrite U0. eexists. split; [reflexivity|]. intros a b r V. rewrite Z0 in V by auto. discriminate. }
    destruct (Z1 N0) as [r V]. destruct (up toup fl c =? 82) eqn:E82; cbn [negb]. 2:{ eexists. split; [reflexivity|]. intros a b r' V' Q _. rewrite V in V'. injection V' as <- _. change (seen toup fl c) with (up toup fl c) in Q. lia. }
    destruct (vis_cons txt s e c r H V) as (_ & H1 & V1 & _). replace (s + 1)%nat with (S s) by lia. destruct (rd_vis txt toup (S s) e H1 ltac:(lia)) as (c2 & -> & Y0 & Y1). cbn [obind]. destruct (Z.eq_dec c2 0) as [->|N2]. { rewrite U0. eexists. split; [reflexivity|]. intros a b r' V' _ _. rewrite V in V'. injection V' as <- ->. rewrite Y0 in V1 by auto. discriminate. }
    destruct (Y1 N2) as [r2 V2]. assert (Er : r = c2 :: r2) by congruence. rewrite Er in *. clear Er V2. eexists. split; [reflexivity|]. destruct (up toup fl c2 =? 70) eqn:E70.
    - exists c, c2, r2. split; auto. split; [change (up toup fl c = 82); lia|]. split; [change (up toup fl c2 = 70); lia|]. destruct (vis_cons txt (S s) e c2 r2 H1 V1) as (_ & H2 & V2 & _). replace (s + 2)%nat with (S (S s)) by lia. auto.
    - intros a b r' V' _ Q. rewrite V in V'. injection V' as <- <- _. change (seen toup fl c2) with (up toup fl c2) in Q. lia. }
  destruct Id as (ok & -> & Id). cbn [obind]. destruct ok; cbn [negb].
  2:{ apply (Err cd rf ks); auto. intros k l cs y ((a & b & r & D1 & D2 & D3) & _). apply (Id a b _ D1); auto. }
  destruct Id as (a & b & t & V & Ra & Rb & H1 & V1).
  destruct (check_spec txt toup cd (s + 2) e Lcd H1) as (cd1 & r2 & -> & Lc2 & R2). cbn [obind]. destruct r2 as [x2|].
  2:{ apply (Err cd1 rf ks); auto. intros k l cs y ((a' & b' & r & D1 & _) & D3 & D4 & _). rewrite V in D1. injection D1 as _ _ ->. apply (R2 k l r); auto. }
  destruct R2 as (k & l & t2 & z' & V2 & -> & Dk & Dl & -> & H2 & V3). change (set_at 2 0 [k; l; z']) with [k; l; 0].
  assert (Same : forall k' l' cs y, reference_at txt toup spf e fl k' l' cs s y -> k' = k /\ l' = l /\ (1 <= length cs <= 21)%nat /\ blocks_at e fl (s + 4) cs y).
  { intros k' l' cs y ((a' & b' & r & D1 & _) & _ & _ & D4 & D5). rewrite V in D1. injection D1 as _ _ ->. rewrite V1 in V2. injection V2 as -> -> _. auto. }
  replace (s + 2 + 2)%nat with (s + 4)%nat in * by lia. assert (Fu : (length (vis (s + 4) e) < S (e - (s + 4)))%nat) by (destruct (vis_end txt (s + 4) e H2); lia).
  destruct (blocks_exist _ (s + 4) e fl H2 Fu) as (cs & y & B & _ & Fcs).
  assert (Det : (length cs <= 21)%nat -> forall cs' y', blocks_at e fl (s + 4) cs' y' -> (length cs' <= 21)%nat -> cs' = cs /\ y' = y).
  { intros Lc cs' y' B' L'. destruct (ref_loop_spec _ _ _ _ _ B _ ks 0 rf Wk H2 Lrf ltac:(lia) Fu) as (k1 & _ & Q1). destruct (ref_loop_spec _ _ _ _ _ B' _ ks 0 rf Wk H2 Lrf ltac:(lia) Fu) as (k2 & _ & Q2). cbn [Nat.add firstn app] in Q1, Q2. replace (length cs <=? 21)%nat with true in Q1 by lia. replace (length cs' <=? 21)%nat with true in Q2 by lia.
    destruct Q1 as (r1 & Q1 & _ & F1). destruct Q2 as (r2 & Q2 & _ & F2). rewrite Q1 in Q2. injection Q2 as _ Eq -> ->. rewrite <- Eq in F2. split; congruence. }
  assert (None_ : (21 < length cs)%nat -> forall cs' y', blocks_at e fl (s + 4) cs' y' -> (21 < length cs')%nat).
  { intros Lc cs' y' B'. destruct (Nat.le_gt_cases (length cs') 21) as [L'|]; auto. exfalso. destruct (ref_loop_spec _ _ _ _ _ B _ ks 0 rf Wk H2 Lrf ltac:(lia) Fu) as (k1 & _ & Q1). destruct (ref_loop_spec _ _ _ _ _ B' _ ks 0 rf Wk H2 Lrf ltac:(lia) Fu) as (k2 & _ & Q2). cbn [Nat.add firstn app] in Q1, Q2. replace (length cs <=? 21)%nat with false in Q1 by lia. replace (length cs' <=? 21)%nat with true in Q2 by lia.
    destruct Q2 as (r2 & Q2 & _). rewrite Q1 in Q2. discriminate. }
  destruct (ref_loop_spec _ _ _ _ _ B _ ks 0 rf Wk H2 Lrf ltac:(lia) Fu) as (ks1 & Wk1 & Q). cbn [Nat.add firstn app] in Q. destruct (length cs <=? 21)%nat eqn:E21.
  2:{ rewrite Q. cbn [obind]. apply (Err [k; l; 0] rf ks1); auto. intros k' l' cs' y' D. destruct (Same _ _ _ _ D) as (_ & _ & L' & B'). specialize (None_ ltac:(lia) _ _ B'). lia. }
  destruct Q as (rf1 & -> & Lr1 & Fr1). cbn [obind]. destruct (length cs =? 0)%nat eqn:E0.
  { apply (Err [k; l; 0] rf1 ks1); auto. intros k' l' cs' y' D. destruct (Same _ _ _ _ D) as (_ & _ & L' & B'). destruct (Det ltac:(lia) _ _ B' ltac:(lia)) as [-> _]. lia. }
  destruct (shift_spec (length cs) 21 (set_at 21 0 rf1)) as (jnk & -> & Lj). { rewrite set_at_length. lia. } cbn [obind]. rewrite first_set by lia. rewrite skip_set by lia. rewrite (skipn_all2 rf1) by lia. rewrite Fr1.
  rewrite zero_spec by (rewrite app_length; lia). rewrite skipn_app, (skipn_all2 jnk), Lj, Nat.sub_diag by lia. cbn [app skipn].
  set (z := repeat 48 (21 - length cs)). assert (Lz : length z = (21 - length cs)%nat) by apply repeat_length.
  assert (Fz : Forall (fun c => cap_or_dec c = true) (z ++ cs)) by (apply Forall_app; split; [apply zeros_cap|auto]).
  replace (z ++ cs ++ [0]) with ((z ++ cs) ++ 0 :: []) by (rewrite <- app_assoc; reflexivity). rewrite put_chars_spec by (auto; cbn [length]; lia). cbn [app]. rewrite spells_length by auto. pose proof (letters_zeros (21 - length cs) cs) as LZ. fold z in LZ. rewrite LZ. rewrite app_length, Lz.
  assert (Lets : (letters cs <= length cs)%nat) by apply letters_le. replace (21 - length cs + length cs + letters cs <=? 47)%nat with true by lia. cbn [obind firstn].
  rewrite put_all_spec by (rewrite spells_length, LZ, app_length by auto; lia). rewrite (app_length (spells (z ++ cs))), spells_length, LZ, app_length, Lz by auto. change (50 :: 55 :: 49 :: 53 :: [k; l] ++ [0]) with [50; 55; 49; 53; k; l; 0]. change (length [50; 55; 49; 53; k; l; 0]) with 7%nat.
  assert (At : reference_at txt toup spf e fl k l cs s y). { split; [exists a, b, t2; rewrite V, <- V1, V2; auto|]. split; auto. split; auto. split; [lia|auto]. }
  destruct (21 - length cs + length cs + letters cs + 7 <=? 47)%nat eqn:E47; cbn [obind].
  2:{ assert (X : (20 <= letters cs)%nat) by lia. split; [|split].
      - intros k' l' cs' y' D L'. destruct (Same _ _ _ _ D) as (_ & _ & L2 & B'). destruct (Det ltac:(lia) _ _ B' ltac:(lia)) as [-> _]. lia.
      - intros. reflexivity.
      - intros N. destruct (N _ _ _ _ At). }
  assert (Eb' : spells (z ++ cs) ++ [50; 55; 49; 53; k; l; 0] = spells (z ++ cs ++ [82; 70; k; l]) ++ [0]).
  { rewrite app_assoc. unfold spells. rewrite (flat_map_app spell (z ++ cs) [82; 70; k; l]). cbn [flat_map]. assert (X : forall c, is_dec c = true -> spell c = [c]) by (intros c Hc; unfold spell; rewrite Hc; reflexivity). rewrite (X k Dk), (X l Dl). rewrite <- !app_assoc. reflexivity. }
  assert (Fall : Forall (fun c => cap_or_dec c = true) (z ++ cs ++ [82; 70; k; l])). { rewrite app_assoc. apply Forall_app. split; auto. constructor; auto. constructor; auto. unfold cap_or_dec. repeat constructor; rewrite ?Dk, ?Dl; reflexivity. }
  rewrite Eb', mod97_spec; [|intros Q; apply (f_equal (@length Z)) in Q; rewrite spells_length, !app_length in Q by auto; cbn [length] in Q; lia|apply spell_dec; auto]. cbn [obind]. rewrite spells_value by auto. assert (Iz : iso_number (z ++ cs ++ [82; 70; k; l]) = iso_number (cs ++ [82; 70; k; l])) by apply zeros_iso. rewrite Iz.
  set (v := iso_number _ mod 97 =? 1).
  destruct (Fields s y [k; l; 0] ((z ++ cs) ++ [0]) (b2z v) ks1 eq_refl) as (F1 & F2 & F3 & F4). { rewrite !app_length, Lz. cbn [length]. lia. }
  split; [|split].
  - intros k' l' cs' y' D L'. destruct (Same _ _ _ _ D) as (-> & -> & L2 & B'). destruct (Det ltac:(lia) _ _ B' ltac:(lia)) as [-> ->].
    exists (Pst s y ([k; l; 0] ++ ((z ++ cs) ++ [0]) ++ [b2z v]) [ks1]). split; [reflexivity|]. split; [split; [exact F4|eexists; split; [reflexivity|auto]]|]. split; [reflexivity|]. rewrite F1, F2, F3. change [k; l; 0] with ([k; l] ++ 0 :: []). rewrite !zstring_app; auto. 2:{ unfold cap_or_dec. repeat constructor; rewrite ?Dk, ?Dl; reflexivity. }
    split; auto. split; auto. subst v. destruct (iso_number _ mod 97 =? 1) eqn:Ev; cbn [b2z]; [change (1 =? 1) with true|change (0 =? 1) with false]; lia.
  - intros k' l' cs' y' D L'. destruct (Same _ _ _ _ D) as (_ & _ & L2 & B'). destruct (Det ltac:(lia) _ _ B' ltac:(lia)) as [-> _]. lia.
  - intros N. destruct (N _ _ _ _ At).
Qed.
End Ref.
