(** HTML tags: when parsing one ends, sharper than html_tag_returns (C140). *)
From Coq Require Import ZifyBool ZifyNat.
From Verif Require Import Base StringModel StringSpec StringProofs ParserModel ParserSpec ParserProps HtmlTagModel HtmlTagSpec HtmlTagProps.
Ltac Zify.zify_post_hook ::= Z.div_mod_to_equations.

(** the next '>' in [v] ends a tag: no '/' directly in front, no comment "--", and no attribute with a quoted value before it *)
Definition closes (v : list Z) : Prop :=
  exists x y, v = x ++ 62 :: y /\ ~ In 62 x /\ last x 0 <> 47 /\ ~ occurs [45; 45] x /\ (~ In 61 x \/ ~ In 34 x /\ ~ In 39 x).

(** a tag at the head of [v] does not keep the parser from ending (C141 is about those that do) *)
Definition tag_ends (v : list Z) : Prop := ~ starts v [60; 47] /\ ~ starts v [60; 33] \/ starts v [60; 33; 45; 45] \/ closes v \/ ~ occurs [47; 62] v.

Section Sharp.
Context (txt : list Z) (sp : Z -> bool).
Local Notation vis := (ParserSpec.vis txt).
Local Notation text_ok := (ParserSpec.text_ok txt).
Lemma scan_to : forall stop x y, stop (62 :: y) = true -> (scan stop (x ++ (62 :: y)%Z) <= length x)%nat.
Proof. intros stop. induction x as [|c x IH]; intros y H; cbn [app]. - rewrite (scan_here _ _ H). lia. - cbn [scan length]. destruct (stop (c :: x ++ 62 :: y)); [lia|]. specialize (IH y H). lia. Qed.
Lemma skip_in : forall n (x : list Z) y, (n <= length x)%nat -> skipn n (x ++ y) = skipn n x ++ y.
Proof. intros n x y L. rewrite skipn_app. replace (n - length x)%nat with 0%nat by lia. reflexivity. Qed.
Lemma last_skip : forall n (x : list Z), skipn n x <> [] -> last (skipn n x) 0 = last x 0.
Proof. induction n; intros x H; auto. destruct x as [|c x]; auto. cbn [skipn] in *. rewrite IHn by auto. destruct x; [destruct n; cbn in H; congruence|reflexivity]. Qed.
Lemma in_skip : forall (c : Z) n x, In c (skipn n x) -> In c x.
Proof. intros c n x H. rewrite <- (firstn_skipn n x). apply in_or_app. auto. Qed.
(** what is left of a tag in front of its end *)
Definition rest_ok (x : list Z) : Prop := ~ In 62 x /\ last x 0 <> 47 /\ ~ occurs [45; 45] x /\ (~ In 61 x \/ ~ In 34 x /\ ~ In 39 x).
Lemma rest_skip : forall n x, rest_ok x -> rest_ok (skipn n x).
Proof.
  intros n x (A & B & C & D). split; [intros Q; apply A; eapply in_skip, Q|]. split; [|split].
  - destruct (skipn n x) eqn:E; [discriminate|]. rewrite <- E, last_skip; auto. congruence.
  - intros O. apply C. eapply occurs_skipn, O.
  - destruct D as [D|[D1 D2]]; [left|right; split]; intros Q; [apply D|apply D1|apply D2]; eapply in_skip, Q.
Qed.
Lemma hd_in : forall c x y, x <> [] -> hdz (x ++ y) c = true -> In c x.
Proof. intros c [|d x] y N H; [congruence|]. cbn [app hdz] in H. left. lia. Qed.
Lemma p_one_rest : forall i x y a j, sp 62 = false -> rest_ok x -> p_one sp i (x ++ 62 :: y) = Some (a, j) -> x <> [] -> (i <= j <= i + length x)%nat.
Proof.
  intros i x y a j SP R H NX. unfold p_one in H. destruct (x ++ 62 :: y) as [|c0 r0] eqn:E; [discriminate|]. rewrite <- E in *. clear c0 r0 E. cbv zeta in H.
  assert (IS : ident_stop sp (62 :: y) = true) by reflexivity. assert (VS : value_stop sp (62 :: y) = true) by reflexivity. assert (NB : no_blank sp (62 :: y) = true) by (cbn; rewrite SP; auto).
  pose proof (scan_to _ x y IS) as L1. set (n := scan (ident_stop sp) _) in *. clearbody n. rewrite (skip_in n) in H by auto. pose proof (skipn_length n x) as B1. pose proof (rest_skip n x R) as R1. set (x1 := skipn n x) in *. clearbody x1.
  pose proof (scan_to _ x1 y NB) as L2. set (k := scan (no_blank sp) _) in *. clearbody k. rewrite (skip_in k) in H by auto. pose proof (skipn_length k x1) as B2. pose proof (rest_skip k x1 R1) as R2. set (x2 := skipn k x1) in *. clearbody x2.
  destruct (hdz (x2 ++ 62 :: y) 61) eqn:Q. 2: { injection H as _ <-. lia. }
  destruct x2 as [|e x3]. { cbn [app hdz] in Q. discriminate. } assert (e = 61) as -> by (cbn [app hdz] in Q; lia). cbn [app tl length] in *. assert (R3 : rest_ok x3) by apply (rest_skip 1 _ R2). assert (NQ : ~ In 34 x3 /\ ~ In 39 x3). { destruct R2 as (_ & _ & _ & [D|[D1 D2]]). - exfalso. apply D. left. auto. - split; intros K; [apply D1|apply D2]; right; auto. }
  pose proof (scan_to _ x3 y NB) as L3. set (m := scan (no_blank sp) _) in *. clearbody m. rewrite (skip_in m) in H by auto. pose proof (skipn_length m x3) as B3. assert (NQ4 : ~ In 34 (skipn m x3) /\ ~ In 39 (skipn m x3)) by (destruct NQ as [N1 N2]; split; intros K; [apply N1|apply N2]; eapply in_skip, K). set (x4 := skipn m x3) in *. clearbody x4. set (p := (i + n + k + 1 + m)%nat) in *.
  assert (V : value_of sp p (x4 ++ 62 :: y) = Some ((p, p + scan (value_stop sp) (x4 ++ (62 :: y)%Z))%nat, (p + scan (value_stop sp) (x4 ++ (62 :: y)%Z))%nat)).
  { destruct x4 as [|c x4]; cbn [app value_of]. - replace ((62 =? 34) || (62 =? 39)) with false by reflexivity. reflexivity. - replace ((c =? 34) || (c =? 39)) with false; [reflexivity|]. destruct NQ4 as [N1 N2]. destruct (c =? 34) eqn:E1; [exfalso; apply N1; left; lia|]. destruct (c =? 39) eqn:E2; [exfalso; apply N2; left; lia|]. reflexivity. }
  rewrite V in H. pose proof (scan_to _ x4 y VS) as L4. set (o := scan (value_stop sp) _) in *. clearbody o. replace (p + o - p)%nat with o in H by lia. rewrite (skip_in o) in H by auto. pose proof (scan_to _ (skipn o x4) y NB) as L5. rewrite skipn_length in L5. set (u := scan (no_blank sp) _) in *. clearbody u. injection H as _ <-. unfold p. lia.
Qed.
Lemma p_attrs_close : forall fuel ty i x y attrs, sp 62 = false -> rest_ok x -> no_blank sp (x ++ 62 :: y) = true -> (length x < fuel)%nat -> is_start ty = false -> exists r, p_attrs sp fuel ty i (x ++ 62 :: y) attrs = Ret r.
Proof.
  induction fuel; intros ty i x y attrs SP R NB L T; [lia|]. cbn [p_attrs]. rewrite T. cbn [andb]. destruct (hdz (x ++ 62 :: y) 62) eqn:C2; [eauto|]. assert (NX : x <> []) by (intros ->; cbn in C2; discriminate).
  destruct (is_decl ty && pre2 33 62 (x ++ 62 :: y)) eqn:C3; [eauto|]. assert (NP : pre2 47 62 (x ++ 62 :: y) = false).
  { destruct (pre2 47 62 (x ++ 62 :: y)) eqn:P; auto. exfalso. apply pre2_iff in P. destruct P as (r & P). destruct R as (A & B & _). destruct x as [|c [|d x]]; [congruence| |]; cbn [app] in P; injection P as ? ?; subst. - cbn in B. congruence. - apply A. right. left. auto. }
  assert (ND : is_decl ty && pre2 45 45 (x ++ 62 :: y) = false).
  { destruct (pre2 45 45 (x ++ 62 :: y)) eqn:P; [|apply andb_false_r]. exfalso. apply pre2_iff in P. destruct P as (r & P). destruct R as (_ & _ & C & _). destruct x as [|c [|d x]]; [congruence| |]; cbn [app] in P; injection P as ? ?; try discriminate; subst. apply C. exists [], x. reflexivity. }
  rewrite ND. destruct (p_one sp i (x ++ 62 :: y)) as [[a j]|] eqn:P; [|eauto]. pose proof (p_one_rest i x y a j SP R P NX) as B. destruct (p_one_step sp _ _ _ _ P NB C2) as (_ & S2 & S3 & _). specialize (S3 NP). rewrite skip_in in * by lia. apply IHfuel; auto. - apply rest_skip; auto. - rewrite skipn_length. lia.
Qed.
Lemma p_rest_close : forall fuel ty name i x y, sp 62 = false -> rest_ok x -> (length x < fuel)%nat -> is_start ty = false -> exists r, p_rest sp fuel ty name i (x ++ 62 :: y) = Ret r.
Proof.
  intros fuel ty name i x y SP R L T. unfold p_rest. cbv zeta. assert (NB : no_blank sp (62 :: y) = true) by (cbn; rewrite SP; auto). pose proof (scan_to _ x y NB) as L2. pose proof (skip_to_nonblank sp (x ++ 62 :: y)) as S2. set (w := scan (no_blank sp) _) in *. clearbody w. rewrite skip_in in * by auto.
  destruct (p_attrs_close fuel ty (i + w) (skipn w x) y [] SP (rest_skip w x R) S2) as (r & ->); auto. - rewrite skipn_length. lia. - cbn [obind]. destruct r as [[[? ?] ?]|]; eauto.
Qed.
(** C140: an end tag or a declaration with a proper end *)
Theorem html_tag_returns_closed : forall fuel s e, text_ok s e -> sp 62 = false -> (length (vis s e) < fuel)%nat -> closes (vis s e) -> exists r, html_tag txt sp fuel s e = Ret r.
Proof.
  intros fuel s e H SP L (x & y & V & R). assert (RO : rest_ok x) by exact R. clear R.
  destruct (pre2 60 47 (vis s e)) eqn:P1; [|destruct (pre2 60 33 (vis s e)) eqn:P2].
  - rewrite html_tag_spec by auto. rewrite V in *. apply pre2_iff in P1. destruct P1 as (r0 & P1). destruct x as [|c [|d x]]; cbn [app] in P1; try discriminate.
    injection P1 as -> -> ?. pose proof (rest_skip 2 _ RO) as R2. cbn [skipn] in R2. unfold p_tag. cbn [app hdz tl]. change (60 =? 60) with true. change (47 =? 47) with true. cbv iota. destruct (x ++ 62 :: y) as [|c0 q0] eqn:E; [destruct x; discriminate|]. rewrite <- E in *. cbv zeta.
    assert (IS : ident_stop sp (62 :: y) = true) by reflexivity. pose proof (scan_to _ x y IS) as L1. set (n := scan (ident_stop sp) _) in *. clearbody n. rewrite skip_in by auto. apply p_rest_close; auto. + apply rest_skip; auto. + rewrite skipn_length. cbn [app length] in L. rewrite app_length in L. cbn [length] in L. lia.
  - rewrite html_tag_spec by auto. rewrite V in *. apply pre2_iff in P2. destruct P2 as (r0 & P2). destruct x as [|c [|d x]]; cbn [app] in P2; try discriminate.
    injection P2 as -> -> ?. pose proof (rest_skip 2 _ RO) as R2. cbn [skipn] in R2. unfold p_tag. cbn [app hdz tl]. change (60 =? 60) with true. change (33 =? 47) with false. change (33 =? 33) with true. cbv iota. destruct (pre2 45 45 (x ++ 62 :: y)); [eauto|]. apply p_rest_close; auto. cbn [app length] in L. rewrite app_length in L. cbn [length] in L. lia.
  - apply html_tag_returns; auto. left. split; intros (r & Q).
    + rewrite Q in P1. cbn in P1. discriminate.
    + rewrite Q in P2. cbn in P2. discriminate.
Qed.
Theorem html_tag_returns_ends : forall fuel s e, text_ok s e -> sp 62 = false -> (length (vis s e) < fuel)%nat -> tag_ends (vis s e) -> exists r, html_tag txt sp fuel s e = Ret r.
Proof.
  intros fuel s e H SP L [C|[(r & C)|[C|C]]]. - apply html_tag_returns; auto. - rewrite html_tag_spec by auto. rewrite C. unfold p_tag. cbn [app hdz tl]. rewrite !Z.eqb_refl. change (33 =? 47) with false. cbv iota. unfold pre2. cbn [hdz tl]. rewrite !Z.eqb_refl. cbn [andb]. eauto. - apply html_tag_returns_closed; auto. - apply html_tag_returns; auto.
Qed.
End Sharp.
Lemma ends_prefix : forall a b, tag_ends (a ++ b) -> tag_ends a.
Proof.
  intros a b H. assert (NO : ~ In 62 a -> tag_ends a). { intros N. right. right. right. intros (x & y & E). apply N. rewrite E. apply in_or_app. right. right. left. auto. }
  destruct H as [[H1 H2]|[(r & H)|[(x & y & H & R)|H]]].
  - left. split; intros (r & Q); [apply H1|apply H2]; exists (r ++ b); rewrite Q, <- app_assoc; reflexivity.
  - destruct (app_eq_app _ _ _ _ H) as (l & [[E1 E2]|[E1 E2]]). + right. left. exists l. auto. + apply NO. intros Q. assert (K : In 62 [60; 33; 45; 45]) by (rewrite E1; apply in_or_app; auto). cbn in K. lia.
  - destruct (app_eq_app _ _ _ _ H) as (l & [[E1 E2]|[E1 E2]]). + destruct l as [|c l]. * apply NO. rewrite E1, app_nil_r. apply R. * injection E2 as <- ?. right. right. left. exists x, l. split; auto.
    + apply NO. intros Q. destruct R as [R _]. apply R. rewrite E1. apply in_or_app. auto.
  - right. right. right. intros (x & y & Q). apply H. exists x, (y ++ b). rewrite Q, <- !app_assoc. reflexivity.
Qed.
(** </b foo=x> y, <!DOCTYPE "-//"> *)
Example closes_end : closes [60; 47; 98; 32; 102; 61; 120; 62; 60; 98; 114; 47; 62].
Proof.
  exists [60; 47; 98; 32; 102; 61; 120], [60; 98; 114; 47; 62]. split; [reflexivity|]. split; [cbn; lia|]. split; [cbn; lia|]. split; [|right; cbn; lia].
  intros (a & b & E). assert (In 45 [60; 47; 98; 32; 102; 61; 120]) by (rewrite E; apply in_or_app; right; left; reflexivity). cbn in H. lia.
Qed.
Print Assumptions html_tag_returns_closed.
Print Assumptions html_tag_returns_ends.
