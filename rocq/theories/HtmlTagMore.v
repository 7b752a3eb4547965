(** HTML conditions (C142 continued) and the cases that meet the hypotheses of C139-C142. *)
From Coq Require Import ZifyBool ZifyNat.
From Verif Require Import Base StringModel StringSpec StringProofs ParserModel ParserSpec ParserProps HtmlTagModel HtmlTagSpec HtmlTagProps.
Ltac Zify.zify_post_hook ::= Z.div_mod_to_equations.

Section Conditions.
Context (txt : list Z) (sp : Z -> bool).
Local Notation text_ok := (text_ok txt).
Local Notation vis := (vis txt).
(** C143 *)
Theorem html_condition_end_iff : forall s e, text_ok s e ->
  exists r, condition_end txt s e = Ret r /\ (r = Some (s + 3)%nat \/ r = None) /\ (r = Some (s + 3)%nat <-> starts (vis s e) [93; 93; 62]).
Proof.
  intros s e H. unfold condition_end. rewrite and3_spec by auto. cbn [obind]. exists (if pre3 93 93 62 (vis s e) then Some (s + 3)%nat else None). split; auto. destruct (pre3 93 93 62 (vis s e)) eqn:P; split; auto; split; auto; try discriminate.
  - intros _. apply pre3_iff in P. destruct P as (r & ->). exists r. reflexivity.
  - intros (r & E). exfalso. assert (pre3 93 93 62 (vis s e) = true) by (apply pre3_iff; exists r; exact E). congruence.
Qed.
Lemma condition_loop_blank : forall b fuel i e cend v, blank sp b -> sp 91 = false -> text_ok i e -> vis i e = b ++ 91 :: v -> (length b < fuel)%nat -> condition_loop txt sp fuel i e cend = Ret (Some (cend, (i + length b + 1)%nat)).
Proof.
  induction b as [|c b IH]; intros fuel i e cend v B S91 H V L; (destruct fuel as [|fuel]; [cbn [length] in L; lia|]); cbn [condition_loop]; rewrite (peek_spec txt i e H), V; cbn [app hd_error obind].
  - change (91 =? 91) with true. cbv iota. cbn [length]. do 3 f_equal. lia.
  - inversion B as [|? ? C B']; subst. destruct (c =? 91) eqn:E. { assert (c = 91) by lia. subst. congruence. } rewrite C. destruct (vis_cons txt i e c _ H V) as (_ & H2 & V2 & _). rewrite (IH fuel (S i) e cend v B' S91 H2 V2) by (cbn [length] in L; lia). cbn [length]. do 3 f_equal. lia.
Qed.
Lemma condition_loop_spec : forall c fuel i e cend b v, ~ In 91 c -> blank sp b -> sp 91 = false -> text_ok i e -> vis i e = c ++ b ++ 91 :: v -> (c = [] \/ exists u x, c = u ++ [x] /\ sp x = false) -> (length c + length b < fuel)%nat ->
  condition_loop txt sp fuel i e cend = Ret (Some (if (length c =? 0)%nat then cend else (i + length c)%nat, (i + length c + length b + 1)%nat)).
Proof.
  induction c as [|d c IH]; intros fuel i e cend b v N B S91 H V T L. { cbn [app length] in *. change ((0 =? 0)%nat) with true. cbv iota. rewrite (condition_loop_blank b fuel i e cend v) by auto. do 3 f_equal. lia. }
  destruct fuel as [|fuel]; [cbn [length] in L; lia|]. cbn [condition_loop]. rewrite (peek_spec txt i e H), V. cbn [app hd_error obind]. destruct (d =? 91) eqn:E. { exfalso. apply N. left. lia. }
  destruct (vis_cons txt i e d _ H V) as (_ & H2 & V2 & _). assert (N' : ~ In 91 c) by (intros Q; apply N; right; auto). cbn [length] in L.
  assert (T' : (c = [] /\ sp d = false) \/ (c <> [] /\ exists u x, c = u ++ [x] /\ sp x = false)).
  { destruct T as [T|(u & x & E1 & E2)]; [discriminate|]. destruct u as [|y u]; cbn [app] in E1. - left. assert (d = x) by congruence. assert (c = []) by congruence. subst. auto. - right. assert (c = u ++ [x]) by congruence. split; [subst c; destruct u; discriminate|eauto]. }
  destruct T' as [[-> SD]|[NE T']].
  - rewrite SD. rewrite (IH fuel (S i) e (S i) b v) by (auto; cbn [length]; lia). cbn [length]. change ((0 =? 0)%nat) with true. change ((1 =? 0)%nat) with false. cbv iota. do 3 f_equal; lia.
  - assert (LC : (length c =? 0)%nat = false) by (destruct c; [congruence|reflexivity]). change (length (d :: c) =? 0)%nat with false. cbv iota. destruct (sp d); rewrite (IH fuel (S i) e _ b v) by (auto; lia); rewrite LC; cbn [length]; do 3 f_equal; lia.
Qed.
Theorem html_condition_recognised : forall s e b c b2 r, text_ok s e -> sp 91 = false -> blank sp b -> blank sp b2 -> ~ In 91 c ->
  (c = [] /\ b2 = [] \/ sp (hd 0 c) = false /\ exists u x, c = u ++ [x] /\ sp x = false) -> vis s e = [60; 33; 91] ++ b ++ c ++ b2 ++ 91 :: r ->
  condition_start txt sp s e = Ret (Some ((s + 3 + length b, s + 3 + length b + length c)%nat, (s + 3 + length b + length c + length b2 + 1)%nat)).
Proof.
  intros s e b c b2 r H S91 B B2 N T V. unfold condition_start. rewrite and3_spec by auto. rewrite V. pose proof (vis_end txt s e H) as [VE _]. rewrite V, !app_length in VE. cbn [length] in VE. change (pre3 60 33 91 ([60; 33; 91] ++ b ++ c ++ b2 ++ 91 :: r)) with true. cbn [obind].
  destruct (vis_skip txt 3 s e H) as [H3 V3]; [rewrite V, app_length; cbn [length]; lia|]. rewrite V in V3. cbn [app skipn] in V3. assert (NB : no_blank sp (c ++ b2 ++ 91 :: r) = true). { destruct T as [[-> ->]|[T (u & x & E & _)]]; [cbn; rewrite S91; auto|]. destruct c as [|d c]; [destruct u; discriminate|]. cbn [app no_blank hd] in *. rewrite T. auto. }
  rewrite (skip_space_spec txt sp _ (s + 3) e H3). 2: { rewrite V3, !app_length. cbn [length]. lia. } rewrite V3. rewrite blank_run by auto. cbn [obind]. destruct (vis_skip txt (length b) (s + 3) e H3) as [H4 V4]; [rewrite V3, app_length; lia|]. rewrite V3, skipn_length_app in V4.
  rewrite (condition_loop_spec c _ (s + 3 + length b) e _ b2 r N B2 S91 H4 V4). 3: lia. 2: { destruct T as [[-> _]|[_ T]]; auto. }
  cbn [obind]. do 3 f_equal. destruct (length c =? 0)%nat eqn:LC; auto. f_equal. lia.
Qed.
Lemma condition_loop_none : forall fuel i e cend, text_ok i e -> ~ In 91 (vis i e) -> (length (vis i e) < fuel)%nat -> condition_loop txt sp fuel i e cend = Ret None.
Proof.
  induction fuel; intros i e cend H N L; [lia|]. cbn [condition_loop]. rewrite (peek_spec txt i e H). destruct (vis i e) as [|c r] eqn:V; cbn [hd_error obind]; auto. destruct (c =? 91) eqn:E. { exfalso. apply N. left. lia. }
  destruct (vis_cons txt i e c _ H V) as (_ & H2 & V2 & _). cbn [length] in L. destruct (sp c); apply IHfuel; auto; rewrite V2; try lia; intros Q; apply N; right; auto.
Qed.
Theorem html_condition_none : forall s e, text_ok s e -> (~ starts (vis s e) [60; 33; 91] \/ exists r, vis s e = [60; 33; 91] ++ r /\ ~ In 91 r) -> condition_start txt sp s e = Ret None.
Proof.
  intros s e H C. unfold condition_start. rewrite and3_spec by auto. destruct (pre3 60 33 91 (vis s e)) eqn:P; cbn [obind]; auto. destruct C as [C|(r & V & N)]. { exfalso. apply C. apply pre3_iff in P. destruct P as (r & ->). exists r. reflexivity. }
  pose proof (vis_end txt s e H) as [VE _]. rewrite V in VE. rewrite app_length in VE. cbn [length] in VE. destruct (vis_skip txt 3 s e H) as [H3 V3]; [rewrite V, app_length; cbn [length]; lia|]. rewrite V in V3. cbn [app skipn] in V3.
  rewrite (skip_space_spec txt sp _ (s + 3) e H3) by (rewrite V3; lia). cbn [obind]. rewrite V3. pose proof (scan_le (no_blank sp) r) as L. destruct (vis_skip txt (scan (no_blank sp) r) (s + 3) e H3) as [H4 V4]; [rewrite V3; auto|]. rewrite V3 in V4.
  rewrite condition_loop_none; auto; rewrite V4; [|rewrite skipn_length; lia]. intros Q. apply N. rewrite <- (firstn_skipn (scan (no_blank sp) r) r). apply in_or_app. auto.
Qed.
End Conditions.

(** ** The hypotheses can be met *)
Definition sp_c (c : Z) : bool := (c =? 32) || ((9 <=? c) && (c <=? 13)).
Example sp_c_ok : forall c, In c [62; 61; 47; 34; 39] -> sp_c c = false.
Proof. intros c H. repeat (destruct H as [<-|H]; [reflexivity|]). destruct H. Qed.
(** <a href="x y" b=c d /> *)
Definition ex_tag : list Z := [60; 97; 32; 104; 114; 101; 102; 61; 34; 120; 32; 121; 34; 32; 98; 61; 99; 32; 100; 32; 47; 62].
Definition ex_attrs : list wattr := [WQuoted [104; 114; 101; 102] [] [] 34 [120; 32; 121] [32]; WPlain [98] [] [] [99] [32]; WName [100] [32]].
Ltac forall_t := repeat (first [apply Forall_nil | apply Forall_cons; [reflexivity|]]).
Example ex_attrs_ok : wattrs_ok sp_c ex_attrs.
Proof.
  unfold ex_attrs. cbn [wattrs_ok]. split; [|split; [|split; [|exact I]]]; (split; [cbn; forall_t|]).
  - split; [split; [discriminate|forall_t]|]. split; [apply Forall_nil|]. split; [apply Forall_nil|]. split; [auto|]. cbn. intros [H|[H|[H|[]]]]; discriminate.
  - split; [split; [discriminate|forall_t]|]. split; [apply Forall_nil|]. split; [apply Forall_nil|]. split; [split; [exists 99, []; split; auto; split; discriminate|forall_t]|]. left. discriminate.
  - split; [split; [discriminate|forall_t]|auto].
Qed.
Example ex_text : ex_tag = 60 :: [97] ++ [32] ++ wattrs_text ex_attrs ++ [47; 62]. Proof. reflexivity. Qed.
Example ex_result : html_tag ex_tag sp_c 99 0 22 = Ret (Some (Tag SElement (1, 2)%nat [Attr (3, 7)%nat (9, 12)%nat; Attr (14, 15)%nat (16, 17)%nat; Attr (18, 19)%nat no_itv] 22)).
Proof. vm_compute. reflexivity. Qed.
(** </a/> *)
Example ex_never : forall fuel, html_tag [60; 47; 97; 47; 62] sp_c fuel 0 5 = UB.
Proof.
  intros fuel. apply (html_end_tag_never_ends _ _ fuel 0 5 [97] []); auto.
  - split; [lia|]. split; [cbn; lia|]. left. cbn. lia.
  - split; [discriminate|forall_t].
Qed.
(** <![if IE 6 [ *)
Example ex_condition : condition_start [60; 33; 91; 105; 102; 32; 73; 69; 32; 91] sp_c 0 10 = Ret (Some ((3, 8)%nat, 10%nat)).
Proof. vm_compute. reflexivity. Qed.
Print Assumptions html_condition_end_iff.
Print Assumptions html_condition_recognised.
Print Assumptions html_condition_none.
