(** HTML documents: C144-C148. *)
From Coq Require Import ZifyBool ZifyNat.
From Verif Require Import Base StringModel StringSpec StringProofs ParserModel ParserSpec ParserProps HtmlTagModel HtmlTagSpec HtmlTagProps HtmlTagMore HtmlElemModel HtmlElemSpec HtmlElemProps HtmlDocModel HtmlDocSpec HtmlDocProps HtmlDocInv.
Ltac Zify.zify_post_hook ::= Z.div_mod_to_equations.

Section Main.
Context (sp : Z -> bool).
Lemma cend_returns : forall src i, (i <= length src)%nat -> exists r, condition_end src i (length src) = Ret r.
Proof. intros src i L. destruct (html_condition_end_iff src i (length src) (src_ok _ _ L)) as (r & E & _). eauto. Qed.
Lemma cend_facts : forall src i x, ~ In 0 src -> (i <= length src)%nat -> condition_end src i (length src) = Ret (Some x) -> x = (i + 3)%nat /\ (i + 3 <= length src)%nat /\ starts (skipn i src) [93; 93; 62].
Proof.
  intros src i x N L H. destruct (html_condition_end_iff src i (length src) (src_ok _ _ L)) as (r & E & R & I). rewrite E in H. injection H as ->. rewrite src_vis in I by auto. destruct R as [R|R]; [|discriminate]. injection R as ->. pose proof (proj1 I eq_refl) as S. split; auto. split; auto. destruct S as (r & Q). apply (f_equal (@length Z)) in Q. rewrite skipn_length in Q. cbn [app length] in Q. lia.
Qed.
Lemma cond_loop_facts : forall txt fuel i e cend c k, text_ok txt i e -> condition_loop txt sp fuel i e cend = Ret (Some (c, k)) -> (i < k <= i + length (vis txt i e))%nat /\ (c = cend \/ (i < c < k)%nat).
Proof.
  intros txt. induction fuel; intros i e cend c k H K; [discriminate|]. cbn [condition_loop] in K. rewrite (peek_spec txt i e H) in K. destruct (vis txt i e) as [|x r] eqn:V; cbn [hd_error obind] in K; [discriminate|]. destruct (x =? 91). { injection K as <- <-. cbn [length]. split; [lia|auto]. }
  destruct (vis_cons txt i e x r H V) as (_ & H2 & V2 & _). destruct (sp x); apply IHfuel in K; auto; rewrite V2 in K; cbn [length]; (split; [lia|]); destruct K as [K [->|K2]]; auto; right; lia.
Qed.
Lemma cstart_facts : forall src i a b x, ~ In 0 src -> (i <= length src)%nat -> condition_start src sp i (length src) = Ret (Some ((a, b), x)) -> (i + 3 <= a <= b)%nat /\ (b < x <= length src)%nat /\ starts (skipn i src) [60; 33; 91].
Proof.
  intros src i a b x N L H. unfold condition_start in H. pose proof (src_ok src i L) as T. rewrite and3_spec in H by auto. rewrite src_vis in H by auto. cbn [obind] in H. destruct (pre3 60 33 91 (skipn i src)) eqn:P; [|discriminate]. apply pre3_iff in P. destruct P as (r & P). pose proof P as P2. apply (f_equal (@length Z)) in P2. rewrite skipn_length in P2. cbn [length] in P2.
  pose proof (src_ok src (i + 3) ltac:(lia)) as T3. rewrite skip_space_spec in H by (auto; rewrite src_vis, skipn_length by auto; lia). cbn [obind] in H. rewrite src_vis in H by auto. set (w := scan (no_blank sp) (skipn (i + 3) src)) in *. pose proof (scan_le (no_blank sp) (skipn (i + 3) src)) as W. fold w in W. rewrite skipn_length in W. clearbody w.
  destruct (condition_loop src sp _ (i + 3 + w) _ _) as [[[c k]|]| |] eqn:K; cbn [obind] in H; try discriminate. injection H as <- <- <-. apply cond_loop_facts in K; [|apply src_ok; lia]. rewrite src_vis, skipn_length in K by auto. split; [lia|]. split; [lia|]. exists r. exact P.
Qed.
Lemma turn_inv : forall d i d', dinv d -> (d_parsed d <= i < length (d_src d))%nat -> turn sp d i = Ret (Some d') -> dinv d' /\ (i < d_parsed d')%nat /\ d_src d' = d_src d.
Proof.
  intros d i d' I L H. pose proof (inv_nz _ _ _ _ I) as NZ. unfold turn in H. cbv zeta in H. destruct (cend_returns (d_src d) i ltac:(lia)) as (ce & CE). rewrite CE in H. cbn [obind] in H.
  assert (CF : forall x, ce = Some x -> x = (i + 3)%nat /\ (i + 3 <= length (d_src d))%nat /\ starts (skipn i (d_src d)) [93; 93; 62]) by (intros x ->; apply cend_facts; auto; lia).
  destruct (d_cdata d || d_rcdata d).
  { destruct ce as [x|]; cbn [option_map] in H; [|discriminate]. destruct (CF x eq_refl) as (-> & L3 & ST). injection H as <-. cbn [at_cdata_end d_parsed d_src]. split; [|split; [lia|auto]]. unfold dinv, at_cdata_end. cbn [d_src d_parsed d_seqs d_stack].
    set (x := plain_seq (if d_cdata d then SCdata else SPcdata) (d_parsed d) i (active d)). apply (inv_hi _ (q_end x)); [|cbn; lia]. eapply (inv_plain (d_src d) (d_parsed d)); auto. - intros [Q|Q]; cbn in Q; destruct (d_cdata d); discriminate. - cbn. lia. - cbn; lia. - unfold written. cbn. destruct (d_cdata d); auto. - apply named_other; cbn; destruct (d_cdata d); discriminate. }
  destruct (negb (d_invalid d =? 0)%nat).
  { destruct ce as [x|]; cbn [option_map] in H; [|discriminate]. destruct (CF x eq_refl) as (-> & L3 & ST). injection H as <-. cbn [d_parsed d_src]. split; [|split; [lia|auto]]. unfold dinv. cbn [d_src d_parsed d_seqs d_stack]. eapply inv_hi; [apply I|lia]. }
  destruct (if (d_valid d =? 0)%nat then None else ce) as [x|] eqn:VC.
  { destruct (d_valid d =? 0)%nat; [discriminate|]. destruct (CF x VC) as (-> & L3 & ST). injection H as <-. cbn [d_parsed d_src]. split; [|split; [lia|auto]]. unfold dinv. cbn [d_src d_parsed d_seqs d_stack]. eapply inv_hi; [apply inv_text; auto; lia|lia]. }
  destruct (condition_start (d_src d) sp i (length (d_src d))) as [[[[a b] x]|]| |] eqn:CS; cbn [obind] in H; try discriminate.
  { destruct (cstart_facts (d_src d) i a b x NZ ltac:(lia) CS) as (B1 & B2 & ST). destruct (replace_entities _ _ _ _) as [cond| |]; cbn [obind] in H; try discriminate. injection H as <-. cbn [at_condition d_parsed d_src]. split; [|split; [lia|auto]]. unfold dinv, at_condition. cbn [d_src d_parsed d_seqs d_stack]. eapply inv_hi; [apply I|lia]. }
  destruct (html_tag (d_src d) sp _ i _) as [[g|]| |] eqn:G; cbn [obind] in H; try discriminate. 2: { destruct (d_special d); discriminate. }
  destruct (tag_facts (d_src d) sp _ i g NZ ltac:(lia) G) as (B & N1 & N2 & TY). destruct (d_special d).
  - destruct (g_type g) eqn:T; try discriminate. rewrite code_of_spec in H by (auto; lia). cbn [obind] in H. destruct (active d) as [p|] eqn:A; [|discriminate]. destruct (nth_error (d_seqs d) p) as [q|] eqn:Q; [|discriminate]. destruct (_ =? q_code q) eqn:C; [|discriminate]. injection H as <-. assert (C' : html_number (between (d_src d) (g_name g)) = q_code q) by lia. rewrite C'. split; [|split; [cbn; lia|reflexivity]]. rewrite <- T in TY. apply at_special_inv; auto.
  - destruct (at_tag d i g) as [d''| |] eqn:AT; cbn [obind] in H; try discriminate. injection H as ->. unfold at_tag in AT. destruct (g_type g) eqn:T; try discriminate.
    + destruct (at_element_inv d i g d' I L ltac:(right; auto) B N1 N2 ltac:(rewrite T; auto) AT) as (A1 & A2 & A3). split; auto. split; [lia|auto].
    + destruct (at_element_inv d i g d' I L ltac:(left; auto) B N1 N2 ltac:(rewrite T; auto) AT) as (A1 & A2 & A3). split; auto. split; [lia|auto].
    + destruct (at_end_inv d i g d' I L T B N1 N2 ltac:(rewrite T; auto) AT) as (A1 & A2 & A3). split; auto. split; [lia|auto].
    + destruct (at_declaration_inv d i g d' I L T B ltac:(rewrite T; auto) AT) as (A1 & A2 & A3). split; auto. split; [lia|auto].
    + assert (E : d' = at_other d i g) by congruence. rewrite E. split; [apply at_other_inv; auto; rewrite T; auto|]. split; [cbn; lia|reflexivity].
    + assert (E : d' = at_other d i g) by congruence. rewrite E. split; [apply at_other_inv; auto; rewrite T; auto|]. split; [cbn; lia|reflexivity].
Qed.
Lemma loop_inv : forall fuel d i d', dinv d -> (d_parsed d <= i <= length (d_src d))%nat -> doc_loop sp fuel d i = Ret d' -> dinv d' /\ d_src d' = d_src d.
Proof.
  induction fuel; intros d i d' I L H; [discriminate|]. cbn [doc_loop] in H. destruct (i <? length (d_src d))%nat eqn:E. 2: { injection H as <-. auto. }
  destruct (turn sp d i) as [[d1|]| |] eqn:T; cbn [obind] in H; try discriminate.
  - destruct (turn_inv d i d1 I ltac:(lia) T) as (I1 & L1 & S1). apply IHfuel in H; auto. + rewrite <- S1. auto. + pose proof (inv_parsed _ _ _ _ I1). lia.
  - apply IHfuel in H; auto. lia.
Qed.
(** the documents a program can make *)
Inductive reach : doc -> Prop :=
| reach_new : reach doc_empty
| reach_append : forall d c d', reach d -> ~ In 0 c -> append sp d c = Ret d' -> reach d'
| reach_finalize : forall d, reach d -> reach (finalize d)
| reach_clear : forall d, reach d -> reach (clear d).
Lemma append_inv : forall d c d', dinv d -> ~ In 0 c -> append sp d c = Ret d' -> dinv d' /\ d_src d' = d_src d ++ c.
Proof.
  intros d c d' I N H. unfold append in H. cbv zeta in H. apply loop_inv in H. - exact H. - unfold dinv. cbn [d_src d_parsed d_seqs d_stack]. apply inv_append; auto. - cbn [d_src d_parsed]. pose proof (inv_parsed _ _ _ _ I). rewrite app_length. lia.
Qed.
Lemma reach_inv : forall d, reach d -> dinv d.
Proof.
  induction 1 as [|d c d' R IH N A|d R IH|d R IH]. - apply inv_empty. - eapply append_inv; eauto. - pose proof (inv_parsed _ _ _ _ IH). unfold dinv, finalize. cbn [d_src d_parsed d_seqs d_stack]. eapply inv_no_stack. apply inv_text; auto. - apply inv_empty.
Qed.
(** C144 *)
Theorem document_sequences : forall d, reach d ->
  (d_parsed d <= length (d_src d))%nat /\ ordered 0 (d_parsed d) (map extent (d_seqs d)) /\ Forall (fun q => written (d_src d) q /\ named (d_src d) q) (d_seqs d).
Proof.
  intros d R. apply reach_inv in R. destruct R as [A B C D E F]. split; auto. split; auto. apply Forall_forall. intros q Q. apply In_nth_error in Q. destruct Q as (k & Q). destruct (D k q Q) as (W & N & _). auto.
Qed.
(** C145 *)
Theorem document_nested : forall d, reach d -> nested (d_seqs d).
Proof. intros d R. apply reach_inv in R. apply R. Qed.
End Main.
Print Assumptions document_sequences.
Print Assumptions document_nested.
