(** HTML documents: concrete documents that meet the hypotheses of the theorems, and what does not hold of all (C151-C155). *)
From Coq Require Import String Ascii ZifyBool ZifyNat.
From Verif Require Import Base StringModel StringSpec StringProofs ParserModel ParserSpec ParserProps HtmlTagModel HtmlTagSpec HtmlTagProps HtmlTagMore HtmlElemModel HtmlElemSpec HtmlElemProps HtmlDocModel HtmlDocSpec HtmlDocProps HtmlDocInv HtmlDocMain HtmlDocMore HtmlDocChunk.
Import List.ListNotations. Open Scope Z_scope.

Definition w (s : string) : list Z := map (fun c => Z.of_nat (nat_of_ascii c)) (list_ascii_of_string s).
Definition look (d : outcome doc) : outcome (list (seq_t * list Z * option nat * option nat)) :=
  let* d := d in Ret (map (fun q => (q_type q, between (d_src d) (extent q), q_parent q, q_link q)) (d_seqs d)).
Lemma w_nz : forall s, forallb (fun c => negb (c =? 0)) (w s) = true -> ~ In 0 (w s).
Proof. intros s H I. rewrite forallb_forall in H. apply H in I. discriminate. Qed.
Lemma reach_assign : forall src d, ~ In 0 src -> assign sp_c doc_empty src = Ret d -> reach sp_c d.
Proof. intros src d N H. unfold assign in H. change (clear doc_empty) with doc_empty in H. destruct (append sp_c doc_empty src) as [e| |] eqn:E; try discriminate. injection H as <-. apply reach_finalize. eapply reach_append; [apply reach_new|apply N|exact E]. Qed.

(** the hypotheses of C144-C147 and C150 are met by this document, whose elements nest *)
Definition page : list Z := w "<ul><li>a<LI>b</Ul>&lt;<br/>".
Example page_parsed : look (assign sp_c doc_empty page) = Ret
  [(SStart, w "<ul>", None, Some 5%nat); (SStart, w "<li>", Some 0%nat, Some 3%nat); (SText, w "a", Some 1%nat, None); (SStart, w "<LI>", Some 0%nat, None); (SText, w "b", Some 3%nat, None);
   (SEnd, w "</Ul>", None, Some 0%nat); (SText, w "&lt;", None, None); (SElement, w "<br/>", None, None)].
Proof. vm_compute. reflexivity. Qed.
Lemma page_nz : ~ In 0 page. Proof. apply w_nz. reflexivity. Qed.
Example page_reached : exists d, assign sp_c doc_empty page = Ret d /\ reach sp_c d /\ ~ occurs [60; 33; 91] (d_src d).
Proof.
  destruct (assign sp_c doc_empty page) as [d| |] eqn:E; try (vm_compute in E; discriminate). exists d. split; auto. split; [apply (reach_assign page); [apply page_nz|exact E]|].
  intros (a & b & Q). assert (K : In 33 (d_src d)) by (rewrite Q; apply in_or_app; right; right; left; reflexivity). vm_compute in E. injection E as <-. cbn in K. repeat (destruct K as [K|K]; [discriminate|]). exact K.
Qed.
Example page_harmless : harmless page.
Proof.
  split. { intros K. vm_compute in K. repeat (destruct K as [K|K]; [discriminate|]). exact K. }
  intros i. do 14 (destruct i as [|i]; [left; split; intros (r & Q); vm_compute in Q; discriminate|]).
  destruct i as [|i]. { right. right. left. exists (w "</Ul"), (w "&lt;<br/>"). split; [reflexivity|]. split; [vm_compute; intros K; repeat (destruct K as [K|K]; [discriminate|]); exact K|]. split; [vm_compute; discriminate|]. split; [|left; vm_compute; intros K; repeat (destruct K as [K|K]; [discriminate|]); exact K].
    intros (a & b & Q). assert (K : In 45 (w "</Ul")) by (rewrite Q; apply in_or_app; right; left; reflexivity). vm_compute in K. repeat (destruct K as [K|K]; [discriminate|]); exact K. }
  do 13 (destruct i as [|i]; [left; split; intros (r & Q); vm_compute in Q; discriminate|]).
  left. assert (E : skipn (28 + i) page = []) by (apply skipn_all2; vm_compute; lia). cbn [plus] in E. rewrite E. split; intros (r & Q); discriminate.
Qed.

(** C148: parts that agree *)
Definition agree_b (s b : list Z) : bool :=
  forallb (fun i =>
    let n := length (s ++ b) in
    match condition_end (s ++ b) i n, condition_end s i (length s) with Ret None, Ret None => true | _, _ => false end &&
    match condition_start (s ++ b) sp_c i n, condition_start s sp_c i (length s) with Ret None, Ret None => true | _, _ => false end &&
    match html_tag (s ++ b) sp_c (S n) i n, html_tag s sp_c (S (length s)) i (length s) with
    | Ret None, Ret None => true
    | Ret (Some g), Ret (Some h) => match g_type g, g_type h with SStart, SStart | SEnd, SEnd => true | _, _ => false end && (fst (g_name g) =? fst (g_name h))%nat && (snd (g_name g) =? snd (g_name h))%nat && (length (g_attrs g) =? 0)%nat && (length (g_attrs h) =? 0)%nat && (g_end g =? g_end h)%nat
    | _, _ => false end) (seq 0 (length s)).
Lemma agree_b_ok : forall s b i, agree_b s b = true -> (i < length s)%nat -> agree sp_c s b i.
Proof.
  intros s b i H L. unfold agree_b in H. rewrite forallb_forall in H. assert (IN : In i (seq 0 (length s))) by (apply in_seq; lia). specialize (H i IN). clear IN. cbv zeta in H. apply andb_prop in H. destruct H as [H H3]. apply andb_prop in H. destruct H as [H1 H2]. unfold agree. repeat split.
  - destruct (condition_end (s ++ b) _ _) as [[|]| |]; try discriminate. destruct (condition_end s _ _) as [[|]| |]; try discriminate. auto.
  - destruct (condition_start (s ++ b) _ _ _) as [[|]| |]; try discriminate. destruct (condition_start s _ _ _) as [[|]| |]; try discriminate. auto.
  - destruct (html_tag (s ++ b) _ _ _ _) as [[[t1 [a1 b1] l1 e1]|]| |]; try discriminate; destruct (html_tag s _ _ _ _) as [[[t2 [a2 b2] l2 e2]|]| |]; try discriminate; auto. cbn [g_type g_name g_attrs g_end fst snd] in H3. repeat (apply andb_prop in H3; destruct H3 as [H3 ?]). destruct l1, l2; try discriminate. repeat match goal with K : (_ =? _)%nat = true |- _ => apply Nat.eqb_eq in K end. subst. destruct t1, t2; try discriminate; reflexivity.
Qed.
Example chunks_agree : forall i, (i < length (w "x<b>y"))%nat -> agree sp_c (w "x<b>y") (w "</b><i>") i.
Proof. intros i L. apply agree_b_ok; [vm_compute; reflexivity|exact L]. Qed.
Example chunks_parsed : exists d1, append sp_c doc_empty (w "x<b>y") = Ret d1 /\ look (append sp_c d1 (w "</b><i>")) = look (append sp_c doc_empty (w "x<b>y</b><i>")) /\ append sp_c d1 (w "</b><i>") = append sp_c doc_empty (w "x<b>y</b><i>").
Proof. eexists. split; [vm_compute; reflexivity|]. split; vm_compute; reflexivity. Qed.

Fixpoint has2 (a b : Z) (v : list Z) : bool := match v with [] => false | _ :: r => pre2 a b v || has2 a b r end.
Lemma has2_ok : forall a b v, occurs [a; b] v -> has2 a b v = true.
Proof. intros a b v (x & y & ->). induction x as [|c x IH]; cbn [app has2]. - unfold pre2. cbn [hdz tl]. rewrite !Z.eqb_refl. reflexivity. - cbn [app] in IH. rewrite IH. apply orb_true_r. Qed.
(** ** What does not hold *)
(** C151: text in front of a conditional section is in no sequence, and the "]]>" that ends a CDATA section does not end the condition:
    a later "]]>" is taken for it and is in no sequence either *)
Theorem document_complete_refuted : exists d, reach sp_c d /\ d_src d = w "a<![CDATA[b]]>c]]>d" /\
  map (fun q => (q_type q, between (d_src d) (extent q))) (d_seqs d) = [(SCdata, w "b"); (SText, w "c"); (SText, w "d")].
Proof.
  destruct (assign sp_c doc_empty (w "a<![CDATA[b]]>c]]>d")) as [d| |] eqn:E; try (vm_compute in E; discriminate). exists d. split; [apply (reach_assign (w "a<![CDATA[b]]>c]]>d")); [apply w_nz; reflexivity|exact E]|]. vm_compute in E. injection E as <-. split; vm_compute; reflexivity.
Qed.
(** C152: an end tag of an unknown element is linked with the innermost unknown element whatever its name *)
Theorem end_tag_name_refuted : exists d k q s b, reach sp_c d /\ nth_error (d_seqs d) k = Some q /\ q_type q = SEnd /\ q_link q = Some s /\ nth_error (d_seqs d) s = Some b /\
  between (d_src d) (q_name q) = w "foo" /\ between (d_src d) (q_name b) = w "bar" /\ (exists f, nth_error (d_seqs d) 0 = Some f /\ between (d_src d) (q_name f) = w "foo" /\ q_link f = None).
Proof.
  destruct (assign sp_c doc_empty (w "<foo><bar></foo>")) as [d| |] eqn:E; try (vm_compute in E; discriminate). assert (R : reach sp_c d) by (apply (reach_assign (w "<foo><bar></foo>")); [apply w_nz; reflexivity|exact E]). vm_compute in E. injection E as <-.
  eexists. exists 2%nat. eexists. exists 1%nat. eexists. split; [exact R|]. split; [vm_compute; reflexivity|]. split; [reflexivity|]. split; [reflexivity|]. split; [vm_compute; reflexivity|]. split; [vm_compute; reflexivity|]. split; [vm_compute; reflexivity|]. eexists. split; [vm_compute; reflexivity|]. split; vm_compute; reflexivity.
Qed.
(** C153: where the source is cut into parts matters *)
Theorem document_chunks_refuted : exists d1 d2 d, append sp_c doc_empty (w "<!-- <b>") = Ret d1 /\ append sp_c d1 (w " -->") = Ret d2 /\ append sp_c doc_empty (w "<!-- <b> -->") = Ret d /\
  map q_type (d_seqs d2) = [SText; SStart] /\ map q_type (d_seqs d) = [SComment].
Proof. do 3 eexists. repeat (split; [vm_compute; reflexivity|]). vm_compute. reflexivity. Qed.
(** C154: a special element that is open when the document is finalized makes the next append read a null pointer *)
Theorem append_after_finalize_refuted : exists d, append sp_c doc_empty (w "<script>") = Ret d /\ reach sp_c (finalize d) /\ harmless (w "<script></b>") /\ append sp_c (finalize d) (w "</b>") = UB.
Proof.
  eexists. split; [vm_compute; reflexivity|]. split; [|split].
  - apply reach_finalize. apply (reach_append sp_c doc_empty (w "<script>")); [apply reach_new|apply w_nz; reflexivity|vm_compute; reflexivity].
  - split. { intros K. vm_compute in K. repeat (destruct K as [K|K]; [discriminate|]). exact K. } intros i. right. right. right. intros O. apply occurs_skipn, has2_ok in O. vm_compute in O. discriminate.
  - vm_compute. reflexivity.
Qed.
(** C155: an entity that is not defined makes append throw *)
Theorem append_undefined_entity : append sp_c doc_empty (w "<![%x;[") = Throw.
Proof. vm_compute. reflexivity. Qed.
Print Assumptions page_harmless.
Print Assumptions document_complete_refuted.
Print Assumptions end_tag_name_refuted.
Print Assumptions document_chunks_refuted.
Print Assumptions append_after_finalize_refuted.
