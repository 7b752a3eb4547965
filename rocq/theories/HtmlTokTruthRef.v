(** HTML tokens: C175 for documents, a document that meets its hypotheses, and the mapping of references (C195). *)
From Coq Require Import String ZifyBool ZifyNat.
From Verif Require Import Base StringModel StringSpec SgmlSpec HtmlTagModel HtmlElemModel HtmlElemSpec HtmlDocModel HtmlDocSpec HtmlDocProps HtmlDocInv HtmlDocMain HtmlDocMore HtmlTagMore HtmlDocRef HtmlTokModel HtmlTokSpec HtmlTokProps HtmlTokParse HtmlTokMain HtmlTokDoc HtmlTokRef HtmlTokTruth.
Import List.ListNotations. Open Scope Z_scope.
(** C175 for every document that append, assign and finalize make *)
Theorem document_tokens_true : forall addr sp frames d toks root, reach sp d -> plain_src (d_src d) -> parse addr (d_src d) (d_seqs d) sp frames = Ret (toks, root) ->
  covers addr (d_src d) (d_seqs d) toks root 0 (length (d_seqs d)) /\ text_iff (d_src d) (d_seqs d) root 0 (length (d_seqs d)).
Proof. intros addr sp frames d toks root R PS P. destruct (document_links_nest sp d R) as [_ OR]. destruct (tokens_true _ _ _ _ _ _ _ PS OR P) as (A & B & _). auto. Qed.
(** what the tokens of a page are: the title, the term, the list and the tags *)
Definition brief (t : token) : option (kind * bool * bool * bool * option nat) := match t with TText x => Some (t_kind x, t_txt x, t_title x, t_bullet x, t_seq x) | TUrl _ _ _ => None end.
Example truth_page : exists d toks root, reach sp_c d /\ plain_src (d_src d) /\ d_src d = w "<ul title='x'><li>a<br></ul><dt>b</dt>" /\ parse ad (d_src d) (d_seqs d) sp_c false = Ret (toks, root) /\
  map brief toks = [Some (KComplete, true, true, false, Some 0%nat); (* x *) Some (KStarting, false, false, false, Some 0%nat); (* ul *) Some (KStarting, false, false, false, Some 1%nat); (* li *) Some (KComplete, false, false, false, Some 3%nat); (* br *)
    Some (KComplete, true, false, true, Some 1%nat); (* the list *) Some (KEnding, false, false, false, Some 4%nat); Some (KStarting, false, false, false, Some 5%nat); (* dt *) Some (KComplete, true, true, false, Some 6%nat); (* the term *)
    Some (KEnding, false, false, false, Some 7%nat); Some (KComplete, false, false, false, Some 0%nat)].
Proof.
  destruct (assign sp_c doc_empty (w "<ul title='x'><li>a<br></ul><dt>b</dt>")) as [d| |] eqn:E; try (vm_compute in E; discriminate). exists d. vm_compute in E. pose proof (ref_doc "<ul title='x'><li>a<br></ul><dt>b</dt>" ltac:(repeat constructor) d) as RD.
  destruct RD as (A & B & C). { rewrite <- E. vm_compute. reflexivity. } { injection E as <-. vm_compute. reflexivity. }
  destruct (parse ad (d_src d) (d_seqs d) sp_c false) as [[toks root]| |] eqn:P; try (injection E as <-; vm_compute in P; discriminate).
  exists toks, root. repeat (split; [assumption|]). injection E as <-. vm_compute in P. injection P as <- <-. split; [reflexivity|]. vm_compute. reflexivity.
Qed.
(** C195: the mapping of a token says which place of the text each place of the source became.  Refuted: a reference behind a
    tag or another text is mapped to a place that is not even in the text, as the length of the text is added twice
    (html.hpp:2444-2446 passes rel.to, sgml.hpp:239-243 adds dst.size()). *)
Theorem token_mapping_refuted : exists d toks root from to, reach sp_c d /\ plain_src (d_src d) /\ d_src d = w "<b>&amp;" /\ parse ad (d_src d) (d_seqs d) sp_c false = Ret (toks, root) /\
  good_addr (length toks) ad /\ In (from, to) (t_map root) /\ firstn 5 (skipn from (d_src d)) = w "&amp;" /\ (to > length (t_text root))%nat.
Proof.
  destruct (assign sp_c doc_empty (w "<b>&amp;")) as [d| |] eqn:E; try (vm_compute in E; discriminate). exists d. vm_compute in E. pose proof (ref_doc "<b>&amp;" ltac:(repeat constructor) d) as RD.
  destruct RD as (A & B & C). { rewrite <- E. vm_compute. reflexivity. } { injection E as <-. vm_compute. reflexivity. }
  destruct (parse ad (d_src d) (d_seqs d) sp_c false) as [[toks root]| |] eqn:P; try (injection E as <-; vm_compute in P; discriminate).
  exists toks, root. injection E as <-. vm_compute in P. injection P as <- <-. 
  exists 3%nat, 14%nat. repeat (split; [assumption|]). split; [reflexivity|]. split; [apply ad_good; vm_compute; reflexivity|]. split; [vm_compute; tauto|]. split; [reflexivity|]. vm_compute. lia.
Qed.
Print Assumptions token_mapping_refuted.
