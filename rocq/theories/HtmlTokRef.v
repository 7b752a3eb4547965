(** HTML tokens: which documents parse and link can rebuild, and which they cannot (C174-C176). *)
From Coq Require Import String ZifyBool ZifyNat.
From Verif Require Import Base StringModel StringSpec StringProofs StringTrim StringProps ParserModel ParserSpec ParserProps SgmlTable SgmlSpec SgmlModel SgmlSearch SgmlText SgmlProps
  HtmlEscModel HtmlEscSpec HtmlEscProps HtmlCssProps HtmlTagModel HtmlTagSpec HtmlTagProps HtmlTagMore HtmlElemModel HtmlElemSpec HtmlElemProps HtmlDocModel HtmlDocSpec HtmlDocProps HtmlDocInv HtmlDocMain HtmlDocMore HtmlDocRef CssModel CssProps CssTokens HtmlTokModel HtmlTokSpec HtmlTokProps HtmlTokParse HtmlTokMain HtmlTokDoc.
Import List.ListNotations. Open Scope Z_scope.
Ltac Zify.zify_post_hook ::= Z.div_mod_to_equations.

Section Total.
Context (src : list Z) (PS : plain_src src) (sp : Z -> bool) (frames : bool).
Set Default Proof Using "Type".
Lemma stands_for_any : forall x, exists u, stands_for (between src x) u.
Proof using PS.
  clear sp frames. intros x. pose proof (bt_0 src PS x) as Z. destruct (sgml2strcat_spec U32 [] (between src x) (length (between src x)) 0) as (segs & SG & _). { left. lia. }
  rewrite zstr_all, firstn_all in SG by auto. exists (flat_map (seg_dst (fun c => c)) segs), segs. auto.
Qed.
Lemma tag_any : forall code attrs i p j, (i <= p)%nat -> attrs_within p j attrs -> (j <= length src)%nat -> exists o, tag_text src code attrs i j o.
Proof using PS.
  clear sp frames.
  induction attrs as [|a r IH]; intros i p j L W J. { eexists. constructor. } cbn [attrs_within] in W. destruct W as [W1 W2].
  assert (LV : (fst (a_value a) <= snd (a_value a) <= length src)%nat \/ a_value a = no_itv) by (destruct W2 as [[-> _]|[W2 W3]]; auto; apply within_le in W3; left; lia).
  assert (LN : (fst (a_name a) <= snd (a_name a) <= length src)%nat) by (destruct W2 as [[_ W2]|[W2 W4]]; [apply within_le in W2|apply within_le in W4]; lia).
  assert (NX : exists p', (p <= p')%nat /\ attrs_within p' j r) by (destruct W2 as [[_ W2]|[W2 W3]]; eexists; (split; [|eassumption]); lia). destruct NX as (p' & Lp & W').
  destruct (no_value_dec src PS a LV) as [NV|NV]. { destruct (IH i p' j ltac:(lia) W' J) as (o & O1). eexists. apply tag_keep; eauto. }
  destruct (uri_bt src PS code (a_name a) LN) as (b & _ & U). destruct (title_bt src PS code (a_name a) LN) as (c & _ & T).
  destruct W2 as [[E _]|[W2 W3]]. { exfalso. apply NV. left. rewrite E. cbn. lia. } destruct (stands_for_any (a_value a)) as (u & SF). destruct (IH _ (snd (a_value a)) j (le_n _) W3 J) as (o & O1).
  destruct b; [|destruct c].
  - eexists. eapply tag_uri; eauto. apply U. auto.
  - eexists. eapply tag_title; eauto. + intros Q. apply U in Q. discriminate. + apply T. auto.
  - destruct (IH i p' j ltac:(lia) W' J) as (o2 & O2). eexists. apply tag_keep; eauto. right. split; intros Q; [apply U in Q|apply T in Q]; discriminate.
Qed.
Context (seqs : list sq) (NST : nested seqs) (ORD : in_order src seqs).
Lemma rebuilt_any : (forall q, In q seqs -> is_element (q_type q) -> frames = true \/ q_code q <> number "frameset") ->
  (forall q, In q seqs -> q_type q = SStart -> named_in opaque_names (q_code q) -> q_code q <> number "style" /\ q_link q <> None) ->
  (forall q u, In q seqs -> q_type q = SText -> stands_for (between src (extent q)) u -> ~ In 18 u) ->
  forall n k, (length seqs - k <= n)%nat -> (k <= length seqs)%nat -> exists o, rebuilt src seqs sp frames k (length seqs) o.
Proof using PS NST ORD.
  intros FR OP TX. induction n as [|n IH]; intros k L K.
  { assert (k = length seqs) by lia. subst k. eexists. constructor. }
  destruct (nth_error seqs k) as [q|] eqn:N. 2: { apply nth_error_None in N. assert (k = length seqs) by lia. subst k. eexists. constructor. }
  pose proof (nth_lt _ _ _ N) as KL. pose proof (nth_error_In _ _ N) as I. destruct (IH (S k) ltac:(lia) ltac:(lia)) as (o & R).
  assert (DT : q_type q = SText \/ q_type q <> SText /\ ~ is_element (q_type q) \/ is_element (q_type q)) by (unfold is_element; destruct (q_type q); auto; right; left; split; try discriminate; intros [Q|Q]; discriminate).
  destruct DT as [T|[[T1 T2]|T]].
  - destruct (stands_for_any (extent q)) as (u & SF). eexists. eapply rb_text; eauto.
  - eexists. eapply rb_copy; eauto.
  - pose proof ORD as [OO OR]. destruct (OR q I T) as [W _]. assert (J : (q_end q <= length src)%nat). { assert (Q : In (extent q) (map extent seqs)) by (apply in_map; auto). apply (ordered_le _ _ _ _ _ OO) in Q. lia. }
    destruct (tag_any (q_code q) (q_attrs q) (q_start q) (q_start q) (q_end q) (le_n _) W J) as (t & TT).
    destruct (skips (q_code q)) eqn:SK.
    2: { eexists. eapply rb_tag; eauto. right. intros Q. apply opaque_skips in Q. congruence. }
    apply opaque_skips in SK. destruct (start_case q T) as [T0|T0]. { eexists. eapply rb_tag; eauto. }
    destruct (OP q I T0 SK) as [ST LK]. destruct (q_link q) as [m|] eqn:LQ; [|contradiction]. destruct (start_end _ _ _ (NST k q N) T0 m LQ) as [[Q _]|[KM (qe & NQ & _)]]. { exfalso. apply (opaque_span _ SK Q). }
    pose proof (nth_lt _ _ _ NQ) as ML. destruct (IH m ltac:(lia) ltac:(lia)) as (o2 & R2). eexists. eapply rb_opaque; eauto. + lia. + replace (q_code q =? number "style") with false by lia. reflexivity.
Qed.
End Total.

(** ** Concrete documents *)
Definition ad (k : nat) : Z := 16 * Z.of_nat k + 65536.
Lemma ad_good : forall n, Z.of_nat n < 2 ^ 32 -> good_addr n ad.
Proof. intros n B. unfold ad. split; intros; lia. Qed.
Definition rebuild (s : string) : outcome (list Z) :=
  let* d := assign sp_c doc_empty (w s) in
  let* (toks, root) := parse ad (d_src d) (d_seqs d) sp_c false in
  link ad 1000 toks [] root.
(** texts, titles, addresses in attributes and addresses in style sheets are encoded anew *)
Example rebuild_page : rebuild "<p title='a&lt;b'>x &eacute;> y</p><a href='u&amp;v;'><style>p{b:url( 'a/\'' ) }</style><code>&lt;<b></code>" =
  Ret (w "<p title='a&lt;b'>x " ++ [233] ++ w "&gt; y</p><a href='u&amp;v&semi;'><style>p{b:url( 'a/\'' ) }</style><code>&lt;<b></code>").
Proof. vm_compute. reflexivity. Qed.
Definition calm : list Z := w "<ul><li title='x'>a</ul><code>b+i</code><!--c-->d".
Lemma calm_doc : exists d, assign sp_c doc_empty calm = Ret d. Proof. eexists. vm_compute. reflexivity. Qed.
Ltac by_cases H := vm_compute in H; repeat (destruct H as [H|H]; [discriminate|]); destruct H.
(** the hypotheses of C168-C170 are met by a document with tags, attributes, an element that is copied and a comment *)
Example calm_ok : exists d, reach sp_c d /\ d_src d = calm /\ plain_src (d_src d) /\ ~ occurs [60; 33; 91] (d_src d) /\ settled (d_src d) (d_seqs (finalize d)) false /\ (5 < length (d_seqs (finalize d)))%nat.
Proof.
  destruct (append sp_c doc_empty calm) as [d| |] eqn:E; try (vm_compute in E; discriminate). exists d. split. { eapply reach_append; [apply reach_new| |exact E]. apply w_nz. reflexivity. }
  vm_compute in E. injection E as <-. split; [reflexivity|]. split. { apply Forall_forall. intros c I. cbn in I. repeat (destruct I as [<-|I]; [lia|]). destruct I. }
  split. { intros (a & b & Q). cbn [d_src] in Q. match type of Q with ?l = _ => assert (K : In 91 l) by (rewrite Q; apply in_or_app; right; right; right; left; reflexivity) end. by_cases K. }
  split; [|vm_compute; lia].
  match goal with |- settled ?s ?l _ => assert (K : forallb (fun q => match q_type q with SText => forallb (fun c => negb (existsb (Z.eqb c) (map fst text_escapes))) (between s (extent q)) | _ => true end &&
     (negb (q_code q =? number "frameset") && forallb (fun a => forallb (fun c => negb (existsb (Z.eqb c) (map fst value_escapes))) (between s (a_value a))) (q_attrs q)) &&
     (negb (skips (q_code q)) || (negb (q_code q =? number "style") && match q_link q with None => negb (is_start (q_type q)) | _ => true end))) l = true) by (vm_compute; reflexivity) end.
  rewrite forallb_forall in K. intros q I. specialize (K q I). apply andb_prop in K. destruct K as [K K3]. apply andb_prop in K. destruct K as [K1 K2]. apply andb_prop in K2. destruct K2 as [K2 K4].
  assert (FF : forall tab t, forallb (fun c => negb (existsb (Z.eqb c) (map fst tab))) t = true -> free_of tab t). { intros tab t Q. apply Forall_forall. intros c C N. rewrite forallb_forall in Q. specialize (Q c C). assert (X : existsb (Z.eqb c) (map fst (tab : list (Z * string))) = true) by (apply existsb_exists; exists c; split; auto; lia). rewrite X in Q. discriminate. }
  split; [|split].
  - intros T. rewrite T in K1. apply FF. exact K1.
  - intros _. split; [right; lia|]. intros a A. rewrite forallb_forall in K4. apply FF. apply K4. auto.
  - intros T O. apply opaque_skips in O. rewrite O in K3. cbn [negb orb] in K3. apply andb_prop in K3. destruct K3 as [K5 K6]. split; [lia|]. intros L. rewrite L, T in K6. discriminate.
Qed.

Lemma ref_doc : forall s, Forall (fun c => 18 < c < 128) (w s) -> forall d, assign sp_c doc_empty (w s) = Ret d -> d_src d = w s -> reach sp_c d /\ plain_src (d_src d) /\ d_src d = w s.
Proof.
  intros s F d A E. split; [|split]; auto.
  - refine (reach_assign _ _ _ A). intros Q. rewrite Forall_forall in F. apply F in Q. lia.
  - rewrite E. eapply Forall_impl; [|exact F]. cbv beta. intros. lia.
Qed.
(** C174: the documents parse and link rebuild; the ones they do not *)
Theorem rebuilds_documents_partial :
  (forall sp addr frames d, reach sp d -> plain_src (d_src d) ->
    (forall q, In q (d_seqs d) -> is_element (q_type q) -> frames = true \/ q_code q <> number "frameset") ->
    (forall q, In q (d_seqs d) -> q_type q = SStart -> named_in opaque_names (q_code q) -> q_code q <> number "style" /\ q_link q <> None) ->
    (forall q u, In q (d_seqs d) -> q_type q = SText -> stands_for (between (d_src d) (extent q)) u -> ~ In 18 u) ->
    exists toks root out, parse addr (d_src d) (d_seqs d) sp frames = Ret (toks, root) /\ rebuilt (d_src d) (d_seqs d) sp frames 0 (length (d_seqs d)) out /\
      (good_addr (length toks) addr -> exists F, forall fuel dst, (F <= fuel)%nat -> link addr fuel toks dst root = Ret (dst ++ out))) /\
  (* an element whose contents are to be copied and that is not ended: a null pointer is used *)
  (exists d, reach sp_c d /\ plain_src (d_src d) /\ d_src d = w "<code>x" /\ parse ad (d_src d) (d_seqs d) sp_c false = UB) /\
  (* a reference to the unit tags of tokens begin with: the number that follows is used as an address *)
  (exists d toks root, reach sp_c d /\ plain_src (d_src d) /\ d_src d = w "&#18;41&#19;<b>" /\ parse ad (d_src d) (d_seqs d) sp_c false = Ret (toks, root) /\ good_addr (length toks) ad /\ forall fuel, link ad fuel toks [] root = UB) /\
  (* an address in a style sheet that ends with the character that escapes the next one: reading does not end with the address *)
  (exists d, reach sp_c d /\ plain_src (d_src d) /\ d_src d = w "<style>url(a\)</style>" /\ parse ad (d_src d) (d_seqs d) sp_c false = UB) /\
  (* a quotation mark in a title is not escaped again: the title ends at it *)
  (exists d toks root, reach sp_c d /\ plain_src (d_src d) /\ d_src d = w "<p title=""a&quot;b"">" /\ parse ad (d_src d) (d_seqs d) sp_c false = Ret (toks, root) /\ link ad 1000 toks [] root = Ret (w "<p title=""a""b"">")) /\
  (* the brackets around a section of character data are lost: what is in them becomes markup *)
  (exists d toks root, reach sp_c d /\ plain_src (d_src d) /\ d_src d = w "<![CDATA[a<b]]>c" /\ parse ad (d_src d) (d_seqs d) sp_c false = Ret (toks, root) /\ link ad 1000 toks [] root = Ret (w "a<bc")).
Proof.
  split; [|split; [|split; [|split; [|split]]]].
  - intros sp addr frames d R PS FR OP TX. destruct (document_links_nest sp d R) as [LN OR]. pose proof (document_nested sp d R) as N.
    destruct (rebuilt_any (d_src d) PS sp frames (d_seqs d) N OR FR OP TX (length (d_seqs d)) 0 ltac:(lia) ltac:(lia)) as (out & RB).
    destruct (parse_link _ _ sp frames addr out PS LN OR RB) as (toks & root & P & L). exists toks, root, out. auto.
  - destruct (assign sp_c doc_empty (w "<code>x")) as [d| |] eqn:E; try (vm_compute in E; discriminate). exists d. vm_compute in E. pose proof (ref_doc "<code>x" ltac:(repeat constructor) d) as RD. 
    destruct RD as (A & B & C). { rewrite <- E. vm_compute. reflexivity. } { injection E as <-. vm_compute. reflexivity. } repeat (split; [assumption|]). injection E as <-. vm_compute. reflexivity.
  - destruct (assign sp_c doc_empty (w "&#18;41&#19;<b>")) as [d| |] eqn:E; try (vm_compute in E; discriminate). exists d. vm_compute in E. pose proof (ref_doc "&#18;41&#19;<b>" ltac:(repeat constructor) d) as RD. 
    destruct RD as (A & B & C). { rewrite <- E. vm_compute. reflexivity. } { injection E as <-. vm_compute. reflexivity. } 
    destruct (parse ad (d_src d) (d_seqs d) sp_c false) as [[toks root]| |] eqn:P; try (injection E as <-; vm_compute in P; discriminate).
    exists toks, root. repeat (split; [assumption|]). injection E as <-. vm_compute in P. injection P as <- <-. split; [reflexivity|]. split; [apply ad_good; vm_compute; reflexivity|].
    intros fuel. do 12 (destruct fuel as [|fuel]; [vm_compute; reflexivity|]). vm_compute. reflexivity.
  - destruct (assign sp_c doc_empty (w "<style>url(a\)</style>")) as [d| |] eqn:E; try (vm_compute in E; discriminate). exists d. vm_compute in E. pose proof (ref_doc "<style>url(a\)</style>" ltac:(repeat constructor) d) as RD. 
    destruct RD as (A & B & C). { rewrite <- E. vm_compute. reflexivity. } { injection E as <-. vm_compute. reflexivity. } repeat (split; [assumption|]). injection E as <-. vm_compute. reflexivity.
  - destruct (assign sp_c doc_empty (w "<p title=""a&quot;b"">")) as [d| |] eqn:E; try (vm_compute in E; discriminate). exists d. vm_compute in E. pose proof (ref_doc "<p title=""a&quot;b"">" ltac:(repeat constructor) d) as RD. 
    destruct RD as (A & B & C). { rewrite <- E. vm_compute. reflexivity. } { injection E as <-. vm_compute. reflexivity. } 
    destruct (parse ad (d_src d) (d_seqs d) sp_c false) as [[toks root]| |] eqn:P; try (injection E as <-; vm_compute in P; discriminate).
    exists toks, root. repeat (split; [assumption|]). injection E as <-. vm_compute in P. injection P as <- <-. split; [reflexivity|]. vm_compute. reflexivity.
  - destruct (assign sp_c doc_empty (w "<![CDATA[a<b]]>c")) as [d| |] eqn:E; try (vm_compute in E; discriminate). exists d. vm_compute in E. pose proof (ref_doc "<![CDATA[a<b]]>c" ltac:(repeat constructor) d) as RD. 
    destruct RD as (A & B & C). { rewrite <- E. vm_compute. reflexivity. } { injection E as <-. vm_compute. reflexivity. } 
    destruct (parse ad (d_src d) (d_seqs d) sp_c false) as [[toks root]| |] eqn:P; try (injection E as <-; vm_compute in P; discriminate).
    exists toks, root. repeat (split; [assumption|]). injection E as <-. vm_compute in P. injection P as <- <-. split; [reflexivity|]. vm_compute. reflexivity.
Qed.
Print Assumptions rebuilds_documents_partial.
