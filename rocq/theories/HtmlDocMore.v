(** HTML documents: C146-C150. *)
From Coq Require Import ZifyBool ZifyNat.
From Verif Require Import Base StringModel StringSpec StringProofs ParserModel ParserSpec ParserProps HtmlTagModel HtmlTagSpec HtmlTagProps HtmlTagSharp HtmlTagMore HtmlElemModel HtmlElemSpec HtmlElemProps HtmlDocModel HtmlDocSpec HtmlDocProps HtmlDocInv HtmlDocMain.
Ltac Zify.zify_post_hook ::= Z.div_mod_to_equations.

Section More.
Context (sp : Z -> bool).
(** ** The sequences are the document *)
Record gapless (d : doc) : Prop := { gl_valid : d_valid d = 0%nat; gl_invalid : d_invalid d = 0%nat; gl_cdata : d_cdata d = false; gl_rcdata : d_rcdata d = false; gl_tiles : tiles 0 (d_parsed d) (map extent (d_seqs d)) }.
Lemma tiles_text : forall d i, (d_parsed d <= i)%nat -> tiles 0 (d_parsed d) (map extent (d_seqs d)) -> tiles 0 i (map extent (d_seqs d ++ text_seq d i)).
Proof. intros d i L H. rewrite map_app. eapply tiles_app; [apply H|]. unfold text_seq. destruct (d_parsed d <? i)%nat eqn:E; cbn; [repeat split; lia|lia]. Qed.
Lemma tiles_item : forall seqs i e x, tiles 0 i (map extent seqs) -> extent x = (i, e) -> (i < e)%nat -> tiles 0 e (map extent (seqs ++ [x])).
Proof. intros seqs i e x H E L. rewrite map_app. eapply tiles_app; [apply H|]. cbn [map]. rewrite E. cbn. auto. Qed.
Lemma close_extent : forall stack seqs code me parent seqs' stack' parent', close_loop seqs stack code me parent = Ret (seqs', stack', parent') -> map extent seqs' = map extent seqs.
Proof.
  induction stack as [|s rest IH]; intros seqs code me parent seqs' stack' parent' H; cbn [close_loop] in H. { injection H as <- _ _. auto. } destruct (nth_error seqs s) as [q|]; [|discriminate]. destruct (may_contain _ _). { injection H as <- _ _. auto. } apply IH in H. rewrite H. apply map_extent_link.
Qed.
Lemma occurs_at : forall src i w, starts (skipn i src) w -> occurs w src.
Proof. intros src i w (r & E). exists (firstn i src), r. rewrite <- E, firstn_skipn. reflexivity. Qed.
Lemma turn_gapless : forall d i d', dinv d -> gapless d -> ~ occurs [60; 33; 91] (d_src d) -> (d_parsed d <= i < length (d_src d))%nat -> turn sp d i = Ret (Some d') -> gapless d'.
Proof.
  intros d i d' I [G1 G2 G3 G4 G5] O L H. pose proof (inv_nz _ _ _ _ I) as NZ. unfold turn in H. cbv zeta in H. destruct (cend_returns (d_src d) i ltac:(lia)) as (ce & CE). rewrite CE, G1, G2, G3, G4 in H. cbn [obind orb] in H. change (negb (0 =? 0)%nat) with false in H. cbv iota in H. change (0 =? 0)%nat with true in H. cbv iota in H.
  destruct (condition_start (d_src d) sp i (length (d_src d))) as [[[[a b] x]|]| |] eqn:CS; cbn [obind] in H; try discriminate.
  { exfalso. destruct (cstart_facts sp (d_src d) i a b x NZ ltac:(lia) CS) as (_ & _ & ST). apply O. eapply occurs_at; eauto. }
  destruct (html_tag (d_src d) sp _ i _) as [[g|]| |] eqn:G; cbn [obind] in H; try discriminate. 2: { destruct (d_special d); discriminate. }
  destruct (tag_facts (d_src d) sp _ i g NZ ltac:(lia) G) as (B & N1 & N2 & TY). pose proof (tiles_text d i ltac:(lia) G5) as TT. destruct (d_special d).
  - destruct (g_type g) eqn:T; try discriminate. rewrite code_of_spec in H by (auto; lia). cbn [obind] in H. destruct (active d) as [p|] eqn:A; [|discriminate]. destruct (nth_error (d_seqs d) p) as [q|] eqn:Q; [|discriminate]. destruct (_ =? q_code q) eqn:C; [|discriminate]. injection H as <-. constructor; auto. cbn [at_special_end d_parsed d_seqs]. eapply tiles_item; [rewrite map_extent_link; apply TT|reflexivity|lia].
  - destruct (at_tag d i g) as [d''| |] eqn:AT; cbn [obind] in H; try discriminate. injection H as ->. unfold at_tag in AT.
    assert (EL : at_element d i g = Ret d' -> gapless d').
    { intros E. unfold at_element in E. cbv zeta in E. rewrite code_of_spec in E by (auto; lia). cbn [obind] in E. destruct (close_loop _ _ _ _ _) as [[[seqs' stack'] parent]| |] eqn:C; cbn [obind] in E; try discriminate. injection E as <-. constructor; auto. cbn [d_parsed d_seqs]. eapply tiles_item; [rewrite (close_extent _ _ _ _ _ _ _ _ C); apply TT|reflexivity|lia]. }
    destruct (g_type g) eqn:T; try discriminate; auto.
    + unfold at_end_tag in AT. cbv zeta in AT. rewrite code_of_spec in AT by (auto; lia). cbn [obind] in AT. destruct (end_loop _ _ _ _ _) as [[[s rest]|]| |]; cbn [obind] in AT; try discriminate.
      * destruct (nth_error _ s) as [q|]; [|discriminate]. injection AT as <-. constructor; auto. cbn [d_parsed d_seqs]. eapply tiles_item; [rewrite map_extent_link; apply TT|reflexivity|lia].
      * injection AT as <-. constructor; auto. cbn [d_parsed d_seqs]. eapply tiles_item; [apply TT|reflexivity|lia].
    + unfold at_declaration in AT. cbv zeta in AT. match type of AT with obind ?x _ = _ => destruct x as [ents| |] end; cbn [obind] in AT; try discriminate. injection AT as <-. constructor; auto. cbn [d_parsed d_seqs]. rewrite app_assoc. eapply tiles_item; [apply TT|reflexivity|lia].
    + assert (E : d' = at_other d i g) by congruence. rewrite E. constructor; auto. cbn [at_other d_parsed d_seqs]. rewrite app_assoc. eapply tiles_item; [apply TT|reflexivity|lia].
    + assert (E : d' = at_other d i g) by congruence. rewrite E. constructor; auto. cbn [at_other d_parsed d_seqs]. rewrite app_assoc. eapply tiles_item; [apply TT|reflexivity|lia].
Qed.
Lemma loop_gapless : forall fuel d i d', dinv d -> gapless d -> ~ occurs [60; 33; 91] (d_src d) -> (d_parsed d <= i <= length (d_src d))%nat -> doc_loop sp fuel d i = Ret d' -> gapless d'.
Proof.
  induction fuel; intros d i d' I G O L H; [discriminate|]. cbn [doc_loop] in H. destruct (i <? length (d_src d))%nat eqn:E. 2: { injection H as <-. auto. }
  destruct (turn sp d i) as [[d1|]| |] eqn:T; cbn [obind] in H; try discriminate.
  - pose proof (turn_gapless d i d1 I G O ltac:(lia) T) as G1. destruct (turn_inv sp d i d1 I ltac:(lia) T) as (I1 & L1 & S1). apply IHfuel in H; auto. + rewrite S1. auto. + pose proof (inv_parsed _ _ _ _ I1). lia.
  - apply IHfuel in H; auto. lia.
Qed.
Lemma reach_gapless : forall d, reach sp d -> ~ occurs [60; 33; 91] (d_src d) -> gapless d.
Proof.
  induction 1 as [|d c d' R IH N A|d R IH|d R IH]; intros O. - constructor; reflexivity.
  - pose proof (reach_inv sp d R) as I. destruct (append_inv sp d c d' I N A) as [_ S]. assert (O1 : ~ occurs [60; 33; 91] (d_src d)). { intros (a & b & E). apply O. rewrite S, E. exists a, (b ++ c). rewrite <- !app_assoc. reflexivity. }
    unfold append in A. cbv zeta in A. eapply loop_gapless; [| | | |apply A]. + unfold dinv. cbn [d_src d_parsed d_seqs d_stack]. apply inv_append; auto. + destruct (IH O1) as [G1 G2 G3 G4 G5]. constructor; auto. + cbn [d_src]. rewrite <- S. auto. + cbn [d_src d_parsed]. pose proof (inv_parsed _ _ _ _ I). rewrite app_length. lia.
  - cbn [finalize d_src] in O. destruct (IH O) as [G1 G2 G3 G4 G5]. constructor; auto. cbn [finalize d_parsed d_seqs]. apply tiles_text; auto. apply (inv_parsed _ _ _ _ (reach_inv sp d R)).
  - constructor; reflexivity.
Qed.
Lemma tiles_le : forall l lo hi, tiles lo hi l -> (lo <= hi)%nat.
Proof. induction l as [|[a b] l IH]; intros lo hi H; cbn [tiles] in H; [lia|]. destruct H as (-> & L & H). apply IH in H. lia. Qed.
Lemma tiles_concat : forall src l lo hi, tiles lo hi l -> (hi <= length src)%nat -> concat (map (between src) l) = between src (lo, hi).
Proof.
  intros src. induction l as [|[a b] l IH]; intros lo hi H L; cbn [tiles map concat] in *. { subst. unfold between. cbn [fst snd]. rewrite Nat.sub_diag. reflexivity. }
  destruct H as (-> & L2 & H). rewrite (IH _ _ H L). pose proof (tiles_le _ _ _ H) as L3. unfold between. cbn [fst snd]. replace (hi - lo)%nat with ((b - lo) + (hi - b))%nat by lia. replace (skipn b src) with (skipn (b - lo) (skipn lo src)) by (rewrite skipn_plus; f_equal; lia).
  generalize (skipn lo src) as v. generalize (b - lo)%nat as m. clear. induction m; intros v; auto. destruct v as [|c v]; [rewrite !skipn_nil, !firstn_nil; reflexivity|]. cbn [firstn skipn app Nat.add]. f_equal. apply IHm.
Qed.
(** C146 *)
Theorem document_complete : forall d, reach sp d -> ~ occurs [60; 33; 91] (d_src d) -> concat (map (fun q => between (d_src d) (extent q)) (d_seqs (finalize d))) = d_src d.
Proof.
  intros d R O. pose proof (reach_gapless (finalize d) (reach_finalize sp d R) O) as [_ _ _ _ G]. cbn [finalize d_parsed] in G. rewrite <- (map_map extent (between (d_src d))). rewrite (tiles_concat (d_src d) _ _ _ G) by lia. unfold between. cbn [fst snd skipn]. rewrite Nat.sub_0_r. apply firstn_all.
Qed.

(** ** Parsing returns *)
Lemma replace_plain : forall fuel src ents input, ~ In 37 input -> (length input < fuel)%nat -> replace_entities fuel src ents input = Ret input.
Proof. induction fuel; intros src ents input N L; [lia|]. cbn [replace_entities]. destruct input as [|c r]; auto. destruct (c =? 37) eqn:E. { exfalso. apply N. left. lia. } cbn [length] in L. rewrite IHfuel by (try lia; intros Q; apply N; right; auto). reflexivity. Qed.
Lemma piece_in : forall src x c, In c (piece src x) -> In c src.
Proof. intros src x c H. unfold piece in H. rewrite <- (firstn_skipn (fst x) src). apply in_or_app. right. rewrite <- (firstn_skipn (snd x - fst x) (skipn (fst x) src)). apply in_or_app. left. auto. Qed.
Lemma cloop_returns : forall txt fuel i e cend, text_ok txt i e -> (length (vis txt i e) < fuel)%nat -> exists r, condition_loop txt sp fuel i e cend = Ret r.
Proof.
  intros txt. induction fuel; intros i e cend H L; [lia|]. cbn [condition_loop]. rewrite (peek_spec txt i e H). destruct (vis txt i e) as [|x r] eqn:V; cbn [hd_error obind]; [eauto|]. destruct (x =? 91); [eauto|]. destruct (vis_cons txt i e x r H V) as (_ & H2 & V2 & _). cbn [length] in L. destruct (sp x); apply IHfuel; auto; rewrite V2; lia.
Qed.
Lemma cstart_returns : forall src i, ~ In 0 src -> (i <= length src)%nat -> exists r, condition_start src sp i (length src) = Ret r.
Proof.
  intros src i N L. unfold condition_start. pose proof (src_ok src i L) as T. rewrite and3_spec by auto. rewrite src_vis by auto. cbn [obind]. destruct (pre3 60 33 91 (skipn i src)) eqn:P; [|eauto]. apply pre3_iff in P. destruct P as (r & P). apply (f_equal (@length Z)) in P. rewrite skipn_length in P. cbn [length] in P.
  pose proof (src_ok src (i + 3) ltac:(lia)) as T3. rewrite skip_space_spec by (auto; rewrite src_vis, skipn_length by auto; lia). cbn [obind]. rewrite src_vis by auto. pose proof (scan_le (no_blank sp) (skipn (i + 3) src)) as W. rewrite skipn_length in W. set (w := scan _ _) in *. clearbody w.
  destruct (cloop_returns src (S (length src - i)) (i + 3 + w) (length src) (i + 3 + w) (src_ok src (i + 3 + w) ltac:(lia))) as (r' & ->). { rewrite src_vis, skipn_length by auto. lia. } cbn [obind]. destruct r' as [[? ?]|]; eauto.
Qed.
Definition sinv (d : doc) : Prop := d_special d = true -> d_stack d <> [].
Lemma stack_hd : forall seqs stack, stack_ok seqs stack -> stack <> [] -> exists p q, hd_error stack = Some p /\ nth_error seqs p = Some q.
Proof. intros seqs [|p rest] S N; [congruence|]. cbn [stack_ok] in S. destruct S as ((q & Q & _) & _). exists p, q. auto. Qed.
Context (SP62 : sp 62 = false).
Definition harmless (src : list Z) : Prop := ~ In 37 src /\ forall i, tag_ends (skipn i src).
Lemma turn_returns : forall d i, dinv d -> sinv d -> harmless (d_src d) -> (d_parsed d <= i < length (d_src d))%nat -> exists r, turn sp d i = Ret r /\ forall d', r = Some d' -> sinv d'.
Proof.
  intros d i I SV [HP HH] L. pose proof (inv_nz _ _ _ _ I) as NZ. unfold turn. cbv zeta. destruct (cend_returns (d_src d) i ltac:(lia)) as (ce & CE). rewrite CE. cbn [obind].
  destruct (d_cdata d || d_rcdata d). { eexists. split; [reflexivity|]. intros d' E. destruct ce; [|discriminate]. injection E as <-. exact SV. }
  destruct (negb (d_invalid d =? 0)%nat). { eexists. split; [reflexivity|]. intros d' E. destruct ce; [|discriminate]. injection E as <-. exact SV. }
  destruct (if (d_valid d =? 0)%nat then None else ce) as [x|]. { eexists. split; [reflexivity|]. intros d' E. injection E as <-. exact SV. }
  destruct (cstart_returns (d_src d) i NZ ltac:(lia)) as ([[[a b] x]|] & CS); rewrite CS; cbn [obind].
  { rewrite replace_plain; [|intros Q; apply HP; eapply piece_in; eauto|lia]. cbn [obind]. eexists. split; [reflexivity|]. intros d' E. injection E as <-. exact SV. }
  pose proof (src_ok (d_src d) i ltac:(lia)) as T. destruct (html_tag_returns_ends (d_src d) sp (S (length (d_src d))) i (length (d_src d)) T SP62) as (g & G). { rewrite src_vis, skipn_length by auto. lia. } { rewrite src_vis by auto. apply HH. }
  rewrite G. cbn [obind]. destruct g as [g|]. 2: { exists None. split; [destruct (d_special d); reflexivity|discriminate]. } destruct (tag_facts (d_src d) sp _ i g NZ ltac:(lia) G) as (B & N1 & N2 & TY).
  pose proof (inv_text d i I ltac:(lia)) as I1. destruct (d_special d) eqn:SP.
  - destruct (g_type g) eqn:T'; try (exists None; split; [reflexivity|discriminate]). rewrite code_of_spec by (auto; lia). cbn [obind]. destruct (stack_hd _ _ (inv_stack _ _ _ _ I) (SV SP)) as (p & q & A & Q). unfold active. rewrite A, Q. eexists. split; [reflexivity|]. intros d' E. destruct (_ =? q_code q); [|discriminate]. injection E as <-. intros K. discriminate.
  - assert (EL : exists d', at_element d i g = Ret d' /\ sinv d').
    { unfold at_element. cbv zeta. rewrite code_of_spec by (auto; lia). cbn [obind]. match goal with |- context [close_loop ?a ?b ?c ?e None] => destruct (close_returns b a c e None) as ([[seqs' stack'] parent] & ->) end. { apply I1. } cbn [obind]. eexists. split; [reflexivity|]. unfold sinv. cbn [d_special d_stack]. rewrite SP. cbn [orb]. intros K. apply andb_prop in K. destruct K as [-> _]. discriminate. }
    unfold at_tag. destruct (g_type g) eqn:T'; try (exfalso; exact TY).
    + destruct EL as (d' & -> & SI). cbn [obind]. eexists. split; [reflexivity|]. intros ? E. injection E as <-. auto.
    + destruct EL as (d' & -> & SI). cbn [obind]. eexists. split; [reflexivity|]. intros ? E. injection E as <-. auto.
    + unfold at_end_tag. cbv zeta. rewrite code_of_spec by (auto; lia). cbn [obind]. match goal with |- context [end_loop ?a ?b ?c ?e ?f] => destruct (end_returns a c b e f) as (r & ER) end. { apply I1. } rewrite ER. cbn [obind]. apply end_spec in ER; [|apply I1]. destruct r as [[s rest]|].
      * destruct ER as (P & q & _ & Q & _). rewrite Q. cbn [obind]. eexists. split; [reflexivity|]. intros ? E. injection E as <-. intros K. cbn in K. congruence.
      * cbn [obind]. eexists. split; [reflexivity|]. intros ? E. injection E as <-. intros K. cbn in K. congruence.
    + unfold at_declaration. cbv zeta. match goal with |- context [obind (if ?c then _ else _) _] => destruct c end.
      * rewrite replace_plain; [|intros Q; apply HP; eapply piece_in; eauto|lia]. cbn [obind]. eexists. split; [reflexivity|]. intros ? E. injection E as <-. intros K. cbn in K. congruence.
      * cbn [obind]. eexists. split; [reflexivity|]. intros ? E. injection E as <-. intros K. cbn in K. congruence.
    + cbn [obind]. eexists. split; [reflexivity|]. intros ? E. injection E as <-. intros K. cbn in K. congruence.
    + cbn [obind]. eexists. split; [reflexivity|]. intros ? E. injection E as <-. intros K. cbn in K. congruence.
Qed.
Lemma loop_returns : forall fuel d i, dinv d -> sinv d -> harmless (d_src d) -> (d_parsed d <= i <= length (d_src d))%nat -> (length (d_src d) - i < fuel)%nat -> exists d', doc_loop sp fuel d i = Ret d' /\ sinv d'.
Proof.
  induction fuel; intros d i I SV H L F; [lia|]. cbn [doc_loop]. destruct (i <? length (d_src d))%nat eqn:E; [|eauto]. destruct (turn_returns d i I SV H ltac:(lia)) as (r & T & SI). rewrite T. cbn [obind]. destruct r as [d1|].
  - destruct (turn_inv sp d i d1 I ltac:(lia) T) as (I1 & L1 & S1). pose proof (inv_parsed _ _ _ _ I1) as LP. apply (f_equal (@length Z)) in S1 as S2. apply IHfuel; [exact I1|apply SI; auto|rewrite S1; exact H|lia|lia].
  - apply IHfuel; auto; lia.
Qed.
(** documents that are still being parsed: nothing but append since they were empty *)
Inductive parsing : doc -> Prop :=
| parsing_new : parsing doc_empty
| parsing_append : forall d c d', parsing d -> ~ In 0 c -> append sp d c = Ret d' -> parsing d'.
Lemma parsing_reach : forall d, parsing d -> reach sp d.
Proof. induction 1; [constructor|econstructor; eauto]. Qed.
(** C147 *)
Lemma harmless_prefix : forall a b, harmless (a ++ b) -> harmless a.
Proof.
  intros a b [H1 H2]. split. { intros Q. apply H1. apply in_or_app. auto. } intros i. apply (ends_prefix _ (skipn (i - length a) b)). rewrite <- skipn_app. auto.
Qed.
Lemma append_returns : forall d c, dinv d -> sinv d -> ~ In 0 c -> harmless (d_src d ++ c) -> exists d', append sp d c = Ret d' /\ sinv d'.
Proof. intros d c I S N H. unfold append. cbv zeta. apply loop_returns; auto. - unfold dinv. cbn [d_src d_parsed d_seqs d_stack]. apply inv_append; auto. - cbn [d_src d_parsed]. pose proof (inv_parsed _ _ _ _ I). rewrite app_length. lia. - cbn [d_src d_parsed]. pose proof (inv_parsed _ _ _ _ I). lia. Qed.
Lemma parsing_sinv : forall d, parsing d -> harmless (d_src d) -> sinv d.
Proof.
  induction 1 as [|d c d' P IH N A]; intros H. { intros K. discriminate. } destruct (append_inv sp d c d' (reach_inv sp d (parsing_reach d P)) N A) as [_ E]. rewrite E in H. destruct (append_returns d c) as (d2 & A2 & S2); auto. - apply (reach_inv sp), parsing_reach, P. - apply IH. eapply harmless_prefix, H. - rewrite A in A2. injection A2 as <-. auto.
Qed.
Theorem document_append_returns : forall d c, parsing d -> ~ In 0 c -> harmless (d_src d ++ c) -> exists d', append sp d c = Ret d'.
Proof. intros d c P N H. destruct (append_returns d c) as (d' & A & _); eauto. - apply (reach_inv sp), parsing_reach, P. - apply parsing_sinv; auto. eapply harmless_prefix, H. Qed.
Theorem document_assign_returns : forall d src, ~ In 0 src -> harmless src -> exists d', assign sp d src = Ret d'.
Proof. intros d src N H. unfold assign. change (clear d) with doc_empty. destruct (document_append_returns doc_empty src parsing_new N H) as (d' & ->). cbn. eauto. Qed.
End More.
Print Assumptions document_complete.
Print Assumptions document_append_returns.
Print Assumptions document_assign_returns.
