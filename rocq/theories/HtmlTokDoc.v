(** HTML tokens: the documents a program can make can be rebuilt (C169, C170). *)
From Coq Require Import String ZifyBool ZifyNat.
From Verif Require Import Base StringModel StringSpec StringProofs StringTrim StringProps ParserModel ParserSpec ParserProps SgmlTable SgmlSpec SgmlModel SgmlSearch SgmlText SgmlProps
  HtmlEscModel HtmlEscSpec HtmlEscProps HtmlCssProps HtmlTagModel HtmlTagSpec HtmlTagProps HtmlElemModel HtmlElemSpec HtmlElemProps HtmlDocModel HtmlDocSpec HtmlDocProps HtmlDocInv HtmlDocMain HtmlDocMore CssModel CssProps CssTokens HtmlTokModel HtmlTokSpec HtmlTokProps HtmlTokParse HtmlTokMain.
Import List.ListNotations. Open Scope Z_scope.
Ltac Zify.zify_post_hook ::= Z.div_mod_to_equations.

(** ** The links of a document nest *)
Definition lop (seqs : list sq) (stack : list nat) : Prop :=
  links_nest seqs /\ forall s, In s stack -> forall j p l, (j < s)%nat -> nth_error seqs j = Some p -> q_type p = SStart -> q_link p = Some l -> (l <= s)%nat.
Lemma nested_link : forall seqs k q m, nested seqs -> nth_error seqs k = Some q -> q_type q = SStart -> q_link q = Some m -> (m < length seqs)%nat.
Proof. intros seqs k q m N K T L. destruct (start_end _ _ _ (N k q K) T m L) as [[_ ->]|[_ (e & E & _)]]; eapply nth_lt; eauto. Qed.
Lemma lop_push : forall seqs stack P seqs' x stack', lop seqs stack -> nested seqs -> relinked P (length seqs) seqs seqs' -> (forall k, In k P -> In k stack) -> (forall k s, In k P -> In s stack' -> s <> length seqs -> (s < k)%nat) ->
  (forall s, In s stack -> (s < length seqs)%nat) -> (forall s, In s stack' -> In s stack \/ s = length seqs) -> (q_type x = SStart -> q_link x = None \/ q_link x = Some (length seqs)) -> lop (seqs' ++ [x]) stack'.
Proof.
  intros seqs stack P seqs' x stack' [LN ST] N R PS PL SL SS X. pose proof (relinked_length _ _ _ _ R) as LL.
  assert (C : forall k q m, nth_error (seqs' ++ [x]) k = Some q -> q_type q = SStart -> q_link q = Some m -> k = length seqs /\ m = length seqs \/ (k < length seqs)%nat /\ In k P /\ m = length seqs \/ (k < length seqs)%nat /\ ~ In k P /\ (m < length seqs)%nat /\ nth_error seqs k = Some q).
  { intros k q m K T L. apply nth_at_end in K. destruct K as [[K1 K]|[K ->]]. 2: { left. destruct (X T); split; try congruence. } right. rewrite (R k) in K. destruct (nth_error seqs k) as [q0|] eqn:K0; [|discriminate]. cbn [option_map] in K. destruct (existsb (Nat.eqb k) P) eqn:E.
    - left. apply existsb_in in E. assert (q = relink q0 (Some (length seqs))) by congruence. subst q. cbn [relink q_link] in L. split; [lia|]. split; [auto|congruence].
    - right. assert (q = q0) by congruence. subst q. split; [lia|]. split. { intros I. apply existsb_in in I. congruence. } split; auto. eapply nested_link; eauto. }
  split.
  - intros j k p q l m J K TJ TK LJ LK B. destruct (C k q m K TK LK) as [(K1 & M)|[(K1 & KP & M)|(K1 & KP & M & K2)]]; destruct (C j p l J TJ LJ) as [(J1 & L)|[(J1 & JP & L)|(J1 & JP & L & J2)]]; try lia.
    + pose proof (ST k (PS k KP) j p l ltac:(lia) J2 TJ LJ). lia.
    + eapply (LN j k p q l m); eauto.
  - intros s S j p l B J TJ LJ. destruct (C j p l J TJ LJ) as [(J1 & L)|[(J1 & JP & L)|(J1 & JP & L & J2)]].
    + destruct (SS s S) as [Q|Q]; [apply SL in Q|]; lia.
    + destruct (Nat.eq_dec s (length seqs)) as [|NE]; [lia|]. pose proof (PL j s JP S NE). lia.
    + destruct (SS s S) as [Q|Q]; [|lia]. eapply ST; eauto.
Qed.
Lemma stack_lt : forall seqs stack s, stack_ok seqs stack -> In s stack -> (s < length seqs)%nat.
Proof. intros seqs stack. induction stack as [|r stack IH]; intros s S I; [destruct I|]. cbn [stack_ok] in S. destruct S as ((q & Q & _) & _ & _ & S). destruct I as [<-|I]; auto. eapply nth_lt; eauto. Qed.
Lemma stack_desc : forall seqs s1 s2 a b, stack_ok seqs (s1 ++ s2) -> In a s1 -> In b s2 -> (b < a)%nat.
Proof. intros seqs s1 s2 a b. induction s1 as [|r s1 IH]; intros S A B; [destruct A|]. cbn [app stack_ok] in S. destruct S as (_ & _ & D & S). destruct A as [<-|A]; auto. apply D. apply in_or_app. auto. Qed.
(** a sequence that ends nothing *)
Lemma lop_plain : forall seqs stack x, lop seqs stack -> nested seqs -> stack_ok seqs stack -> q_type x <> SStart -> lop (seqs ++ [x]) stack.
Proof. intros seqs stack x L N S T. apply (lop_push seqs stack [] seqs); auto. - apply relinked_nil. - intros k []. - intros k s []. - intros s I. eapply stack_lt; eauto. - contradiction. Qed.
(** the attributes lie inside of their elements *)
Definition aok (seqs : list sq) : Prop := forall q, In q seqs -> is_element (q_type q) -> attrs_within (q_start q) (q_end q) (q_attrs q).
Lemma aok_app : forall seqs x, aok seqs -> (is_element (q_type x) -> attrs_within (q_start x) (q_end x) (q_attrs x)) -> aok (seqs ++ [x]).
Proof. intros seqs x A X q I. apply in_app_or in I. destruct I as [I|[<-|[]]]; auto. Qed.
Lemma aok_relinked : forall P me seqs seqs', relinked P me seqs seqs' -> aok seqs -> aok seqs'.
Proof. intros P me seqs seqs' R A q I. apply In_nth_error in I. destruct I as (k & K). rewrite (R k) in K. destruct (nth_error seqs k) as [q0|] eqn:K0; [|discriminate]. apply nth_error_In in K0. specialize (A q0 K0). cbn [option_map] in K. destruct (existsb _ P); assert (Q : q = q0 \/ q = relink q0 (Some me)) by (first [left; congruence|right; congruence]); destruct Q as [->| ->]; exact A. Qed.
Lemma within_lo : forall l i i' j, (i' <= i)%nat -> attrs_within i j l -> attrs_within i' j l.
Proof. destruct l as [|a l]; intros i i' j L H; cbn [attrs_within] in *; [lia|]. destruct H as [H1 H2]. split; [lia|auto]. Qed.
Lemma within_hi : forall l i j j', (j <= j')%nat -> attrs_within i j l -> attrs_within i j' l.
Proof. induction l as [|a l IH]; intros i j j' L H; cbn [attrs_within] in *; [lia|]. destruct H as [H1 [[H2 H3]|[H2 H3]]]; split; auto; [left|right]; split; auto; eapply IH; eauto. Qed.
Lemma tag_attrs : forall src sp fuel i g, ~ In 0 src -> (i <= length src)%nat -> html_tag src sp fuel i (length src) = Ret (Some g) -> attrs_within i (g_end g) (g_attrs g).
Proof.
  intros src sp fuel i g N L H. destruct (html_tag_within _ _ _ _ _ _ (src_ok src i L) H) as (B & NB & W & TY). eapply within_hi; [|eapply within_lo; [|apply W]]; lia.
Qed.

Section Docs.
Context (sp : Z -> bool).
Definition dok (d : doc) : Prop := lop (d_seqs d) (d_stack d) /\ aok (d_seqs d).
Lemma dok_text : forall d i, dinv d -> dok d -> lop (d_seqs d ++ text_seq d i) (d_stack d) /\ aok (d_seqs d ++ text_seq d i).
Proof.
  intros d i I [L A]. unfold text_seq. destruct (d_parsed d <? i)%nat; [|rewrite app_nil_r; auto]. split. - apply lop_plain; auto; try apply I. discriminate. - apply aok_app; auto. intros [Q|Q]; discriminate.
Qed.
Lemma turn_dok : forall d i d', dinv d -> dok d -> (d_parsed d <= i < length (d_src d))%nat -> turn sp d i = Ret (Some d') -> dok d'.
Proof.
  intros d i d' I OK L H. pose proof (inv_nz _ _ _ _ I) as NZ. pose proof OK as [LP AO]. unfold turn in H. cbv zeta in H. destruct (cend_returns (d_src d) i ltac:(lia)) as (ce & CE). rewrite CE in H. cbn [obind] in H.
  destruct (d_cdata d || d_rcdata d).
  { destruct ce as [x|]; cbn [option_map] in H; [|discriminate]. injection H as <-. unfold dok, at_cdata_end. cbn [d_seqs d_stack]. split. - apply lop_plain; auto; try apply I. cbn. destruct (d_cdata d); discriminate. - apply aok_app; auto. intros [Q|Q]; cbn in Q; destruct (d_cdata d); discriminate. }
  destruct (negb (d_invalid d =? 0)%nat). { destruct ce as [x|]; cbn [option_map] in H; [|discriminate]. injection H as <-. exact OK. }
  assert (IB : (d_parsed d <= i <= length (d_src d))%nat) by lia. pose proof (inv_text d i I IB) as I1. pose proof (dok_text d i I OK) as [LT AT].
  destruct (if (d_valid d =? 0)%nat then None else ce) as [x|]. { injection H as <-. split; auto. }
  destruct (condition_start (d_src d) sp i (length (d_src d))) as [[[[a b] x]|]| |] eqn:CS; cbn [obind] in H; try discriminate.
  { destruct (replace_entities _ _ _ _) as [cond| |]; cbn [obind] in H; try discriminate. injection H as <-. exact OK. }
  destruct (html_tag (d_src d) sp _ i _) as [[g|]| |] eqn:G; cbn [obind] in H; try discriminate. 2: { destruct (d_special d); discriminate. }
  pose proof (tag_attrs (d_src d) sp _ i g NZ ltac:(lia) G) as TA. destruct (tag_facts (d_src d) sp _ i g NZ ltac:(lia) G) as (B & N1 & N2 & TY). destruct (d_special d).
  - destruct (g_type g) eqn:T; try discriminate. rewrite code_of_spec in H by (auto; lia). cbn [obind] in H. destruct (active d) as [p|] eqn:A; [|discriminate]. destruct (nth_error (d_seqs d) p) as [q|] eqn:Q; [|discriminate]. destruct (_ =? q_code q) eqn:C; [|discriminate]. injection H as <-. unfold dok, at_special_end. cbv zeta. cbn [d_seqs d_stack].
    unfold active in A. destruct (d_stack d) as [|p' rest] eqn:ES; [discriminate|]. cbn [hd_error tl] in *. assert (p' = p) by congruence. subst p'. split.
    + eapply (lop_push _ (p :: rest) [p]); [apply LT|apply I1|apply relinked_one|..]. * intros k [<-|[]]. left. auto. * intros k s [<-|[]] IS _. pose proof (inv_stack _ _ _ _ I1) as S. cbn [stack_ok] in S. apply S. auto. * intros s IS. eapply stack_lt; [apply I1|auto]. * intros s IS. left. right. auto. * discriminate.
    + apply aok_app. * eapply aok_relinked; [apply relinked_one|auto]. * intros [E|E]; discriminate.
  - destruct (at_tag d i g) as [d''| |] eqn:ATT; cbn [obind] in H; try discriminate. injection H as ->. unfold at_tag in ATT.
    assert (EL : is_element (g_type g) -> at_element d i g = Ret d' -> dok d').
    { intros T E. unfold at_element in E. cbv zeta in E. rewrite code_of_spec in E by (auto; lia). cbn [obind] in E. destruct (close_loop _ _ _ _ _) as [[[seqs' stack'] parent]| |] eqn:C; cbn [obind] in E; try discriminate. apply close_spec in C; [|apply I1|auto]. destruct C as (P & ES & R & MC & EP & EX & MP). injection E as <-. unfold dok. cbn [d_seqs d_stack]. pose proof (inv_stack _ _ _ _ I1) as S. rewrite ES in S. split.
      - assert (SI : forall s, In s (if is_start (g_type g) && negb match span (html_number (between (d_src d) (g_name g))) with immediate => true | _ => false end then length (d_seqs d ++ text_seq d i) :: stack' else stack') -> In s stack' \/ s = length (d_seqs d ++ text_seq d i)). { intros s IS. destruct (_ && _) in IS; auto. destruct IS; auto. }
        eapply (lop_push _ (d_stack d) P); [apply LT|apply I1|apply R|..].
        + intros k IP. rewrite ES. apply in_or_app. auto.
        + intros k s IP IS NS. destruct (SI s IS) as [Q|Q]; [|contradiction]. eapply stack_desc; eauto.
        + intros s IS. eapply stack_lt; [apply I1|auto].
        + intros s IS. destruct (SI s IS) as [Q|Q]; auto. left. rewrite ES. apply in_or_app. auto.
        + intros _. cbn [q_link]. destruct (_ && _); auto.
      - apply aok_app; [eapply aok_relinked; eauto|]. intros _. exact TA. }
    destruct (g_type g) eqn:T; try discriminate.
    + apply EL; auto. right. auto.
    + apply EL; auto. left. auto.
    + unfold at_end_tag in ATT. cbv zeta in ATT. rewrite code_of_spec in ATT by (auto; lia). cbn [obind] in ATT. destruct (HtmlDocModel.end_loop _ _ _ _ _) as [[[s rest]|]| |] eqn:C; cbn [obind] in ATT; try discriminate.
      * apply end_spec in C; [|apply I1]. destruct C as (P & q & ES & Q & QC). rewrite Q in ATT. injection ATT as <-. unfold dok. cbn [d_seqs d_stack]. pose proof (inv_stack _ _ _ _ I1) as S. rewrite ES in S. split.
        { eapply (lop_push _ (d_stack d) [s]); [apply LT|apply I1|apply relinked_one|..].
          - intros k [<-|[]]. rewrite ES. apply in_or_app. right. left. auto.
          - intros k r [<-|[]] IR _. destruct (stack_app _ _ _ S) as [S2 _]. cbn [stack_ok] in S2. apply S2. auto.
          - intros r IR. eapply stack_lt; [apply I1|auto].
          - intros r IR. left. rewrite ES. apply in_or_app. right. right. auto.
          - discriminate. }
        { apply aok_app. * eapply aok_relinked; [apply relinked_one|auto]. * intros [E|E]; discriminate. }
      * injection ATT as <-. unfold dok. cbn [d_seqs d_stack]. split. { apply lop_plain; auto; try apply I1. discriminate. } { apply aok_app; auto. intros [E|E]; discriminate. }
    + unfold at_declaration in ATT. cbv zeta in ATT. match type of ATT with obind ?x _ = _ => destruct x as [ents| |] end; cbn [obind] in ATT; try discriminate. injection ATT as <-. unfold dok. cbn [d_seqs d_stack]. rewrite app_assoc. split. { apply lop_plain; auto; try apply I1. discriminate. } { apply aok_app; [auto|]. intros [E|E]; discriminate. }
    + assert (E : d' = at_other d i g) by congruence. rewrite E. unfold dok, at_other. cbn [d_seqs d_stack]. rewrite app_assoc. split. { apply lop_plain; auto; try apply I1. cbn. rewrite T. discriminate. } { apply aok_app; auto. cbn. rewrite T. intros [Q|Q]; discriminate. }
    + assert (E : d' = at_other d i g) by congruence. rewrite E. unfold dok, at_other. cbn [d_seqs d_stack]. rewrite app_assoc. split. { apply lop_plain; auto; try apply I1. cbn. rewrite T. discriminate. } { apply aok_app; auto. cbn. rewrite T. intros [Q|Q]; discriminate. }
Qed.
Lemma loop_dok : forall fuel d i d', dinv d -> dok d -> (d_parsed d <= i <= length (d_src d))%nat -> doc_loop sp fuel d i = Ret d' -> dok d'.
Proof.
  induction fuel; intros d i d' I G L H; [discriminate|]. cbn [doc_loop] in H. destruct (i <? length (d_src d))%nat eqn:E. 2: { injection H as <-. auto. }
  destruct (turn sp d i) as [[d1|]| |] eqn:T; cbn [obind] in H; try discriminate.
  - pose proof (turn_dok d i d1 I G ltac:(lia) T) as G1. destruct (turn_inv sp d i d1 I ltac:(lia) T) as (I1 & L1 & S1). apply IHfuel in H; auto. pose proof (inv_parsed _ _ _ _ I1). lia.
  - apply IHfuel in H; auto. lia.
Qed.
Lemma dok_empty : dok doc_empty.
Proof. split; [split|]. - intros [|j] k p q l m J; discriminate. - intros s []. - intros q []. Qed.
Lemma reach_dok : forall d, reach sp d -> dok d.
Proof.
  induction 1 as [|d c d' R IH N A|d R IH|d R IH]. - apply dok_empty.
  - pose proof (reach_inv sp d R) as I. unfold append in A. cbv zeta in A. eapply loop_dok; [| | |apply A]. + unfold dinv. cbn [d_src d_parsed d_seqs d_stack]. apply inv_append; auto. + exact IH. + cbn [d_src d_parsed]. pose proof (inv_parsed _ _ _ _ I). rewrite app_length. lia.
  - destruct (dok_text d (length (d_src d)) (reach_inv sp d R) IH) as [[L1 L2] A]. split; auto. split; auto. intros s [].
  - apply dok_empty.
Qed.
(** C169: the documents a program can make are in order and their elements nest *)
Theorem document_links_nest : forall d, reach sp d -> links_nest (d_seqs d) /\ in_order (d_src d) (d_seqs d).
Proof.
  intros d R. destruct (reach_dok d R) as [[L _] A]. pose proof (reach_inv sp d R) as I. split; auto. split.
  - eapply ordered_hi; [apply I|]. apply I.
  - intros q Q E. split; auto. apply In_nth_error in Q. destruct Q as (k & Q). destruct (inv_items _ _ _ _ I k q Q) as (_ & N & LE). destruct (N (or_introl E)). lia.
Qed.
End Docs.
Print Assumptions document_links_nest.

(** ** Documents without anything to encode *)
Lemma free_self : forall t, ~ In 38 t -> stands_for t t.
Proof.
  intros t H. exists (map Raw t). split.
  - induction t as [|c t IH]; cbn [map]; constructor. + intros name text rest' E _. apply H. left. congruence. + apply IH. intros Q. apply H. right. auto.
  - clear H. induction t as [|c t IH]; cbn [map flat_map seg_dst app]; congruence.
Qed.
Lemma free_written : forall table t, free_of table t -> written_with table t = t.
Proof.
  intros table t F. induction F as [|c t N F IH]; auto. unfold written_with in *. cbn [flat_map]. rewrite IH. destruct (find _ table) as [p|] eqn:E; auto. exfalso. apply find_some in E. destruct E as [E1 E2]. apply N. apply in_map_iff. exists p. split; auto. lia.
Qed.
Lemma free_amp : forall table t, free_of table t -> In 38 (map fst table) -> ~ In 38 t.
Proof. intros table t F I Q. unfold free_of in F. rewrite Forall_forall in F. apply (F 38 Q). auto. Qed.
Section Same.
Context (src : list Z) (PS : plain_src src) (sp : Z -> bool) (frames : bool).
Set Default Proof Using "Type".
Lemma no_value_dec : forall a, (fst (a_value a) <= snd (a_value a) <= length src)%nat \/ a_value a = no_itv -> no_value src a \/ ~ no_value src a.
Proof using PS.
  clear sp frames.
  intros a [L|E]. 2: { left. left. rewrite E. cbn. lia. } destruct (isblank_bt src PS (a_value a) L) as (b & _ & W). destruct (le_lt_dec (snd (a_value a)) (fst (a_value a))). { left. left. auto. } destruct b. - left. right. apply W. auto. - right. intros [Q|Q]; [lia|]. apply W in Q. discriminate.
Qed.
Lemma value_text : forall t, free_of value_escapes t -> free_of text_escapes t.
Proof. clear. intros t F. eapply Forall_impl; [|apply F]. intros c N I. apply N. revert I. cbn. tauto. Qed.
Lemma tag_same : forall code attrs i p j, (i <= p)%nat -> attrs_within p j attrs -> (j <= length src)%nat -> (forall a, In a attrs -> free_of value_escapes (between src (a_value a))) -> tag_text src code attrs i j (between src (i, j)).
Proof using PS.
  clear sp frames.
  induction attrs as [|a r IH]; intros i p j L W J F. { constructor. } cbn [attrs_within] in W. destruct W as [W1 W2]. specialize (F a (or_introl eq_refl)) as FA. assert (FR : forall b, In b r -> free_of value_escapes (between src (a_value b))) by (intros b B; apply F; right; auto).
  assert (LV : (fst (a_value a) <= snd (a_value a) <= length src)%nat \/ a_value a = no_itv) by (destruct W2 as [[-> _]|[W2 W3]]; auto; apply within_le in W3; left; lia).
  assert (LN : (fst (a_name a) <= snd (a_name a) <= length src)%nat) by (destruct W2 as [[_ W2]|[W2 W4]]; [apply within_le in W2|apply within_le in W4]; lia).
  assert (NX : exists p', (p <= p')%nat /\ attrs_within p' j r) by (destruct W2 as [[_ W2]|[W2 W3]]; eexists; (split; [|eassumption]); lia). destruct NX as (p' & Lp & W').
  destruct (no_value_dec a LV) as [NV|NV]. { apply tag_keep; auto. eapply (IH i p'); auto. lia. }
  destruct (uri_bt src PS code (a_name a) LN) as (b & _ & U). destruct (title_bt src PS code (a_name a) LN) as (c & _ & T).
  destruct W2 as [[E _]|[W2 W3]]. { exfalso. apply NV. left. rewrite E. cbn. lia. } pose proof (within_le _ _ _ W3) as L3.
  assert (SPL : between src (i, j) = between src (i, fst (a_value a)) ++ between src (a_value a) ++ between src (snd (a_value a), j)).
  { rewrite (bt_split src i (fst (a_value a)) j) by lia. f_equal. rewrite (bt_split src (fst (a_value a)) (snd (a_value a)) j) by lia. destruct (a_value a); reflexivity. }
  assert (SF : stands_for (between src (a_value a)) (between src (a_value a))) by (apply free_self; eapply free_amp; [apply FA|cbn; auto]).
  destruct b.
  - rewrite SPL. rewrite <- (free_written value_escapes (between src (a_value a))) at 1 by auto. apply tag_uri; auto. + apply U. auto. + apply (IH _ (snd (a_value a))); auto.
  - destruct c.
    + rewrite SPL. rewrite <- (free_written text_escapes (between src (a_value a))) at 1 by (apply value_text; auto). apply tag_title; auto. * intros Q. apply U in Q. discriminate. * apply T. auto. * apply (IH _ (snd (a_value a))); auto.
    + apply tag_keep. * right. split; intros Q; [apply U in Q|apply T in Q]; discriminate. * eapply (IH i p'); auto. lia.
Qed.
(** where sequence [k] starts in a document without gaps *)
Lemma tiles_at : forall l lo hi k x, tiles lo hi l -> nth_error l k = Some x -> (fst x < snd x <= hi)%nat /\ tiles (snd x) hi (skipn (S k) l).
Proof.
  clear.
  induction l as [|[a b] l IH]; intros lo hi k x T K. { destruct k; discriminate. } cbn [tiles] in T. destruct T as (-> & L & T). destruct k as [|k].
  - cbn [nth_error] in K. assert (x = (lo, b)) by congruence. subst x. cbn [fst snd skipn]. split; auto. apply tiles_le in T. lia.
  - cbn [nth_error] in K. apply (IH _ _ _ _ T K).
Qed.
Lemma tiles_head : forall l lo hi x, tiles lo hi l -> nth_error l 0 = Some x -> fst x = lo.
Proof. clear. intros [|[a b] l] lo hi x T K; [discriminate|]. cbn in *. assert (x = (a, b)) by congruence. subst x. cbn. apply T. Qed.
Context (seqs : list sq).
Definition pos (k : nat) : nat := match nth_error seqs k with Some q => q_start q | None => length src end.
Lemma pos_next : forall k q, tiles 0 (length src) (map extent seqs) -> nth_error seqs k = Some q -> pos (S k) = q_end q.
Proof.
  clear PS sp.
  intros k q T K. destruct (tiles_at _ _ _ k (extent q) T) as [_ T2]; [apply map_nth_error; auto|]. unfold pos. cbn [extent snd] in T2. rewrite skipn_map in T2.
  destruct (nth_error seqs (S k)) as [r|] eqn:N.
  - assert (E : nth_error (map extent (skipn (S k) seqs)) 0 = Some (extent r)). { apply map_nth_error. rewrite <- N. clear. generalize (S k). intros n. revert seqs. induction n as [|n IH]; intros [|y l]; cbn [skipn nth_error]; auto. apply IH. }
    apply (tiles_head _ _ _ _ T2 E).
  - apply nth_error_None in N. rewrite skipn_all2 in T2 by lia. cbn in T2. lia.
Qed.
Context (NST : nested seqs) (TL : tiles 0 (length src) (map extent seqs)) (ORD : in_order src seqs) (SET : settled src seqs frames).
Lemma pos_lt : forall k q, nth_error seqs k = Some q -> (q_start q < q_end q <= length src)%nat.
Proof using TL. clear PS sp. intros k q K. destruct (tiles_at _ _ _ k (extent q) TL) as [B _]; [apply map_nth_error; auto|]. exact B. Qed.
Lemma pos_mono : forall n k, (k + n <= length seqs)%nat -> (pos k <= pos (k + n))%nat.
Proof using TL.
  clear PS sp.
  induction n as [|n IH]; intros k L. - rewrite Nat.add_0_r. lia. - destruct (nth_error seqs k) as [q|] eqn:K. 2: { apply nth_error_None in K. lia. } specialize (IH (S k) ltac:(lia)). replace (k + S n)%nat with (S k + n)%nat by lia. rewrite (pos_next k q TL K) in IH. pose proof (pos_lt k q K). unfold pos at 1. rewrite K. lia.
Qed.
Lemma pos_le : forall k, (pos k <= length src)%nat.
Proof using TL. clear PS sp. intros k. unfold pos. destruct (nth_error seqs k) as [q|] eqn:K; [|lia]. apply pos_lt in K. lia. Qed.
Lemma opaque_span : forall code, named_in opaque_names code -> span code <> immediate.
Proof. intros code H. assert (X : forallb (fun c => match span c with immediate => false | _ => true end) (map number opaque_names) = true) by (vm_compute; reflexivity). rewrite forallb_forall in X. specialize (X _ H). destruct (span code); discriminate. Qed.
Lemma rebuilt_same : forall n k, (length seqs - k <= n)%nat -> (k <= length seqs)%nat -> rebuilt src seqs sp frames k (length seqs) (between src (pos k, length src)).
Proof using PS NST TL ORD SET.
  induction n as [|n IH]; intros k L K.
  { assert (k = length seqs) by lia. subst k. unfold pos. rewrite (proj2 (nth_error_None seqs (length seqs))) by lia. rewrite bt_none by lia. constructor. }
  destruct (nth_error seqs k) as [q|] eqn:N. 2: { apply nth_error_None in N. assert (k = length seqs) by lia. subst k. unfold pos. rewrite (proj2 (nth_error_None seqs (length seqs))) by lia. rewrite bt_none by lia. constructor. }
  pose proof (nth_lt _ _ _ N) as KL. pose proof (pos_lt k q N) as QB. pose proof (pos_next k q TL N) as PN. assert (PK : pos k = q_start q) by (unfold pos; rewrite N; auto). pose proof (SET q (nth_error_In _ _ N)) as (S1 & S2 & S3).
  assert (SP : between src (pos k, length src) = between src (extent q) ++ between src (pos (S k), length src)) by (rewrite PK, PN; apply bt_split; lia).
  assert (R : rebuilt src seqs sp frames (S k) (length seqs) (between src (pos (S k), length src))) by (apply IH; lia).
  assert (DT : q_type q = SText \/ q_type q <> SText /\ ~ is_element (q_type q) \/ is_element (q_type q)) by (unfold is_element; destruct (q_type q); auto; right; left; split; try discriminate; intros [Q|Q]; discriminate).
  destruct DT as [T|[[T1 T2]|T]].
  - rewrite SP. specialize (S1 T). rewrite <- (free_written text_escapes (between src (extent q))) by auto. eapply rb_text; eauto. + apply free_self. eapply free_amp; [apply S1|cbn; auto]. + apply bt_18. exact PS.
  - rewrite SP. eapply rb_copy; eauto.
  - destruct (S2 T) as [S4 S5]. destruct ORD as [_ OR]. destruct (OR q (nth_error_In _ _ N) T) as [W _].
    assert (TT : tag_text src (q_code q) (q_attrs q) (q_start q) (q_end q) (between src (extent q))) by (eapply tag_same; eauto; lia).
    destruct (skips (q_code q)) eqn:SK.
    2: { rewrite SP. eapply rb_tag; eauto. right. intros Q. apply opaque_skips in Q. congruence. }
    apply opaque_skips in SK. destruct (start_case q T) as [T0|T0]. { rewrite SP. eapply rb_tag; eauto. }
    destruct (S3 T0 SK) as [ST LK]. destruct (q_link q) as [m|] eqn:LQ; [|contradiction]. destruct (start_end _ _ _ (NST k q N) T0 m LQ) as [[Q _]|[KM (qe & NQ & _)]]. { exfalso. apply (opaque_span _ SK Q). }
    pose proof (nth_lt _ _ _ NQ) as ML. assert (PM : pos m = q_start qe) by (unfold pos; rewrite NQ; auto). pose proof (pos_mono (m - S k) (S k) ltac:(lia)) as MO. replace (S k + (m - S k))%nat with m in MO by lia. pose proof (pos_le m).
    replace (between src (pos k, length src)) with (between src (extent q) ++ between src (q_end q, q_start qe) ++ between src (pos m, length src)).
    + eapply rb_opaque; eauto. * lia. * replace (q_code q =? number "style") with false by lia. reflexivity. * apply IH; lia.
    + rewrite SP. f_equal. rewrite PN. rewrite (bt_split src (q_end q) (q_start qe) (length src)) by lia. rewrite PM. reflexivity.
Qed.
End Same.
(** C170: a document without references, conditional sections and style sheets is rebuilt as it is *)
Theorem document_rebuilt_same : forall sp addr frames d, reach sp d -> plain_src (d_src d) -> ~ occurs [60; 33; 91] (d_src d) -> settled (d_src d) (d_seqs (finalize d)) frames ->
  exists toks root, parse addr (d_src d) (d_seqs (finalize d)) sp frames = Ret (toks, root) /\
    (good_addr (length toks) addr -> exists F, forall fuel dst, (F <= fuel)%nat -> link addr fuel toks dst root = Ret (dst ++ d_src d)).
Proof.
  intros sp addr frames d R PS O SET. pose proof (reach_finalize sp d R) as RF. destruct (document_links_nest sp (finalize d) RF) as [LN OR]. cbn [finalize d_src] in OR. pose proof (document_nested sp (finalize d) RF) as NS. pose proof (reach_gapless sp (finalize d) RF O) as [_ _ _ _ G]. cbn [finalize d_parsed] in G.
  apply parse_link; auto. pose proof (rebuilt_same (d_src d) PS sp frames (d_seqs (finalize d)) NS G OR SET (length (d_seqs (finalize d))) 0 ltac:(lia) ltac:(lia)) as RB.
  assert (E : pos (d_src d) (d_seqs (finalize d)) 0 = 0%nat). { unfold pos. destruct (nth_error (d_seqs (finalize d)) 0) as [q|] eqn:N. - apply (tiles_head _ _ _ (extent q) G). apply map_nth_error. auto. - apply nth_error_None in N. destruct (d_seqs (finalize d)); [|cbn in N; lia]. cbn in G. lia. }
  rewrite E in RB. replace (between (d_src d) (0%nat, length (d_src d))) with (d_src d) in RB; auto. unfold between. cbn [fst snd skipn]. rewrite Nat.sub_0_r, firstn_all. reflexivity.
Qed.
Print Assumptions document_rebuilt_same.
