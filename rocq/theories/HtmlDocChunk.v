(** HTML documents parsed by chunks, and what is not so: C148-C152. *)
From Coq Require Import ZifyBool ZifyNat.
From Verif Require Import Base StringModel StringSpec StringProofs ParserModel ParserSpec ParserProps HtmlTagModel HtmlTagSpec HtmlTagProps HtmlTagMore HtmlElemModel HtmlElemSpec HtmlElemProps HtmlDocModel HtmlDocSpec HtmlDocProps HtmlDocInv HtmlDocMain HtmlDocMore.
Ltac Zify.zify_post_hook ::= Z.div_mod_to_equations.

Section Chunk.
Context (sp : Z -> bool).
(** the same document with more source behind *)
Definition lift (b : list Z) (d : doc) : doc := Doc (d_src d ++ b) (d_parsed d) (d_valid d) (d_invalid d) (d_cdata d) (d_rcdata d) (d_ents d) (d_seqs d) (d_stack d) (d_special d).
Definition omap {A B : Type} (f : A -> B) (x : outcome A) : outcome B := match x with Ret a => Ret (f a) | Throw => Throw | UB => UB end.
(** no markup goes on behind the end of [s]: at every place of [s] the same is recognised with and without [b] *)
Definition agree (s b : list Z) (i : nat) : Prop :=
  condition_end (s ++ b) i (length (s ++ b)) = condition_end s i (length s) /\
  condition_start (s ++ b) sp i (length (s ++ b)) = condition_start s sp i (length s) /\
  html_tag (s ++ b) sp (S (length (s ++ b))) i (length (s ++ b)) = html_tag s sp (S (length s)) i (length s).
Definition einv (d : doc) : Prop := Forall (fun x => (fst (fst x) <= snd (fst x) <= length (d_src d))%nat) (d_ents d).
Lemma piece_app : forall src b x, (snd x <= length src)%nat -> piece (src ++ b) x = piece src x.
Proof. intros src b x L. apply (between_app src b x L). Qed.
Lemma find_lift : forall src b ents r, Forall (fun x => (fst (fst x) <= snd (fst x) <= length src)%nat) ents -> find_entity (src ++ b) ents r = find_entity src ents r.
Proof. induction ents as [|[n v] more IH]; intros r F; auto. inversion F as [|? ? F1 F2]; subst. cbn [find_entity fst] in *. rewrite piece_app by lia. rewrite IH by auto. reflexivity. Qed.
Lemma replace_lift : forall fuel src b ents input, Forall (fun x => (fst (fst x) <= snd (fst x) <= length src)%nat) ents -> replace_entities fuel (src ++ b) ents input = replace_entities fuel src ents input.
Proof. induction fuel; intros src b ents input F; auto. cbn [replace_entities]. destruct input as [|c r]; auto. rewrite find_lift by auto. destruct (c =? 37); [destruct (find_entity src ents r) as [[v rest]|]; auto|]; rewrite IHfuel by auto; reflexivity. Qed.
Lemma end_lift : forall src b stack seqs code name, (forall s q, In s stack -> nth_error seqs s = Some q -> (snd (q_name q) <= length src)%nat) -> (snd name <= length src)%nat -> end_loop (src ++ b) seqs stack code name = end_loop src seqs stack code name.
Proof.
  intros src b. induction stack as [|s rest IH]; intros seqs code name H L; auto. cbn [end_loop]. destruct (nth_error seqs s) as [q|] eqn:Q; auto. rewrite piece_app by (eapply H; [left; reflexivity|auto]). rewrite piece_app by auto. rewrite IH; auto. intros s' q' I' Q'. eapply H; [right; eauto|eauto].
Qed.
Lemma lift_text : forall b d i, text_seq (lift b d) i = text_seq d i.
Proof. reflexivity. Qed.
Lemma code_lift : forall src b n, ~ In 0 src -> ~ In 0 b -> (fst n <= snd n <= length src)%nat -> code_of (src ++ b) n = code_of src n.
Proof.
  intros src b n N1 N2 L. rewrite !code_of_spec; auto. - rewrite between_app by lia. reflexivity. - intros Q. apply in_app_or in Q. tauto. - rewrite app_length. lia.
Qed.
Lemma attrs_in : forall l i j k a, attrs_within i j l -> nth_error l k = Some a -> (fst (a_name a) <= snd (a_name a) <= j)%nat.
Proof.
  induction l as [|x l IH]; intros i j k a W H; [destruct k; discriminate|]. cbn [attrs_within] in W. destruct W as [W1 W2]. destruct k; cbn [nth_error] in H.
  - injection H as ->. split; [lia|]. destruct W2 as [[_ W2]|[W3 W2]]; apply within_le in W2; lia.
  - destruct W2 as [[_ W2]|[_ W2]]; eapply IH in W2; eauto.
Qed.
Lemma decl_piece : forall src b g k, (forall k a, nth_error (g_attrs g) k = Some a -> (fst (a_name a) <= snd (a_name a) <= length src)%nat) -> piece (src ++ b) match nth_error (g_attrs g) k with Some a => a_name a | None => no_itv end = piece src match nth_error (g_attrs g) k with Some a => a_name a | None => no_itv end.
Proof. intros src b g k H. apply piece_app. destruct (nth_error (g_attrs g) k) as [a|] eqn:E; [|cbn; lia]. apply H in E. lia. Qed.
Lemma turn_lift : forall b d i, dinv d -> einv d -> ~ In 0 b -> (d_parsed d <= i < length (d_src d))%nat -> agree (d_src d) b i ->
  turn sp (lift b d) i = omap (option_map (lift b)) (turn sp d i) /\ (forall d', turn sp d i = Ret (Some d') -> einv d').
Proof.
  intros b d i I E NB L (A1 & A2 & A3). pose proof (inv_nz _ _ _ _ I) as NZ. unfold turn. cbv zeta. cbn [lift d_src]. rewrite A1, A2, A3. destruct (cend_returns (d_src d) i ltac:(lia)) as (ce & CE). rewrite CE. cbn [obind]. change (d_cdata (lift b d)) with (d_cdata d). change (d_rcdata (lift b d)) with (d_rcdata d). change (d_invalid (lift b d)) with (d_invalid d). change (d_valid (lift b d)) with (d_valid d). change (d_special (lift b d)) with (d_special d).
  destruct (d_cdata d || d_rcdata d). { destruct ce; split; try reflexivity; try discriminate. intros d' Q. injection Q as <-. exact E. }
  destruct (negb (d_invalid d =? 0)%nat). { destruct ce; split; try reflexivity; try discriminate. intros d' Q. injection Q as <-. exact E. }
  destruct (if (d_valid d =? 0)%nat then None else ce) as [x|]. { split; [reflexivity|]. intros d' Q. injection Q as <-. exact E. }
  destruct (condition_start (d_src d) sp i (length (d_src d))) as [[[[a c] x]|]| |] eqn:CS; cbn [obind]; try (split; [reflexivity|discriminate]).
  { destruct (cstart_facts sp (d_src d) i a c x NZ ltac:(lia) CS) as (B1 & B2 & _). rewrite piece_app by (cbn; lia). change (d_ents (lift b d)) with (d_ents d). rewrite replace_lift by auto. destruct (replace_entities _ _ _ _); cbn [obind omap]; split; try reflexivity; try discriminate. intros d' Q. injection Q as <-. exact E. }
  destruct (html_tag (d_src d) sp _ i _) as [[g|]| |] eqn:G; cbn [obind]; try (split; [reflexivity|discriminate]). 2: { destruct (d_special d); split; try reflexivity; discriminate. }
  destruct (tag_facts (d_src d) sp _ i g NZ ltac:(lia) G) as (B & N1 & N2 & TY). pose proof (src_ok (d_src d) i ltac:(lia)) as TO. destruct (html_tag_within _ _ _ _ _ _ TO G) as (_ & _ & AW & _). pose proof (inv_text d i I ltac:(lia)) as I1.
  assert (AI : forall k a, nth_error (g_attrs g) k = Some a -> (fst (a_name a) <= snd (a_name a) <= length (d_src d))%nat) by (intros k a Q; apply (attrs_in _ _ _ _ _ AW) in Q; lia). clear AW.
  destruct (d_special d).
  - destruct (g_type g) eqn:T; try (split; [reflexivity|discriminate]). rewrite code_lift by (auto; lia). rewrite code_of_spec by (auto; lia). cbn [obind]. change (active (lift b d)) with (active d). change (d_seqs (lift b d)) with (d_seqs d). destruct (active d); [|split; [reflexivity|discriminate]]. destruct (nth_error _ n); [|split; [reflexivity|discriminate]]. destruct (_ =? q_code s); split; try reflexivity; try discriminate. intros d' Q. injection Q as <-. exact E.
  - assert (EL : at_element (lift b d) i g = omap (lift b) (at_element d i g) /\ (forall d', at_element d i g = Ret d' -> einv d')).
    { unfold at_element. cbv zeta. rewrite lift_text. change (d_seqs (lift b d)) with (d_seqs d). change (d_stack (lift b d)) with (d_stack d). cbn [lift d_src]. rewrite code_lift by (auto; lia). rewrite code_of_spec by (auto; lia). cbn [obind]. destruct (close_loop _ _ _ _ _) as [[[seqs' stack'] parent]| |]; cbn [obind]; try (split; [reflexivity|discriminate]). split; [reflexivity|]. intros d' Q. injection Q as <-. exact E. }
    assert (EE : at_end_tag (lift b d) i g = omap (lift b) (at_end_tag d i g) /\ (forall d', at_end_tag d i g = Ret d' -> einv d')).
    { unfold at_end_tag. cbv zeta. rewrite lift_text. change (d_seqs (lift b d)) with (d_seqs d). change (d_stack (lift b d)) with (d_stack d). cbn [lift d_src]. rewrite code_lift by (auto; lia). rewrite code_of_spec by (auto; lia). cbn [obind]. rewrite end_lift.
      - destruct (end_loop _ _ _ _ _) as [[[s rest]|]| |]; cbn [obind]; try (split; [reflexivity|discriminate]). + destruct (nth_error _ s); split; try reflexivity; try discriminate. intros d' Q. injection Q as <-. exact E. + split; [reflexivity|]. intros d' Q. injection Q as <-. exact E.
      - intros s q IS Q. destruct (inv_items _ _ _ _ I1 s q Q) as (_ & NM & QE). pose proof (inv_stack _ _ _ _ I1) as ST. assert (TS : q_type q = SStart). { clear - ST IS Q. induction (d_stack d) as [|r rest IH]; [destruct IS|]. cbn [stack_ok] in ST. destruct ST as ((q' & Q' & T & _) & _ & _ & ST). destruct IS as [->|IS]; auto. congruence. } destruct NM as (_ & NM & _); [left; left; auto|]. lia.
      - lia. }
    assert (ED : at_declaration (lift b d) i g = omap (lift b) (at_declaration d i g) /\ (forall d', at_declaration d i g = Ret d' -> einv d')).
    { unfold at_declaration. cbv zeta. rewrite lift_text. change (d_seqs (lift b d)) with (d_seqs d). change (d_stack (lift b d)) with (d_stack d). change (d_ents (lift b d)) with (d_ents d). cbn [lift d_src]. rewrite !decl_piece by auto. rewrite replace_lift by auto. destruct (_ && _ && _ && _ && _) eqn:C.
      - remember (match nth_error (g_attrs g) 2 with Some a => a_name a | None => no_itv end) as n2 eqn:EN2.
        assert (N2B : (fst n2 <= snd n2 <= length (d_src d))%nat).
        { rewrite EN2. destruct (nth_error (g_attrs g) 2) as [a2|] eqn:A2'; [apply (AI _ _ A2')|]. exfalso. apply nth_error_None in A2'. do 4 (apply andb_prop in C; destruct C as [C _]). apply Nat.ltb_lt in C. lia. }
        clear C EN2.
        destruct (replace_entities _ _ _ _) as [v| |]; cbn [obind omap]; try (split; [reflexivity|discriminate]). split; [reflexivity|]. intros d' Q. injection Q as <-. unfold einv. cbn [d_ents d_src]. apply Forall_app. split; [exact E|]. constructor; [|constructor]. exact N2B.
      - cbn [obind omap]. split; [reflexivity|]. intros d' Q. injection Q as <-. exact E. }
    unfold at_tag. destruct (g_type g) eqn:T; try (split; [reflexivity|discriminate]).
    + destruct EL as [-> EL2]. destruct (at_element d i g); cbn [omap obind option_map]; split; try reflexivity; try discriminate. intros d' Q. injection Q as <-. auto.
    + destruct EL as [-> EL2]. destruct (at_element d i g); cbn [omap obind option_map]; split; try reflexivity; try discriminate. intros d' Q. injection Q as <-. auto.
    + destruct EE as [-> EE2]. destruct (at_end_tag d i g); cbn [omap obind option_map]; split; try reflexivity; try discriminate. intros d' Q. injection Q as <-. auto.
    + destruct ED as [-> ED2]. destruct (at_declaration d i g); cbn [omap obind option_map]; split; try reflexivity; try discriminate. intros d' Q. injection Q as <-. auto.
    + split; [reflexivity|]. cbn [obind]. intros d' Q. injection Q as <-. exact E.
    + split; [reflexivity|]. cbn [obind]. intros d' Q. injection Q as <-. exact E.
Qed.
(** the loop without counting its turns *)
Inductive runs : doc -> nat -> doc -> Prop :=
| runs_end : forall d i, (length (d_src d) <= i)%nat -> runs d i d
| runs_turn : forall d i d1 d', (i < length (d_src d))%nat -> turn sp d i = Ret (Some d1) -> runs d1 (d_parsed d1) d' -> runs d i d'
| runs_next : forall d i d', (i < length (d_src d))%nat -> turn sp d i = Ret None -> runs d (S i) d' -> runs d i d'.
Lemma loop_runs : forall fuel d i d', doc_loop sp fuel d i = Ret d' -> runs d i d'.
Proof.
  induction fuel; intros d i d' H; [discriminate|]. cbn [doc_loop] in H. destruct (i <? length (d_src d))%nat eqn:E. 2: { injection H as <-. apply runs_end. lia. }
  destruct (turn sp d i) as [[d1|]| |] eqn:T; cbn [obind] in H; try discriminate. - eapply runs_turn; eauto. lia. - eapply runs_next; eauto. lia.
Qed.
Lemma runs_loop : forall d i d', runs d i d' -> dinv d -> (d_parsed d <= i <= length (d_src d))%nat -> forall fuel, (length (d_src d) - i < fuel)%nat -> doc_loop sp fuel d i = Ret d'.
Proof.
  induction 1 as [d i L|d i d1 d' L T R IH|d i d' L T R IH]; intros I B fuel F; (destruct fuel as [|fuel]; [lia|]); cbn [doc_loop].
  - replace (i <? length (d_src d))%nat with false by lia. auto.
  - replace (i <? length (d_src d))%nat with true by lia. rewrite T. cbn [obind]. destruct (turn_inv sp d i d1 I ltac:(lia) T) as (I1 & L1 & S1). pose proof (inv_parsed _ _ _ _ I1). apply IH; auto. rewrite S1. lia.
  - replace (i <? length (d_src d))%nat with true by lia. rewrite T. cbn [obind]. apply IH; auto; lia.
Qed.
(** nothing is left to be recognised behind what is parsed *)
Lemma runs_rest : forall d i d', runs d i d' -> dinv d -> (d_parsed d <= i <= length (d_src d))%nat -> (forall j, (d_parsed d <= j < i)%nat -> turn sp d j = Ret None) -> forall j, (d_parsed d' <= j < length (d_src d'))%nat -> turn sp d' j = Ret None.
Proof.
  induction 1 as [d i L|d i d1 d' L T R IH|d i d' L T R IH]; intros I B N.
  - intros j J. apply N. lia.
  - destruct (turn_inv sp d i d1 I ltac:(lia) T) as (I1 & L1 & S1). pose proof (inv_parsed _ _ _ _ I1). apply IH; auto. intros j J. lia.
  - apply IH; auto; [lia|]. intros j J. destruct (Nat.eq_dec j i) as [->|]; auto. apply N. lia.
Qed.
Lemma runs_to : forall d i j d', (i <= j <= length (d_src d))%nat -> (forall k, (i <= k < j)%nat -> turn sp d k = Ret None) -> (runs d i d' <-> runs d j d').
Proof.
  intros d i j d' L H. remember (j - i)%nat as n eqn:E. revert i L H E. induction n; intros i L H E. { replace i with j by lia. tauto. }
  rewrite <- (IHn (S i)) by (try lia; intros k K; apply H; lia). assert (T : turn sp d i = Ret None) by (apply H; lia). split.
  - intros R. inversion R; subst; try lia; try congruence. - intros R. apply runs_next; auto. lia.
Qed.
Lemma runs_inv : forall d i d', runs d i d' -> dinv d -> (d_parsed d <= i <= length (d_src d))%nat -> dinv d' /\ d_src d' = d_src d.
Proof.
  induction 1 as [d i L|d i d1 d' L T R IH|d i d' L T R IH]; intros I B; auto. - destruct (turn_inv sp d i d1 I ltac:(lia) T) as (I1 & L1 & S1). pose proof (inv_parsed _ _ _ _ I1). rewrite <- S1. apply IH; auto. - apply IH; auto. lia.
Qed.
Lemma runs_parsed : forall d i d', runs d i d' -> dinv d -> (d_parsed d <= i <= length (d_src d))%nat -> (d_parsed d <= d_parsed d')%nat.
Proof.
  induction 1 as [d i L|d i d1 d' L T R IH|d i d' L T R IH]; intros I B; auto. - destruct (turn_inv sp d i d1 I ltac:(lia) T) as (I1 & L1 & S1). pose proof (inv_parsed _ _ _ _ I1). specialize (IH I1 ltac:(lia)). lia. - apply IH; auto. lia.
Qed.
Lemma runs_lift : forall b d i d1, runs d i d1 -> dinv d -> einv d -> ~ In 0 b -> (d_parsed d <= i <= length (d_src d))%nat -> (forall j, (d_parsed d <= j < length (d_src d))%nat -> agree (d_src d) b j) -> forall d2, runs (lift b d) i d2 <-> runs (lift b d1) (length (d_src d)) d2.
Proof.
  induction 1 as [d i L|d i d1 d' L T R IH|d i d' L T R IH]; intros I E NB B A d2.
  - replace (length (d_src d)) with i by lia. tauto.
  - destruct (turn_inv sp d i d1 I ltac:(lia) T) as (I1 & L1 & S1). pose proof (inv_parsed _ _ _ _ I1) as LP. destruct (turn_lift b d i I E NB ltac:(lia) (A i ltac:(lia))) as (TL & E1). rewrite T in TL. cbn [omap option_map] in TL.
    assert (X : runs (lift b d1) (d_parsed d1) d2 <-> runs (lift b d') (length (d_src d)) d2). { rewrite <- S1. apply IH; auto. intros j J. rewrite S1 in *. apply A. lia. }
    rewrite <- X. split. + intros Q. inversion Q; subst. * cbn [lift d_src] in *. rewrite app_length in *. lia. * assert (E2 : lift b d1 = d3) by congruence. subst d3. auto. * congruence.
    + intros Q. eapply runs_turn; [|apply TL|exact Q]. cbn [lift d_src]. rewrite app_length. lia.
  - destruct (turn_lift b d i I E NB ltac:(lia) (A i ltac:(lia))) as (TL & E1). rewrite T in TL. cbn [omap option_map] in TL. rewrite <- IH by (auto; lia). split.
    + intros Q. inversion Q; subst; auto. * cbn [lift d_src] in *. rewrite app_length in *. lia. * congruence.
    + intros Q. apply runs_next; auto. cbn [lift d_src]. rewrite app_length. lia.
Qed.
Lemma runs_einv : forall d i d', runs d i d' -> dinv d -> einv d -> (d_parsed d <= i <= length (d_src d))%nat -> einv d'.
Proof.
  assert (AG : forall s i, agree s [] i) by (intros s i; unfold agree; rewrite app_nil_r; auto).
  induction 1 as [d i L|d i d1 d' L T R IH|d i d' L T R IH]; intros I E B; auto.
  - destruct (turn_inv sp d i d1 I ltac:(lia) T) as (I1 & L1 & S1). pose proof (inv_parsed _ _ _ _ I1). destruct (turn_lift [] d i I E ltac:(auto) ltac:(lia) (AG _ _)) as (_ & E1). apply IH; auto.
  - apply IH; auto. lia.
Qed.
Lemma einv_lift : forall d b, einv d -> einv (lift b d).
Proof. intros d b E. unfold einv in *. cbn [lift d_src d_ents]. eapply Forall_impl; [|apply E]. cbn. intros x L. rewrite app_length. lia. Qed.
Lemma append_runs : forall d c d', dinv d -> ~ In 0 c -> (append sp d c = Ret d' <-> runs (lift c d) (d_parsed d) d').
Proof.
  intros d c d' I N. assert (IL : dinv (lift c d)) by (unfold dinv; cbn [lift d_src d_parsed d_seqs d_stack]; apply inv_append; auto). pose proof (inv_parsed _ _ _ _ IL). cbn [lift d_src d_parsed] in *. unfold append. cbv zeta. split.
  - intros Q. apply loop_runs in Q. exact Q. - intros Q. apply (runs_loop (lift c d)); auto; cbn [lift d_src d_parsed]; lia.
Qed.
Lemma reach_einv : forall d, reach sp d -> einv d.
Proof.
  induction 1 as [|d c d' R IH N A|d R IH|d R IH]. - constructor.
  - pose proof (reach_inv sp d R) as I. apply append_runs in A; auto. eapply runs_einv; [apply A| | |].
    + unfold dinv; cbn [lift d_src d_parsed d_seqs d_stack]; apply inv_append; auto. + apply einv_lift; auto. + cbn [lift d_src d_parsed]. pose proof (inv_parsed _ _ _ _ I). rewrite app_length. lia.
  - exact IH. - constructor.
Qed.
Lemma lift_lift : forall a b d, lift b (lift a d) = lift (a ++ b) d.
Proof. intros a b d. unfold lift. cbn. rewrite app_assoc. reflexivity. Qed.
(** C148 *)
Theorem document_chunks : forall d a b d1, reach sp d -> ~ In 0 a -> ~ In 0 b -> append sp d a = Ret d1 -> (forall i, (d_parsed d <= i < length (d_src d ++ a))%nat -> agree (d_src d ++ a) b i) -> forall d2, append sp d1 b = Ret d2 <-> append sp d (a ++ b) = Ret d2.
Proof.
  intros d a b d1 R NA NB A AG d2. pose proof (reach_inv sp d R) as I. pose proof (reach_einv d R) as E. assert (R1 : reach sp d1) by exact (reach_append sp d a d1 R NA A). pose proof (reach_inv sp d1 R1) as I1. destruct (append_inv sp d a d1 I NA A) as [_ S1].
  assert (NAB : ~ In 0 (a ++ b)) by (intros Q; apply in_app_or in Q; tauto). rewrite (append_runs d (a ++ b)) by auto. rewrite (append_runs d1 b) by auto. apply append_runs in A; auto.
  assert (IL : dinv (lift a d)) by (unfold dinv; cbn [lift d_src d_parsed d_seqs d_stack]; apply inv_append; auto). pose proof (inv_parsed _ _ _ _ I) as LP. pose proof (inv_parsed _ _ _ _ I1) as LP1.
  assert (LB : (d_parsed (lift a d) <= d_parsed d <= length (d_src (lift a d)))%nat) by (cbn [lift d_src d_parsed]; rewrite app_length; lia).
  pose proof (runs_lift b (lift a d) (d_parsed d) d1 A IL (einv_lift d a E) NB LB ltac:(intros j J; apply AG; cbn [lift d_src d_parsed] in J; lia) d2) as X. rewrite lift_lift in X. rewrite X. cbn [lift d_src]. rewrite <- S1.
  apply runs_to. - cbn [lift d_src]. rewrite app_length. lia.
  - intros k K. assert (T : turn sp d1 k = Ret None). { apply (runs_rest (lift a d) (d_parsed d) d1 A IL LB). - intros j J. cbn [lift d_parsed] in J. lia. - lia. }
    destruct (turn_lift b d1 k I1 (reach_einv d1 R1) NB ltac:(lia)) as (TL & _). { rewrite S1. apply AG. rewrite <- S1. pose proof (runs_parsed _ _ _ A IL LB) as PP. cbn [lift d_parsed] in PP. lia. } rewrite T in TL. exact TL.
Qed.
(** C149 *)
Theorem clear_forgets : forall d src, assign sp d src = assign sp doc_empty src.
Proof. reflexivity. Qed.

(** ** Names of elements *)
Lemma place_in : forall a l k, place a l = Some k -> nth_error l k = Some a.
Proof.
  intros a. induction l as [|x l IH]; intros k H; [discriminate|]. cbn [place] in H. destruct (list_eq_dec Z.eq_dec a x) as [<-|]. - injection H as <-. reflexivity. - destruct (place a l) as [j|] eqn:P; cbn [option_map] in H; [|discriminate]. injection H as <-. cbn [nth_error]. auto.
Qed.
Lemma number_inj : forall a b, html_number a = html_number b -> html_number a <> -1 -> map lower a = map lower b.
Proof.
  intros a b H N. unfold html_number in *. destruct (place (map lower a) (map units html_names)) as [k|] eqn:A; [|congruence]. destruct (place (map lower b) (map units html_names)) as [j|] eqn:B; [|lia]. apply place_in in A. apply place_in in B. assert (j = k) by lia. subst j. congruence.
Qed.
(** C150 *)
Theorem end_tag_name : forall d k q s, reach sp d -> nth_error (d_seqs d) k = Some q -> q_type q = SEnd -> q_link q = Some s -> q_code q <> e_unknown ->
  exists b, nth_error (d_seqs d) s = Some b /\ q_type b = SStart /\ q_link b = Some k /\ map lower (between (d_src d) (q_name b)) = map lower (between (d_src d) (q_name q)).
Proof.
  intros d k q s R Q T L U. pose proof (reach_inv sp d R) as I. destruct (inv_nested _ _ _ _ I k q Q) as [_ _ ES]. destruct (ES T s L) as (_ & b & B & TB & LB & _ & CB). exists b. split; auto. split; auto. split; auto.
  destruct (inv_items _ _ _ _ I k q Q) as (_ & NQ & _). destruct (inv_items _ _ _ _ I s b B) as (_ & NB & _). destruct (NQ ltac:(right; auto)) as (_ & _ & CQ). destruct (NB ltac:(left; left; auto)) as (_ & _ & CB2). apply number_inj; [congruence|]. rewrite <- CB2, CB. exact U.
Qed.
End Chunk.
Print Assumptions document_chunks.
Print Assumptions end_tag_name.
