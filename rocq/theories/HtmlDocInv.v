(** HTML documents: what every turn of the parser preserves. *)
From Coq Require Import ZifyBool ZifyNat.
From Verif Require Import Base StringModel StringSpec StringProofs ParserModel ParserSpec ParserProps HtmlTagModel HtmlTagSpec HtmlTagProps HtmlTagMore HtmlElemModel HtmlElemSpec HtmlElemProps HtmlDocModel HtmlDocSpec HtmlDocProps.
Ltac Zify.zify_post_hook ::= Z.div_mod_to_equations.

(** ** The source *)
Lemma zstr_all : forall n s, ~ In 0 s -> zstr n s = firstn n s.
Proof. induction n as [|n IH]; intros s H; auto. destruct s as [|c s]; auto. cbn [zstr firstn]. destruct (c =? 0) eqn:E. { exfalso. apply H. left. lia. } f_equal. apply IH. intros Q. apply H. right. auto. Qed.
Lemma not_in_skipn : forall n (s : list Z), ~ In 0 s -> ~ In 0 (skipn n s).
Proof. intros n s H Q. apply H. rewrite <- (firstn_skipn n s). apply in_or_app. auto. Qed.
Lemma src_ok : forall src i, (i <= length src)%nat -> text_ok src i (length src).
Proof. intros src i L. split; auto. split; auto. left. rewrite skipn_length. lia. Qed.
Lemma src_vis : forall src i, ~ In 0 src -> vis src i (length src) = skipn i src.
Proof. intros src i N. unfold vis. rewrite zstr_all by (apply not_in_skipn; auto). rewrite firstn_all2; auto. rewrite skipn_length. lia. Qed.
Lemma code_of_spec : forall src n, ~ In 0 src -> (fst n <= snd n <= length src)%nat -> code_of src n = Ret (html_number (between src n)).
Proof. intros src n N L. unfold code_of. rewrite element_code_narrow by (left; rewrite skipn_length; lia). rewrite zstr_all by (apply not_in_skipn; auto). reflexivity. Qed.
Lemma starts_firstn : forall w v n, (length w <= n)%nat -> starts v w -> starts (firstn n v) w.
Proof. intros w v n L (r & ->). exists (firstn (n - length w) r). rewrite firstn_app. rewrite firstn_all2 by auto. reflexivity. Qed.
Lemma firstn_starts : forall w v n, starts (firstn n v) w -> starts v w.
Proof. intros w v n (r & E). exists (r ++ skipn n v). rewrite app_assoc, <- E, firstn_skipn. reflexivity. Qed.
Lemma ends_firstn : forall w v n, ends v n w -> ends (firstn n v) n w.
Proof. intros w v n (a & E). exists a. rewrite firstn_firstn, Nat.min_id. exact E. Qed.
Lemma type_ok_firstn : forall v n t, (2 <= n)%nat -> (t = SComment -> (4 <= n)%nat) -> type_ok v n t -> type_ok (firstn n v) n t.
Proof.
  intros v n t L C H. destruct t; cbn [type_ok] in *; try contradiction.
  - destruct H as (H1 & H2 & H3 & H4 & H5). repeat split; [apply starts_firstn; [cbn; lia|auto]| | | |apply ends_firstn; auto]; intros Q; apply firstn_starts in Q; auto.
  - destruct H as (H1 & H2 & H3 & H4 & H5). repeat split; [apply starts_firstn; [cbn; lia|auto]| | | |apply ends_firstn; auto]; intros Q; apply firstn_starts in Q; auto.
  - destruct H as (H1 & H2). split; [apply starts_firstn; [cbn; lia|auto]|apply ends_firstn; auto].
  - destruct H as (H1 & H2 & H3). split; [apply starts_firstn; [cbn; lia|auto]|]. split; [|apply ends_firstn; auto]. intros Q; apply firstn_starts in Q; auto.
  - destruct H as (H1 & H2). specialize (C eq_refl). split; [apply starts_firstn; [cbn; lia|auto]|apply ends_firstn; auto].
  - destruct H as (H1 & H2). split; [apply starts_firstn; [cbn; lia|auto]|apply ends_firstn; auto].
Qed.
Lemma within_le : forall l i j, attrs_within i j l -> (i <= j)%nat.
Proof. induction l as [|a l IH]; intros i j H; cbn [attrs_within] in H; auto. destruct H as [H1 [[_ H2]|[H2 H3]]]; [apply IH in H2|apply IH in H3]; lia. Qed.
Lemma tag_facts : forall src sp fuel i g, ~ In 0 src -> (i <= length src)%nat -> html_tag src sp fuel i (length src) = Ret (Some g) ->
  (i + 1 < g_end g <= length src)%nat /\ (i < fst (g_name g) <= snd (g_name g))%nat /\ (snd (g_name g) <= g_end g)%nat /\ type_ok (between src (i, g_end g)) (g_end g - i) (g_type g).
Proof.
  intros src sp fuel i g N L H. pose proof (src_ok src i L) as T. destruct (html_tag_within _ _ _ _ _ _ T H) as (B & NB & W & TY). pose proof (html_tag_name _ _ _ _ _ _ T H) as NM. rewrite src_vis in * by auto. rewrite skipn_length in B. apply within_le in W. split; [lia|]. split; auto. split; [lia|].
  unfold between. cbn [fst snd]. apply type_ok_firstn; auto; [lia|]. intros C. rewrite C in NM. lia.
Qed.
Lemma between_app : forall src c x, (snd x <= length src)%nat -> between (src ++ c) x = between src x.
Proof.
  intros src c [a b] L. unfold between. cbn [fst snd] in *. rewrite skipn_app, firstn_app, skipn_length. replace (b - a - (length src - a))%nat with 0%nat by lia. cbn [firstn]. apply app_nil_r.
Qed.

(** ** The invariant *)
Record inv (src : list Z) (parsed : nat) (seqs : list sq) (stack : list nat) : Prop := {
  inv_nz : ~ In 0 src;
  inv_parsed : (parsed <= length src)%nat;
  inv_ordered : ordered 0 parsed (map extent seqs);
  inv_items : forall k q, nth_error seqs k = Some q -> written src q /\ named src q /\ (q_end q <= length src)%nat;
  inv_nested : nested seqs;
  inv_stack : stack_ok seqs stack }.
Lemma inv_empty : inv [] 0 [] [].
Proof. constructor; cbn; auto. - intros [|k] q H; discriminate. - intros [|k] q H; discriminate. Qed.
Lemma inv_hi : forall src p p' seqs stack, inv src p seqs stack -> (p <= p' <= length src)%nat -> inv src p' seqs stack.
Proof. intros src p p' seqs stack [A B C D E F] L. constructor; auto; [lia|]. eapply ordered_hi; eauto. lia. Qed.
Lemma inv_no_stack : forall src p seqs stack, inv src p seqs stack -> inv src p seqs [].
Proof. intros src p seqs stack [A B C D E F]. constructor; auto. exact I. Qed.
Lemma written_app : forall src c q, (q_start q <= q_end q)%nat -> (q_end q <= length src)%nat -> written src q -> written (src ++ c) q.
Proof.
  intros src c q O L H. unfold written in *. rewrite between_app by (cbn; lia). destruct (q_type q); auto; destruct H as (r & E); exists (r ++ c); rewrite skipn_app, E; replace (q_end q - length src)%nat with 0%nat by lia; cbn [skipn]; rewrite <- app_assoc; reflexivity.
Qed.
Lemma ordered_le : forall l lo hi a b, ordered lo hi l -> In (a, b) l -> (lo <= a <= b)%nat /\ (b <= hi)%nat.
Proof.
  induction l as [|[x y] l IH]; intros lo hi a b H I; [destruct I|]. cbn [ordered] in H. destruct H as [H1 H2]. destruct I as [I|I].
  - injection I as -> ->. split; [lia|]. clear - H2. revert b H2. induction l as [|[u v] l IH]; intros b H; cbn [ordered] in H; [lia|]. destruct H as [H1 H2]. apply IH in H2. lia.
  - destruct (IH _ _ _ _ H2 I). lia.
Qed.
Lemma inv_append : forall src c p seqs stack, inv src p seqs stack -> ~ In 0 c -> inv (src ++ c) p seqs stack.
Proof.
  intros src c p seqs stack [A B C D E F] N. constructor; auto. - intros Q. apply in_app_or in Q. tauto. - rewrite app_length. lia.
  - intros k q K. destruct (D k q K) as (W & NM & L). rewrite app_length. assert ((q_start q <= q_end q)%nat). { destruct (ordered_le _ _ _ (q_start q) (q_end q) C) as [Q _]; [|lia]. apply (in_map extent). eapply nth_error_In; eauto. }
    split; [apply written_app; auto|]. split; [|lia]. intros T. destruct (NM T) as (N1 & N2 & N3). rewrite between_app by lia. auto.
Qed.
Lemma inv_item : forall src i seqs stack P seqs' x stack', inv src i seqs stack -> relinked P (length seqs) seqs seqs' -> map extent seqs' = map extent seqs -> (forall k, In k P -> started seqs k /\ forall q, nth_error seqs k = Some q -> closes x k q) ->
  (i <= q_start x <= q_end x)%nat -> (q_end x <= length src)%nat -> written src x -> named src x -> item_ok (seqs' ++ [x]) (length seqs) x -> stack_ok (seqs' ++ [x]) stack' -> inv src (q_end x) (seqs' ++ [x]) stack'.
Proof.
  intros src i seqs stack P seqs' x stack' [A B C D E F] R EX PC L1 L2 W NM IO ST. constructor; auto.
  - rewrite map_app, EX. eapply ordered_app; [apply C|]. cbn. lia.
  - intros k q K. apply nth_at_end in K. destruct K as [[L K]|[_ ->]]; auto. rewrite (R k) in K. destruct (nth_error seqs k) as [q0|] eqn:K0; [|discriminate]. destruct (D k q0 K0) as (W0 & N0 & E0). cbn [option_map] in K. injection K as <-. destruct (existsb _ P); auto.
  - eapply nested_push; eauto.
Qed.
Lemma stack_keep : forall seqs x stack, stack_ok seqs stack -> stack_ok (seqs ++ [x]) stack.
Proof. intros seqs x stack H. eapply stack_ok_ext; [|apply H]. intros s q _ Q. apply nth_keep; auto. Qed.
(** a sequence that belongs to the active element *)
Lemma item_plain : forall seqs stack x, stack_ok seqs stack -> q_parent x = hd_error stack -> q_link x = None -> ~ is_element (q_type x) -> item_ok (seqs ++ [x]) (length seqs) x.
Proof.
  intros seqs stack x S P L T. constructor; try (rewrite L; discriminate). intros p EP. rewrite P in EP. destruct stack as [|s rest]; [discriminate|]. cbn [hd_error] in EP. assert (s = p) by congruence. subst s. cbn [stack_ok] in S. destruct S as (S & _). split; [|contradiction]. eapply started_open; [apply (relinked_nil 0)|auto|auto].
Qed.
Lemma inv_plain : forall src i seqs stack x, inv src i seqs stack -> q_parent x = hd_error stack -> q_link x = None -> ~ is_element (q_type x) -> (i <= q_start x <= q_end x)%nat -> (q_end x <= length src)%nat -> written src x -> named src x -> inv src (q_end x) (seqs ++ [x]) stack.
Proof.
  intros src i seqs stack x I P L T L1 L2 W NM. eapply (inv_item src i seqs stack [] seqs x stack); auto; try apply I. - apply relinked_nil. - intros k []. - eapply item_plain; eauto. apply I. - apply stack_keep, I.
Qed.
Definition dinv (d : doc) : Prop := inv (d_src d) (d_parsed d) (d_seqs d) (d_stack d).
Lemma inv_text : forall d i, dinv d -> (d_parsed d <= i <= length (d_src d))%nat -> inv (d_src d) i (d_seqs d ++ text_seq d i) (d_stack d).
Proof.
  intros d i I L. unfold text_seq. destruct (d_parsed d <? i)%nat eqn:E.
  - refine (inv_plain _ _ _ _ (plain_seq SText (d_parsed d) i (active d)) I _ _ _ _ _ _ _); cbn; auto; try lia. + intros [Q|Q]; discriminate. + intros [[Q|Q]|Q]; discriminate.
  - rewrite app_nil_r. eapply inv_hi; [apply I|lia].
Qed.
Lemma named_tag : forall src q, ~ In 0 src -> (q_start q < fst (q_name q) <= snd (q_name q))%nat -> (snd (q_name q) <= q_end q)%nat -> q_code q = html_number (between src (q_name q)) -> named src q.
Proof. intros src q N A B C _. auto. Qed.
Lemma named_other : forall src q, q_type q <> SStart -> q_type q <> SElement -> q_type q <> SEnd -> named src q.
Proof. intros src q A B C [[Q|Q]|Q]; contradiction. Qed.
Lemma at_element_inv : forall d i g d', dinv d -> (d_parsed d <= i < length (d_src d))%nat -> is_element (g_type g) ->
  (i + 1 < g_end g <= length (d_src d))%nat -> (i < fst (g_name g) <= snd (g_name g))%nat -> (snd (g_name g) <= g_end g)%nat -> type_ok (between (d_src d) (i, g_end g)) (g_end g - i) (g_type g) ->
  at_element d i g = Ret d' -> dinv d' /\ d_parsed d' = g_end g /\ d_src d' = d_src d.
Proof.
  intros d i g d' I L T B N1 N2 TY H. pose proof (inv_text d i I ltac:(lia)) as I1. unfold at_element in H. cbv zeta in H. set (seqs := d_seqs d ++ text_seq d i) in *. clearbody seqs.
  rewrite code_of_spec in H by (try apply I; lia). cbn [obind] in H. set (code := html_number (between (d_src d) (g_name g))) in *.
  destruct (close_loop seqs (d_stack d) code (length seqs) None) as [[[seqs' stack'] parent]| |] eqn:C; cbn [obind] in H; try discriminate. apply close_spec in C; [|apply I1|auto]. destruct C as (P & ES & R & MC & EP & EX & MP).
  injection H as <-. split; [|auto]. unfold dinv. cbn [d_src d_parsed d_seqs d_stack]. pose proof (inv_stack _ _ _ _ I1) as S. rewrite ES in S. apply stack_app in S. destruct S as [S1 S2].
  set (imm := match span code with immediate => true | _ => false end). assert (SI : imm = true <-> span code = immediate) by (unfold imm; destruct (span code); split; congruence).
  set (x := Sq (g_type g) i (g_end g) parent code (g_name g) (g_attrs g) (if is_start (g_type g) && imm then Some (length seqs) else None)).
  assert (SE : stack_ok (seqs' ++ [x]) stack'). { eapply stack_ok_ext; [|apply S1]. intros s q IS Q. apply nth_keep. eapply relinked_other; eauto. intros IP. apply (S2 s IP); auto. }
  change (g_end g) with (q_end x). eapply (inv_item (d_src d) i seqs (d_stack d) P seqs' x); auto.
  - intros k IP. destruct (S2 k IP) as [K1 K2]. split; auto. intros q Q. right. split; [exact T|]. apply (MC k q IP Q).
  - cbn. lia. - cbn. lia.
  - unfold written, x, extent. cbn [q_type q_start q_end]. destruct T as [T|T]; rewrite T in *; exact TY.
  - apply named_tag; auto. apply I.
  - pose proof (relinked_length _ _ _ _ R) as LL. constructor.
    + intros p Q. cbn [x q_parent] in Q. rewrite EP in Q. destruct stack' as [|s rest]; [discriminate|]. cbn [hd_error] in Q. assert (s = p) by congruence. subst s. cbn [stack_ok] in S1. destruct S1 as (S1 & _).
      assert (NP : ~ In p P) by (intros IP; destruct (S2 p IP) as [_ K]; apply K; left; auto). split; [eapply started_open; eauto|]. intros _. destruct S1 as (q & Q1 & _). exists q. split; [apply nth_keep; eapply relinked_other; eauto|]. apply (MP p q); auto.
    + intros T' m Q. cbn [x q_type q_link q_code] in *. rewrite T' in Q. cbn [is_start andb] in Q. destruct imm eqn:IM; [|discriminate]. left. split; [apply SI; auto|congruence].
    + intros T'. cbn [x q_type] in T'. destruct T; congruence.
  - destruct (is_start (g_type g) && negb imm) eqn:PU; auto. apply andb_prop in PU. destruct PU as [PU1 PU2]. assert (T' : g_type g = SStart) by (destruct (g_type g); try discriminate; auto). pose proof (relinked_length _ _ _ _ R) as LL. cbn [stack_ok].
    assert (NE : nth_error (seqs' ++ [x]) (length seqs) = Some x) by (rewrite nth_error_app2, LL, Nat.sub_diag by lia; reflexivity).
    split; [exists x; split; auto; split; [exact T'|]; split; [cbn [x q_link]; destruct imm; [discriminate|]; rewrite andb_false_r; auto|]; cbn [x q_code]; intros Q; apply SI in Q; rewrite Q in PU2; discriminate|].
    split; [intros q Q; assert (q = x) by congruence; subst q; cbn [x q_parent]; auto|]. split; auto. intros r IR. clear - S1 IR. induction stack' as [|s rest IH]; [destruct IR|]. cbn [stack_ok] in S1. destruct S1 as ((q & Q & _) & _ & _ & S1). destruct IR as [<-|IR]; auto. eapply nth_lt; eauto.
Qed.
Lemma at_end_inv : forall d i g d', dinv d -> (d_parsed d <= i < length (d_src d))%nat -> g_type g = SEnd ->
  (i + 1 < g_end g <= length (d_src d))%nat -> (i < fst (g_name g) <= snd (g_name g))%nat -> (snd (g_name g) <= g_end g)%nat -> type_ok (between (d_src d) (i, g_end g)) (g_end g - i) (g_type g) ->
  at_end_tag d i g = Ret d' -> dinv d' /\ d_parsed d' = g_end g /\ d_src d' = d_src d.
Proof.
  intros d i g d' I L T B N1 N2 TY H. pose proof (inv_text d i I ltac:(lia)) as I1. unfold at_end_tag in H. cbv zeta in H. set (seqs := d_seqs d ++ text_seq d i) in *. clearbody seqs.
  rewrite code_of_spec in H by (try apply I; lia). cbn [obind] in H. set (code := html_number (between (d_src d) (g_name g))) in *. rewrite T in TY.
  destruct (end_loop (d_src d) seqs (d_stack d) code (g_name g)) as [[[s rest]|]| |] eqn:C; cbn [obind] in H; try discriminate.
  - pose proof C as C'. apply end_spec in C; [|apply I1]. destruct C as (P & q & ES & Q & QC). rewrite Q in H. injection H as <-. split; [|auto]. unfold dinv. cbn [d_src d_parsed d_seqs d_stack].
    pose proof (inv_stack _ _ _ _ I1) as S. rewrite ES in S. destruct (stack_app _ _ _ S) as [S1 _]. cbn [stack_ok] in S1. destruct S1 as (SS & SP & SL & SR). pose proof (relinked_one s (length seqs) seqs) as R.
    set (x := Sq SEnd i (g_end g) (q_parent q) code (g_name g) [] (Some s)). change (g_end g) with (q_end x).
    assert (NR : forall r, In r rest -> ~ In r [s]) by (intros r IR [->|[]]; specialize (SL r IR); lia).
    eapply (inv_item (d_src d) i seqs (d_stack d) [s] (set_link seqs s (Some (length seqs))) x); auto.
    + apply map_extent_link. + intros k [<-|[]]. split; auto. intros q' Q'. left. split; reflexivity. + cbn. lia. + cbn. lia. + apply named_tag; auto. apply I.
    + constructor.
      * intros p QP. cbn [x q_parent] in QP. rewrite (SP q Q) in QP. destruct rest as [|p' rest]; [discriminate|]. cbn [hd_error] in QP. assert (p' = p) by congruence. subst p'. cbn [stack_ok] in SR. destruct SR as (SR & _). split; [eapply started_open; [apply R|auto|apply NR; left; auto]|]. intros [Q'|Q']; discriminate.
      * intros T'. discriminate.
      * intros _ s' Q'. cbn [x q_link] in Q'. assert (s' = s) by congruence. subst s'. split; [eapply nth_lt; eauto|]. exists (relink q (Some (length seqs))). split; [apply nth_keep; apply (relinked_in [s] (length seqs) seqs); [apply R|left; auto|auto]|]. destruct SS as (q' & Q'' & T' & _). assert (q' = q) by congruence. subst q'. cbn. auto.
    + eapply stack_ok_ext; [|apply SR]. intros r q' IR Q'. apply nth_keep. eapply relinked_other; eauto.
  - injection H as <-. split; [|auto]. unfold dinv. cbn [d_src d_parsed d_seqs d_stack]. set (x := Sq SEnd i (g_end g) (active d) code (g_name g) [] None). change (g_end g) with (q_end x). eapply (inv_plain (d_src d) i); auto. + intros [Q|Q]; discriminate. + cbn; lia. + cbn; lia. + apply named_tag; auto. apply I.
Qed.
Lemma at_declaration_inv : forall d i g d', dinv d -> (d_parsed d <= i < length (d_src d))%nat -> g_type g = SDecl -> (i + 1 < g_end g <= length (d_src d))%nat -> type_ok (between (d_src d) (i, g_end g)) (g_end g - i) (g_type g) ->
  at_declaration d i g = Ret d' -> dinv d' /\ d_parsed d' = g_end g /\ d_src d' = d_src d.
Proof.
  intros d i g d' I L T B TY H. pose proof (inv_text d i I ltac:(lia)) as I1. unfold at_declaration in H. cbv zeta in H. match type of H with obind ?x _ = _ => destruct x as [ents| |] end; cbn [obind] in H; try discriminate. injection H as <-. split; [|auto]. unfold dinv. cbn [d_src d_parsed d_seqs d_stack]. rewrite app_assoc. rewrite T in TY.
  set (x := Sq SDecl i (g_end g) (active d) 0 (g_name g) (g_attrs g) None). change (g_end g) with (q_end x). eapply (inv_plain (d_src d) i); auto. + intros [Q|Q]; discriminate. + cbn; lia. + cbn; lia. + apply named_other; discriminate.
Qed.
Lemma at_other_inv : forall d i g, dinv d -> (d_parsed d <= i < length (d_src d))%nat -> g_type g = SComment \/ g_type g = SInstr -> (i + 1 < g_end g <= length (d_src d))%nat -> type_ok (between (d_src d) (i, g_end g)) (g_end g - i) (g_type g) ->
  dinv (at_other d i g).
Proof.
  intros d i g I L T B TY. pose proof (inv_text d i I ltac:(lia)) as I1. unfold dinv, at_other. cbn [d_src d_parsed d_seqs d_stack]. rewrite app_assoc.
  set (x := Sq (g_type g) i (g_end g) (active d) 0 (g_name g) [] None). change (g_end g) with (q_end x). eapply (inv_plain (d_src d) i); auto. + intros [Q|Q]; cbn [x q_type] in Q; destruct T; congruence. + cbn; lia. + cbn; lia. + unfold written, x, extent. cbn [q_type q_start q_end]. destruct T as [T|T]; rewrite T in *; exact TY. + apply named_other; cbn [x q_type]; destruct T; congruence.
Qed.
Lemma at_special_inv : forall d i p q g, dinv d -> (d_parsed d <= i < length (d_src d))%nat -> g_type g = SEnd ->
  (i + 1 < g_end g <= length (d_src d))%nat -> (i < fst (g_name g) <= snd (g_name g))%nat -> (snd (g_name g) <= g_end g)%nat -> type_ok (between (d_src d) (i, g_end g)) (g_end g - i) (g_type g) ->
  active d = Some p -> nth_error (d_seqs d) p = Some q -> html_number (between (d_src d) (g_name g)) = q_code q -> dinv (at_special_end d i p q (q_code q) g).
Proof.
  intros d i p q g I L T B N1 N2 TY AC Q CD. pose proof (inv_text d i I ltac:(lia)) as I1. unfold dinv, at_special_end. cbv zeta. cbn [d_src d_parsed d_seqs d_stack]. assert (Q1 : nth_error (d_seqs d ++ text_seq d i) p = Some q). { rewrite nth_error_app1; auto. eapply nth_lt; eauto. } set (seqs := d_seqs d ++ text_seq d i) in *. clearbody seqs.
  pose proof (inv_stack _ _ _ _ I1) as S. unfold active in AC. destruct (d_stack d) as [|p' rest] eqn:ES; [discriminate|]. cbn [hd_error] in AC. assert (p' = p) by congruence. subst p'. cbn [tl]. cbn [stack_ok] in S. destruct S as (SS & SP & SL & SR). pose proof (relinked_one p (length seqs) seqs) as R. rewrite T in TY.
  set (x := Sq SEnd i (g_end g) (q_parent q) (q_code q) (g_name g) [] (Some p)). change (g_end g) with (q_end x).
  assert (NR : forall r, In r rest -> ~ In r [p]) by (intros r IR [->|[]]; specialize (SL r IR); lia).
  eapply (inv_item (d_src d) i seqs (p :: rest) [p] (set_link seqs p (Some (length seqs))) x); auto.
  + apply map_extent_link. + intros k [<-|[]]. split; auto. intros q' Q'. left. split; reflexivity. + cbn. lia. + cbn. lia. + apply named_tag; auto. apply I.
  + constructor.
    * intros p0 QP. cbn [x q_parent] in QP. rewrite (SP q Q1) in QP. destruct rest as [|p' rest]; [discriminate|]. cbn [hd_error] in QP. assert (p' = p0) by congruence. subst p'. cbn [stack_ok] in SR. destruct SR as (SR & _). split; [eapply started_open; [apply R|auto|apply NR; left; auto]|]. intros [Q'|Q']; discriminate.
    * intros T'. discriminate.
    * intros _ s' Q'. cbn [x q_link] in Q'. assert (s' = p) by congruence. subst s'. split; [eapply nth_lt; eauto|]. exists (relink q (Some (length seqs))). split; [apply nth_keep; apply (relinked_in [p] (length seqs) seqs); [apply R|left; auto|auto]|]. destruct SS as (q' & Q'' & T' & _). assert (q' = q) by congruence. subst q'. cbn. auto.
  + eapply stack_ok_ext; [|apply SR]. intros r q' IR Q'. apply nth_keep. eapply relinked_other; eauto.
Qed.
