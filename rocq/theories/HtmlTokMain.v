(** HTML tokens: parse and link rebuild a document (C168-C170). *)
From Coq Require Import String ZifyBool ZifyNat.
From Verif Require Import Base StringModel StringSpec StringProofs StringTrim StringProps ParserModel ParserSpec ParserProps SgmlTable SgmlSpec SgmlModel SgmlSearch SgmlText SgmlProps
  HtmlEscModel HtmlEscSpec HtmlEscProps HtmlCssProps HtmlTagModel HtmlTagSpec HtmlTagProps HtmlElemModel HtmlElemSpec HtmlElemProps HtmlDocModel HtmlDocSpec HtmlDocInv CssModel CssProps CssTokens HtmlTokModel HtmlTokSpec HtmlTokProps HtmlTokParse.
Import List.ListNotations. Open Scope Z_scope.
Local Notation text_ok := ParserSpec.text_ok. Local Notation vis := ParserSpec.vis.
Ltac Zify.zify_post_hook ::= Z.div_mod_to_equations.

(** ** Style sheets *)
Section Css.
Context (src : list Z) (PS : plain_src src) (sp : Z -> bool) (addr : nat -> Z) (lim : nat) (GA : good_addr lim addr).
Set Default Proof Using "Type".
Lemma part_ok : forall i e, (i <= e <= length src)%nat -> text_ok src i e.
Proof. clear sp PS. intros i e L. split; [lia|]. split; [lia|]. left. rewrite skipn_length. lia. Qed.
Lemma part_vis : forall i e, plain_src src -> vis src i e = between src (i, e).
Proof. clear sp PS. intros i e P. exact (zstr_bt src P (i, e)). Qed.
Lemma part_len : forall i e, (i <= e <= length src)%nat -> length (between src (i, e)) = (e - i)%nat.
Proof. clear sp PS. intros i e L. unfold between. cbn [fst snd]. rewrite firstn_length, skipn_length. lia. Qed.
(** the units the tokens begin with *)
Lemma comment_head : forall i e r, text_ok src i e -> css_comment src i e = Ret (Some r) -> hd_error (vis src i e) = Some 47.
Proof. intros i e r T H. rewrite comment_is in H by auto. unfold f_comment in H. destruct (pre2 47 42 (vis src i e)) eqn:P; [|discriminate]. apply pre2_iff in P. destruct P as (t & ->). reflexivity. Qed.
Lemma cdo_head : forall i e r, text_ok src i e -> css_cdo src i e = Ret (Some r) -> hd_error (vis src i e) = Some 60.
Proof. intros i e r T H. rewrite cdo_is in H by auto. destruct (pre4 (vis src i e)) eqn:P; [|discriminate]. apply pre4_iff in P. destruct P as (t & ->). reflexivity. Qed.
Lemma cdc_head : forall i e r, text_ok src i e -> css_cdc src i e = Ret (Some r) -> hd_error (vis src i e) = Some 45.
Proof. intros i e r T H. rewrite cdc_is in H by auto. destruct (pre3 45 45 62 (vis src i e)) eqn:P; [|discriminate]. apply pre3_iff in P. destruct P as (t & ->). reflexivity. Qed.
Lemma import_head' : forall i e r, text_ok src i e -> css_import src sp i e = Ret (Some r) -> hd_error (vis src i e) = Some 64.
Proof. intros i e r T H. rewrite import_is in H by auto. unfold f_import in H. destruct (pre_import (vis src i e)) eqn:P; [|discriminate]. unfold pre_import in P. destruct (vis src i e) as [|c v]; [discriminate|]. cbn [hdz hd_error] in *. apply andb_prop in P. destruct P as [P _]. f_equal. lia. Qed.
Lemma uri_head' : forall i e r, text_ok src i e -> css_uri src sp i e = Ret (Some r) -> hd_error (vis src i e) = Some 117 \/ hd_error (vis src i e) = Some 85.
Proof. intros i e r T H. rewrite uri_is in H by auto. unfold f_uri in H. destruct (pre_url (vis src i e)) eqn:P; [|discriminate]. unfold pre_url in P. destruct (vis src i e) as [|c v]; [discriminate|]. cbn [hd2 hd_error] in *. apply andb_prop in P. destruct P as [P _]. assert (c = 117 \/ c = 85) by lia. destruct H0; [left|right]; congruence. Qed.
Lemma comment_ret : forall i e, text_ok src i e -> exists r, css_comment src i e = Ret r. Proof. intros. rewrite comment_is by auto. eauto. Qed.
Lemma cdo_ret : forall i e, text_ok src i e -> exists r, css_cdo src i e = Ret r. Proof. intros. rewrite cdo_is by auto. eauto. Qed.
Lemma cdc_ret : forall i e, text_ok src i e -> exists r, css_cdc src i e = Ret r. Proof. intros. rewrite cdc_is by auto. eauto. Qed.
Lemma import_ret : forall i e, text_ok src i e -> exists r, css_import src sp i e = Ret r. Proof. intros. rewrite import_is by auto. eauto. Qed.
Lemma uri_ret : forall i e, text_ok src i e -> exists r, css_uri src sp i e = Ret r. Proof. intros. rewrite uri_is by auto. eauto. Qed.
Lemma mark_within : forall i e x, text_ok src i e -> css_mark src i e x -> (i < x <= i + length (vis src i e))%nat.
Proof.
  intros i e x T [([a b] & H)|[H|H]].
  - destruct (css_comment_exact src i e T) as (r & E & I). assert (QE : r = Some (a, b, x)) by (rewrite E in H; injection H as H; exact H). subst r. destruct (proj1 (I a b x) eq_refl) as (-> & -> & c & rest & V & -> & _). rewrite V. rewrite !app_length. cbn [length]. lia.
  - apply (css_cdo_cdc_exact src i e x T) in H. destruct H as (-> & r & ->). rewrite app_length. cbn [length]. lia.
  - apply (css_cdo_cdc_exact src i e x T) in H. destruct H as (-> & r & ->). rewrite app_length. cbn [length]. lia.
Qed.
Lemma addr_within : forall i e a b x, text_ok src i e -> css_addr src sp i e a b x -> (i <= a <= b)%nat /\ (b < x <= i + length (vis src i e))%nat.
Proof.
  intros i e a b x T [H|H].
  - destruct (css_import_within src sp i e T) as (r & E & W). assert (QE : r = Some (a, b, x)) by (rewrite E in H; injection H as H; exact H). specialize (W a b x QE). lia.
  - destruct (css_uri_within src sp i e T) as (r & E & W). assert (QE : r = Some (a, b, x)) by (rewrite E in H; injection H as H; exact H). specialize (W a b x QE). lia.
Qed.
Lemma css_empty : forall i c, (i <= length src)%nat -> css_text src sp i i c -> c = [].
Proof.
  intros i c L H. pose proof (part_ok i i ltac:(lia)) as T. assert (V : vis src i i = []) by (unfold vis; rewrite Nat.sub_diag; reflexivity).
  inversion H as [i0 Q1 Q2|i0 j0 x o M R Q1 Q2|i0 j0 a b x u o M R Z R2 Q1 Q2|i0 j0 o LT M A R Q1 Q2]; subst; auto.
  - apply mark_within in M; auto. rewrite V in M. cbn [length] in M. lia.
  - apply addr_within in M; auto. rewrite V in M. cbn [length] in M. lia.
  - lia.
Qed.
(* one turn of the loop *)
Lemma css_turn : forall i e, text_ok src i e ->
  (exists x, css_mark src i e x /\ (forall f s toks text tk, css_loop addr src sp (S f) s toks i e text tk = let* p := copy src i x in css_loop addr src sp f s toks x e (text ++ p) tk)) \/
  (exists a b x, css_addr src sp i e a b x /\ (forall f s toks text tk, css_loop addr src sp (S f) s toks i e text tk =
      let* url := css_unescape (fun c => c) [] (skipn a src) (b - a) in let* p := copy src i a in let* r := copy src b x in css_loop addr src sp f s (toks ++ [TUrl url ECss (Some s)]) x e (text ++ p ++ tag addr (length toks) ++ r) true)) \/
  ((forall x, ~ css_mark src i e x) /\ (forall a b x, ~ css_addr src sp i e a b x) /\ (forall f s toks text tk, css_loop addr src sp (S f) s toks i e text tk =
      match hd_error (vis src i e) with Some _ => let* p := copy src i (S i) in css_loop addr src sp f s toks (S i) e (text ++ p) tk | None => Ret (toks, text, tk) end)).
Proof.
  intros i e T. destruct (comment_ret i e T) as (r1 & E1). destruct r1 as [[c x]|].
  { left. exists x. split; [left; eauto|]. intros. cbn [css_loop]. rewrite E1. reflexivity. }
  destruct (cdo_ret i e T) as (r2 & E2). destruct r2 as [x|].
  { left. exists x. split; [right; left; auto|]. intros. cbn [css_loop]. rewrite E1, E2. reflexivity. }
  destruct (cdc_ret i e T) as (r3 & E3). destruct r3 as [x|].
  { left. exists x. split; [right; right; auto|]. intros. cbn [css_loop]. rewrite E1, E2, E3. reflexivity. }
  destruct (import_ret i e T) as (r4 & E4). destruct r4 as [[[a b] x]|].
  { right. left. exists a, b, x. split; [left; auto|]. intros. cbn [css_loop]. rewrite E1, E2, E3, E4. reflexivity. }
  destruct (uri_ret i e T) as (r5 & E5). destruct r5 as [[[a b] x]|].
  { right. left. exists a, b, x. split; [right; auto|]. intros. cbn [css_loop]. rewrite E1, E2, E3, E4. cbn [obind]. rewrite E5. reflexivity. }
  right. right. split; [|split].
  - intros x [(c & H)|[H|H]]; congruence.
  - intros a b x [H|H]; congruence.
  - intros. cbn [css_loop]. rewrite E1, E2, E3, E4. cbn [obind]. rewrite E5. cbn [obind]. rewrite (peek_spec src i e T). reflexivity.
Qed.
Lemma mark_addr : forall i e x a b y, text_ok src i e -> css_mark src i e x -> css_addr src sp i e a b y -> False.
Proof.
  intros i e x a b y T M A. assert (H : hd_error (vis src i e) = Some 47 \/ hd_error (vis src i e) = Some 60 \/ hd_error (vis src i e) = Some 45) by (destruct M as [(c & M)|[M|M]]; [left; eapply comment_head|right; left; eapply cdo_head|right; right; eapply cdc_head]; eauto).
  assert (K : hd_error (vis src i e) = Some 64 \/ hd_error (vis src i e) = Some 117 \/ hd_error (vis src i e) = Some 85) by (destruct A as [A|A]; [left; eapply import_head'; eauto|right; eapply uri_head'; eauto]). destruct H as [H|[H|H]], K as [K|[K|K]]; congruence.
Qed.
Lemma mark_unique : forall i e x y, text_ok src i e -> css_mark src i e x -> css_mark src i e y -> x = y.
Proof.
  intros i e x y T M N.
  assert (H : forall z, css_mark src i e z -> (exists c, css_comment src i e = Ret (Some (c, z))) /\ hd_error (vis src i e) = Some 47 \/ css_cdo src i e = Ret (Some z) /\ hd_error (vis src i e) = Some 60 \/ css_cdc src i e = Ret (Some z) /\ hd_error (vis src i e) = Some 45).
  { intros z [(c & Q)|[Q|Q]]; [left|right; left|right; right]; (split; [eauto|]); [eapply comment_head|eapply cdo_head|eapply cdc_head]; eauto. }
  destruct (H x M) as [[(c & A) B]|[[A B]|[A B]]], (H y N) as [[(d & C) D]|[[C D]|[C D]]]; congruence.
Qed.
Lemma addr_unique : forall i e a b x a' b' x', text_ok src i e -> css_addr src sp i e a b x -> css_addr src sp i e a' b' x' -> a = a' /\ b = b' /\ x = x'.
Proof.
  intros i e a b x a' b' x' T [M|M] [N|N]; try (repeat split; congruence).
  - apply import_head' in M; auto. apply uri_head' in N; auto. destruct N; congruence.
  - apply import_head' in N; auto. apply uri_head' in M; auto. destruct M; congruence.
Qed.
Lemma css_ok : forall i j o, css_text src sp i j o -> (i <= j <= length src)%nat -> forall fuel s toks text tk oa, (j - i < fuel)%nat -> tok_state addr lim toks text tk oa ->
  exists more text' tk', css_loop addr src sp fuel s toks i j text tk = Ret (toks ++ more, text', tk') /\ tok_state addr lim (toks ++ more) text' tk' (oa ++ o).
Proof using GA PS.
  intros i j o H. induction H as [i|i j x o M H IH|i j a b x u o A R Z H IH|i j o L NM NA H IH]; intros B fuel s toks text tk oa F ST; (destruct fuel as [|f]; [lia|]).
  - pose proof (part_ok i i ltac:(lia)) as T. assert (V : vis src i i = []) by (unfold vis; rewrite Nat.sub_diag; reflexivity). destruct (css_turn i i T) as [(x & M & _)|[(a & b & x & A & _)|(_ & _ & E)]].
    + apply mark_within in M; auto. rewrite V in M. cbn [length] in M. lia.
    + apply addr_within in A; auto. rewrite V in A. cbn [length] in A. lia.
    + rewrite E, V. cbn [hd_error]. exists [], text, tk. rewrite !app_nil_r. auto.
  - pose proof (part_ok i j ltac:(lia)) as T. pose proof (mark_within i j x T M) as W. rewrite (part_vis i j PS), part_len in W by lia. destruct (css_turn i j T) as [(x' & M' & E)|[(a & b & x' & A & _)|(NM & _ & _)]].
    + pose proof (mark_unique i j x x' T M M') as <-. rewrite E. rewrite copy_ok by lia. cbn [obind]. destruct (IH ltac:(lia) f s toks (text ++ between src (i, x)) tk (oa ++ between src (i, x)) ltac:(lia)) as (more & text' & tk' & E2 & S2). { apply state_raw; auto; [apply bt_0|apply bt_18]; auto. } rewrite E2. exists more, text', tk'. split; auto. rewrite app_assoc. exact S2.
    + exfalso. eapply mark_addr; eauto.
    + exfalso. eapply NM; eauto.
  - pose proof (part_ok i j ltac:(lia)) as T. pose proof (addr_within i j a b x T A) as W. rewrite (part_vis i j PS), part_len in W by lia. destruct (css_turn i j T) as [(x' & M' & E)|[(a' & b' & x' & A' & E)|(_ & NA & _)]].
    + exfalso. eapply mark_addr; eauto.
    + destruct (addr_unique i j a b x a' b' x' T A A') as (<- & <- & <-). rewrite E. 
      assert (EU : css_unescape (fun c => c) [] (skipn a src) (b - a) = Ret u).
      { replace (skipn a src) with (between src (a, b) ++ skipn (b - a) (skipn a src)) by (unfold between; cbn [fst snd]; apply firstn_skipn). apply (css_unescape_spec (fun c => c) [] (between src (a, b)) u); auto. - apply Forall_forall. intros c I ->. apply (bt_0 src PS) in I. auto. - left. rewrite part_len; lia. }
      rewrite EU. cbn [obind]. rewrite !copy_ok by lia. cbn [obind]. destruct (IH ltac:(lia) f s (toks ++ [TUrl u ECss (Some s)]) (text ++ between src (i, a) ++ tag addr (length toks) ++ between src (b, x)) true (oa ++ between src (i, a) ++ written_with css_escapes u ++ between src (b, x)) ltac:(lia)) as (more & text' & tk' & E2 & S2).
      { rewrite !app_assoc. apply state_raw; [|apply bt_0; auto|apply bt_18; auto]. apply state_tok with (tk := tk). - apply state_raw; auto; [apply bt_0|apply bt_18]; auto. - rewrite <- css_written. apply (means_url addr lim _ _ u ECss (Some s)); auto. apply nth_end. }
      rewrite E2. exists (TUrl u ECss (Some s) :: more), text', tk'. rewrite <- app_assoc in S2 |- *. cbn [app] in S2 |- *. split; auto. rewrite <- !app_assoc in S2. exact S2.
    + exfalso. eapply NA; eauto.
  - pose proof (part_ok i j ltac:(lia)) as T. destruct (css_turn i j T) as [(x' & M' & E)|[(a' & b' & x' & A' & E)|(_ & _ & E)]]. { exfalso. eapply NM; eauto. } { exfalso. eapply NA; eauto. }
    rewrite E. rewrite (part_vis i j PS). pose proof (part_len i j ltac:(lia)) as PL. destruct (between src (i, j)) as [|c v]; [cbn [length] in PL; lia|]. cbn [hd_error]. rewrite copy_ok by lia. cbn [obind]. destruct (IH ltac:(lia) f s toks (text ++ between src (i, S i)) tk (oa ++ between src (i, S i)) ltac:(lia)) as (more & text' & tk' & E2 & S2). { apply state_raw; auto; [apply bt_0|apply bt_18]; auto. } rewrite E2. exists more, text', tk'. split; auto. rewrite app_assoc. exact S2.
Qed.
End Css.

(** ** The loop over the sequences *)
Lemma opaque_skips : forall code, skips code = true <-> named_in opaque_names code.
Proof.
  intros code. unfold skips, one_of, named_in. replace (map number opaque_names) with [e_address; e_code; e_comment; e_cite; e_kbd; e_samp; e_script; e_style] by (vm_compute; reflexivity). rewrite existsb_exists. split.
  - intros (y & I & E). assert (code = y) by lia. subst. auto.
  - intros I. exists code. split; auto. lia.
Qed.
Lemma frameset_code : number "frameset" = e_frameset. Proof. vm_compute. reflexivity. Qed.
Lemma style_code : number "style" = e_style. Proof. vm_compute. reflexivity. Qed.
Lemma ordered_two : forall l lo hi j k a b, ordered lo hi l -> nth_error l j = Some a -> nth_error l k = Some b -> (j < k)%nat -> (snd a <= fst b)%nat.
Proof.
  induction l as [|[x y] l IH]; intros lo hi j k a b OR J K L. - destruct j; discriminate.
  - destruct OR as [O1 O2]. destruct k as [|k]; [lia|]. destruct j as [|j]. + cbn [nth_error] in *. assert (a = (x, y)) by congruence. subst a. destruct b as [b1 b2]. apply nth_error_In in K. apply (ordered_le _ _ _ _ _ O2) in K. cbn [fst snd]. lia. + cbn [nth_error] in *. eapply IH; eauto. lia.
Qed.
Section Loop.
Context (src : list Z) (PS : plain_src src) (seqs : list sq) (sp : Z -> bool) (frames : bool) (addr : nat -> Z) (lim : nat) (GA : good_addr lim addr).
Set Default Proof Using "Type".
(** the sequences can be rebuilt in two parts *)
Lemma rebuilt_split : forall k e o, rebuilt src seqs sp frames k e o -> forall l, (k <= l <= e)%nat ->
  (forall j q m, (k <= j < l)%nat -> nth_error seqs j = Some q -> q_type q = SStart -> q_link q = Some m -> (m <= l)%nat) ->
  exists o1 o2, o = o1 ++ o2 /\ rebuilt src seqs sp frames k l o1 /\ rebuilt src seqs sp frames l e o2.
Proof.
  intros k e o H. induction H as [e|k e q u o L N T SF N18 H IH|k e q o L N T NE H IH|k e q t o L N IE NO FR TT H IH|k e q m qe t c o N T OP TT LK L NQ C H IH]; intros l B C0.
  - assert (l = e) by lia. subst l. exists [], []. repeat split; constructor.
  - destruct (Nat.eq_dec l k) as [->|NK]. { exists [], (written_with text_escapes u ++ o). repeat split; [constructor|]. eapply rb_text; eauto. }
    destruct (IH l ltac:(lia)) as (o1 & o2 & -> & R1 & R2). { intros j q' m J. apply C0. lia. } exists (written_with text_escapes u ++ o1), o2. rewrite app_assoc. repeat split; auto. eapply rb_text; eauto. lia.
  - destruct (Nat.eq_dec l k) as [->|NK]. { exists [], (between src (extent q) ++ o). repeat split; [constructor|]. eapply rb_copy; eauto. }
    destruct (IH l ltac:(lia)) as (o1 & o2 & -> & R1 & R2). { intros j q' m J. apply C0. lia. } exists (between src (extent q) ++ o1), o2. rewrite app_assoc. repeat split; auto. eapply rb_copy; eauto. lia.
  - destruct (Nat.eq_dec l k) as [->|NK]. { exists [], (t ++ o). repeat split; [constructor|]. eapply rb_tag; eauto. }
    destruct (IH l ltac:(lia)) as (o1 & o2 & -> & R1 & R2). { intros j q' m J. apply C0. lia. } exists (t ++ o1), o2. rewrite app_assoc. repeat split; auto. eapply rb_tag; eauto. lia.
  - destruct (Nat.eq_dec l k) as [->|NK]. { exists [], (t ++ c ++ o). repeat split; [constructor|]. eapply rb_opaque; eauto. }
    pose proof (C0 k q m ltac:(lia) N T LK) as ML. destruct (IH l ltac:(lia)) as (o1 & o2 & -> & R1 & R2). { intros j q' m' J. apply C0. lia. } exists (t ++ c ++ o1), o2. rewrite <- !app_assoc. repeat split; auto. eapply rb_opaque; eauto. lia.
Qed.
(** the text so far is rendered as [o], whatever becomes of the type *)
Definition loop_state (toks : list token) (x : txt) (o : list Z) : Prop :=
  reads addr lim toks true (t_text x) o /\ (t_txt x = false -> reads addr lim toks false (t_text x) o) /\
  (t_tok x = false -> o = flat_map escape_min_chr (t_text x) /\ ~ In 0 (t_text x) /\ (t_txt x = false -> o = t_text x)).
Lemma loop_put : forall toks x o t o1 from, loop_state toks x o -> means addr lim (toks ++ [t]) (length toks) o1 -> loop_state (toks ++ [t]) (put addr x from (length toks)) (o ++ o1).
Proof.
  intros toks x o t o1 from (A & B & C) M. unfold loop_state. cbn [put t_text t_txt t_tok]. split; [|split; [|discriminate]].
  - apply reads_app; [apply reads_more; auto|apply reads_one; auto].
  - intros Q. apply reads_app; [apply reads_more; auto|apply reads_one; auto].
Qed.
Lemma loop_text : forall toks x x' o v u b, loop_state toks x o -> stands_for v u -> ~ In 0 u -> ~ In 18 u -> (b = true <-> Forall (fun c => white c = true) v) ->
  t_text x' = t_text x ++ u -> t_tok x' = t_tok x -> t_txt x' = t_txt x || negb (if t_txt x then true else b) -> loop_state toks x' (o ++ written_with text_escapes u).
Proof.
  intros toks x x' o v u b (A & B & C) SF U0 U18 W E1 E2 E3. unfold loop_state. rewrite E1, E2.
  assert (K : t_txt x' = false -> t_txt x = false /\ written_with text_escapes u = u). { intros Q. rewrite Q in E3. destruct (t_txt x); [discriminate|]. split; auto. destruct b; [|discriminate]. assert (F : Forall (fun c => white c = true) v) by (apply W; auto). rewrite (blank_self v u F SF). apply white_written. auto. }
  split; [|split].
  - apply reads_app; auto. rewrite <- min_written. apply reads_text; auto.
  - intros Q. destruct (K Q) as [K1 K2]. rewrite K2. apply reads_app; auto. apply reads_raw; auto.
  - intros Q. destruct (C Q) as (C1 & C2 & C3). split; [|split].
    + rewrite flat_map_app, <- C1, min_written. reflexivity.
    + intros I. apply in_app_or in I. tauto.
    + intros P. destruct (K P) as [K1 K2]. rewrite K2, (C3 K1). reflexivity.
Qed.
Lemma loop_means : forall toks x o, loop_state toks x o -> means addr lim (toks ++ [TText x]) (length toks) o.
Proof using GA.
  intros toks x o (A & B & C). destruct (t_tok x) eqn:K.
  - apply (means_tok addr lim GA _ _ x); auto; [apply nth_end|]. destruct (t_txt x); apply reads_more; auto.
  - destruct (C eq_refl) as (C1 & C2 & C3). destruct (t_txt x) eqn:T. + rewrite C1. apply means_text; auto. apply nth_end. + rewrite (C3 eq_refl). apply means_plain; auto. apply nth_end.
Qed.
Lemma link_means : forall toks x o, loop_state toks x o -> (length (toks ++ [TText x]) <= lim)%nat -> exists F, forall f s, (F <= f)%nat -> link addr f (toks ++ [TText x]) s x = Ret (s ++ o).
Proof using GA.
  intros toks x o H B. destruct (loop_means _ _ _ H B) as (t & N & F & E). rewrite nth_end in N. assert (t = TText x) by congruence. subst t. exists F. intros f s L. exact (E f s L).
Qed.
Context (NEST : links_nest seqs) (ORD : in_order src seqs).
Lemma one_in : forall k q, nth_error seqs k = Some q -> (q_start q <= q_end q <= length src)%nat.
Proof using ORD. intros k q N. destruct ORD as [O1 _]. apply nth_error_In in N. assert (I : In (extent q) (map extent seqs)) by (apply in_map; auto). apply (ordered_le _ _ _ _ _ O1) in I. lia. Qed.
Lemma two_in : forall j k p q, nth_error seqs j = Some p -> nth_error seqs k = Some q -> (j < k)%nat -> (q_end p <= q_start q)%nat.
Proof using ORD. intros j k p q J K L. destruct ORD as [O1 _]. apply (ordered_two _ _ _ j k (extent p) (extent q) O1); auto; apply map_nth_error; auto. Qed.
Lemma limit_range : forall l k e, (k <= e)%nat -> (k <= limit_of l k e <= e)%nat /\ (limit_of l k e = e \/ l = Some (limit_of l k e)).
Proof. intros l k e L. unfold limit_of. destruct l as [m|]; [|lia]. destruct ((k <=? m)%nat && (m <? e)%nat) eqn:Q; [split; [lia|auto]|lia]. Qed.
Lemma start_case : forall q, is_element (q_type q) -> q_type q = SElement \/ q_type q = SStart. Proof. intros q [H|H]; auto. Qed.
Lemma loop_ok : forall fuel k e o toks x oa, rebuilt src seqs sp frames k e o -> (k <= e <= length seqs)%nat -> (e - k < fuel)%nat -> loop_state toks x oa ->
  exists more x', parse_loop addr src seqs sp frames fuel toks k e x = Ret (toks ++ more, x') /\ loop_state (toks ++ more) x' (oa ++ o).
Proof using GA PS NEST ORD.
  induction fuel as [|f IH]; intros k e o toks x oa H B F ST; [lia|]. cbn [parse_loop].
  inversion H as [e0 Q1 Q2|k0 e0 q u o0 L N T SF N18 R Q1 Q2|k0 e0 q o0 L N T NE R Q1 Q2|k0 e0 q t o0 L N IE NO FR TT R Q1 Q2|k0 e0 q m qe t c o0 N T OP TT LK L NQ C R Q1 Q2]; subst.
  - rewrite Nat.eqb_refl. exists [], x. rewrite !app_nil_r. auto.
  - replace (k =? e)%nat with false by lia. rewrite N, T. pose proof (one_in k q N) as QL. destruct (decode_ok src PS (q_start q, q_end q) (t_text x) (q_start q, length (t_text x)) u QL SF) as (Z & m & ->). cbn [obind].
    destruct (isblank_bt src PS (q_start q, q_end q) QL) as (b & EB & W). cbn [fst snd] in EB. 
    assert (E : (if t_txt x then Ret true else isblank_n (skipn (q_start q) src) (q_end q - q_start q)) = Ret (if t_txt x then true else b)) by (rewrite EB; destruct (t_txt x); reflexivity). rewrite E. cbn [obind].
    match goal with |- context [parse_loop _ _ _ _ _ f toks (S k) e ?y] => set (x1 := y) end.
    destruct (IH (S k) e o0 toks x1 (oa ++ written_with text_escapes u) R ltac:(lia) ltac:(lia)) as (more & x' & E2 & S2). { eapply loop_text with (x := x) (b := b); eauto; reflexivity. }
    rewrite E2. exists more, x'. split; auto. rewrite app_assoc. auto.
  - replace (k =? e)%nat with false by lia. rewrite N. pose proof (one_in k q N) as QL.
    set (kd := match q_type q with SEnd => KEnding | _ => KComplete end).
    assert (G : exists more x', (let* p := copy src (q_start q) (q_end q) in parse_loop addr src seqs sp frames f (toks ++ [TText (Txt kd p false false false false (Some k) [] [] None)]) (S k) e (put addr x (q_start q) (length toks))) = Ret (toks ++ more, x') /\ loop_state (toks ++ more) x' (oa ++ between src (extent q) ++ o0)).
    { rewrite copy_ok by lia. cbn [obind]. change (between src (q_start q, q_end q)) with (between src (extent q)). set (t := TText _).
      destruct (IH (S k) e o0 (toks ++ [t]) (put addr x (q_start q) (length toks)) (oa ++ between src (extent q)) R ltac:(lia) ltac:(lia)) as (more & x' & E2 & S2). { apply loop_put; auto. unfold t. match goal with |- means _ _ (_ ++ [TText ?y]) _ _ => apply (means_plain addr lim _ _ y); auto end. apply nth_end. }
      rewrite E2. exists (t :: more), x'. rewrite <- app_assoc in E2, S2 |- *. cbn [app] in *. split; auto. rewrite <- app_assoc in S2. exact S2. }
    unfold is_element in NE. destruct (q_type q); auto; exfalso; intuition congruence.
  - replace (k =? e)%nat with false by lia. rewrite N. pose proof (one_in k q N) as QL. destruct ORD as [_ OR]. destruct (OR q (nth_error_In _ _ N) IE) as [W NM].
    destruct (tag_token_ok src PS addr lim GA k q toks t TT QL W NM) as (m1 & tk & E1 & M1). set (toks1 := (toks ++ m1) ++ [tk]) in *. set (x1 := put addr x (q_start q) (length (toks ++ m1))).
    assert (S1 : loop_state toks1 x1 (oa ++ t)). { apply loop_put; auto. destruct ST as (A & B0 & C0). split; [|split; auto]; [|intros Q]; apply reads_more; auto. }
    assert (FS : (q_code q =? e_frameset) && negb frames = false). { rewrite frameset_code in FR. destruct FR as [->|FR]; [apply andb_false_r|]. replace (q_code q =? e_frameset) with false by lia. reflexivity. }
    assert (G : exists more x', parse_loop addr src seqs sp frames f toks1 (S k) e x1 = Ret (toks ++ more, x') /\ loop_state (toks ++ more) x' (oa ++ t ++ o0)).
    { destruct (IH (S k) e o0 toks1 x1 (oa ++ t) R ltac:(lia) ltac:(lia) S1) as (more & x' & E2 & S2). exists (m1 ++ [tk] ++ more), x'. unfold toks1 in *. rewrite <- !app_assoc in *. auto. }
    destruct (start_case q IE) as [T|T]; rewrite T; rewrite FS, E1; cbn [obind]; cbv zeta; rewrite ?T; cbn [is_start negb]; fold x1 toks1; auto.
    destruct NO as [NO|NO]; [congruence|]. destruct (skips (q_code q)) eqn:SK. { apply opaque_skips in SK. contradiction. } destruct (is_group (q_code q)) eqn:GR; auto.
    set (l := limit_of (q_link q) (S k) e). set (inner := Txt KComplete [] false false _ _ _ [] [] None). destruct (limit_range (q_link q) (S k) e ltac:(lia)) as [LL LC]. fold l in LL, LC.
    assert (SPL : exists o1 o2, o0 = o1 ++ o2 /\ rebuilt src seqs sp frames (S k) l o1 /\ rebuilt src seqs sp frames l e o2).
    { destruct (Nat.eq_dec l e) as [LE|LE]. { exists o0, []. rewrite LE, app_nil_r. repeat split; auto. constructor. } apply rebuilt_split; auto. intros j p m J NJ TJ LJ. destruct LC as [LC|LC]; [contradiction|]. apply (NEST k j q p l m); auto; lia. }
    destruct SPL as (o1 & o2 & -> & R1 & R2).
    destruct (IH (S k) l o1 toks1 inner [] R1 ltac:(lia) ltac:(lia)) as (m2 & x2 & E2 & S2). { split; [constructor|]. split; [constructor|]. intros _. cbn. auto. }
    rewrite E2. cbn [obind]. cbn [app] in S2. 
    destruct (IH l e o2 ((toks1 ++ m2) ++ [TText x2]) (put addr x1 (q_start q) (length (toks1 ++ m2))) ((oa ++ t) ++ o1) R2 ltac:(lia) ltac:(lia)) as (m3 & x3 & E3 & S3).
    { apply loop_put. - destruct S1 as (A & B0 & C0). split; [|split; auto]; [|intros Q]; apply reads_more; auto. - apply loop_means. auto. }
    rewrite E3. exists (m1 ++ [tk] ++ m2 ++ [TText x2] ++ m3), x3. unfold toks1 in *. rewrite <- !app_assoc in *. auto.
  - assert (ML : (m < length seqs)%nat) by (apply nth_error_Some; congruence). replace (k =? e)%nat with false by lia. rewrite N, T. pose proof (one_in k q N) as QL. destruct ORD as [_ OR]. assert (IE : is_element (q_type q)) by (left; auto). destruct (OR q (nth_error_In _ _ N) IE) as [W NM].
    destruct (tag_token_ok src PS addr lim GA k q toks t TT QL W NM) as (m1 & tk & E1 & M1). set (toks1 := (toks ++ m1) ++ [tk]) in *. set (x1 := put addr x (q_start q) (length (toks ++ m1))).
    assert (S1 : loop_state toks1 x1 (oa ++ t)). { apply loop_put; auto. destruct ST as (A & B0 & C0). split; [|split; auto]; [|intros Q]; apply reads_more; auto. }
    assert (FS : (q_code q =? e_frameset) = false). { assert (X : forallb (fun c => negb (c =? e_frameset)) (map number opaque_names) = true) by (vm_compute; reflexivity). rewrite forallb_forall in X. specialize (X _ OP). lia. }
    rewrite FS. cbn [andb]. rewrite E1. cbn [obind]. cbv zeta. cbn [is_start negb]. fold x1 toks1. replace (skips (q_code q)) with true by (symmetry; apply opaque_skips; auto). rewrite LK, NQ.
    assert (LM : limit_of (Some m) (S k) e = m) by (unfold limit_of; destruct ((S k <=? m)%nat && (m <? e)%nat) eqn:Q; lia). rewrite LM. pose proof (two_in k m q qe N NQ ltac:(lia)) as QE. pose proof (one_in m qe NQ) as QEL.
    assert (G : exists more x2, (if (q_end q <? q_start qe)%nat then
        if (S k <? length seqs)%nat then
          let* (toks, t) := (if negb (q_code q =? e_style) then let* p := copy src (q_end q) (q_start qe) in Ret (toks1, TText (Txt KComplete p false false false false (Some (S k)) [] [] None)) else parse_css addr src sp (S k) toks1 (q_end q) (q_start qe)) in
          Ret (toks ++ [t], put addr x1 (q_start q) (length toks))
        else UB
      else Ret (toks1, x1)) = Ret (toks1 ++ more, x2) /\ loop_state (toks1 ++ more) x2 ((oa ++ t) ++ c)).
    { destruct (q_end q <? q_start qe)%nat eqn:LT.
      - replace (S k <? length seqs)%nat with true by lia. rewrite style_code in C. destruct (q_code q =? e_style) eqn:ES; cbn [negb].
        + unfold parse_css. destruct (css_ok src PS sp addr lim GA _ _ c C ltac:(lia) (S (q_start qe - q_end q)) (S k) toks1 [] false [] ltac:(lia)) as (m2 & t2 & k2 & E2 & S2). { split; auto. constructor. }
          rewrite E2. cbn [obind]. cbn [app] in S2. set (tt := Txt KComplete t2 k2 _ _ _ _ _ _ _). exists (m2 ++ [TText tt]). eexists. rewrite app_assoc. split; [reflexivity|]. apply loop_put. * destruct S1 as (A & B0 & C0). split; [|split; auto]; [|intros Q]; apply reads_more; auto. * eapply state_means; eauto.
        + subst c. rewrite copy_ok by lia. cbn [obind]. eexists [_], _. split; [reflexivity|]. apply loop_put; auto. match goal with |- means _ _ (_ ++ [TText ?y]) _ _ => apply (means_plain addr lim _ _ y); auto end. apply nth_end.
      - assert (QQ : q_start qe = q_end q) by lia. exists [], x1. rewrite app_nil_r. split; auto. replace c with (@nil Z); [rewrite app_nil_r; auto|]. rewrite QQ in C. destruct (q_code q =? number "style"); symmetry. + apply (css_empty src sp (q_end q)); [lia|exact C]. + rewrite C. apply bt_none. lia. }
    destruct G as (m2 & x2 & G & S2). rewrite G. cbn [obind].
    destruct (IH m e o0 (toks1 ++ m2) x2 ((oa ++ t) ++ c) R ltac:(lia) ltac:(lia) S2) as (m3 & x3 & E3 & S3). rewrite E3. exists (m1 ++ [tk] ++ m2 ++ m3), x3. unfold toks1 in *. rewrite <- !app_assoc in *. auto.
Qed.
Lemma parse_link_upto : forall out, rebuilt src seqs sp frames 0 (length seqs) out ->
  exists toks root, parse addr src seqs sp frames = Ret (toks, root) /\ ((length toks <= lim)%nat -> exists F, forall fuel dst, (F <= fuel)%nat -> link addr fuel toks dst root = Ret (dst ++ out)).
Proof using GA PS NEST ORD.
  intros out H. unfold parse. set (root := Txt KComplete [] _ _ _ _ _ _ _ _). destruct (loop_ok (S (length seqs)) 0 (length seqs) out [] root [] H ltac:(lia) ltac:(lia)) as (more & x & E & ST). { split; [constructor|]. split; [constructor|]. intros _. cbn. auto. }
  rewrite E. cbn [obind app] in *. exists (more ++ [TText x]), x. split; auto. intros B. apply (link_means _ _ _ ST B).
Qed.
End Loop.
(** C168: parse and then link gives the document that is rebuilt from the sequences *)
Theorem parse_link : forall src seqs sp frames addr out, plain_src src -> links_nest seqs -> in_order src seqs -> rebuilt src seqs sp frames 0 (length seqs) out ->
  exists toks root, parse addr src seqs sp frames = Ret (toks, root) /\
    (good_addr (length toks) addr -> exists F, forall fuel dst, (F <= fuel)%nat -> link addr fuel toks dst root = Ret (dst ++ out)).
Proof.
  intros src seqs sp frames addr out PS LN OR RB. assert (G0 : good_addr 0 addr) by (split; intros; lia).
  destruct (parse_link_upto src PS seqs sp frames addr 0 G0 LN OR out RB) as (toks & root & E & _). exists toks, root. split; auto. intros GA.
  destruct (parse_link_upto src PS seqs sp frames addr _ GA LN OR out RB) as (toks' & root' & E' & L). assert (Q : (toks, root) = (toks', root')) by congruence. injection Q as <- <-. apply L. lia.
Qed.
Print Assumptions parse_link.
