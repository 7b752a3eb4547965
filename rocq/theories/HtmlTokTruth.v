(** HTML tokens: what the tokens say about the document (C175). *)
From Coq Require Import String ZifyBool ZifyNat.
From Verif Require Import Base StringModel StringSpec ParserModel HtmlEscModel SgmlSpec SgmlModel SgmlProps HtmlTagModel HtmlTagSpec HtmlTagProps HtmlElemModel HtmlElemSpec HtmlElemProps HtmlDocModel HtmlDocSpec HtmlDocInv CssModel HtmlTokModel HtmlTokSpec HtmlTokProps HtmlTokParse HtmlTokMain.
Import List.ListNotations. Open Scope Z_scope.
Ltac Zify.zify_post_hook ::= Z.div_mod_to_equations.

(** ** Specification *)
(** elements with a text of their own; of them those whose text is a title, and those that are lists; elements that never have an end *)
Definition group_names : list string := ["h1"; "h2"; "h3"; "h4"; "h5"; "h6"; "ul"; "ol"; "dir"; "menu"; "pre"; "listing"; "p"; "dl"; "div"; "center"; "marquee"; "noscript"; "noframes"; "noembed"; "blockquote"; "form"; "isindex"; "hr"; "table"; "fieldset"; "address";
  "head"; "body"; "frameset"; "title"; "base"; "nextid"; "col"; "colgroup"; "dd"; "dt"; "frame"; "iframe"; "legend"; "td"; "th"; "tr"]%string.
Definition title_names : list string := ["h1"; "h2"; "h3"; "h4"; "h5"; "h6"; "dt"; "title"]%string.
Definition list_names : list string := ["ul"; "ol"; "dir"; "menu"]%string.
Definition endless_names : list string := ["area"; "base"; "basefont"; "bgsound"; "br"; "col"; "embed"; "frame"; "hr"; "img"; "input"; "isindex"; "link"; "meta"; "nextid"; "param"; "rt"; "wbr"]%string.

Section Truth.
Context (addr : nat -> Z) (src : list Z) (seqs : list sq).
Definition opens_group (q : sq) : Prop := q_type q = SStart /\ named_in group_names (q_code q) /\ ~ named_in opaque_names (q_code q).
Definition opens_opaque (q : sq) : Prop := q_type q = SStart /\ named_in opaque_names (q_code q).
(** the contents of [q] are from [k] to [l], if everything is up to [e] *)
Definition content_end (q : sq) (k e l : nat) : Prop :=
  (q_link q = Some l /\ k <= l < e)%nat \/ ((forall l', q_link q = Some l' -> ~ (k <= l' < e)%nat) /\ l = e).
(** [m] is one of the sequences from [k] to [e], and not inside of a group or an opaque element of them *)
Inductive direct (e : nat) : nat -> nat -> Prop :=
| direct_here : forall k, (k < e)%nat -> direct e k k
| direct_next : forall k q m, (k < e)%nat -> nth_error seqs k = Some q -> ~ opens_group q -> ~ opens_opaque q -> direct e (S k) m -> direct e k m
| direct_over : forall k q l m, (k < e)%nat -> nth_error seqs k = Some q -> opens_group q \/ opens_opaque q -> content_end q (S k) e l -> direct e l m -> direct e k m.
(** the tag of token [t] is in the text, [n] units from its start *)
Definition shown (toks : list token) (text : list Z) (n : nat) (t : token) : Prop := exists p j r, text = p ++ tag addr j ++ r /\ length p = n /\ nth_error toks j = Some t.
(** ... and the mapping of [x] says that it comes from [from] *)
Definition shows (toks : list token) (x : txt) (from : nat) (t : token) : Prop := exists n, In (from, n) (t_map x) /\ shown toks (t_text x) n t.
(** the text of an attribute value that starts at [from] *)
Definition title_token (m : nat) (u : list Z) (from : nat) (z : txt) : Prop :=
  t_kind z = KComplete /\ t_text z = u /\ t_tok z = false /\ t_txt z = true /\ t_title z = true /\ t_bullet z = false /\ t_seq z = Some m /\ In (from, 0%nat) (t_map z).
(** what is copied *)
Definition plain_token (k : kind) (m : nat) (text : list Z) (y : txt) : Prop :=
  t_kind y = k /\ t_text y = text /\ t_tok y = false /\ t_txt y = false /\ t_title y = false /\ t_bullet y = false /\ t_seq y = Some m.
(** the tag [q], which is sequence [m]: only a tag of an element with contents starts something *)
Definition tag_of (toks : list token) (m : nat) (q : sq) (y : txt) : Prop :=
  t_txt y = false /\ t_title y = false /\ t_bullet y = false /\ t_seq y = Some m /\
  (q_type q = SStart /\ ~ named_in endless_names (q_code q) -> t_kind y = KStarting /\ t_name y = between src (q_name q) /\ t_end y = q_link q) /\
  (q_type q = SElement \/ named_in endless_names (q_code q) -> t_kind y = KComplete) /\
  forall a u, In a (q_attrs q) -> ~ no_value src a -> stands_for (between src (a_value a)) u ->
    (uri_attr (q_code q) (between src (a_name a)) -> exists n, shown toks (t_text y) n (TUrl u ESgml (Some m))) /\
    (~ uri_attr (q_code q) (between src (a_name a)) -> title_attr (q_code q) (between src (a_name a)) -> exists n z, shown toks (t_text y) n (TText z) /\ title_token m u (fst (a_value a)) z).
(** sequence [m] in the token [x] *)
Definition item (toks : list token) (x : txt) (m : nat) (q : sq) : Prop :=
  match q_type q with
  | SText => forall u, stands_for (between src (extent q)) u -> exists p r, t_text x = p ++ u ++ r /\ In (q_start q, length p) (t_map x)
  | SEnd => exists y, shows toks x (q_start q) (TText y) /\ plain_token KEnding m (between src (extent q)) y
  | SElement | SStart => exists y, shows toks x (q_start q) (TText y) /\ tag_of toks m q y
  | _ => exists y, shows toks x (q_start q) (TText y) /\ plain_token KComplete m (between src (extent q)) y
  end.
(** the contents of an opaque element that is no style sheet *)
Definition opaque_item (toks : list token) (x : txt) (m : nat) (q : sq) : Prop :=
  opens_opaque q -> q_code q <> number "style" -> exists l qe, q_link q = Some l /\ nth_error seqs l = Some qe /\
    ((q_end q < q_start qe)%nat -> exists y, shows toks x (q_start q) (TText y) /\ plain_token KComplete (S m) (between src (q_end q, q_start qe)) y).
(** has_text *)
Definition text_iff (x : txt) (a b : nat) : Prop :=
  t_txt x = true <-> exists m q, direct b a m /\ nth_error seqs m = Some q /\ q_type q = SText /\ ~ Forall (fun c => white c = true) (between src (extent q)).
(** the token of the contents of group [q], sequence [m], up to [l] *)
Definition group_token (m l : nat) (q : sq) (y : txt) : Prop :=
  t_kind y = KComplete /\ (t_title y = true <-> named_in title_names (q_code q)) /\ (t_bullet y = true <-> named_in list_names (q_code q)) /\ t_seq y = (if (S m =? l)%nat then None else Some (S m)) /\ text_iff y (S m) l.
(** [x] has the sequences from [a] to [b], and the groups among them have tokens of their own that have theirs *)
Inductive covers (toks : list token) : txt -> nat -> nat -> Prop :=
| covers_all : forall x a b,
    (forall m q, direct b a m -> nth_error seqs m = Some q -> item toks x m q /\ opaque_item toks x m q) ->
    (forall m q, direct b a m -> nth_error seqs m = Some q -> opens_group q ->
      exists y l, content_end q (S m) b l /\ shows toks x (q_start q) (TText y) /\ group_token m l q y /\ covers toks y (S m) l) ->
    covers toks x a b.

(** ** Proof *)
Lemma one_of_in : forall code l, one_of code l = true <-> In code l.
Proof. intros. unfold one_of. rewrite existsb_exists. split. - intros (y & I & E). assert (code = y) by lia. subst. auto. - intros. exists code. split; auto. lia. Qed.
Lemma one_of_app : forall code a b, one_of code a || one_of code b = one_of code (a ++ b). Proof. intros. unfold one_of. rewrite existsb_app. reflexivity. Qed.
Lemma in_incl : forall a b : list Z, forallb (fun c => existsb (Z.eqb c) b) a = true -> incl a b.
Proof. intros a b H c I. rewrite forallb_forall in H. specialize (H c I). apply existsb_exists in H. destruct H as (y & I2 & E). assert (c = y) by lia. subst. auto. Qed.
Lemma group_iff : forall code, is_group code = true <-> named_in group_names code.
Proof.
  intros code. unfold is_group, is_block, is_html_content, is_head_content, is_heading, is_list, is_preformatted. rewrite !one_of_app, one_of_in. unfold named_in. 
  split; apply in_incl. - vm_compute. reflexivity. - vm_compute. reflexivity.
Qed.
Lemma title_iff : forall code, is_heading code || (code =? e_dt) || (code =? e_title) = true <-> named_in title_names code.
Proof.
  intros code. replace (is_heading code || (code =? e_dt) || (code =? e_title)) with (one_of code ([e_h1; e_h2; e_h3; e_h4; e_h5; e_h6] ++ [e_dt; e_title])).
  - rewrite one_of_in. unfold named_in. split; apply in_incl; vm_compute; reflexivity.
  - rewrite <- one_of_app. unfold is_heading. rewrite <- orb_assoc. f_equal. unfold one_of. cbn [existsb]. rewrite orb_false_r. reflexivity.
Qed.
Lemma list_iff : forall code, is_list code = true <-> named_in list_names code.
Proof. intros code. unfold is_list. rewrite one_of_in. unfold named_in. split; apply in_incl; vm_compute; reflexivity. Qed.
Lemma endless_iff : forall code, span code = immediate <-> named_in endless_names code.
Proof.
  intros code. unfold span, named_in.
  assert (X : forallb (fun k => Bool.eqb (match nth k span_table needs_end with immediate => true | _ => false end) (one_of (e_a + Z.of_nat k) (map number endless_names))) (seq 0 (Z.to_nat (e_xmp - e_a + 1))) = true) by (vm_compute; reflexivity).
  assert (Y : forallb (fun c => (e_a <=? c) && (c <=? e_xmp)) (map number endless_names) = true) by (vm_compute; reflexivity).
  rewrite forallb_forall in X, Y. destruct ((e_a <=? code) && (code <=? e_xmp)) eqn:R.
  - apply andb_prop in R. specialize (X (Z.to_nat (code - e_a))). rewrite in_seq in X. specialize (X ltac:(lia)). replace (e_a + Z.of_nat (Z.to_nat (code - e_a))) with code in X by lia.
    rewrite <- one_of_in. apply Bool.eqb_prop in X. destruct (nth (Z.to_nat (code - e_a)) span_table needs_end); rewrite <- X; split; intros; congruence.
  - split; [discriminate|]. intros I. apply Y in I. congruence.
Qed.
Lemma content_limit : forall q k e, (k <= e)%nat -> content_end q k e (limit_of (q_link q) k e).
Proof.
  intros q k e L. unfold content_end, limit_of. destruct (q_link q) as [m|]. - destruct ((k <=? m)%nat && (m <? e)%nat) eqn:E. + left. split; auto. lia. + right. split; auto. intros l' H. assert (m = l') by congruence. lia. - right. split; auto. intros; discriminate.
Qed.
Lemma content_det : forall q k e l l', content_end q k e l -> content_end q k e l' -> l = l'.
Proof. intros q k e l l' [[A B]|[A B]] [[C D]|[C D]]; try congruence. - exfalso. exact (C l A B). - exfalso. exact (A l' C D). Qed.
Lemma content_range : forall q k e l, content_end q k e l -> (k <= e)%nat -> (k <= l <= e)%nat.
Proof. intros q k e l [[A B]|[A B]] L; lia. Qed.
Lemma direct_range : forall e k m, direct e k m -> (k <= m < e)%nat.
Proof. intros e k m H. induction H; try lia. apply content_range in H2; lia. Qed.
Lemma direct_none : forall e m, ~ direct e e m. Proof. intros e m H. apply direct_range in H. lia. Qed.
(** tokens are only added, and so is text *)
Definition grows (x x' : txt) : Prop := exists r mm, t_text x' = t_text x ++ r /\ t_map x' = t_map x ++ mm /\ t_kind x' = t_kind x /\ t_title x' = t_title x /\ t_bullet x' = t_bullet x /\ t_seq x' = t_seq x /\ t_name x' = t_name x /\ t_end x' = t_end x.
Lemma grows_refl : forall x, grows x x. Proof. intros. exists [], []. rewrite !app_nil_r. repeat split. Qed.
Lemma grows_trans : forall x y z, grows x y -> grows y z -> grows x z.
Proof. intros x y z (r & m & A1 & A2 & A3 & A4 & A5 & A6 & A7 & A8) (r' & m' & B1 & B2 & B3 & B4 & B5 & B6 & B7 & B8). exists (r ++ r'), (m ++ m'). rewrite !app_assoc, <- A1, <- A2. repeat split; congruence. Qed.
Lemma grows_put : forall x from k, grows x (put addr x from k). Proof. intros. exists (tag addr k), [(from, length (t_text x))]. repeat split. Qed.
Lemma shown_more : forall toks more text r n t, shown toks text n t -> shown (toks ++ more) (text ++ r) n t.
Proof. intros toks more text r n t (p & j & s & -> & L & N). exists p, j, (s ++ r). rewrite <- !app_assoc. split; auto. split; auto. rewrite nth_error_app1; auto. apply nth_error_Some. congruence. Qed.
Lemma shown_more0 : forall toks more text n t, shown toks text n t -> shown (toks ++ more) text n t.
Proof. intros. rewrite <- (app_nil_r text). apply shown_more. auto. Qed.
Lemma shows_more : forall toks more x x' from t, shows toks x from t -> grows x x' -> shows (toks ++ more) x' from t.
Proof. intros toks more x x' from t (n & I & S) (r & m & A1 & A2 & _). exists n. rewrite A1, A2. split; [apply in_or_app; auto|]. apply shown_more. auto. Qed.
Lemma shows_put : forall toks t x from, shows (toks ++ [t]) (put addr x from (length toks)) from t.
Proof. intros. exists (length (t_text x)). cbn [put t_map t_text]. split. - apply in_or_app. right. left. auto. - exists (t_text x), (length toks), []. rewrite app_nil_r. repeat split. apply nth_end. Qed.
Lemma tag_of_more : forall toks more m q y, tag_of toks m q y -> tag_of (toks ++ more) m q y.
Proof.
  intros toks more m q y (A & B & C & D & E & F & G). unfold tag_of. split; auto. split; auto. split; auto. split; auto. split; auto. split; auto. intros a u I N S. destruct (G a u I N S) as [G1 G2]. split.
  - intros U. destruct (G1 U) as (n & H). exists n. apply shown_more0. auto. - intros U V. destruct (G2 U V) as (n & z & H & K). exists n, z. split; auto. apply shown_more0. auto.
Qed.
Lemma item_more : forall toks more x x' m q, item toks x m q -> grows x x' -> item (toks ++ more) x' m q.
Proof.
  intros toks more x x' m q H G. unfold item in *. pose proof G as G0. destruct G as (r & mm & A1 & A2 & _).
  destruct (q_type q); try (destruct H as (y & H & K); exists y; split; [apply (shows_more toks more x); auto|auto]; apply tag_of_more; auto).
  intros u S. destruct (H u S) as (p & s & E & I). exists p, (s ++ r). rewrite A1, A2, E, <- !app_assoc. split; auto. apply in_or_app. auto.
Qed.
Lemma opaque_more : forall toks more x x' m q, opaque_item toks x m q -> grows x x' -> opaque_item (toks ++ more) x' m q.
Proof.
  intros toks more x x' m q H G O N. destruct (H O N) as (l & qe & A & B & C). exists l, qe. split; auto. split; auto. intros L. destruct (C L) as (y & S & P). exists y. split; auto. apply (shows_more toks more x); auto.
Qed.
Lemma covers_more : forall n toks more x x' a b, (b - a <= n)%nat -> covers toks x a b -> grows x x' -> covers (toks ++ more) x' a b.
Proof.
  induction n as [|n IH]; intros toks more x x' a b L H G; inversion H as [x0 a0 b0 H1 H2 Q1 Q2 Q3]; subst; constructor.
  - intros m q D. apply direct_range in D. lia.
  - intros m q D. apply direct_range in D. lia.
  - intros m q D N. destruct (H1 m q D N) as [K1 K2]. split; [eapply item_more|eapply opaque_more]; eauto.
  - intros m q D N O. destruct (H2 m q D N O) as (y & l & E & S & T & C). exists y, l. split; auto. split; [eapply shows_more; eauto|]. split; auto. apply (IH _ _ y); auto using grows_refl. apply direct_range in D. apply content_range in E; lia.
Qed.
Context (PS : plain_src src).
Definition attr_fact (toks : list token) (text : list Z) (k : nat) (code : Z) (a : attr) : Prop :=
  ~ no_value src a -> forall u, stands_for (between src (a_value a)) u ->
    (uri_attr code (between src (a_name a)) -> exists n, shown toks text n (TUrl u ESgml (Some k))) /\
    (~ uri_attr code (between src (a_name a)) -> title_attr code (between src (a_name a)) -> exists n z, shown toks text n (TText z) /\ title_token k u (fst (a_value a)) z).
Lemma copy_is : forall i j p, copy src i j = Ret p -> p = between src (i, j).
Proof. intros i j p H. unfold copy in H. destruct (_ && _); [|discriminate]. unfold between. cbn [fst snd]. congruence. Qed.
Lemma attrs_true : forall k code attrs toks i text tk p j toks' i' text' tk', attr_tokens addr src k code attrs toks i text tk = Ret (toks', i', text', tk') -> attrs_within p j attrs -> (j <= length src)%nat ->
  exists more r, toks' = toks ++ more /\ text' = text ++ r /\ forall a, In a attrs -> attr_fact toks' text' k code a.
Proof.
  intros k code attrs. induction attrs as [|a r IH]; intros toks i text tk p j toks' i' text' tk' H W Lj; cbn [attr_tokens] in H.
  { injection H as <- <- <- <-. exists [], []. rewrite !app_nil_r. split; auto. split; auto. intros a []. }
  cbn [attrs_within] in W. destruct W as [W1 W2].
  assert (W3 : exists p', (p <= p')%nat /\ attrs_within p' j r) by (destruct W2 as [[_ W2]|[W2 W3]]; eexists; (split; [|eassumption]); lia). destruct W3 as (p' & Lp' & W3).
  assert (LN : (fst (a_name a) <= snd (a_name a) <= length src)%nat) by (destruct W2 as [[_ W2]|[W2 W4]]; [apply within_le in W2|apply within_le in W4]; lia).
  assert (SKIP : forall toks', attr_tokens addr src k code r toks i text tk = Ret (toks', i', text', tk') -> attr_fact toks' text' k code a -> exists more r0, toks' = toks ++ more /\ text' = text ++ r0 /\ forall b, In b (a :: r) -> attr_fact toks' text' k code b).
  { intros t' E F. destruct (IH _ _ _ _ _ _ _ _ _ _ E W3 Lj) as (more & r0 & A & B & C). exists more, r0. split; auto. split; auto. intros b [<-|I]; auto. }
  destruct (snd (a_value a) <=? fst (a_value a))%nat eqn:E. { apply SKIP; auto. intros NV. exfalso. apply NV. left. lia. }
  destruct W2 as [[W2 _]|[W2 W4]]. { rewrite W2 in E. discriminate. } pose proof (within_le _ _ _ W4) as LV.
  destruct (isblank_bt src PS (a_value a) ltac:(lia)) as (b & EB & B). rewrite EB in H. cbn [obind] in H. destruct b. { apply SKIP; auto. intros NV. exfalso. apply NV. right. apply B. auto. }
  destruct (uri_bt src PS code _ LN) as (b & EU & U). rewrite EU in H. cbn [obind] in H. destruct b.
  - destruct (copy src i (fst (a_value a))) as [cp| |] eqn:EC; try discriminate. cbn [obind] in H. apply copy_is in EC. subst cp. destruct (decode_to [] src (a_value a) (0, 0)%nat) as [[url mm]| |] eqn:ED; try discriminate. cbn [obind] in H.
    destruct (IH _ _ _ _ _ _ _ _ _ _ H W4 Lj) as (more & r0 & -> & -> & C). exists (TUrl url ESgml (Some k) :: more), (between src (i, fst (a_value a)) ++ tag addr (length toks) ++ r0). rewrite <- !app_assoc in *. split; auto. split; auto.
    intros b [<-|I]; auto. intros NV u SF. destruct (decode_ok src PS (a_value a) [] (0, 0)%nat u ltac:(lia) SF) as (_ & m & ED'). rewrite ED in ED'. cbn [app] in ED'. assert (url = u) by congruence. subst url. split.
    + intros _. exists (length (text ++ between src (i, fst (a_value a)))). exists (text ++ between src (i, fst (a_value a))), (length toks), r0. rewrite <- !app_assoc. split; auto. split; auto. rewrite nth_error_app2, Nat.sub_diag by lia. reflexivity.
    + intros NU. exfalso. apply NU. apply U. auto.
  - destruct (title_bt src PS code _ LN) as (b & ET & T). rewrite ET in H. cbn [obind] in H. destruct b.
    + destruct (copy src i (fst (a_value a))) as [cp| |] eqn:EC; try discriminate. cbn [obind] in H. apply copy_is in EC. subst cp. destruct (decode_to [] src (a_value a) (fst (a_value a), 0)%nat) as [[url mm]| |] eqn:ED; try discriminate. cbn [obind] in H. set (z := Txt _ _ _ _ _ _ _ _ _ _) in H.
      destruct (IH _ _ _ _ _ _ _ _ _ _ H W4 Lj) as (more & r0 & -> & -> & C). exists (TText z :: more), (between src (i, fst (a_value a)) ++ tag addr (length toks) ++ r0). rewrite <- !app_assoc in *. split; auto. split; auto.
      intros b [<-|I]; auto. intros NV u SF. destruct (decode_ok src PS (a_value a) [] (fst (a_value a), 0)%nat u ltac:(lia) SF) as (_ & m & ED'). rewrite ED in ED'. cbn [app] in ED'. assert (url = u) by congruence. subst url. split.
      * intros Q. apply U in Q. discriminate.
      * intros _ _. exists (length (text ++ between src (i, fst (a_value a)))), z. split. { exists (text ++ between src (i, fst (a_value a))), (length toks), r0. rewrite <- !app_assoc. split; auto. split; auto. rewrite nth_error_app2, Nat.sub_diag by lia. reflexivity. }
        unfold title_token, z. cbn. repeat split; auto.
    + apply SKIP; auto. intros NV u SF. split. * intros Q. apply U in Q. discriminate. * intros _ Q. apply T in Q. discriminate.
Qed.
Lemma tag_token_true : forall k q toks toks' t, tag_token addr src k q toks = Ret (toks', t) -> is_element (q_type q) -> attrs_within (q_start q) (q_end q) (q_attrs q) -> (q_end q <= length src)%nat ->
  exists more y, toks' = toks ++ more /\ t = TText y /\ tag_of toks' k q y.
Proof.
  intros k q toks toks' t H IE W L. unfold tag_token in H. destruct (attr_tokens addr src k (q_code q) (q_attrs q) toks (q_start q) [] false) as [[[[t1 i1] x1] k1]| |] eqn:EA; try discriminate. cbn [obind] in H.
  destruct (copy src i1 (q_end q)) as [p| |] eqn:EC; try discriminate. cbn [obind] in H. cbv zeta in H.
  destruct (attrs_true _ _ _ _ _ _ _ _ _ _ _ _ _ EA W L) as (more & r & A & B & C).
  set (st := is_start (q_type q) && _) in H. destruct (if st then _ else _) as [nm| |] eqn:EN; try discriminate. cbn [obind] in H. injection H as <- <-. exists more. eexists. split; auto. split; [reflexivity|].
  unfold tag_of. cbn [t_txt t_title t_bullet t_seq t_kind t_name t_end t_text]. split; auto. split; auto. split; auto. split; auto. split; [|split].
  - intros [T NE]. assert (ST : st = true). { unfold st. rewrite T. cbn [is_start andb]. rewrite <- endless_iff in NE. destruct (span (q_code q)); auto. }
    rewrite ST in EN |- *. split; auto. split; auto. apply copy_is in EN. rewrite EN. unfold between. reflexivity.
  - intros D. assert (ST : st = false). { unfold st. destruct D as [D|D]. - rewrite D. reflexivity. - apply endless_iff in D. rewrite D. apply andb_false_r. } rewrite ST. reflexivity.
  - intros a u I NV SF. destruct (C a I NV u SF) as [C1 C2]. split.
    + intros U. destruct (C1 U) as (n & S1). exists n. rewrite <- (app_nil_r t1). apply shown_more. auto.
    + intros U V. destruct (C2 U V) as (n & z & S1 & S2). exists n, z. split; auto. rewrite <- (app_nil_r t1). apply shown_more. auto.
Qed.
Context (sp : Z -> bool) (frames : bool) (ORD : in_order src seqs).
Lemma direct_plain : forall e k q m, nth_error seqs k = Some q -> ~ opens_group q -> ~ opens_opaque q -> direct e k m -> m = k \/ direct e (S k) m.
Proof. clear. intros e k q m N A B D. inversion D as [k0 L|k0 q0 m0 L N0 A0 B0 D0|k0 q0 l m0 L N0 A0 E D0]; subst; auto. exfalso. assert (q0 = q) by congruence. subst. tauto. Qed.
Lemma direct_jump : forall e k q l m, nth_error seqs k = Some q -> opens_group q \/ opens_opaque q -> content_end q (S k) e l -> direct e k m -> m = k \/ direct e l m.
Proof. clear. intros e k q l m N A C D. inversion D as [k0 L|k0 q0 m0 L N0 A0 B0 D0|k0 q0 l0 m0 L N0 A0 E D0]; subst; auto. - exfalso. assert (q0 = q) by congruence. subst. tauto. - assert (q0 = q) by congruence. subst. rewrite (content_det _ _ _ _ _ C E). auto. Qed.
Lemma covers_cons : forall toks x k l e q, nth_error seqs k = Some q -> (forall m, direct e k m -> m = k \/ direct e l m) -> item toks x k q -> opaque_item toks x k q ->
  (opens_group q -> exists y l, content_end q (S k) e l /\ shows toks x (q_start q) (TText y) /\ group_token k l q y /\ covers toks y (S k) l) -> covers toks x l e -> covers toks x k e.
Proof.
  clear. intros toks x k l e q N D I O G C. inversion C as [x0 a0 b0 H1 H2 Q1 Q2 Q3]; subst. constructor.
  - intros m q' DM N'. destruct (D m DM) as [->|D']; auto. assert (q' = q) by congruence. subst. auto.
  - intros m q' DM N' OG. destruct (D m DM) as [->|D']; auto. assert (q' = q) by congruence. subst. auto.
Qed.
Definition wrote (x x' : txt) (a b : nat) : Prop :=
  t_txt x' = true <-> t_txt x = true \/ exists m q, direct b a m /\ nth_error seqs m = Some q /\ q_type q = SText /\ ~ Forall (fun c => white c = true) (between src (extent q)).
Lemma wrote_cons : forall x x1 x' k l e q, nth_error seqs k = Some q -> (forall m, direct e k m -> m = k \/ direct e l m) -> (forall m, direct e l m -> direct e k m) -> (k < e)%nat ->
  (t_txt x1 = true <-> t_txt x = true \/ (q_type q = SText /\ ~ Forall (fun c => white c = true) (between src (extent q)))) -> wrote x1 x' l e -> wrote x x' k e.
Proof.
  clear. intros x x1 x' k l e q N D D2 L H W. unfold wrote in *. rewrite W, H. split.
  - intros [[A|[A B]]|(m & q' & A & B & C)]; auto. + right. exists k, q. split; [constructor; auto|]. auto. + right. exists m, q'. split; auto.
  - intros [A|(m & q' & A & B & C & E)]; auto. destruct (D m A) as [->|D']. + assert (q' = q) by congruence. subst. auto. + right. exists m, q'. auto.
Qed.
Lemma seq_in : forall k q, nth_error seqs k = Some q -> (q_start q <= q_end q <= length src)%nat.
Proof. intros k q N. destruct ORD as [O1 _]. apply nth_error_In in N. assert (I : In (extent q) (map extent seqs)) by (apply in_map; auto). apply (ordered_le _ _ _ _ _ O1) in I. lia. Qed.
Lemma not_group : forall q, q_type q <> SStart -> ~ opens_group q /\ ~ opens_opaque q. Proof. clear. intros q H. split; intros [A _]; auto. Qed.
Lemma css_loop_adds : forall fuel s toks i e text tk toks' text' tk', css_loop addr src sp fuel s toks i e text tk = Ret (toks', text', tk') -> exists more, toks' = toks ++ more.
Proof.
  clear. induction fuel as [|f IH]; intros s toks i e text tk toks' text' tk' H; [discriminate|]. cbn [css_loop] in H.
  destruct (css_comment src i e) as [[[c x]|]| |]; try discriminate; cbn [obind] in H. { destruct (copy src i x); try discriminate. apply IH in H. auto. }
  destruct (css_cdo src i e) as [[x|]| |]; try discriminate; cbn [obind] in H. { destruct (copy src i x); try discriminate. apply IH in H. auto. }
  destruct (css_cdc src i e) as [[x|]| |]; try discriminate; cbn [obind] in H. { destruct (copy src i x); try discriminate. apply IH in H. auto. }
  destruct (let* a := css_import src sp i e in match a with Some r => Ret (Some r) | None => css_uri src sp i e end) as [o| |] eqn:E.
  2,3: exfalso; destruct (css_import src sp i e) as [[?|]| |]; cbn [obind] in *; try discriminate; destruct (css_uri src sp i e) as [[?|]| |]; discriminate.
  assert (H' : match o with
      | Some ((cs, ce), x) => let* url := css_unescape (fun c => c) [] (skipn cs src) (ce - cs) in let* p := copy src i cs in let* r := copy src ce x in css_loop addr src sp f s (toks ++ [TUrl url ECss (Some s)]) x e (text ++ p ++ tag addr (length toks) ++ r) true
      | None => let* c := peek src i e in match c with Some _ => let* p := copy src i (S i) in css_loop addr src sp f s toks (S i) e (text ++ p) tk | None => Ret (toks, text, tk) end end = Ret (toks', text', tk')).
  { destruct (css_import src sp i e) as [[?|]| |]; cbn [obind] in *; try discriminate; [|destruct (css_uri src sp i e) as [?| |]; cbn [obind] in *; try discriminate]; injection E as <-; exact H. }
  destruct o as [[[cs ce] x]|].
  - destruct (css_unescape _ _ _ _); try discriminate. cbn [obind] in H'. destruct (copy src i cs); try discriminate. cbn [obind] in H'. destruct (copy src ce x); try discriminate. cbn [obind] in H'. apply IH in H'. destruct H' as (more & ->). rewrite <- app_assoc. eauto.
  - destruct (peek src i e) as [[c|]| |]; try discriminate; cbn [obind] in H'. + destruct (copy src i (S i)); try discriminate. cbn [obind] in H'. apply IH in H'. auto. + injection H' as <- <- <-. exists []. rewrite app_nil_r. auto.
Qed.
Lemma loop_true : forall fuel toks k e x toks' x', parse_loop addr src seqs sp frames fuel toks k e x = Ret (toks', x') -> (k <= e <= length seqs)%nat ->
  exists more, toks' = toks ++ more /\ grows x x' /\ covers toks' x' k e /\ wrote x x' k e.
Proof.
  induction fuel as [|f IH]; intros toks k e x toks' x' H L; [discriminate|]. cbn [parse_loop] in H.
  destruct (k =? e)%nat eqn:EK.
  { injection H as <- <-. exists []. rewrite app_nil_r. assert (k = e) by lia. subst k. split; auto. split; [apply grows_refl|]. split. - constructor; intros m q D; apply direct_none in D; contradiction. - unfold wrote. split; auto. intros [A|(m & q & D & _)]; auto. apply direct_none in D. contradiction. }
  destruct (nth_error seqs k) as [q|] eqn:N; [|discriminate]. pose proof (seq_in k q N) as QL. assert (Lk : (k < e)%nat) by lia.
  assert (COPY : forall kd, (let* p := copy src (q_start q) (q_end q) in
       parse_loop addr src seqs sp frames f (toks ++ [TText (Txt kd p false false false false (Some k) [] [] None)]) (S k) e (put addr x (q_start q) (length toks))) = Ret (toks', x') -> q_type q <> SText -> q_type q <> SStart ->
      (forall t x, (exists y, shows t x (q_start q) (TText y) /\ plain_token kd k (between src (extent q)) y) -> item t x k q) ->
      exists more, toks' = toks ++ more /\ grows x x' /\ covers toks' x' k e /\ wrote x x' k e).
  { intros kd H1 NT NS IT. rewrite copy_ok in H1 by lia. cbn [obind] in H1. set (y := Txt kd _ _ _ _ _ _ _ _ _) in H1. destruct (IH _ _ _ _ _ _ H1 ltac:(lia)) as (more & -> & G & C & W).
    assert (G0 : grows x x') by (eapply grows_trans; [apply grows_put|exact G]). exists (TText y :: more). rewrite <- app_assoc. split; auto. split; auto. destruct (not_group q NS) as [NG NO].
    assert (DD : forall m, direct e k m -> m = k \/ direct e (S k) m) by (intros; eapply direct_plain; eauto).
    assert (IK : item ((toks ++ [TText y]) ++ more) x' k q). { apply IT. exists y. split; [|unfold plain_token, y; repeat split]. eapply shows_more; [apply shows_put|exact G]. }
    rewrite <- app_assoc in IK, C. split.
    - eapply covers_cons; eauto. + intros O. contradiction. + intros O. contradiction.
    - eapply wrote_cons; eauto. + intros m D. eapply direct_next; eauto. + cbn [put t_txt]. split; auto. intros [A|[A _]]; [auto|contradiction]. }
  assert (ELEM : forall toks' x', (if (q_code q =? e_frameset) && negb frames then Throw else
      let* (toks, t) := tag_token addr src k q toks in
      let x := put addr x (q_start q) (length toks) in
      let toks := toks ++ [t] in
      if negb (is_start (q_type q)) then parse_loop addr src seqs sp frames f toks (S k) e x
      else if skips (q_code q) then
        match q_link q with
        | None => UB
        | Some m =>
            match nth_error seqs m with
            | None => UB
            | Some qe =>
                let* (toks, x) :=
                  (if (q_end q <? q_start qe)%nat then
                     if (S k <? length seqs)%nat then
                       let* (toks, t) :=
                         (if negb (q_code q =? e_style) then
                            let* p := copy src (q_end q) (q_start qe) in
                            Ret (toks, TText (Txt KComplete p false false false false (Some (S k)) [] [] None))
                          else parse_css addr src sp (S k) toks (q_end q) (q_start qe)) in
                       Ret (toks ++ [t], put addr x (q_start q) (length toks))
                     else UB
                   else Ret (toks, x)) in
                parse_loop addr src seqs sp frames f toks (limit_of (Some m) (S k) e) e x
            end
        end
      else if is_group (q_code q) then
        let limit := limit_of (q_link q) (S k) e in
        let inner := Txt KComplete [] false false (is_heading (q_code q) || (q_code q =? e_dt) || (q_code q =? e_title)) (is_list (q_code q)) (if (S k =? limit)%nat then None else Some (S k)) [] [] None in
        let* (toks, inner) := parse_loop addr src seqs sp frames f toks (S k) limit inner in
        parse_loop addr src seqs sp frames f (toks ++ [TText inner]) limit e (put addr x (q_start q) (length toks))
      else parse_loop addr src seqs sp frames f toks (S k) e x) = Ret (toks', x') -> is_element (q_type q) ->
      exists more, toks' = toks ++ more /\ grows x x' /\ covers toks' x' k e /\ wrote x x' k e).
  { clear COPY H toks' x'. intros toks' x' H IE. destruct ((q_code q =? e_frameset) && negb frames); [discriminate|].
    destruct (tag_token addr src k q toks) as [[toks1 t]| |] eqn:ET; try discriminate. cbn [obind] in H. cbv zeta in H.
    destruct ORD as [_ OR]. destruct (OR q (nth_error_In _ _ N) IE) as [W NM].
    destruct (tag_token_true k q toks toks1 t ET IE W ltac:(lia)) as (m1 & y & -> & -> & TY). clear ET.
    set (x1 := put addr x (q_start q) (length (toks ++ m1))) in H. set (toks2 := (toks ++ m1) ++ [TText y]) in *.
    assert (IT : item toks2 x1 k q). { unfold item. assert (K : exists y, shows toks2 x1 (q_start q) (TText y) /\ tag_of toks2 k q y) by (exists y; split; [apply shows_put|apply tag_of_more; auto]). destruct IE as [IE|IE]; rewrite IE; exact K. }
    assert (NT : q_type q <> SText) by (destruct IE; congruence).
    assert (GX : grows x x1) by apply grows_put.
    assert (TX : forall z, t_txt z = t_txt x1 -> t_txt z = true <-> t_txt x = true \/ (q_type q = SText /\ ~ Forall (fun c => white c = true) (between src (extent q)))).
    { intros z ->. cbn [x1 put t_txt]. split; auto. intros [A|[A _]]; [auto|contradiction]. }
    assert (PLAIN : forall toks' x', parse_loop addr src seqs sp frames f toks2 (S k) e x1 = Ret (toks', x') -> ~ opens_group q -> ~ opens_opaque q -> exists more, toks' = toks ++ more /\ grows x x' /\ covers toks' x' k e /\ wrote x x' k e).
    { clear H toks' x'. intros toks' x' H NG NO. destruct (IH _ _ _ _ _ _ H ltac:(lia)) as (more & -> & G & C & WR). exists (m1 ++ [TText y] ++ more). unfold toks2 in *. rewrite <- !app_assoc in *. split; auto. split; [eapply grows_trans; eauto|].
      assert (DD : forall m, direct e k m -> m = k \/ direct e (S k) m) by (intros; eapply direct_plain; eauto). split.
      - eapply covers_cons; eauto; try (intros O; contradiction). pose proof (item_more _ more _ _ _ _ IT G) as IT'. rewrite <- !app_assoc in IT'. exact IT'.
      - eapply wrote_cons; eauto. intros m D. eapply direct_next; eauto. }
    destruct (is_start (q_type q)) eqn:IS; cbn [negb] in H.
    2: { apply PLAIN; auto; intros [A _]; rewrite A in IS; discriminate. }
    assert (TS : q_type q = SStart) by (destruct (q_type q); try discriminate; auto).
    destruct (skips (q_code q)) eqn:SK.
    - apply opaque_skips in SK. assert (OO : opens_opaque q) by (split; auto). destruct (q_link q) as [m|] eqn:LK; [|discriminate]. destruct (nth_error seqs m) as [qe|] eqn:NQ; [|discriminate].
      assert (CE : content_end q (S k) e (limit_of (Some m) (S k) e)) by (rewrite <- LK; apply content_limit; lia). set (l := limit_of (Some m) (S k) e) in *. pose proof (content_range _ _ _ _ CE ltac:(lia)) as LL.
      assert (DD : forall m, direct e k m -> m = k \/ direct e l m) by (intros m' D; apply (direct_jump e k q l m'); auto).
      assert (DE : forall m, direct e l m -> direct e k m) by (intros m' D; eapply direct_over; eauto).
      assert (MID : exists toks3 x3 m3, parse_loop addr src seqs sp frames f toks3 l e x3 = Ret (toks', x') /\ toks3 = toks2 ++ m3 /\ grows x1 x3 /\ t_txt x3 = t_txt x1 /\ opaque_item toks3 x3 k q).
      { destruct (q_end q <? q_start qe)%nat eqn:LT.
        - destruct (S k <? length seqs)%nat; [|discriminate]. destruct (q_code q =? e_style) eqn:ES; cbn [negb] in H.
          + unfold parse_css in H. destruct (css_loop addr src sp (S (q_start qe - q_end q)) (S k) toks2 (q_end q) (q_start qe) [] false) as [[[t3 x3] k3]| |] eqn:EC; try discriminate. cbn [obind] in H. destruct (css_loop_adds _ _ _ _ _ _ _ _ _ _ EC) as (m3 & ->).
            eexists _, _, _. split; [exact H|]. split; [rewrite <- app_assoc; reflexivity|]. split; [apply grows_put|]. split; auto. intros _ NS. exfalso. apply NS. rewrite style_code. lia.
          + destruct (copy src (q_end q) (q_start qe)) as [p| |] eqn:EC; try discriminate. cbn [obind] in H. apply copy_is in EC. subst p. eexists _, _, _. split; [exact H|]. split; [reflexivity|]. split; [apply grows_put|]. split; auto.
            intros _ _. exists m, qe. split; auto. split; auto. intros _. eexists. split; [apply shows_put|]. repeat split.
        - cbn [obind] in H. exists toks2, x1, []. rewrite app_nil_r. split; auto. split; auto. split; [apply grows_refl|]. split; auto. intros _ _. exists m, qe. split; auto. split; auto. intros; lia. }
      clear H. destruct MID as (toks3 & x3 & m3 & H & -> & G3 & T3 & O3). destruct (IH _ _ _ _ _ _ H ltac:(lia)) as (more & -> & G & C & WR).
      exists (m1 ++ [TText y] ++ m3 ++ more). split. { unfold toks2. rewrite <- !app_assoc. auto. } split; [eapply grows_trans; [|exact G]; eapply grows_trans; eauto|]. split.
      + eapply covers_cons; eauto. * rewrite <- app_assoc. eapply item_more; [exact IT|]. eapply grows_trans; eauto. * eapply opaque_more; eauto. * intros [_ [_ NO]]. contradiction.
      + eapply wrote_cons; eauto.
    - assert (NO : ~ opens_opaque q). { intros [_ A]. apply opaque_skips in A. congruence. } destruct (is_group (q_code q)) eqn:GR.
      2: { apply PLAIN; auto. intros (_ & A & _). apply group_iff in A. congruence. }
      apply group_iff in GR. assert (OG : opens_group q). { split; auto. split; auto. intros A. apply NO. split; auto. }
      assert (CE : content_end q (S k) e (limit_of (q_link q) (S k) e)) by (apply content_limit; lia). set (l := limit_of (q_link q) (S k) e) in *. pose proof (content_range _ _ _ _ CE ltac:(lia)) as LL.
      assert (DD : forall m, direct e k m -> m = k \/ direct e l m) by (intros m' D; apply (direct_jump e k q l m'); auto).
      assert (DE : forall m, direct e l m -> direct e k m) by (intros m' D; eapply direct_over; eauto).
      set (inner := Txt KComplete [] _ _ _ _ _ _ _ _) in H. destruct (parse_loop addr src seqs sp frames f toks2 (S k) l inner) as [[toks3 z]| |] eqn:EI; try discriminate. cbn [obind] in H.
      destruct (IH _ _ _ _ _ _ EI ltac:(lia)) as (m3 & -> & GI & CI & WI). destruct (IH _ _ _ _ _ _ H ltac:(lia)) as (more & -> & G & C & WR). set (x3 := put addr x1 (q_start q) (length (toks2 ++ m3))) in *.
      exists (m1 ++ [TText y] ++ m3 ++ [TText z] ++ more). split. { unfold toks2. rewrite <- !app_assoc. auto. } split; [eapply grows_trans; [|exact G]; eapply grows_trans; [exact GX|apply grows_put]|]. split.
      + eapply covers_cons; eauto.
        * rewrite <- app_assoc. rewrite <- app_assoc. eapply item_more; [exact IT|]. eapply grows_trans; [apply grows_put|exact G].
        * intros O. contradiction.
        * intros _. exists z, l. split; auto. split. { eapply shows_more; [apply shows_put|exact G]. } split.
          { destruct GI as (r & mm & A1 & A2 & A3 & A4 & A5 & A6 & A7 & A8). unfold group_token. rewrite A3, A4, A5, A6. unfold inner. cbn [t_kind t_title t_bullet t_seq]. split; auto. split; [apply title_iff|]. split; [apply list_iff|]. split; auto.
            unfold wrote in WI. unfold text_iff. rewrite WI. unfold inner. cbn [t_txt]. intuition congruence. }
          { rewrite <- app_assoc. eapply covers_more; [reflexivity|exact CI|apply grows_refl]. }
      + eapply wrote_cons; eauto. }
  destruct (q_type q) eqn:T;
    try (eapply COPY; [exact H|discriminate|discriminate|intros t x0 I; unfold item; rewrite T; exact I]).
  - (* a text *)
    clear COPY. destruct (decode_to (t_text x) src (q_start q, q_end q) (q_start q, length (t_text x))) as [[t mm]| |] eqn:ED; try discriminate. cbn [obind] in H.
    destruct (isblank_bt src PS (q_start q, q_end q) QL) as (b & EB & WB). cbn [fst snd] in EB.
    assert (E : (if t_txt x then Ret true else isblank_n (skipn (q_start q) src) (q_end q - q_start q)) = Ret (if t_txt x then true else b)) by (rewrite EB; destruct (t_txt x); reflexivity). rewrite E in H. cbn [obind] in H.
    set (x1 := Txt _ _ _ _ _ _ _ _ _ _) in H. destruct (IH _ _ _ _ _ _ H ltac:(lia)) as (more & -> & G & C & W). exists more. split; auto.
    assert (PRE : exists r, t = t_text x ++ r). { unfold decode_to in ED. destruct (sgml2strcat U32 (t_text x) (skipn (fst (q_start q, q_end q)) src) (snd (q_start q, q_end q) - fst (q_start q, q_end q)) 0) as [[t0 m0]| |] eqn:ES; try discriminate. cbn [obind] in ED. injection ED as -> _. cbn [fst snd] in ES. destruct (sgml2strcat_spec U32 (t_text x) (skipn (q_start q) src) (q_end q - q_start q) 0 (rd_bt src (q_start q, q_end q) QL)) as (segs & _ & E2). cbn [fst snd] in E2. rewrite E2 in ES. injection ES as <- _. eauto. }
    destruct PRE as (r & ->).
    assert (G1 : grows x x1) by (exists r, ((q_start q, length (t_text x)) :: mm); repeat split).
    assert (NS : q_type q <> SStart) by congruence. destruct (not_group q NS) as [NG NO].
    assert (DD : forall m, direct e k m -> m = k \/ direct e (S k) m) by (intros; eapply direct_plain; eauto).
    split; [eapply grows_trans; eauto|]. split.
    + eapply covers_cons; eauto; try (intros O; contradiction). eapply item_more; [|exact G]. unfold item. rewrite T. intros u SF. destruct (decode_ok src PS (q_start q, q_end q) (t_text x) (q_start q, length (t_text x)) u QL SF) as (_ & m & ED'). rewrite ED in ED'.
      assert (t_text x ++ r = t_text x ++ u) by congruence. exists (t_text x), []. cbn [x1 t_text t_map]. rewrite app_nil_r. split; auto. apply in_or_app. right. left. auto.
    + eapply wrote_cons; eauto. { intros m D. eapply direct_next; eauto. } cbn [x1 t_txt]. change (extent q) with (q_start q, q_end q). rewrite <- WB. destruct (t_txt x); cbn [orb]; [tauto|]. destruct b; cbn [negb]; intuition congruence.
  - (* an element without contents *)
    apply ELEM; [exact H|right; reflexivity].
  - (* a tag that starts an element *)
    apply ELEM; [exact H|left; reflexivity].
Qed.
(** every text, tag and title of the document has the token it should have, inside of the token of the group it is in *)
Theorem tokens_true_here : forall toks root, parse addr src seqs sp frames = Ret (toks, root) ->
  covers toks root 0 (length seqs) /\ text_iff root 0 (length seqs) /\ t_kind root = KComplete /\ t_title root = false /\ t_bullet root = false /\ nth_error toks (length toks - 1) = Some (TText root).
Proof.
  intros toks root H. unfold parse in H. set (r0 := Txt _ _ _ _ _ _ _ _ _ _) in H. destruct (parse_loop addr src seqs sp frames (S (length seqs)) [] 0 (length seqs) r0) as [[t x]| |] eqn:E; try discriminate. cbn [obind] in H. injection H as <- <-.
  destruct (loop_true _ _ _ _ _ _ _ E ltac:(lia)) as (more & -> & (r & mm & A1 & A2 & A3 & A4 & A5 & A6 & A7 & A8) & C & W). split.
  - eapply covers_more; [reflexivity|exact C|apply grows_refl].
  - split. { unfold wrote in W. unfold text_iff. rewrite W. unfold r0. cbn [t_txt]. intuition congruence. } rewrite A3, A4, A5. repeat split. rewrite app_length. cbn [length]. replace (length ([] ++ more) + 1 - 1)%nat with (length ([] ++ more)) by lia. apply nth_end.
Qed.
End Truth.
(** C175: every text, tag and title of the document has the token it should have, inside of the token of the group it is in *)
Theorem tokens_true : forall addr src seqs sp frames toks root, plain_src src -> in_order src seqs -> parse addr src seqs sp frames = Ret (toks, root) ->
  covers addr src seqs toks root 0 (length seqs) /\ text_iff src seqs root 0 (length seqs) /\ t_kind root = KComplete /\ t_title root = false /\ t_bullet root = false /\ nth_error toks (length toks - 1) = Some (TText root).
Proof. intros addr src seqs sp frames toks root PS ORD. apply tokens_true_here; auto. Qed.
Print Assumptions tokens_true.
