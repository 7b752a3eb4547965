(** HTML tokens: what the tokens of tags and of style sheets are rendered as. *)
From Coq Require Import String ZifyBool ZifyNat.
From Verif Require Import Base StringModel StringSpec StringProofs StringTrim StringProps ParserModel ParserSpec ParserProps SgmlTable SgmlSpec SgmlModel SgmlSearch SgmlText SgmlProps
  HtmlEscModel HtmlEscSpec HtmlEscProps HtmlCssProps HtmlTagModel HtmlTagSpec HtmlTagProps HtmlElemModel HtmlElemSpec HtmlElemProps HtmlDocModel HtmlDocSpec HtmlDocInv CssModel CssProps CssTokens HtmlTokModel HtmlTokSpec HtmlTokProps.
Import List.ListNotations. Open Scope Z_scope.
Ltac Zify.zify_post_hook ::= Z.div_mod_to_equations.

(** ** Escapes *)
Lemma min_written : forall u, flat_map escape_min_chr u = written_with text_escapes u.
Proof.
  intros u. unfold written_with. apply flat_map_ext. intros c. unfold escape_min_chr, text_escapes. cbn [find fst snd]. rewrite (Z.eqb_sym 38 c), (Z.eqb_sym 60 c), (Z.eqb_sym 62 c), (Z.eqb_sym 160 c).
  destruct (c =? 38); [reflexivity|]. destruct (c =? 60); [reflexivity|]. destruct (c =? 62); [reflexivity|]. destruct (c =? 160); reflexivity.
Qed.
Lemma full_written : forall u, flat_map escape_chr u = written_with value_escapes u.
Proof.
  intros u. unfold written_with. apply flat_map_ext. intros c. unfold escape_chr, value_escapes. cbn [find fst snd]. rewrite (Z.eqb_sym 38 c), (Z.eqb_sym 60 c), (Z.eqb_sym 62 c), (Z.eqb_sym 160 c), (Z.eqb_sym 59 c), (Z.eqb_sym 34 c), (Z.eqb_sym 39 c).
  destruct (c =? 38); [reflexivity|]. destruct (c =? 59); [reflexivity|]. destruct (c =? 34); [reflexivity|]. destruct (c =? 39); [reflexivity|]. destruct (c =? 60); [reflexivity|]. destruct (c =? 62); [reflexivity|]. destruct (c =? 160); reflexivity.
Qed.
Lemma css_written : forall u, flat_map css_escape_chr u = written_with css_escapes u.
Proof.
  intros u. unfold written_with. apply flat_map_ext. intros c. unfold css_escape_chr, css_escapes. cbn [find fst snd]. rewrite (Z.eqb_sym 92 c), (Z.eqb_sym 10 c), (Z.eqb_sym 13 c), (Z.eqb_sym 9 c), (Z.eqb_sym 34 c), (Z.eqb_sym 39 c).
  destruct (c =? 92); [reflexivity|]. destruct (c =? 10); [reflexivity|]. destruct (c =? 13); [reflexivity|]. destruct (c =? 9); [reflexivity|]. destruct (c =? 34); [reflexivity|]. destruct (c =? 39); reflexivity.
Qed.
(** ** The source *)
(** units of wchar_t, no terminator and no unit 18 *)
Definition plain_src (src : list Z) : Prop := Forall (fun c => c <> 0 /\ c <> 18 /\ -2147483648 <= c < 2147483648) src.
Lemma between_in : forall src x c, In c (between src x) -> In c src.
Proof. intros src x c H. unfold between in H. rewrite <- (firstn_skipn (fst x) src). apply in_or_app. right. rewrite <- (firstn_skipn (snd x - fst x) (skipn (fst x) src)). apply in_or_app. left. exact H. Qed.
Section Src.
Context (src : list Z) (PS : plain_src src).
Lemma ps_in : forall c, In c src -> c <> 0 /\ c <> 18 /\ -2147483648 <= c < 2147483648.
Proof. intros c I. unfold plain_src in PS. rewrite Forall_forall in PS. apply (PS c I). Qed.
Lemma ps_0 : ~ In 0 src. Proof. intros H. apply ps_in in H. lia. Qed.
Lemma bt_0 : forall x, ~ In 0 (between src x). Proof. intros x H. apply between_in in H. apply ps_0. auto. Qed.
Lemma bt_18 : forall x, ~ In 18 (between src x). Proof. intros x H. apply between_in in H. apply ps_in in H. lia. Qed.
Lemma zstr_bt : forall x, zstr (snd x - fst x) (skipn (fst x) src) = between src x.
Proof. intros x. apply zstr_all. apply not_in_skipn. apply ps_0. Qed.
Lemma rd_bt : forall x, (fst x <= snd x <= length src)%nat -> readable (snd x - fst x) (skipn (fst x) src).
Proof. intros x L. left. rewrite skipn_length. lia. Qed.
Lemma copy_ok : forall i j, (i <= j <= length src)%nat -> copy src i j = Ret (between src (i, j)).
Proof. intros i j L. unfold copy. replace ((i <=? j)%nat && (j <=? length src)%nat) with true by lia. reflexivity. Qed.
Lemma bt_split : forall i j k, (i <= j <= k)%nat -> between src (i, k) = between src (i, j) ++ between src (j, k).
Proof.
  intros i j k L. unfold between. cbn [fst snd]. replace (k - i)%nat with ((j - i) + (k - j))%nat by lia. replace (skipn j src) with (skipn (j - i) (skipn i src)) by (rewrite skipn_plus; f_equal; lia).
  generalize (skipn i src) as l. generalize (j - i)%nat as a. generalize (k - j)%nat as b. intros b a. induction a; intros l; [reflexivity|]. destruct l; cbn [firstn skipn plus app]; [rewrite firstn_nil; reflexivity|]. f_equal. apply IHa.
Qed.
Lemma bt_none : forall i j, (j <= i)%nat -> between src (i, j) = [].
Proof. intros i j L. unfold between. cbn [fst snd]. replace (j - i)%nat with 0%nat by lia. reflexivity. Qed.
(** what a text stands for has no terminators *)
Lemma ref_nz : forall name u, reference name = Some u -> ~ In 0 u.
Proof.
  intros name u H I. destruct (reference_cases name u H) as [(n & K)|(v & ->)].
  - pose proof table_ok as T. rewrite forallb_forall in T. specialize (T _ K). apply andb_prop in T. destruct T as [_ T]. unfold uni_ok in T. apply andb_prop in T. destruct T as [_ T]. rewrite forallb_forall in T. specialize (T 0 I). discriminate.
  - unfold one_char in I. destruct (i32 v =? 0) eqn:E; [destruct I|]. destruct I as [I|[]]. lia.
Qed.
Lemma seg_facts : forall t segs, segmented U32 0 t segs -> (forall c, In c t -> c <> 0 /\ -2147483648 <= c < 2147483648) ->
  flat_map (seg_dst (cast_unit U32)) segs = flat_map (seg_dst (fun c => c)) segs /\ ~ In 0 (flat_map (seg_dst (fun c => c)) segs).
Proof.
  intros t segs H. induction H as [|name text rest segs R H IH|c rest segs N H IH]; intros C. { auto. }
  - destruct IH as [E Z]. { intros c I. apply C. right. apply in_or_app. right. right. auto. } cbn [flat_map seg_dst]. split; [congruence|]. intros I. apply in_app_or in I. destruct I as [I|I]; [|auto]. destruct R as (_ & R & _). destruct (reference name) as [u|] eqn:Q; [|discriminate]. cbn [option_map text_of] in R. assert (u = text) by congruence. subst u. apply ref_nz in Q. auto.
  - destruct IH as [E Z]. { intros d I. apply C. right. auto. } specialize (C c ltac:(left; auto)). cbn [flat_map seg_dst app]. split; [f_equal; auto; cbn [cast_unit]; unfold i32; lia|]. intros [I|I]; [lia|auto].
Qed.
Lemma decode_ok : forall x dst off u, (fst x <= snd x <= length src)%nat -> stands_for (between src x) u -> ~ In 0 u /\ exists m, decode_to dst src x off = Ret (dst ++ u, m).
Proof.
  intros x dst off u L (segs & SG & ->). destruct (sgml2strcat_spec U32 dst (skipn (fst x) src) (snd x - fst x) 0 (rd_bt x L)) as (segs' & SG' & E). rewrite zstr_bt in SG'. pose proof (segmented_unique _ _ _ _ SG _ SG') as <-.
  destruct (seg_facts _ _ SG) as [Q Z]. { intros c I. apply between_in in I. apply ps_in in I. lia. } split; auto. unfold decode_to. rewrite E. cbn [obind]. rewrite Q. eauto.
Qed.
Lemma blank_self : forall t u, Forall (fun c => white c = true) t -> stands_for t u -> u = t.
Proof.
  intros t u F (segs & SG & ->). induction SG as [|name text rest segs R H IH|c rest segs N H IH]; auto.
  - inversion F as [|? ? W _]; subst. discriminate.
  - inversion F; subst. cbn [flat_map seg_dst app]. f_equal. auto.
Qed.
Lemma white_written : forall t, Forall (fun c => white c = true) t -> written_with text_escapes t = t.
Proof.
  induction 1 as [|c t W F IH]; auto. rewrite <- min_written in *. cbn [flat_map]. rewrite IH. unfold escape_min_chr. unfold white in W. replace (c =? 38) with false by lia. replace (c =? 60) with false by lia. replace (c =? 62) with false by lia. replace (c =? 160) with false by lia. reflexivity.
Qed.
Lemma isblank_bt : forall x, (fst x <= snd x <= length src)%nat -> exists b, isblank_n (skipn (fst x) src) (snd x - fst x) = Ret b /\ (b = true <-> Forall (fun c => white c = true) (between src x)).
Proof.
  intros x L. destruct (isblank_spec _ _ (rd_bt x L)) as [E _]. rewrite zstr_bt in E. eexists. split; [exact E|]. rewrite forallb_forall, Forall_forall. split; intros H c I; [rewrite <- isspace_white|rewrite isspace_white]; auto.
Qed.
(** ** Attributes *)
Lemma uri_bt : forall code x, (fst x <= snd x <= length src)%nat -> exists b, is_uri tolower code (skipn (fst x) src) (snd x - fst x) = Ret b /\ (b = true <-> uri_attr code (between src x)).
Proof.
  intros code x L. pose proof (rd_bt x L) as R. destruct (existsb (fun e => number e =? code) html_names) eqn:K.
  - apply existsb_exists in K. destruct K as (e & I & E). assert (Q : number e = code) by lia. subst code. destruct (is_uri_exact e _ _ I R) as (b & E1 & B). exists b. split; auto. rewrite zstr_bt in B. split.
    + intros ->. exists e. repeat split; auto. apply B. auto.
    + intros (e' & I' & Q & H). destruct (is_uri_exact e' _ _ I' R) as (b' & E2 & B'). rewrite zstr_bt in B'. rewrite <- Q in E2. assert (b = b') by congruence. subst b'. apply B'. auto.
  - exists false. split. 2: { split; [discriminate|]. intros (e & I & -> & _). exfalso. assert (X : existsb (fun e' => number e' =? number e) html_names = true) by (apply existsb_exists; exists e; split; auto; lia). congruence. }
    unfold is_uri. replace (attrs_of uri_attributes code) with (@nil (list Z)); [reflexivity|]. unfold attrs_of. destruct (find _ uri_attributes) as [[c l]|] eqn:F; auto. exfalso. apply find_some in F. destruct F as [F1 F2]. cbn [fst] in F2.
    assert (C : forallb (fun p => existsb (fun e => number e =? fst p) html_names) uri_attributes = true) by (vm_compute; reflexivity). rewrite forallb_forall in C. specialize (C _ F1). cbn [fst] in C. assert (c = code) by lia. subst c. congruence.
Qed.
Lemma title_bt : forall code x, (fst x <= snd x <= length src)%nat -> exists b, is_localizable tolower code (skipn (fst x) src) (snd x - fst x) = Ret b /\ (b = true <-> title_attr code (between src x)).
Proof.
  intros code x L. pose proof (rd_bt x L) as R. destruct (existsb (fun e => number e =? code) html_names) eqn:K.
  - apply existsb_exists in K. destruct K as (e & I & E). assert (Q : number e = code) by lia. subst code. destruct (is_localizable_exact e _ _ I R) as (b & E1 & B). exists b. split; auto. rewrite zstr_bt in B. split.
    + intros ->. right. exists e. repeat split; auto. apply B. auto.
    + intros [(s & [<-|[]] & H)|(e' & I' & Q & H)]. { apply B. exists "title"%string. split; auto. left. auto. } destruct (is_localizable_exact e' _ _ I' R) as (b' & E2 & B'). rewrite zstr_bt in B'. rewrite <- Q in E2. assert (b = b') by congruence. subst b'. apply B'. auto.
  - unfold is_localizable. rewrite same_name_spec; [|exact lower0|auto|apply nz_check; vm_compute; reflexivity]. cbn [obind]. rewrite zstr_bt.
    replace (attrs_of localizable_attributes code) with (@nil (list Z)).
    2: { unfold attrs_of. destruct (find _ localizable_attributes) as [[c l]|] eqn:F; auto. exfalso. apply find_some in F. destruct F as [F1 F2]. cbn [fst] in F2.
      assert (C : forallb (fun p => existsb (fun e => number e =? fst p) html_names) localizable_attributes = true) by (vm_compute; reflexivity). rewrite forallb_forall in C. specialize (C _ F1). cbn [fst] in C. assert (c = code) by lia. subst c. congruence. }
    pose proof (lower_units ["title"%string] ltac:(vm_compute; reflexivity) (between src x)) as LU. cbn [map existsb] in LU. rewrite orb_false_r in LU. change (units "title") with (code_units "title") in LU.
    destruct (list_eq_dec Z.eq_dec (map tolower (between src x)) (map tolower (code_units "title"))); cbn [any_name].
    + exists true. split; auto. split; auto. intros _. left. apply LU. auto.
    + exists false. split; auto. split; [discriminate|]. intros [H|(e & I & -> & _)]; [apply LU; auto|]. exfalso. assert (X : existsb (fun e' => number e' =? number e) html_names = true) by (apply existsb_exists; exists e; split; auto; lia). congruence.
Qed.

Section Toks.
Context (addr : nat -> Z) (lim : nat) (GA : good_addr lim addr).
Set Default Proof Using "Type".
(** a text without tags of tokens is what it is rendered as *)
Definition tok_state (toks : list token) (text : list Z) (tk : bool) (o : list Z) : Prop := reads addr lim toks false text o /\ (tk = false -> text = o).
Lemma state_raw : forall toks text tk o p, tok_state toks text tk o -> ~ In 0 p -> ~ In 18 p -> tok_state toks (text ++ p) tk (o ++ p).
Proof. intros toks text tk o p [R E] Z1 Z2. split. - apply reads_app; auto. apply reads_raw; auto. - intros K. rewrite (E K). reflexivity. Qed.
Lemma state_tok : forall toks text tk o t o1, tok_state toks text tk o -> means addr lim (toks ++ [t]) (length toks) o1 -> tok_state (toks ++ [t]) (text ++ tag addr (length toks)) true (o ++ o1).
Proof. intros toks text tk o t o1 [R E] M. split; [|discriminate]. apply reads_app; [apply reads_more; auto|apply reads_one; auto]. Qed.
Lemma nth_end : forall (toks : list token) t, nth_error (toks ++ [t]) (length toks) = Some t.
Proof. intros. rewrite nth_error_app2, Nat.sub_diag by lia. reflexivity. Qed.
Lemma attrs_ok : forall code attrs i j o, tag_text src code attrs i j o -> forall k p toks text tk oa, (i <= p)%nat -> attrs_within p j attrs -> (j <= length src)%nat -> tok_state toks text tk oa ->
  exists more i' text' tk' o', attr_tokens addr src k code attrs toks i text tk = Ret (toks ++ more, i', text', tk') /\ (i' <= j)%nat /\ tok_state (toks ++ more) text' tk' o' /\ o' ++ between src (i', j) = oa ++ o.
Proof using GA PS.
  intros code attrs i j o H. induction H as [i j|a r i j o C H IH|a r i j u o NV UA SF H IH|a r i j u o NV NU TA SF H IH]; intros k p toks text tk oa Lp W Lj ST.
  - exists [], i, text, tk, oa. cbn [attr_tokens attrs_within] in *. rewrite app_nil_r. split; auto. split; [lia|]. auto.
  - cbn [attrs_within] in W. destruct W as [W1 W2]. assert (W3 : exists p', (p <= p')%nat /\ attrs_within p' j r) by (destruct W2 as [[_ W2]|[W2 W3]]; eexists; (split; [|eassumption]); lia). destruct W3 as (p' & Lp' & W3).
    pose proof (within_le _ _ _ W3) as Lpj.
    assert (LN : (fst (a_name a) <= snd (a_name a) <= length src)%nat) by (destruct W2 as [[_ W2]|[W2 W4]]; [apply within_le in W2|apply within_le in W4]; lia).
    cbn [attr_tokens]. specialize (IH k p' toks text tk oa ltac:(lia) W3 Lj ST). destruct (snd (a_value a) <=? fst (a_value a))%nat eqn:E; auto.
    destruct W2 as [[W2 _]|[W2 W4]]. { rewrite W2 in E. discriminate. } pose proof (within_le _ _ _ W4) as LV. destruct (isblank_bt (a_value a) ltac:(lia)) as (b & EB & B). rewrite EB. cbn [obind]. destruct b; auto.
    destruct C as [[C|C]|[C1 C2]]. { lia. } { apply B in C. discriminate. } destruct (uri_bt code _ LN) as (b & -> & U). cbn [obind]. destruct b. { exfalso. apply C1. apply U. auto. }
    destruct (title_bt code _ LN) as (b & -> & T). cbn [obind]. destruct b. { exfalso. apply C2. apply T. auto. } exact IH.
  - cbn [attrs_within] in W. destruct W as [W1 W2]. cbn [attr_tokens]. destruct (snd (a_value a) <=? fst (a_value a))%nat eqn:E. { exfalso. apply NV. left. lia. } destruct W2 as [[W2 _]|[W2 W4]]. { rewrite W2 in E. discriminate. }
    pose proof (within_le _ _ _ W4) as LV. destruct (isblank_bt (a_value a) ltac:(lia)) as (b & EB & B). rewrite EB. cbn [obind]. destruct b. { exfalso. apply NV. right. apply B. auto. }
    destruct (uri_bt code (a_name a) ltac:(lia)) as (b & -> & U). cbn [obind]. destruct b. 2: { apply U in UA. discriminate. } rewrite copy_ok by lia. cbn [obind]. destruct (decode_ok (a_value a) [] (0, 0)%nat u ltac:(lia) SF) as (Z & m & ->). cbn [obind app].
    set (t := TUrl u ESgml (Some k)). destruct (IH k (snd (a_value a)) (toks ++ [t]) (text ++ between src (i, fst (a_value a)) ++ tag addr (length toks)) true (oa ++ between src (i, fst (a_value a)) ++ written_with value_escapes u) ltac:(lia) W4 Lj) as (more & i' & text' & tk' & o' & E1 & L1 & S1 & O1).
    { rewrite !app_assoc. apply state_tok with (tk := tk). - apply state_raw; auto; [apply bt_0|apply bt_18]; exact PS. - rewrite <- full_written. apply (means_url addr lim _ _ u ESgml (Some k)); [apply nth_end|auto]. }
    exists (t :: more), i', text', tk', o'. rewrite <- app_assoc in E1, S1. cbn [app] in E1, S1. split; auto. split; auto. split; auto. rewrite O1. rewrite <- !app_assoc. reflexivity.
  - cbn [attrs_within] in W. destruct W as [W1 W2]. cbn [attr_tokens]. destruct (snd (a_value a) <=? fst (a_value a))%nat eqn:E. { exfalso. apply NV. left. lia. } destruct W2 as [[W2 _]|[W2 W4]]. { rewrite W2 in E. discriminate. }
    pose proof (within_le _ _ _ W4) as LV. destruct (isblank_bt (a_value a) ltac:(lia)) as (b & EB & B). rewrite EB. cbn [obind]. destruct b. { exfalso. apply NV. right. apply B. auto. }
    destruct (uri_bt code (a_name a) ltac:(lia)) as (b & -> & U). cbn [obind]. destruct b. { exfalso. apply NU. apply U. auto. } destruct (title_bt code (a_name a) ltac:(lia)) as (b & -> & T). cbn [obind]. destruct b. 2: { apply T in TA. discriminate. }
    rewrite copy_ok by lia. cbn [obind]. destruct (decode_ok (a_value a) [] (fst (a_value a), 0)%nat u ltac:(lia) SF) as (Z & m & ->). cbn [obind app].
    set (t := TText _). destruct (IH k (snd (a_value a)) (toks ++ [t]) (text ++ between src (i, fst (a_value a)) ++ tag addr (length toks)) true (oa ++ between src (i, fst (a_value a)) ++ written_with text_escapes u) ltac:(lia) W4 Lj) as (more & i' & text' & tk' & o' & E1 & L1 & S1 & O1).
    { rewrite !app_assoc. apply state_tok with (tk := tk). - apply state_raw; auto; [apply bt_0|apply bt_18]; exact PS. - rewrite <- min_written. unfold t. match goal with |- means _ _ (_ ++ [TText ?x]) _ _ => apply (means_text addr lim _ _ x); [apply nth_end|reflexivity|reflexivity|exact Z] end. }
    exists (t :: more), i', text', tk', o'. rewrite <- app_assoc in E1, S1. cbn [app] in E1, S1. split; auto. split; auto. split; auto. rewrite O1. rewrite <- !app_assoc. reflexivity.
Qed.
Lemma state_means : forall toks text tk o x, tok_state toks text tk o -> t_text x = text -> t_tok x = tk -> t_txt x = false -> means addr lim (toks ++ [TText x]) (length toks) o.
Proof using GA.
  intros toks text tk o x [R E] <- <- T. destruct (t_tok x) eqn:K. - apply (means_tok addr lim GA _ _ x); auto; [apply nth_end|]. rewrite T. apply reads_more. auto. - rewrite <- (E eq_refl). apply means_plain; auto. apply nth_end.
Qed.
Lemma tag_token_ok : forall k q toks t, tag_text src (q_code q) (q_attrs q) (q_start q) (q_end q) t -> (q_start q <= q_end q <= length src)%nat -> attrs_within (q_start q) (q_end q) (q_attrs q) -> (fst (q_name q) <= snd (q_name q) <= length src)%nat ->
  exists more tk, tag_token addr src k q toks = Ret (toks ++ more, tk) /\ means addr lim ((toks ++ more) ++ [tk]) (length (toks ++ more)) t.
Proof using GA PS.
  intros k q toks t T L W N. unfold tag_token. destruct (attrs_ok _ _ _ _ _ T k (q_start q) toks [] false [] ltac:(lia) W ltac:(lia)) as (more & i' & text' & tk' & o' & -> & L1 & S1 & O1). { split; auto. constructor. }
  cbn [obind]. cbn [app] in O1. rewrite copy_ok by lia. cbn [obind]. cbv zeta. set (st := is_start (q_type q) && _). assert (E : exists nm, (if st then copy src (fst (q_name q)) (snd (q_name q)) else Ret []) = Ret nm) by (destruct st; [rewrite copy_ok by lia|]; eauto). destruct E as (nm & ->). cbn [obind].
  eexists more, _. split; [reflexivity|]. rewrite <- O1. eapply (state_means (toks ++ more) (text' ++ between src (i', q_end q)) tk'); try reflexivity. apply state_raw; auto; [apply bt_0|apply bt_18]; exact PS.
Qed.
End Toks.
End Src.
