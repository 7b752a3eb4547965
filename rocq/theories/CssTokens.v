(** CSS tokens: C163 (comments), C164 (strings), C165 (addresses), C166 (what of CSS 2.1 is not recognised). *)
From Coq Require Import ZifyBool ZifyNat.
From Verif Require Import Base StringModel StringSpec StringProofs ParserModel ParserSpec ParserProps HtmlTagModel HtmlTagSpec HtmlTagProps CssModel CssSpec CssProps.
Ltac Zify.zify_post_hook ::= Z.div_mod_to_equations.

Lemma occurs_split : forall a b v, occurs [a; b] v <-> exists u r, v = u ++ a :: b :: r.
Proof. intros a b v. unfold occurs. split; intros (u & r & ->); exists u, r; reflexivity. Qed.
(** the first place of two units *)
Lemma first_pre2 : forall a b i v k, first_at (pre2 a b) i v = Some k <-> exists u r, v = u ++ a :: b :: r /\ k = (i + length u)%nat /\ ~ occurs [a; b] (u ++ [a]).
Proof.
  intros a b i v. revert i. induction v as [|c v IH]; intros i k.
  { rewrite first_nil. split; [discriminate|]. intros (u & r & E & _). destruct u; discriminate. }
  rewrite (first_cons (fun _ => false)). destruct (pre2 a b (c :: v)) eqn:P.
  - apply pre2_iff in P. destruct P as (r & E). injection E as -> ->. split.
    + intros [= <-]. exists [], r. split; [reflexivity|]. split; [cbn; lia|]. cbn [app]. rewrite occurs_split. intros (u & r' & E). destruct u as [|x [|y u]]; discriminate.
    + intros (u & r' & E & -> & N). destruct u as [|x u]; [cbn [length]; f_equal; lia|]. exfalso. apply N. injection E as -> E. rewrite occurs_split. destruct u as [|y u].
      * cbn [app] in E. injection E as -> _. eexists [], _. reflexivity.
      * cbn [app] in E. injection E as -> E. eexists [], _. reflexivity.
  - rewrite IH. split.
    + intros (u & r & -> & -> & N). exists (c :: u), r. split; [reflexivity|]. split; [cbn [length]; lia|]. cbn [app]. rewrite occurs_split. intros (w & r' & E). destruct w as [|x w].
      * cbn [app] in E. injection E as -> E. assert (B : pre2 a b (a :: u ++ a :: b :: r) = true). { apply pre2_iff. destruct u as [|y u]; cbn [app] in *; injection E as -> _; [exists (b :: r)|eexists]; reflexivity. } congruence.
      * injection E as <- E. apply N. rewrite occurs_split. exists w, r'. auto.
    + intros (u & r & E & -> & N). destruct u as [|x u].
      * cbn [app] in E. injection E as -> ->. assert (B : pre2 a b (a :: b :: r) = true) by (apply pre2_iff; exists r; reflexivity). congruence.
      * injection E as -> ->. exists u, r. split; [reflexivity|]. split; [cbn [length]; lia|]. intros O. apply N. destruct O as (w & t & E). exists (x :: w), t. cbn [app]. f_equal. exact E.
Qed.

Lemma pre4_iff : forall v, pre4 v = true <-> exists r, v = 60 :: 33 :: 45 :: 45 :: r.
Proof.
  intros v. change (pre4 v) with (hdz v 60 && pre3 33 45 45 (tl v)). split.
  - intros H. apply andb_prop in H. destruct H as [A B]. apply pre3_iff in B. destruct B as (r & B). destruct v as [|x v]; [discriminate|]. cbn [hdz tl] in A, B. exists r. f_equal; [lia|auto].
  - intros (r & ->). cbn [hdz tl]. change (60 =? 60) with true. apply pre3_iff. exists r. reflexivity.
Qed.

Section Tokens.
Set Default Proof Using "Type".
Context (txt : list Z) (sp : Z -> bool).
Local Notation text_ok := (text_ok txt).
Local Notation vis := (vis txt).

(** C163: comments *)
Theorem css_comment_exact : forall s e, text_ok s e -> exists r, css_comment txt s e = Ret r /\
  forall a b x, r = Some ((a, b), x) <-> a = (s + 2)%nat /\ x = (b + 2)%nat /\ exists c rest, vis s e = [47; 42] ++ c ++ [42; 47] ++ rest /\ b = (a + length c)%nat /\ ~ occurs [42; 47] (c ++ [42]).
Proof. clear sp.
  intros s e H. eexists. split; [apply (comment_is txt s e H)|]. intros a b x. unfold f_comment. destruct (pre2 47 42 (vis s e)) eqn:P.
  - apply pre2_iff in P. destruct P as (r & V). rewrite V. cbn [skipn]. split.
    + destruct (first_at (pre2 42 47) (s + 2) r) as [k|] eqn:F; cbn [option_map]; [|discriminate]. intros E. assert (a = (s + 2)%nat /\ b = k /\ x = (k + 2)%nat) as (-> & -> & ->) by (repeat split; congruence).
      apply first_pre2 in F. destruct F as (u & t & -> & -> & N). split; [lia|]. split; [lia|]. exists u, t. split; [reflexivity|]. split; [lia|exact N].
    + intros (-> & -> & c & rest & E & -> & N). injection E as ->. assert (F : first_at (pre2 42 47) (s + 2) (c ++ 42 :: 47 :: rest) = Some (s + 2 + length c)%nat) by (apply first_pre2; exists c, rest; auto). cbn [app]. rewrite F. reflexivity.
  - split; [discriminate|]. intros (_ & _ & c & rest & E & _). assert (pre2 47 42 (vis s e) = true) by (rewrite E; apply pre2_iff; eexists; reflexivity). congruence.
Qed.
Theorem css_cdo_cdc_exact : forall s e x, text_ok s e ->
  (css_cdo txt s e = Ret (Some x) <-> x = (s + 4)%nat /\ starts (vis s e) [60; 33; 45; 45]) /\ (css_cdc txt s e = Ret (Some x) <-> x = (s + 3)%nat /\ starts (vis s e) [45; 45; 62]).
Proof. clear sp.
  intros s e x H. split.
  - rewrite (cdo_is txt s e H). destruct (pre4 (vis s e)) eqn:P.
    + apply pre4_iff in P. destruct P as (r & ->). split; [intros [= <-]; split; auto; exists r; reflexivity|intros (-> & _); auto].
    + split; [discriminate|]. intros (_ & r & E). assert (pre4 (vis s e) = true) by (apply pre4_iff; rewrite E; exists r; reflexivity). congruence.
  - rewrite (cdc_is txt s e H). destruct (pre3 45 45 62 (vis s e)) eqn:P.
    + apply pre3_iff in P. destruct P as (r & ->). split; [intros [= <-]; split; auto; exists r; reflexivity|intros (-> & _); auto].
    + split; [discriminate|]. intros (_ & r & E). assert (pre3 45 45 62 (vis s e) = true) by (apply pre3_iff; rewrite E; exists r; reflexivity). congruence.
Qed.

(** C164: strings *)
Theorem css_string_written : forall s e q b rest, text_ok s e -> q = 34 \/ q = 39 -> vis s e = q :: b ++ q :: rest -> css_body q b -> ~ ends_in 92 b ->
  css_string txt s e = Ret (Some ((s + 1, s + 1 + length b), s + 2 + length b)%nat).
Proof. clear sp.
  intros s e q b rest H Hq V B N. rewrite (string_is txt s e H), V. unfold f_string. assert (Q : is_quote q = true) by (unfold is_quote; lia). rewrite Q. rewrite (close_body q Q b rest B N) by lia. cbn [option_map].
  replace (S s) with (s + 1)%nat by lia. replace (S (s + 1 + length b)) with (s + 2 + length b)%nat by lia. reflexivity.
Qed.
(** what is recognised: from a quotation mark to the same one, and every such mark between them has a backslash in front *)
Lemma close_sound : forall n q v k, q <> 92 -> css_close n q v = Some k -> exists w rest, v = w ++ q :: rest /\ length w = k /\ (forall a b, w = a ++ q :: b -> ends_in 92 a).
Proof. clear txt. clear sp.
  induction n; intros q v k Q H; [discriminate|]. destruct v as [|c r]; [discriminate|]. cbn [css_close] in H. destruct (c =? q) eqn:C.
  - injection H as <-. exists [], r. split; [cbn [app]; f_equal; lia|]. split; auto. intros [|x a] b E; discriminate.
  - destruct ((c =? 92) && hdq r) eqn:E.
    + destruct r as [|d r]; [cbn [hdq] in E; lia|]. cbn [tl] in H. destruct (css_close n q r) as [m|] eqn:K; [|discriminate]. cbn [option_map] in H. injection H as <-. apply IHn in K; auto. destruct K as (w & rest & -> & L & A).
      exists (c :: d :: w), rest. split; [reflexivity|]. split; [cbn [length]; lia|]. intros a b F. destruct a as [|x [|y a]]; cbn [app] in F; injection F as F1 F; [lia| |].
      * exists []. cbn [app]. f_equal. lia.
      * assert (F' : w = a ++ q :: b) by congruence. destruct (A _ _ F') as (z & ->). exists (x :: y :: z). reflexivity.
    + destruct (css_close n q r) as [m|] eqn:K; [|discriminate]. cbn [option_map] in H. injection H as <-. apply IHn in K; auto. destruct K as (w & rest & -> & L & A).
      exists (c :: w), rest. split; [reflexivity|]. split; [cbn [length]; lia|]. intros a b F. destruct a as [|x a]; cbn [app] in F; injection F as F1 F; [lia|]. destruct (A _ _ F) as (z & ->). exists (x :: z). reflexivity.
Qed.
Theorem css_string_sound : forall s e, text_ok s e -> exists r, css_string txt s e = Ret r /\ forall a b x, r = Some ((a, b), x) ->
  a = (s + 1)%nat /\ x = (b + 1)%nat /\ exists q w rest, (q = 34 \/ q = 39) /\ vis s e = q :: w ++ q :: rest /\ b = (a + length w)%nat /\ (forall u t, w = u ++ q :: t -> ends_in 92 u).
Proof. clear sp.
  intros s e H. eexists. split; [apply (string_is txt s e H)|]. intros a b x E. unfold f_string in E. destruct (vis s e) as [|c r]; [discriminate|]. destruct (is_quote c) eqn:Q; [|discriminate].
  destruct (css_close (length r) c r) as [k|] eqn:K; [|discriminate]. cbn [option_map] in E. assert (a = S s /\ b = (S s + k)%nat /\ x = S (S s + k)) as (-> & -> & ->) by (repeat split; congruence).
  apply close_sound in K; [|unfold is_quote in Q; lia]. destruct K as (w & rest & -> & L & A). split; [lia|]. split; [lia|]. exists c, w, rest. split; [unfold is_quote in Q; lia|]. split; [reflexivity|]. split; [lia|auto].
Qed.

(** C165: addresses *)
Lemma scan_blank : forall w v, blank sp w -> no_blank sp v = true -> scan (no_blank sp) (w ++ v) = length w.
Proof. clear txt.
  intros w v B N. rewrite scan_app. { rewrite scan_here by auto. lia. } intros a b -> Nb. destruct b as [|c b]; [congruence|]. cbn [app no_blank]. apply Forall_app in B. destruct B as [_ B]. inversion B; subst. rewrite H1. reflexivity.
Qed.
Lemma pre_url_written : forall u r, any_case str_url u -> pre_url (u ++ 40 :: r) = true /\ length u = 3%nat.
Proof. clear txt. clear sp.
  intros u r H. unfold any_case, str_url in H. destruct u as [|a [|b [|c [|d u]]]]; try discriminate. injection H as A B C. split; [|reflexivity]. cbn [app]. unfold pre_url. cbn [hd2 hdz tl].
  destruct ((65 <=? a) && (a <=? 90)) eqn:EA; destruct ((65 <=? b) && (b <=? 90)) eqn:EB; destruct ((65 <=? c) && (c <=? 90)) eqn:EC; lia.
Qed.
Lemma any_case_len : forall w u, any_case w u -> length u = length w.
Proof. clear txt. clear sp. intros w u <-. now rewrite map_length. Qed.
Lemma pre_import_written : forall u r, any_case str_import u -> pre_import (64 :: u ++ r) = true /\ length u = 6%nat.
Proof. clear txt. clear sp.
  intros u r H. pose proof (any_case_len _ _ H) as L. unfold any_case, str_import in *. destruct u as [|a [|b [|c [|d [|x [|y [|z u]]]]]]]; try discriminate. injection H as A B C D E F. split; [|reflexivity]. cbn [app]. unfold pre_import. cbn [hd2 hdz tl].
  assert (X : forall k l, (if (65 <=? k) && (k <=? 90) then k + 32 else k) = l -> (k =? l) || (k =? l - 32) = true) by (intros k l; destruct ((65 <=? k) && (k <=? 90)) eqn:K; lia).
  apply X in A, B, C, D, E, F. change (105 - 32) with 73 in A. change (109 - 32) with 77 in B. change (112 - 32) with 80 in C. change (111 - 32) with 79 in D. change (114 - 32) with 82 in E. change (116 - 32) with 84 in F.
  rewrite A, B, C, D, E, F. reflexivity.
Qed.
Theorem css_uri_quoted : forall s e u w1 q b w2 rest, text_ok s e -> any_case str_url u -> blank sp w1 -> blank sp w2 -> q = 34 \/ q = 39 -> sp q = false -> sp 41 = false ->
  vis s e = u ++ 40 :: w1 ++ q :: b ++ q :: w2 ++ 41 :: rest -> css_body q b -> ~ ends_in 92 b ->
  css_uri txt sp s e = Ret (Some ((s + 5 + length w1, s + 5 + length w1 + length b), s + 7 + length w1 + length b + length w2)%nat).
Proof.
  intros s e u w1 q b w2 rest H U B1 B2 Hq Sq S41 V B N. rewrite (uri_is txt sp s e H), V. unfold f_uri. destruct (pre_url_written u (w1 ++ q :: b ++ q :: w2 ++ 41 :: rest) U) as [-> L].
  replace (skipn 4 (u ++ 40 :: w1 ++ q :: b ++ q :: w2 ++ 41 :: rest)) with (w1 ++ q :: b ++ q :: w2 ++ 41 :: rest). 2: { destruct u as [|? [|? [|? [|? ?]]]]; try discriminate. reflexivity. }
  unfold f_addr. rewrite scan_blank; auto. 2: { cbn [no_blank]. now rewrite Sq. } rewrite skipn_app, skipn_all, Nat.sub_diag, skipn_O. cbn [app].
  assert (Q : is_quote q = true) by (unfold is_quote; lia). rewrite Q. rewrite (close_body q Q b _ B N) by lia. cbv zeta.
  replace (skipn (S (length b)) (b ++ q :: w2 ++ 41 :: rest)) with (w2 ++ 41 :: rest). 2: { rewrite skipn_app. replace (S (length b) - length b)%nat with 1%nat by lia. rewrite skipn_all2 by lia. reflexivity. }
  rewrite scan_blank; auto. 2: { cbn [no_blank]. now rewrite S41. } rewrite skipn_app, skipn_all, Nat.sub_diag. cbn [skipn app hdz]. change (41 =? 41) with true. cbv iota.
  do 2 f_equal. f_equal; [f_equal; lia|lia].
Qed.
Lemma f_raw_written : forall t w rest i ce, ~ In 41 (t ++ w) -> (forall c r, t <> r ++ [c] \/ sp c = false) -> blank sp w ->
  f_raw sp i ce (t ++ w ++ 41 :: rest) = Some (match t with [] => ce | _ => (i + length t)%nat end, (i + length t + length w)%nat).
Proof. clear txt.
  induction t as [|c t IH]; intros w rest i ce N L B.
  - cbn [app length]. revert i ce. induction w as [|c w IHw]; intros i ce.
    + cbn [app f_raw length]. change (41 =? 41) with true. cbv iota. do 2 f_equal. lia.
    + cbn [app f_raw length]. inversion B; subst. replace (c =? 41) with false by (cbn [app In] in N; destruct (c =? 41) eqn:E; auto; exfalso; apply N; left; lia). rewrite H1. rewrite IHw; auto. { do 2 f_equal. lia. } intros K. apply N. right. exact K.
  - cbn [app f_raw]. replace (c =? 41) with false by (destruct (c =? 41) eqn:E; auto; exfalso; apply N; left; lia).
    assert (N' : ~ In 41 (t ++ w)) by (intros K; apply N; right; exact K).
    assert (L' : forall c r, t <> r ++ [c] \/ sp c = false). { intros d r. destruct (L d (c :: r)) as [K|K]; auto. left. intros ->. apply K. reflexivity. }
    destruct t as [|d t].
    + destruct (L c []) as [K|K]; [exfalso; apply K; reflexivity|]. rewrite K. rewrite (IH w rest (S i) (S i) N' L' B). cbn [length]. do 2 f_equal; lia.
    + destruct (sp c); rewrite IH by auto; cbn [length]; do 2 f_equal; lia.
Qed.
Theorem css_uri_plain : forall s e u w1 t w2 rest, text_ok s e -> any_case str_url u -> blank sp w1 -> blank sp w2 -> sp 41 = false -> t <> [] ->
  (forall c r, t = c :: r -> c <> 34 /\ c <> 39 /\ sp c = false) -> (forall c r, t = r ++ [c] -> sp c = false) -> ~ In 41 (t ++ w2) -> vis s e = u ++ 40 :: w1 ++ t ++ w2 ++ 41 :: rest ->
  css_uri txt sp s e = Ret (Some ((s + 4 + length w1, s + 4 + length w1 + length t), s + 5 + length w1 + length t + length w2)%nat).
Proof.
  intros s e u w1 t w2 rest H U B1 B2 S41 T F L N V. rewrite (uri_is txt sp s e H), V. unfold f_uri. destruct (pre_url_written u (w1 ++ t ++ w2 ++ 41 :: rest) U) as [-> Lu].
  replace (skipn 4 (u ++ 40 :: w1 ++ t ++ w2 ++ 41 :: rest)) with (w1 ++ t ++ w2 ++ 41 :: rest). 2: { destruct u as [|? [|? [|? [|? ?]]]]; try discriminate. reflexivity. }
  destruct t as [|c t]; [congruence|]. destruct (F c t eq_refl) as (F1 & F2 & F3).
  unfold f_addr. rewrite scan_blank; auto. 2: { cbn [app no_blank]. now rewrite F3. } rewrite skipn_app, skipn_all, Nat.sub_diag. cbn [skipn app]. assert (Q : is_quote c = false) by (unfold is_quote; lia). rewrite Q.
  pose proof (f_raw_written (c :: t) w2 rest (s + 4 + length w1) (s + 4 + length w1) N) as K. cbn [app] in K. rewrite K; auto. 2: { intros d r. destruct (sp d) eqn:E; auto. left. intros K2. rewrite (L _ _ K2) in E. discriminate. }
  cbn [option_map fst snd]. do 2 f_equal. f_equal. cbn [length]. lia.
Qed.
Theorem css_import_written : forall s e u w q b rest, text_ok s e -> any_case str_import u -> blank sp w -> q = 34 \/ q = 39 -> sp q = false ->
  vis s e = 64 :: u ++ w ++ q :: b ++ q :: rest -> css_body q b -> ~ ends_in 92 b ->
  css_import txt sp s e = Ret (Some ((s + 8 + length w, s + 8 + length w + length b), s + 9 + length w + length b)%nat).
Proof.
  intros s e u w q b rest H U B1 Hq Sq V B N. rewrite (import_is txt sp s e H), V. unfold f_import. destruct (pre_import_written u (w ++ q :: b ++ q :: rest) U) as [-> L].
  replace (skipn 7 (64 :: u ++ w ++ q :: b ++ q :: rest)) with (w ++ q :: b ++ q :: rest). 2: { destruct u as [|? [|? [|? [|? [|? [|? [|? ?]]]]]]]; try discriminate. reflexivity. }
  cbv zeta. rewrite scan_blank; auto. 2: { cbn [no_blank]. now rewrite Sq. } rewrite skipn_app, skipn_all, Nat.sub_diag. cbn [skipn app]. unfold f_string.
  assert (Q : is_quote q = true) by (unfold is_quote; lia). rewrite Q. rewrite (close_body q Q b _ B N) by lia. cbn [option_map]. do 2 f_equal. f_equal; [f_equal; lia|lia].
Qed.
(** what is recognised lies within the text: it starts with url( or @import, the content is inside *)
Lemma f_raw_within : forall v i ce a j, f_raw sp i ce v = Some (a, j) -> (ce <= i)%nat -> (ce <= a <= j)%nat /\ (i <= j < i + length v)%nat.
Proof. clear txt.
  induction v as [|c v IH]; intros i ce a j H L; [discriminate|]. cbn [f_raw length] in *. destruct (c =? 41). { injection H as <- <-. lia. } destruct (sp c); apply IH in H; lia.
Qed.
Theorem css_uri_within : forall s e, text_ok s e -> exists r, css_uri txt sp s e = Ret r /\ forall a b x, r = Some ((a, b), x) -> (s + 4 <= a <= b)%nat /\ (b < x <= s + length (vis s e))%nat.
Proof.
  intros s e H. eexists. split; [apply (uri_is txt sp s e H)|]. intros a b x E. unfold f_uri in E. destruct (pre_url (vis s e)) eqn:P; [|discriminate].
  assert (L : (4 <= length (vis s e))%nat). { unfold pre_url in P. destruct (vis s e) as [|? [|? [|? [|? ?]]]]; cbn [hd2 hdz tl] in P; try lia. cbn [length]. lia. }
  unfold f_addr in E. pose proof (skipn_length 4 (vis s e)) as SL. set (v := skipn 4 (vis s e)) in *. clearbody v. pose proof (scan_le (no_blank sp) v) as SW. set (w := scan (no_blank sp) v) in *. clearbody w. pose proof (skipn_length w v) as SV. destruct (skipn w v) as [|c r]; [discriminate|]. cbn [length] in SV.
  destruct (is_quote c).
  - destruct (css_close (length r) c r) as [k|] eqn:K; [|discriminate]. apply close_le in K. pose proof (skipn_length (S k) r) as S1. set (t := skipn (S k) r) in *. clearbody t. pose proof (skipn_length (scan (no_blank sp) t) t) as S2. destruct (hdz _ 41) eqn:Z; [|discriminate].
    destruct (skipn (scan (no_blank sp) t) t) eqn:K2; [discriminate|]. cbn [length] in S2. assert (a = S (s + 4 + w) /\ b = (S (s + 4 + w) + k)%nat /\ x = S (S (s + 4 + w) + S k + scan (no_blank sp) t)) as (-> & -> & ->) by (repeat split; congruence). lia.
  - destruct (f_raw sp (s + 4 + w) (s + 4 + w) (c :: r)) as [[ce j]|] eqn:F; [|discriminate]. cbn [option_map fst snd] in E. apply f_raw_within in F; [|lia]. cbn [length] in F. assert (a = (s + 4 + w)%nat /\ b = ce /\ x = S j) as (-> & -> & ->) by (repeat split; congruence). lia.
Qed.
Theorem css_import_within : forall s e, text_ok s e -> exists r, css_import txt sp s e = Ret r /\ forall a b x, r = Some ((a, b), x) -> (s + 8 <= a <= b)%nat /\ (b < x <= s + length (vis s e))%nat.
Proof.
  intros s e H. eexists. split; [apply (import_is txt sp s e H)|]. intros a b x E. unfold f_import in E. destruct (pre_import (vis s e)) eqn:P; [|discriminate].
  assert (L : (7 <= length (vis s e))%nat). { unfold pre_import in P. destruct (vis s e) as [|? [|? [|? [|? [|? [|? [|? ?]]]]]]]; cbn [hd2 hdz tl] in P; try lia. cbn [length]. lia. }
  cbv zeta in E. pose proof (skipn_length 7 (vis s e)) as SL. set (v := skipn 7 (vis s e)) in *. clearbody v. pose proof (scan_le (no_blank sp) v) as SW. set (w := scan (no_blank sp) v) in *. clearbody w. pose proof (skipn_length w v) as SV. unfold f_string in E. destruct (skipn w v) as [|c r]; [discriminate|]. cbn [length] in SV.
  destruct (is_quote c); [|discriminate]. destruct (css_close (length r) c r) as [k|] eqn:K; [|discriminate]. apply close_le in K. cbn [option_map] in E.
  assert (a = S (s + 7 + w) /\ b = (S (s + 7 + w) + k)%nat /\ x = S (S (s + 7 + w) + k)) as (-> & -> & ->) by (repeat split; congruence). lia.
Qed.

(** C166: a string that ends in an escaped backslash is not recognised as that string *)
Theorem css_string_backslash : forall s e q b rest, text_ok s e -> q = 34 \/ q = 39 -> vis s e = q :: b ++ q :: rest -> css_body q b -> ends_in 92 b ->
  css_string txt s e <> Ret (Some ((s + 1, s + 1 + length b), s + 2 + length b)%nat).
Proof. clear sp.
  intros s e q b rest H Hq V B N. rewrite (string_is txt s e H), V. unfold f_string. assert (Q : is_quote q = true) by (unfold is_quote; lia). rewrite Q. intros E.
  destruct (css_close _ q _) as [k|] eqn:K; [|discriminate]. apply (close_past q Q b rest B N) in K. cbn [option_map] in E. assert (S s + k = s + 1 + length b)%nat by congruence. lia.
Qed.
(** an escaped parenthesis ends an address that is not in quotation marks *)
Theorem css_uri_escape : forall s e t u rest, text_ok s e -> t <> [] -> (forall c r, t = c :: r -> c <> 34 /\ c <> 39 /\ sp c = false) -> sp 92 = false -> sp 41 = false -> ~ In 41 t ->
  vis s e = [117; 114; 108; 40] ++ t ++ [92; 41] ++ u ++ 41 :: rest -> css_uri txt sp s e = Ret (Some ((s + 4, s + 5 + length t), s + 6 + length t)%nat).
Proof.
  intros s e t u rest H T F S92 S41 N V. rewrite (css_uri_plain s e [117; 114; 108] [] (t ++ [92]) [] (u ++ 41 :: rest)); auto.
  - rewrite app_length. cbn [length]. do 2 f_equal. f_equal; [f_equal; lia|lia].
  - reflexivity.
  - constructor.
  - constructor.
  - destruct t; discriminate.
  - intros c r E. destruct t as [|d t]; [congruence|]. injection E as <- E. apply (F d t eq_refl).
  - intros c r E. apply app_inj_tail in E. destruct E as [_ <-]. exact S92.
  - rewrite app_nil_r, in_app_iff. cbn [In]. intros [K|[K|[]]]; [auto|lia].
  - rewrite V. rewrite <- !app_assoc. reflexivity.
Qed.
End Tokens.

Example css_ex :
  let sp c := c =? 32 in
  css_comment [47; 42; 97; 42; 47; 98] 0 6 = Ret (Some ((2, 3), 5)%nat) /\
  css_string [34; 97; 92; 34; 98; 34; 0] 0 9 = Ret (Some ((1, 5), 6)%nat) /\
  css_uri [85; 114; 108; 40; 32; 97; 98; 32; 41] sp 0 9 = Ret (Some ((5, 7), 9)%nat) /\
  css_import [64; 105; 109; 112; 111; 114; 116; 32; 39; 97; 39] sp 0 11 = Ret (Some ((9, 10), 11)%nat) /\
  css_string [34; 97; 92; 92; 34] 0 5 = Ret None.
Proof. repeat split; vm_compute; reflexivity. Qed.
(** "strings of CSS 2.1 are recognised" *)
Theorem css_string_refuted : ~ (forall txt q b, q = 34 -> css_body q b -> txt = q :: b ++ [q] -> exists x, css_string txt 0 (length txt) = Ret (Some x)).
Proof.
  intros H. destruct (H [34; 92; 92; 34] 34 [92; 92] eq_refl) as (x & E).
  - apply body_escape, body_nil.
  - reflexivity.
  - vm_compute in E. discriminate.
Qed.
Theorem css_uri_refuted : ~ (forall (txt : list Z) sp b, css_body 41 b -> sp = (fun c => c =? 32) -> ~ In 32 b -> ~ In 34 b -> ~ In 39 b -> b <> [] -> txt = [117; 114; 108; 40] ++ b ++ [41] ->
  css_uri txt sp 0 (length txt) = Ret (Some ((4, 4 + length b), length txt)%nat)).
Proof.
  intros H. specialize (H [117; 114; 108; 40; 97; 92; 41; 98; 41] (fun c => c =? 32) [97; 92; 41; 98]).
  assert (E : css_uri [117; 114; 108; 40; 97; 92; 41; 98; 41] (fun c => c =? 32) 0 9 = Ret (Some ((4, 6), 7)%nat)) by (vm_compute; reflexivity).
  cbn [length] in H. rewrite E in H. enough (K : Ret (Some (4%nat, 6%nat, 7%nat)) = Ret (Some (4%nat, 8%nat, 9%nat))) by discriminate. apply H; auto.
  - apply body_unit; try lia. apply body_escape. apply body_unit; try lia. constructor.
  - cbn [In]. lia.
  - cbn [In]. lia.
  - cbn [In]. lia.
  - discriminate.
Qed.
Print Assumptions css_comment_exact. Print Assumptions css_cdo_cdc_exact. Print Assumptions css_string_written. Print Assumptions css_string_sound. Print Assumptions css_uri_quoted. Print Assumptions css_uri_plain. Print Assumptions css_import_written.
Print Assumptions css_string_backslash. Print Assumptions css_uri_escape. Print Assumptions css_string_refuted. Print Assumptions css_uri_refuted. Print Assumptions css_uri_within. Print Assumptions css_import_within.
