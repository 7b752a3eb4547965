(** HTTP parsers: parameters, media types, cookies. *)
From Coq Require Import ZifyBool ZifyNat.
From Verif Require Import Base StringModel StringSpec ParserModel ParserSpec ParserProps HtmlTagModel HtmlTagProps HttpModel HttpSpec HttpProps.
Ltac Zify.zify_post_hook ::= Z.div_mod_to_equations.

Section Http.
Set Default Proof Using "Type".
Context (txt : list Z) (C : chars txt).
Local Notation text_ok := (ParserSpec.text_ok txt).
Local Notation vis := (ParserSpec.vis txt).

Lemma token_case : forall s e, text_ok s e ->
  (http_token txt s e = Ret None /\ forall w r, ~ tok (vis s e) w r) \/
  (exists w r, http_token txt s e = Ret (Some (s + length w)%nat) /\ tok (vis s e) w r /\ text_ok (s + length w) e /\ vis (s + length w) e = r /\ w <> [] /\ (forall w' r', tok (vis s e) w' r' -> w' = w /\ r' = r)).
Proof using C.
  intros s e H. pose proof (vis_chars txt s e H C) as VC. pose proof (vis_nz txt s e H) as VN. rewrite (token_is txt s e H). destruct (f_token (vis s e)) as [|k] eqn:F.
  - left. split; auto. intros w r T. apply tok_iff in T; auto. lia.
  - right. exists (take_while tcharb (vis s e)), (drop_while tcharb (vis s e)). assert (L : length (take_while tcharb (vis s e)) = S k) by exact F. rewrite L. split; auto.
    assert (T : tok (vis s e) (take_while tcharb (vis s e)) (drop_while tcharb (vis s e))) by (apply tok_iff; auto; repeat split; auto; lia). split; auto.
    destruct (vis_app txt s e _ _ H (split_while tcharb (vis s e))) as [A B]. rewrite L in A, B. split; auto. split; auto. split. { intros N. rewrite N in L. discriminate. }
    intros w' r' T'. apply tok_iff in T'; auto. tauto.
Qed.
Lemma gap_case : forall s e, text_ok s e -> exists w r, spaces_all txt s e = Ret (s + length w)%nat /\ gap (vis s e) w r /\ text_ok (s + length w) e /\ vis (s + length w) e = r /\ (forall w' r', gap (vis s e) w' r' -> w' = w /\ r' = r).
Proof using Type.
  intros s e H. exists (firstn (f_space (vis s e)) (vis s e)), (skipn (f_space (vis s e)) (vis s e)). rewrite gap_len. split; [apply spaces_is; auto|]. split; [apply gap_fun|].
  destruct (vis_skip txt (f_space (vis s e)) s e H (space_le (vis s e))) as [A B]. split; auto. split; auto. intros w' r' G. apply gap_iff in G. tauto.
Qed.
Lemma value_case : forall s e, text_ok s e ->
  (http_value txt s e = Ret None /\ forall i x r, ~ value_at i (vis s e) x r) \/
  (exists x r, http_value txt s e = Ret (Some x) /\ value_at s (vis s e) x r /\ text_ok (hv_end x) e /\ vis (hv_end x) e = r /\ (s < hv_end x <= s + length (vis s e))%nat /\ (forall x' r', value_at s (vis s e) x' r' -> x' = x /\ r' = r)).
Proof using C.
  intros s e H. pose proof (vis_chars txt s e H C) as VC. pose proof (vis_nz txt s e H) as VN. rewrite (value_is txt s e H). destruct (f_value s (vis s e)) as [x|] eqn:F.
  - right. destruct (value_fun _ _ _ VC VN F) as [A B]. exists x, (skipn (hv_end x - s) (vis s e)). split; auto. split; auto. destruct (vis_to txt s e (hv_end x) H) as [T W]; [lia|]. split; auto. split; auto. split; auto.
    intros x' r' V. apply value_rel in V; auto. destruct V as [E ->]. assert (x' = x) by congruence. subst x'. auto.
  - left. split; auto. intros i x r V. assert (V' : exists x, value_at s (vis s e) x r).
    { destruct V as [(b & E & Q & _)|(w & T & _)]; eexists; [left; exists b; eauto|right; exists w; eauto]. } destruct V' as (x' & V'). apply value_rel in V'; auto. destruct V' as [V' _]. congruence.
Qed.
Lemma sign_case : forall s e c, text_ok s e -> exists b, is_at txt s e c = Ret b /\ (b = true -> exists r, vis s e = c :: r /\ text_ok (S s) e /\ vis (S s) e = r) /\ (b = false -> forall r, vis s e <> c :: r).
Proof using Type.
  intros s e c H. rewrite (is_at_spec txt _ _ _ H). eexists. split; eauto. destruct (vis s e) as [|d r] eqn:V; cbn [hdz]; split; try discriminate.
  - intros E. assert (d = c) by lia. subst d. destruct (vis_next txt _ _ _ _ H V). eauto.
  - intros E r' Q. injection Q as -> _. lia.
Qed.
(** the interval [p] is that of what is matched *)
Lemma value_end : forall i v x r, value_at i v x r -> hv_end x = (i + length v - length r)%nat /\ (length r < length v)%nat /\ (i < hv_end x <= i + length v)%nat.
Proof using Type.
  intros i v x r [(b & -> & Q & ->)|(w & ((-> & _) & N) & ->)]; cbn [hv_end snd length].
  - rewrite app_length. cbn [length]. lia.
  - rewrite app_length. destruct w; [congruence|]. cbn [length]. lia.
Qed.
Lemma gap_length : forall v w r, gap v w r -> length v = (length w + length r)%nat.
Proof using Type. intros v w r G. apply gap_split in G. rewrite G. apply app_length. Qed.
Lemma tok_length : forall v w r, tok v w r -> length v = (length w + length r)%nat.
Proof using Type. intros v w r ((-> & _) & _). apply app_length. Qed.
Lemma parameter_end : forall i v p r, parameter_at i v p r -> hp_end p = (i + length v - length r)%nat /\ (length r < length v)%nat.
Proof using Type.
  intros i v p r (n & v1 & g & v2 & x & T & G & V & ->). apply tok_length in T. apply gap_length in G. cbn [hp_end]. destruct V as [(v3 & -> & V)|(_ & V)]; apply value_end in V; cbn [length] in *; lia.
Qed.
Lemma assignment_end : forall s i v p r, assignment_at s i v p r -> hp_end p = (i + length v - length r)%nat /\ (length r < length v)%nat.
Proof using Type.
  intros s i v p r (n & v1 & g & v2 & h & v3 & x & T & G1 & G2 & V & ->). apply tok_length in T. apply gap_length in G1, G2. apply value_end in V. cbn [hp_end length] in *. lia.
Qed.
Lemma cookie_parameter_end : forall i v p r, cookie_parameter_at i v p r -> hp_end p = (i + length v - length r)%nat /\ (length r < length v)%nat.
Proof using Type. intros i v p r (v1 & -> & A). apply assignment_end in A. cbn [length]. lia. Qed.

(** C179 *)
Theorem http_parameter_spec : forall s e, text_ok s e -> exists r, http_parameter txt s e = Ret r /\ forall p, r = Some p <-> exists t, parameter_at s (vis s e) p t.
Proof using C.
  intros s e H. unfold http_parameter. destruct (token_case s e H) as [(-> & N)|(n & v1 & -> & T & T1 & V1 & N & U)]; cbn [obind].
  { exists None. split; auto. intros p. split; [discriminate|]. intros (t & n & v1 & g & v2 & x & T & _). destruct (N _ _ T). }
  destruct (gap_case _ _ T1) as (g & v2 & -> & G & T2 & V2 & UG). cbn [obind]. rewrite V1 in G, UG. destruct (sign_case _ _ 61 T2) as (b & -> & B1 & B2). cbn [obind]. rewrite V2 in B1, B2.
  assert (R : forall p, (exists t, parameter_at s (vis s e) p t) <-> exists t x, ((exists v3, v2 = 61 :: v3 /\ value_at (s + length n + length g + 1) v3 x t) \/ (hd 0 v2 <> 61 /\ value_at (s + length n + length g) v2 x t)) /\ p = HParam s (s, s + length n)%nat x (hv_end x)).
  { intros p. split.
    - intros (t & n' & v1' & g' & v2' & x & T' & G' & V & E). destruct (U _ _ T') as [-> ->]. destruct (UG _ _ G') as [-> ->]. eauto.
    - intros (t & x & V & E). exists t, n, v1, g, v2, x. auto. }
  destruct b.
  - cbn [obind]. destruct (B1 eq_refl) as (v3 & -> & T3 & V3). destruct (value_case _ _ T3) as [(-> & NV)|(x & r & -> & V & T4 & V4 & L & UV)]; cbn [obind option_map].
    + eexists. split; eauto. intros p. rewrite R. split; [discriminate|]. intros (t & x & [(v3' & E & V)|(E & _)] & _); [|cbn in E; congruence]. assert (v3' = v3) by congruence. subst v3'. rewrite V3 in NV. destruct (NV _ _ _ V).
    + eexists. split; eauto. intros p. rewrite R. replace (s + length n + length g + 1)%nat with (S (s + length n + length g)) by lia. rewrite V3 in V, UV. split.
      * intros E. exists r, x. split; [left; eauto|congruence].
      * intros (t & x' & [(v3' & E & V')|(E & _)] & ->); [|cbn in E; congruence]. assert (v3' = v3) by congruence. subst v3'. destruct (UV _ _ V') as [-> _]. auto.
  - destruct (gap_case _ _ T2) as (g' & v2' & -> & G' & T3 & V3 & _). rewrite V2 in G'. assert (g' = [] /\ v2' = v2) as [-> ->].
    { apply gap_iff in G, G'. destruct G as [Eg Ev], G' as [Eg' Ev']. assert (Z0 : f_space v2 = 0%nat). { rewrite Ev. destruct (f_space v1) as [|k] eqn:F. { rewrite skipn_O. auto. } rewrite <- F. apply space_once. lia. } rewrite Z0 in Eg', Ev'. rewrite skipn_O in Ev'. auto. }
    cbn [length obind] in *. rewrite Nat.add_0_r in *. destruct (value_case _ _ T3) as [(-> & NV)|(x & r & -> & V & T4 & V4 & L & UV)]; cbn [obind option_map].
    + eexists. split; eauto. intros p. rewrite R. split; [discriminate|]. rewrite V3 in NV. intros (t & x & [(v3' & E & V)|(E & V)] & _); [|destruct (NV _ _ _ V)]. exfalso. eapply B2; eauto.
    + eexists. split; eauto. intros p. rewrite R. rewrite V3 in V, UV. split.
      * intros E. exists r, x. split; [right; split; auto|congruence]. destruct v2 as [|c v2]; cbn; [lia|]. intros ->. eapply B2; eauto.
      * intros (t & x' & [(v3' & E & V')|(E & V')] & ->); [exfalso; eapply B2; eauto|]. destruct (UV _ _ V') as [-> _]. auto.
Qed.
Lemma assignment_spec : forall s i e, text_ok i e -> exists r, assignment txt s i e = Ret r /\ forall p, r = Some p <-> exists t, assignment_at s i (vis i e) p t.
Proof using C.
  intros s i e H. unfold assignment. destruct (token_case i e H) as [(-> & N)|(n & v1 & -> & T & T1 & V1 & N & U)]; cbn [obind].
  { exists None. split; auto. intros p. split; [discriminate|]. intros (t & n & v1 & g & v2 & h & v3 & x & T & _). destruct (N _ _ T). }
  destruct (gap_case _ _ T1) as (g & v2 & -> & G & T2 & V2 & UG). cbn [obind]. rewrite V1 in G, UG. destruct (sign_case _ _ 61 T2) as (b & -> & B1 & B2). cbn [obind]. rewrite V2 in B1, B2. destruct b.
  - destruct (B1 eq_refl) as (v3 & -> & T3 & V3). destruct (gap_case _ _ T3) as (h & v4 & -> & G4 & T4 & V4 & UG4). cbn [obind]. rewrite V3 in G4, UG4.
    assert (R : forall p, (exists t, assignment_at s i (vis i e) p t) <-> exists t x, value_at (i + length n + length g + 1 + length h) v4 x t /\ p = HParam s (i, i + length n)%nat x (hv_end x)).
    { intros p. split.
      - intros (t & n' & v1' & g' & v2' & h' & v3' & x & T' & G' & G2 & V & E). destruct (U _ _ T') as [-> ->]. destruct (UG _ _ G') as [-> E2]. injection E2 as ->. destruct (UG4 _ _ G2) as [-> ->]. eauto.
      - intros (t & x & V & E). exists t, n, v1, g, v3, h, v4, x. auto. }
    replace (i + length n + length g + 1 + length h)%nat with (S (i + length n + length g) + length h)%nat in R by lia.
    destruct (value_case _ _ T4) as [(-> & NV)|(x & r & -> & V & T5 & V5 & L & UV)]; cbn [obind option_map]; eexists; (split; [reflexivity|]); intros p; rewrite R; rewrite V4 in *.
    + split; [discriminate|]. intros (t & x & V & _). destruct (NV _ _ _ V).
    + split; [intros E; exists r, x; split; auto; congruence|]. intros (t & x' & V' & ->). destruct (UV _ _ V') as [-> _]. auto.
  - exists None. split; auto. intros p. split; [discriminate|]. intros (t & n' & v1' & g' & v2' & h' & v3' & x & T' & G' & _). destruct (U _ _ T') as [-> ->]. destruct (UG _ _ G') as [-> E2]. exfalso. apply (B2 eq_refl v2'). auto.
Qed.
Theorem http_cookie_parameter_spec : forall s e, text_ok s e -> exists r, http_cookie_parameter txt s e = Ret r /\ forall p, r = Some p <-> exists t, cookie_parameter_at s (vis s e) p t.
Proof using C.
  intros s e H. unfold http_cookie_parameter. destruct (sign_case _ _ 36 H) as (b & -> & B1 & B2). cbn [obind]. destruct b.
  - destruct (B1 eq_refl) as (v & V & T & W). destruct (assignment_spec s (S s) e T) as (r & -> & R). exists r. split; auto. intros p. rewrite R, V, W. unfold cookie_parameter_at. replace (s + 1)%nat with (S s) by lia. split.
    + intros (t & A). exists t, v. auto.
    + intros (t & v' & E & A). injection E as ->. eauto.
  - exists None. split; auto. intros p. split; [discriminate|]. intros (t & v & E & _). destruct (B2 eq_refl _ E).
Qed.
(** C180 *)
Theorem http_media_range_spec : forall s e, text_ok s e -> exists r, http_media_range txt s e = Ret r /\ forall m, r = Some m <-> exists t, media_range_at s (vis s e) m t.
Proof using C.
  intros s e H. unfold http_media_range. destruct (token_case s e H) as [(-> & N)|(n & v1 & -> & T & T1 & V1 & N & U)]; cbn [obind].
  { exists None. split; auto. intros p. split; [discriminate|]. intros (t & n & v1 & g & v2 & h & v3 & x & T & _). destruct (N _ _ T). }
  destruct (gap_case _ _ T1) as (g & v2 & -> & G & T2 & V2 & UG). cbn [obind]. rewrite V1 in G, UG. destruct (sign_case _ _ 47 T2) as (b & -> & B1 & B2). cbn [obind]. rewrite V2 in B1, B2. destruct b.
  - destruct (B1 eq_refl) as (v3 & -> & T3 & V3). destruct (gap_case _ _ T3) as (h & v4 & -> & G4 & T4 & V4 & UG4). cbn [obind]. rewrite V3 in G4, UG4.
    replace (S (s + length n + length g)) with (s + length n + length g + 1)%nat in * by lia.
    destruct (token_case _ _ T4) as [(-> & NV)|(u & r & -> & TU & T5 & V5 & L & UV)]; cbn [obind option_map]; eexists; (split; [reflexivity|]); intros p; rewrite V4 in *.
    + split; [discriminate|]. intros (t & n' & v1' & g' & v2' & h' & v3' & u & T' & G' & G2 & TU & _). destruct (U _ _ T') as [-> ->]. destruct (UG _ _ G') as [-> E2]. injection E2 as ->. destruct (UG4 _ _ G2) as [-> ->]. destruct (NV _ _ TU).
    + split.
      * intros E. exists r, n, v1, g, v3, h, v4, u. repeat (split; [auto; fail|]). cbv zeta. congruence.
      * intros (t & n' & v1' & g' & v2' & h' & v3' & u' & T' & G' & G2 & TU' & ->). destruct (U _ _ T') as [-> ->]. destruct (UG _ _ G') as [-> E2]. injection E2 as ->. destruct (UG4 _ _ G2) as [-> ->]. destruct (UV _ _ TU') as [-> ->]. reflexivity.
  - exists None. split; auto. intros p. split; [discriminate|]. intros (t & n' & v1' & g' & v2' & h' & v3' & x & T' & G' & _). destruct (U _ _ T') as [-> ->]. destruct (UG _ _ G') as [-> E2]. exfalso. apply (B2 eq_refl v2'). auto.
Qed.
(** the list of parameters *)
Section Params.
Context (item : nat -> nat -> outcome (option hparam)) (item_at : nat -> list Z -> hparam -> list Z -> Prop)
  (Hitem : forall s e, text_ok s e -> exists r, item s e = Ret r /\ forall p, r = Some p <-> exists t, item_at s (vis s e) p t)
  (Hend : forall i v p r, item_at i v p r -> hp_end p = (i + length v - length r)%nat /\ (length r < length v)%nat)
  (Hsuf : forall i v p r, item_at i v p r -> exists w, v = w ++ r)
  (Hmove : forall i j v p r, item_at i v p r -> exists p', item_at j v p' r).
Lemma params_spec : forall fuel i e acc, text_ok i e -> (length (vis i e) < fuel)%nat -> exists l, params_loop txt item fuel i e acc = Ret (acc ++ l) /\ params_at item_at i (vis i e) l.
Proof using Hitem Hend Hsuf Hmove.
  clear C. induction fuel as [fuel IH] using lt_wf_ind. intros i e acc H L. destruct fuel as [|fuel]; [lia|]. cbn [params_loop]. rewrite (peek_spec txt i e H). cbn [obind].
  (* at a unit that no white space starts at *)
  assert (At : forall fuel' j g, (fuel' <= fuel)%nat -> text_ok j e -> f_space (vis j e) = 0%nat -> gap (vis i e) g (vis j e) -> j = (i + length g)%nat -> (length (vis j e) < S fuel')%nat ->
    exists l, params_loop txt item (S fuel') j e acc = Ret (acc ++ l) /\ params_at item_at i (vis i e) l).
  { intros f' j g Lf T Z0 G Ej LV. cbn [params_loop]. rewrite (peek_spec txt j e T). cbn [obind]. 
    assert (End : (forall v1 h v2 k p r, vis j e = 59 :: v1 -> gap v1 h v2 -> ~ item_at k v2 p r) -> params_at item_at i (vis i e) []).
    { intros N. apply pa_end. intros g' v1 h v2 k p r G' G2 I. apply gap_iff in G, G'. destruct G as [_ G], G' as [_ G']. rewrite <- G in G'. eapply N; eauto. }
    destruct (vis j e) as [|c v] eqn:V; cbn [hd_error].
    - exists []. rewrite app_nil_r. split; auto. apply End. intros; discriminate.
    - rewrite (space_is txt j e T), V, Z0. cbn [obind]. destruct (c =? 59) eqn:Q.
      + assert (c = 59) by lia. subst c. destruct (vis_next txt _ _ _ _ T V) as [T1 V1]. destruct (gap_case _ _ T1) as (h & v2 & -> & G2 & T2 & V2 & UG). cbn [obind]. rewrite V1 in G2, UG.
        destruct (Hitem _ _ T2) as (r & -> & R). cbn [obind]. rewrite V2 in R. destruct r as [p|].
        * destruct (proj1 (R p) eq_refl) as (t & I). destruct (Hend _ _ _ _ I) as [E1 E2]. destruct (Hsuf _ _ _ _ I) as (w & Ew). rewrite Ew, app_length in E1, E2.
          destruct (vis_app txt _ _ w t T2) as [T3 V3]; [congruence|]. replace (S j + length h + length w)%nat with (hp_end p) in T3, V3 by lia.
          pose proof (gap_length _ _ _ G2) as LG. rewrite Ew, app_length in LG. cbn [length] in LV.
          destruct (IH f' ltac:(lia) (hp_end p) e (acc ++ [p]) T3) as (l & -> & PL). { rewrite V3. lia. }
          exists (p :: l). rewrite <- app_assoc. split; auto. eapply pa_item; [exact G|exact G2| |]. { replace (i + length g + 1 + length h)%nat with (S j + length h)%nat by lia. exact I. }
          replace (i + length (vis i e) - length t)%nat with (hp_end p). { rewrite V3 in PL. exact PL. } pose proof (gap_length _ _ _ G) as LG1. cbn [length] in LG1. lia.
        * exists []. rewrite app_nil_r. split; auto. apply End. intros v1' h' v2' k p r E G' I. injection E as <-. destruct (UG _ _ G') as [-> ->]. destruct (Hmove _ (S j + length h)%nat _ _ _ I) as (p' & I'). assert (None = Some p') by (apply R; eauto). discriminate.
      + exists []. rewrite app_nil_r. split; auto. apply End. intros v1' h' v2' k p r E. injection E as -> _. lia. }
  destruct (f_space (vis i e)) as [|k] eqn:F.
  - specialize (At fuel i [] ltac:(lia) H F). cbn [params_loop] in At. rewrite (peek_spec txt i e H) in At. cbn [obind] in At. apply At; auto. apply gap_iff. rewrite F. auto.
  - destruct (vis i e) as [|c v] eqn:V; [discriminate|]. cbn [hd_error]. rewrite (space_is txt i e H), V, F. cbn [obind]. rewrite <- V in *.
    pose proof (space_le (vis i e)) as SL. rewrite F in SL. destruct (vis_skip txt (S k) i e H SL) as [T W]. destruct fuel as [|fuel]; [lia|].
    apply (At fuel (i + S k)%nat (firstn (S k) (vis i e))); auto.
    + rewrite W, <- F. apply space_once. lia.
    + rewrite W, <- F. apply gap_fun.
    + rewrite firstn_length_le by auto. auto.
    + rewrite W, skipn_length. lia.
Qed.
Lemma params_det : forall i v l, params_at item_at i v l -> (forall i v p r p' r', item_at i v p r -> item_at i v p' r' -> p = p' /\ r = r') -> forall l', params_at item_at i v l' -> l = l'.
Proof using Hmove.
  clear C Hitem Hend Hsuf. intros i v l P D. induction P as [i v g v1 h v2 p r l G1 G2 I P IH|i v N]; intros l' P'.
  - inversion P' as [i' v' g' v1' h' v2' p' r' l2 G1' G2' I' P2|i' v' N']; subst.
    + apply gap_iff in G1, G1'. destruct G1 as [-> E1], G1' as [-> E2]. rewrite <- E1 in E2. injection E2 as ->. apply gap_iff in G2, G2'. destruct G2 as [-> ->], G2' as [-> ->]. destruct (D _ _ _ _ _ _ I I') as [-> ->]. f_equal. auto.
    + exfalso. eapply N'; eauto.
  - inversion P' as [i' v' g' v1' h' v2' p' r' l2 G1' G2' I' P2|i' v' N']; subst; auto. exfalso. eapply N; eauto.
Qed.
End Params.
Lemma params_end_last : forall l x, params_end x l = last_end x l.
Proof using Type.
  intros l x. unfold params_end, last_end. induction l as [|p l IH] using rev_ind; auto. rewrite rev_app_distr, map_app. cbn [rev app map]. rewrite last_last. reflexivity.
Qed.
Lemma value_suffix : forall i v x r, value_at i v x r -> exists w, v = w ++ r.
Proof using Type. intros i v x r [(b & -> & _)|(w & ((-> & _) & _) & _)]; eauto. exists (34 :: b ++ [34]). cbn [app]. rewrite <- app_assoc. reflexivity. Qed.
Lemma value_move : forall i j v x r, value_at i v x r -> exists x', value_at j v x' r.
Proof using Type. intros i j v x r [(b & E & Q & _)|(w & T & _)]; eexists; [left; exists b; eauto|right; exists w; eauto]. Qed.
Lemma parameter_suffix : forall i v p r, parameter_at i v p r -> exists w, v = w ++ r.
Proof using Type.
  intros i v p r (n & v1 & g & v2 & x & ((-> & _) & _) & G & V & _). apply gap_split in G. subst v1. destruct V as [(v3 & -> & V)|(_ & V)]; apply value_suffix in V; destruct V as (w & ->).
  - exists (n ++ g ++ 61 :: w). rewrite <- !app_assoc. reflexivity.
  - exists (n ++ g ++ w). rewrite <- !app_assoc. reflexivity.
Qed.
Lemma parameter_move : forall i j v p r, parameter_at i v p r -> exists p', parameter_at j v p' r.
Proof using Type.
  intros i j v p r (n & v1 & g & v2 & x & T & G & V & _). destruct V as [(v3 & -> & V)|(E & V)].
  - destruct (value_move _ (j + length n + length g + 1) _ _ _ V) as (x' & V'). eexists. exists n, v1, g, (61 :: v3), x'. eauto 8.
  - destruct (value_move _ (j + length n + length g) _ _ _ V) as (x' & V'). eexists. exists n, v1, g, v2, x'. eauto 8.
Qed.
Lemma assignment_suffix : forall s i v p r, assignment_at s i v p r -> exists w, v = w ++ r.
Proof using Type.
  intros s i v p r (n & v1 & g & v2 & h & v3 & x & ((-> & _) & _) & G & G2 & V & _). apply gap_split in G, G2. subst v1 v2. apply value_suffix in V. destruct V as (w & ->). exists (n ++ g ++ 61 :: h ++ w). rewrite <- !app_assoc. cbn [app]. rewrite <- !app_assoc. reflexivity.
Qed.
Lemma cookie_parameter_suffix : forall i v p r, cookie_parameter_at i v p r -> exists w, v = w ++ r.
Proof using Type. intros i v p r (v1 & -> & A). apply assignment_suffix in A. destruct A as (w & ->). exists (36 :: w). reflexivity. Qed.
Lemma cookie_parameter_move : forall i j v p r, cookie_parameter_at i v p r -> exists p', cookie_parameter_at j v p' r.
Proof using Type.
  intros i j v p r (v0 & -> & n & v1 & g & v2 & h & v3 & x & T & G & G2 & V & _). destruct (value_move _ (j + 1 + length n + length g + 1 + length h) _ _ _ V) as (x' & V'). eexists. exists v0. split; auto. exists n, v1, g, v2, h, v3, x'. eauto 8.
Qed.
(** C180 *)
Theorem http_media_type_spec : forall s e, text_ok s e -> exists r, http_media_type txt s e = Ret r /\
  (forall m, r = Some m -> exists m0 t, media_range_at s (vis s e) m0 t /\ hm_type m = hm_type m0 /\ hm_subtype m = hm_subtype m0 /\
      params_at parameter_at (hm_end m0) t (hm_params m) /\ hm_end m = last_end (hm_end m0) (hm_params m)) /\
  (r = None -> forall m0 t, ~ media_range_at s (vis s e) m0 t).
Proof using C.
  intros s e H. unfold http_media_type. destruct (http_media_range_spec s e H) as (r & -> & R). cbn [obind]. destruct r as [m0|].
  - destruct (proj1 (R m0) eq_refl) as (t & M). assert (E : snd (hm_subtype m0) = hm_end m0 /\ text_ok (hm_end m0) e /\ vis (hm_end m0) e = t).
    { pose proof M as M'. destruct M' as (n & v1 & g & v2 & h & v3 & u & ((E1 & _) & _) & G1 & G2 & ((E3 & _) & _) & ->). cbv zeta. cbn [hm_subtype snd hm_end]. split; auto. apply gap_split in G1, G2. subst v1 v2 v3. 
      replace (s + length n + length g + 1 + length h + length u)%nat with (s + length (n ++ g ++ (47 :: h ++ u)%Z))%nat by (rewrite !app_length; cbn [length]; rewrite !app_length; lia). apply vis_app; auto. rewrite E1, <- !app_assoc. cbn [app]. rewrite <- !app_assoc. reflexivity. }
    destruct E as (E & T & V). destruct (params_spec _ parameter_at http_parameter_spec parameter_end parameter_suffix parameter_move (S (e - hm_end m0)) (hm_end m0) e [] T) as (l & -> & P). { pose proof (vis_len txt _ _ T). lia. }
    cbn [obind app]. eexists. split; eauto. split; [|discriminate]. intros m Em. injection Em as <-. exists m0, t. cbn [hm_type hm_subtype hm_params hm_end]. rewrite V in P. rewrite params_end_last, E. auto.
  - exists None. split; auto. split; [discriminate|]. intros _ m0 t M. assert (None = Some m0) by (apply R; eauto). discriminate.
Qed.
(** C181 *)
Theorem http_cookie_spec : forall s e, text_ok s e -> exists r, http_cookie txt s e = Ret r /\
  (forall c l y, r = Some (c, l, y) -> exists t, assignment_at s s (vis s e) c t /\ params_at cookie_parameter_at (hp_end c) t l /\ y = last_end (hp_end c) l) /\
  (r = None -> forall c t, ~ assignment_at s s (vis s e) c t).
Proof using C.
  intros s e H. unfold http_cookie. destruct (assignment_spec s s e H) as (r & -> & R). cbn [obind]. destruct r as [c|].
  - destruct (proj1 (R c) eq_refl) as (t & A). destruct (assignment_end _ _ _ _ _ A) as [E L]. destruct (assignment_suffix _ _ _ _ _ A) as (w & Ew). destruct (vis_app txt _ _ _ _ H Ew) as [T V]. assert (hp_end c = (s + length w)%nat) by (rewrite E, Ew, app_length; lia). rewrite <- H0 in *.
    destruct (params_spec _ cookie_parameter_at http_cookie_parameter_spec cookie_parameter_end cookie_parameter_suffix cookie_parameter_move (S (e - hp_end c)) (hp_end c) e [] T) as (l & -> & P). { pose proof (vis_len txt _ _ T). lia. }
    cbn [obind app]. eexists. split; eauto. split; [|discriminate]. intros c' l' y Em. injection Em as <- <- <-. exists t. rewrite V in P. rewrite params_end_last. auto.
  - exists None. split; auto. split; [discriminate|]. intros _ c t A. assert (None = Some c) by (apply R; eauto). discriminate.
Qed.
End Http.
