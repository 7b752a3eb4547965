(** HTTP parsers: languages, weights, agents, protocols. *)
From Coq Require Import ZifyBool ZifyNat.
From Verif Require Import Base StringModel StringSpec StringProofs StringTrim StringProps ParserModel ParserSpec ParserProps HtmlTagModel HtmlTagProps HttpModel HttpSpec HttpProps HttpParams HttpUrlSpec HttpUrl HttpMsgSpec.
Ltac Zify.zify_post_hook ::= Z.div_mod_to_equations.

Section Http.
Set Default Proof Using "Type".
Context (txt : list Z) (C : chars txt).
Local Notation text_ok := (ParserSpec.text_ok txt).
Local Notation vis := (ParserSpec.vis txt).

Lemma alpha_ok : forall c, -128 <= c <= 127 -> c <> 0 -> alpha c <-> negb (isalpha c) = false.
Proof using Type. clear C. intros c _ _. unfold alpha, isalpha, islower, isupper. lia. Qed.
Lemma alpha_det : forall v w r w' r', longest alpha v w r -> longest alpha v w' r' -> w' = w /\ r' = r.
Proof using Type. clear C. intros v w r w' r' L L'. apply (longest_all alpha isalpha) in L, L'; try (intros c; unfold alpha, isalpha, islower, isupper; lia). destruct L as [-> ->], L' as [-> ->]. auto. Qed.
Lemma lang_first : forall i v l r, language_at i v l r -> exists c t, v = c :: t /\ alpha c.
Proof using Type. clear C. intros i v l r H. inversion H as [? ? w ? (E & F & _) N|? ? w ? ? ? (E & F & _) N]; subst; (destruct w as [|c w]; [congruence|]); inversion F; subst; eexists; eexists; split; cbn [app]; eauto. Qed.
Lemma lang_det : forall i v l r, language_at i v l r -> forall l' r', language_at i v l' r' -> l' = l /\ r' = r.
Proof using Type.
  clear C. intros i v l r H. induction H as [i v w r L N S|i v w t l r L N P IH]; intros l' r' H'; inversion H' as [i' v' w' r2 L' N' S'|i' v' w' t' l2 r2 L' N' P']; subst; destruct (alpha_det _ _ _ _ _ L L') as [-> E].
  - subst. auto.
  - subst r. destruct (lang_first _ _ _ _ P') as (c & u & -> & A). destruct (S c u eq_refl A).
  - subst r'. destruct (lang_first _ _ _ _ P) as (c & u & -> & A). destruct (S' c u eq_refl A).
  - injection E as ->. destruct (IH _ _ P') as [-> ->]. auto.
Qed.
Lemma lang_some : forall m k v, (length v <= m)%nat -> (exists c u, v = c :: u /\ alpha c) -> exists l r, language_at k v l r.
Proof using Type.
  clear C. set (p := isalpha). induction m; intros k v Lm (c' & u' & -> & A'); [cbn [length] in Lm; lia|]. set (w' := take_while p (c' :: u')).
  assert (L' : longest alpha (c' :: u') w' (drop_while p (c' :: u'))). { apply (longest_all alpha p); auto. intros x. unfold p, alpha, isalpha, islower, isupper. lia. }
  assert (N' : w' <> []). { unfold w'. cbn [take_while]. replace (p c') with true. { discriminate. } unfold p, alpha, isalpha, islower, isupper in *. lia. }
  destruct (drop_while p (c' :: u')) as [|d r1] eqn:Er. { exists [(k, k + length w')%nat], []. constructor; auto. intros; discriminate. }
  destruct (Z.eq_dec d 45) as [->|Nd]. 2: { exists [(k, k + length w')%nat], (d :: r1). constructor; auto. intros c2 t2 E2. injection E2 as -> _. lia. }
  destruct r1 as [|c2 r2]. { exists [(k, k + length w')%nat], [45]. constructor; auto. intros; discriminate. }
  destruct (isalpha c2) eqn:A2.
  - destruct (IHm (k + length w' + 1)%nat (c2 :: r2)) as (l & r & P). { destruct L' as (E' & _). apply (f_equal (@length Z)) in E'. rewrite app_length in E'. cbn [length] in *. destruct w'; [congruence|]. cbn [length] in E'. lia. } { exists c2, r2. split; auto. unfold alpha, isalpha, islower, isupper in *. lia. }
    eexists. exists r. eapply lang_more; eauto.
  - exists [(k, k + length w')%nat], (45 :: c2 :: r2). constructor; auto. intros c3 t3 E3. injection E3 as -> ->. unfold alpha, isalpha, islower, isupper in *. lia.
Qed.
Lemma lang_loop_is : forall fuel i e acc, text_ok i e -> (length (vis i e) < fuel)%nat ->
  exists l, lang_loop txt fuel i e acc = Ret (acc ++ l) /\ ((l = [] /\ forall k l r, ~ language_at k (vis i e) l r) \/ exists r, language_at i (vis i e) l r).
Proof using C.
  induction fuel; intros i e acc H L; [lia|]. cbn [lang_loop]. destruct (run_case txt C alpha (fun c => negb (isalpha c)) i e H alpha_ok) as (w & r & -> & Lw & T1 & V1 & U). cbn [obind]. rewrite lt_nil.
  assert (Dn : w = [] \/ w <> []) by (destruct w; [left|right]; congruence). destruct Dn as [->|Nn].
  { exists []. rewrite app_nil_r. split; auto. left. split; auto. intros k l r' P. destruct (lang_first _ _ _ _ P) as (c & t & E & A). destruct Lw as (E2 & _ & S). cbn [app] in E2. rewrite E in E2. rewrite <- E2 in S. cbn [stops] in S. tauto. }
  replace (match w with [] => false | _ => true end) with true by (destruct w; congruence). assert (Ev : vis i e = w ++ r) by apply Lw. destruct (sign_case txt _ _ 45 T1) as (b & -> & B1 & B2). cbn [obind]. rewrite V1 in B1, B2. destruct b.
  - destruct (B1 eq_refl) as (t & -> & T2 & V2). destruct (IHfuel (S (i + length w)) e (acc ++ [(i, (i + length w)%nat)]) T2) as (l & -> & P). { rewrite V2. rewrite Ev, app_length in L. cbn [length] in L. lia. }
    exists ((i, (i + length w)%nat) :: l). rewrite <- app_assoc. split; auto. right. rewrite V2 in P. destruct P as [(-> & N)|(r & P)].
    + exists (45 :: t). constructor; auto. intros c u E A. injection E as ->. destruct (lang_some (length (c :: u)) 0%nat (c :: u) (Nat.le_refl _) (ex_intro _ c (ex_intro _ u (conj eq_refl A)))) as (l & r & P).
      destruct (N _ _ _ P).
    + exists r. eapply lang_more; [rewrite Ev in Lw; rewrite Ev; exact Lw|auto|]. replace (i + length w + 1)%nat with (S (i + length w)) by lia. auto.
  - exists [(i, (i + length w)%nat)]. split; auto. right. exists r. constructor; auto. intros c t E. exfalso. eapply B2; eauto.
Qed.
(** C185 *)
Theorem http_language_spec : forall s e, text_ok s e -> exists r, http_language txt s e = Ret r /\ forall l y, r = Some (l, y) <-> (exists t, language_at s (vis s e) l t /\ y = (s + length (vis s e) - length t)%nat).
Proof using C.
  intros s e H. unfold http_language. destruct (lang_loop_is (S (e - s)) s e [] H) as (l & -> & P). { pose proof (vis_len txt s e H). lia. } cbn [obind app]. eexists. split; [reflexivity|]. destruct P as [(-> & N)|(r & P)].
  { intros l y. cbn [rev]. split; [discriminate|]. intros (t & P & _). destruct (N _ _ _ P). }
  assert (E : exists k, hd_error (rev l) = Some k /\ snd k = (s + length (vis s e) - length r)%nat).
  { clear - P. induction P as [i v w r L N S|i v w t l r L N P IH].
    - eexists. split; [reflexivity|]. cbn [snd]. destruct L as (-> & _). rewrite app_length. lia.
    - destruct IH as (k & E1 & E2). exists k. split. { cbn [rev]. destruct (rev l); [discriminate|]. exact E1. } rewrite E2. destruct L as (-> & _). rewrite app_length. cbn [length]. assert (length r <= length t)%nat. 2: lia.
      clear - P. induction P as [? ? ? ? (-> & _)|? ? ? ? ? ? (-> & _) _ _ IH]; rewrite app_length; cbn [length] in *; lia. }
  destruct E as (k & E1 & E2). destruct (rev l) as [|k' ?]; [discriminate|]. injection E1 as ->. intros l' y. split.
  - intros E. injection E as <- <-. exists r. auto.
  - intros (t & P' & ->). destruct (lang_det _ _ _ _ P _ _ P') as [-> ->]. rewrite E2. auto.
Qed.

(** ** Weights *)
Lemma u64_step : forall a b, u64 (u64 a * 10 + b) = u64 (a * 10 + b).
Proof using Type. clear C. intros a b. unfold u64. rewrite Z.add_mod, Z.mul_mod_idemp_l, <- Z.add_mod by lia. reflexivity. Qed.
Lemma u64_mul : forall a b, u64 (u64 a * b) = u64 (a * b).
Proof using Type. clear C. intros a b. unfold u64. apply Z.mul_mod_idemp_l. lia. Qed.
Lemma fold_u64 : forall d a, fold_left (fun v c => u64 (v * 10 + digit_value c)) d (u64 a) = u64 (fold_left (fun v c => v * 10 + digit_value c) d a).
Proof using Type. clear C. induction d as [|c d IH]; intros a; cbn [fold_left]; auto. rewrite u64_step. apply IH. Qed.
Lemma fraction_is : forall fuel i e num den, text_ok i e -> (length (vis i e) < fuel)%nat -> let d := take_while isdig (vis i e) in
  fraction_loop txt fuel i e (u64 num) (u64 den) = Ret (u64 (fold_left (fun v c => v * 10 + digit_value c) d num), u64 (den * 10 ^ Z.of_nat (length d)), (i + length d)%nat).
Proof using Type.
  clear C. induction fuel; intros i e num den H L; [lia|]. cbv zeta. cbn [fraction_loop]. rewrite (peek_spec txt i e H). cbn [obind]. destruct (vis i e) as [|c r] eqn:V; cbn [hd_error take_while].
  { cbn [fold_left length]. rewrite Nat.add_0_r. change (10 ^ Z.of_nat 0) with 1. rewrite Z.mul_1_r. reflexivity. }
  change ((48 <=? c) && (c <=? 57)) with (isdig c). destruct (isdig c) eqn:D.
  - destruct (vis_next txt _ _ _ _ H V) as [T W]. cbn [length] in L. rewrite u64_step, u64_mul, IHfuel; auto; rewrite W; [|lia]. cbn [fold_left length].
    assert (E : digit_value c = c - 48) by (unfold digit_value; unfold isdig in D; rewrite D; auto). rewrite E. rewrite Nat2Z.inj_succ, Z.pow_succ_r by lia. rewrite <- Nat.add_succ_comm. rewrite Z.mul_assoc. reflexivity.
  - cbn [fold_left length]. rewrite Nat.add_0_r. change (10 ^ Z.of_nat 0) with 1. rewrite Z.mul_1_r. reflexivity.
Qed.
Lemma weight_is : forall fuel i e int, text_ok i e -> (length (vis i e) < fuel)%nat -> let d := take_while isdig (vis i e) in let t := drop_while isdig (vis i e) in
  weight_loop txt fuel i e (u64 int) = Ret (let n := u64 (fold_left (fun v c => v * 10 + digit_value c) d int) in
    if hdz t 46 then let f := take_while isdig (tl t) in (n, u64 (numeral_value 10 f), u64 (10 ^ Z.of_nat (length f)), (i + length d + 1 + length f)%nat) else (n, 0, 1, (i + length d)%nat)).
Proof using Type.
  clear C. induction fuel; intros i e int H L; [lia|]. cbv zeta. cbn [weight_loop]. rewrite (peek_spec txt i e H). cbn [obind]. destruct (vis i e) as [|c r] eqn:V; cbn [hd_error take_while drop_while].
  { cbn [fold_left length hdz]. rewrite Nat.add_0_r. reflexivity. }
  change ((48 <=? c) && (c <=? 57)) with (isdig c). destruct (vis_next txt _ _ _ _ H V) as [T W]. cbn [length] in L. destruct (isdig c) eqn:D.
  - rewrite u64_step, IHfuel; auto; rewrite W; [|lia]. cbv zeta. cbn [fold_left length]. assert (E : digit_value c = c - 48) by (unfold digit_value; unfold isdig in D; rewrite D; auto). rewrite E.
    destruct (hdz (drop_while isdig r) 46); f_equal; f_equal; lia.
  - cbn [fold_left length hdz tl]. rewrite Nat.add_0_r. destruct (c =? 46); auto. pose proof (fraction_is (S (e - i)) (S i) e 0 1 T) as F. cbv zeta in F. change (u64 0) with 0 in F. change (u64 1) with 1 in F. rewrite F. 2: { rewrite W. pose proof (vis_len txt _ _ H). rewrite V in H0. cbn [length] in H0. lia. }
    cbn [obind fst snd]. rewrite W, Z.mul_1_l. unfold numeral_value. do 2 f_equal. lia.
Qed.
Lemma weight_det : forall i v w r w' r', weight_at i v w r -> weight_at i v w' r' -> w' = w /\ r' = r.
Proof using Type.
  clear C. intros i v w r w' r' (d & t & L & P) (d' & t' & L' & P'). apply digit_run in L, L'. destruct L as [-> ->], L' as [-> ->].
  destruct P as [(f & E & Lf & ->)|(N & -> & _ & ->)], P' as [(f' & E' & Lf' & ->)|(N' & -> & _ & ->)]; auto.
  - rewrite E in E'. injection E' as E'. rewrite E' in Lf. apply digit_run in Lf, Lf'. destruct Lf as [-> ->]. destruct Lf' as [Lf1 Lf2]. rewrite <- Lf1, <- Lf2. auto.
  - destruct N'. eexists; eauto.
  - destruct N. eexists; eauto.
Qed.
Lemma weight_case : forall s e, text_ok s e ->
  (http_weight txt s e = Ret None /\ forall k w r, ~ weight_at k (vis s e) w r) \/
  (exists w r, http_weight txt s e = Ret (Some w) /\ weight_at s (vis s e) w r /\ text_ok (snd (hw_itv w)) e /\ vis (snd (hw_itv w)) e = r /\ snd (hw_itv w) = (s + length (vis s e) - length r)%nat).
Proof using Type.
  clear C. intros s e H. unfold http_weight. pose proof (weight_is (S (e - s)) s e 0 H) as E. cbv zeta in E. change (u64 0) with 0 in E. rewrite E by (pose proof (vis_len txt s e H); lia). clear E. cbn [obind].
  set (d := take_while isdig (vis s e)). set (t := drop_while isdig (vis s e)). fold (numeral_value 10 d). assert (Ev : vis s e = d ++ t) by apply split_while. assert (Ld : longest digit_char (vis s e) d t) by (apply digit_run; auto).
  destruct (hdz t 46) eqn:Q.
  - right. destruct t as [|c u] eqn:Et; [discriminate|]. cbn [hdz] in Q. assert (c = 46) by lia. subst c. cbn [tl fst snd]. set (f := take_while isdig u). replace (s <? s + length d + 1 + length f)%nat with true by lia. eexists. exists (drop_while isdig u). split; [reflexivity|]. cbn [hw_itv snd].
    assert (Eu : u = f ++ drop_while isdig u) by apply split_while. split. { exists d, (46 :: u). split; auto. left. exists f. rewrite <- Eu. split; auto. split; auto. apply digit_run; auto. }
    assert (Ew : vis s e = (d ++ 46 :: f) ++ drop_while isdig u) by (rewrite <- app_assoc; cbn [app]; rewrite <- Eu; exact Ev). destruct (vis_app txt _ _ _ _ H Ew) as [T W]. rewrite app_length in T, W. cbn [length] in T, W. replace (s + length d + 1 + length f)%nat with (s + (length d + S (length f)))%nat by lia. split; auto. split; auto.
    rewrite Ew, !app_length. cbn [length]. lia.
  - cbn [fst snd]. rewrite lt_nil. assert (Nf : ~ first_is 46 t). { intros (x & E). rewrite E in Q. discriminate. } assert (Dn : d = [] \/ d <> []) by (destruct d; [left|right]; congruence). destruct Dn as [Ed|Nd].
    + rewrite Ed. left. split; auto. intros k w r (d' & t' & L' & P'). apply digit_run in L'. destruct L' as [-> ->]. fold d t in P'. destruct P' as [(f & E & _)|(_ & _ & N & _)]; [destruct Nf; eexists; eauto|congruence].
    + replace (match d with [] => false | _ => true end) with true by (destruct d; congruence). right. eexists. exists t. split; [reflexivity|]. cbn [hw_itv snd]. split. { exists d, t. split; auto. }
      destruct (vis_app txt _ _ _ _ H Ev) as [T W]. split; auto. split; auto. rewrite Ev, app_length. lia.
Qed.
(** C186 *)
Theorem http_weight_spec : forall s e, text_ok s e -> exists r, http_weight txt s e = Ret r /\ forall w, r = Some w <-> exists t, weight_at s (vis s e) w t.
Proof using Type.
  clear C. intros s e H. destruct (weight_case s e H) as [(-> & N)|(w & t & -> & P & _)]; eexists; (split; [reflexivity|]); intros q; split.
  - discriminate.
  - intros (t & P). destruct (N _ _ _ P).
  - intros E. injection E as <-. eauto.
  - intros (t' & P'). destruct (weight_det _ _ _ _ _ _ P P') as [-> _]. auto.
Qed.
(** ** Agents *)
Lemma nonwhite_ok : forall c, -128 <= c <= 127 -> c <> 0 -> nonwhite c <-> isspace c = false.
Proof using Type. clear C. intros c _ _. unfold nonwhite, is_white. rewrite isspace_white. destruct (white c); split; congruence. Qed.
Lemma nonsign_ok : forall k c, -128 <= c <= 127 -> c <> 0 -> (nonwhite c /\ c <> k) <-> (c =? k) || isspace c = false.
Proof using Type. clear C. intros k c A B. rewrite nonwhite_ok by auto. destruct (isspace c); lia. Qed.
(** C187: [old] is what the object held before; it is given again if there is no version *)
Theorem http_agent_spec : forall old s e, text_ok s e -> exists r, http_agent txt old s e = Ret r /\
  forall ty x y, r = Some (ty, x, y) <-> exists ver, agent_at s (vis s e) ty ver y /\ x = match ver with Some k => k | None => old end.
Proof using C.
  intros old s e H. unfold http_agent. destruct (run_case txt C (fun c => nonwhite c /\ c <> 47) (fun c => (c =? 47) || isspace c) s e H (nonsign_ok 47)) as (n & t & -> & L & T1 & V1 & U). cbn [obind]. assert (Ev : vis s e = n ++ t) by apply L.
  destruct (sign_case txt _ _ 47 T1) as (b & -> & B1 & B2). cbn [obind]. rewrite V1 in B1, B2. destruct b.
  - destruct (B1 eq_refl) as (u & -> & T2 & V2). destruct (run_case txt C nonwhite isspace _ e T2 nonwhite_ok) as (x & r & -> & Lx & T3 & V3 & Ux). cbn [obind]. rewrite V2 in Lx, Ux. eexists. split; [reflexivity|].
    intros ty x0 y. split.
    + intros E. injection E as <- <- <-. exists (Some (S (s + length n), (S (s + length n) + length x)%nat)). split; auto. exists n, (47 :: u). split; auto. split; auto. left. exists u, x, r. split; auto. split; auto. cbv zeta. replace (s + length n + 1)%nat with (S (s + length n)) by lia. auto.
    + intros (ver & (n' & t' & L' & -> & P) & ->). destruct (U _ _ L') as [-> ->]. destruct P as [(u' & x' & r' & E & Lx' & -> & ->)|(N & _)]; [|destruct N; eexists; eauto]. injection E as <-. destruct (Ux _ _ Lx') as [-> ->]. replace (s + length n + 1)%nat with (S (s + length n)) by lia. reflexivity.
  - assert (F : ~ first_is 47 t). { intros (x & E). eapply B2; eauto. }
    eexists. split; [reflexivity|]. rewrite lt_nil. intros ty x0 y. split.
    + intros E. destruct n as [|c n]; [discriminate|]. injection E as <- <- <-. exists None. split; auto. exists (c :: n), t. split; auto. split; auto. right. split; auto. split; [discriminate|auto].
    + intros (ver & (n' & t' & L' & -> & P) & ->). destruct (U _ _ L') as [-> ->]. destruct P as [(u' & x' & r' & E & _)|(_ & N & -> & ->)]; [destruct F; eexists; eauto|]. destruct n; [congruence|auto].
Qed.
End Http.
