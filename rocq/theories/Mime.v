(** MIME types *)
From Coq Require Import ZifyBool ZifyNat.
From Verif Require Import Base StringModel StringSpec StringProofs StringTrim ParserModel ParserSpec ParserProps HtmlTagModel HtmlTagProps HttpModel HttpSpec HttpProps HttpParams HttpUrlSpec HttpUrl MimeModel MimeSpec.
Ltac Zify.zify_post_hook ::= Z.div_mod_to_equations.

Section Mime.
Context (txt : list Z) (sp : Z -> bool).
Local Notation text_ok := (ParserSpec.text_ok txt).
Local Notation vis := (ParserSpec.vis txt).

Lemma run_any : forall (P : Z -> Prop) (stop : Z -> bool) s e, text_ok s e -> (forall c, P c <-> stop c = false) ->
  exists w r, run_all txt stop s e = Ret (s + length w)%nat /\ longest P (vis s e) w r /\ text_ok (s + length w) e /\ vis (s + length w) e = r /\ (forall w' r', longest P (vis s e) w' r' -> w' = w /\ r' = r).
Proof.
  intros P stop s e H HP. set (p := fun c => negb (stop c)).
  assert (LW : forall w r, longest P (vis s e) w r <-> w = take_while p (vis s e) /\ r = drop_while p (vis s e)).
  { intros w r. apply longest_all. intros c. rewrite HP. unfold p. destruct (stop c); cbn; split; congruence. }
  exists (take_while p (vis s e)), (drop_while p (vis s e)). split; [apply run_all_spec; auto|]. split; [apply LW; auto|]. destruct (vis_app txt s e _ _ H (split_while p (vis s e))) as [A B]. split; auto. split; auto. intros w' r' L. apply LW in L. auto.
Qed.
Lemma blank_case : forall i e, text_ok i e -> exists a r, skip_space txt sp (S (e - i)) i e = Ret (i + length a)%nat /\ longest (blank sp) (vis i e) a r /\ text_ok (i + length a) e /\ vis (i + length a) e = r /\
  (forall a' r', longest (blank sp) (vis i e) a' r' -> a' = a /\ r' = r).
Proof.
  intros i e H. assert (SW : skip_space txt sp (S (e - i)) i e = run_all txt (fun c => negb (sp c)) i e).
  { unfold run_all. generalize (S (e - i)). clear H. intros f. revert i. induction f; intros i; auto. cbn [skip_space run]. destruct (peek txt i e) as [[c|]| |]; cbn [obind]; auto. destruct (sp c); cbn [negb]; auto. }
  rewrite SW. apply run_any; auto. intros c. unfold blank. destruct (sp c); cbn; split; congruence.
Qed.
Lemma rd_case : forall s e c, c <> 0 -> text_ok s e -> exists b, (if (s <? e)%nat then let* x := rd txt s in Ret (x =? c) else Ret false) = Ret b /\
  (b = true -> exists r, vis s e = c :: r /\ text_ok (S s) e /\ vis (S s) e = r) /\ (b = false -> ~ first_is c (vis s e)).
Proof.
  intros s e c N H. destruct (sign_case txt s e c H) as (b & E & B1 & B2). exists b. split; [|split; auto; intros F (r & V); eapply B2; eauto].
  rewrite <- E. unfold is_at, peek. destruct (s <? e)%nat; [|reflexivity]. destruct (rd txt s) as [d| |]; cbn [obind]; auto. destruct (d =? 0) eqn:Z; cbn [obind]; auto. f_equal. lia.
Qed.
Lemma key_case : forall l i e, (0 < length l)%nat -> Forall (fun d => 59 < d) l -> text_ok i e -> (i + length l <= e)%nat -> exists b, key_at txt l i = Ret b /\
  (b = true -> exists k t, vis i e = k ++ t /\ Forall2 (fun c d => c = d \/ (97 <= d /\ c = d - 32)) k l /\ text_ok (i + length l) e /\ vis (i + length l) e = t) /\
  (b = false -> forall k t, vis i e = k ++ t -> ~ Forall2 (fun c d => c = d \/ (97 <= d /\ c = d - 32)) k l).
Proof.
  induction l as [|d l IH]; intros i e L F H E; [cbn in L; lia|]. cbn [length] in E. inversion F as [|? ? D F']; subst. cbn [key_at].
  destruct (ParserProps.skipn_at txt i) as (c & N & K). { apply (text_lt txt i e); auto. lia. } unfold rd. rewrite N. cbn [obind].
  assert (V : vis i e = if c =? 0 then [] else c :: vis (S i) e). { unfold ParserSpec.vis. rewrite K. replace (e - i)%nat with (S (e - S i)) by lia. reflexivity. }
  destruct ((c =? d) || ((97 <=? d) && (c =? d - 32))) eqn:Q.
  - assert (Z : (c =? 0) = false) by lia. rewrite Z in V. destruct (vis_next txt _ _ _ _ H V) as [T _]. destruct l as [|d' l].
    + exists true. split; auto. split; [|discriminate]. intros _. exists [c], (vis (S i) e). split; auto. split. { constructor; [lia|constructor]. } cbn [length]. rewrite Nat.add_1_r. auto.
    + destruct (IH (S i) e ltac:(cbn; lia) F' T ltac:(lia)) as (b & -> & B1 & B2). exists b. split; auto. split.
      * intros B. destruct (B1 B) as (k & t & V2 & G & T2 & V3). exists (c :: k), t. split. { rewrite V, V2. reflexivity. } split. { constructor; auto; lia. }
        replace (i + length (d :: d' :: l))%nat with (S i + length (d' :: l))%nat by (cbn [length]; lia). auto.
      * intros B k t V2 G. rewrite V in V2. inversion G as [|c' ? k' ? R G']; subst. cbn [app] in V2. injection V2 as -> V2. eapply B2; eauto.
  - exists false. split; auto. split; [discriminate|]. intros _ k t V2 G. inversion G as [|c' ? k' ? R G']; subst. rewrite V in V2. destruct (c =? 0); [discriminate|]. cbn [app] in V2. injection V2 as -> _. lia.
Qed.
Lemma key_iff : forall k, key k <-> Forall2 (fun c d => c = d \/ (97 <= d /\ c = d - 32)) k str_charset.
Proof.
  intros k. unfold key. split; intros H.
  - revert H. generalize str_charset. intros l H. induction H; constructor; auto. lia.
  - unfold str_charset in *. repeat match goal with H : Forall2 _ _ (_ :: _) |- _ => inversion H; subst; clear H end. match goal with H : Forall2 _ _ [] |- _ => inversion H; subst; clear H end. repeat (constructor; [lia|]). constructor.
Qed.
Lemma key_len : forall k, key k -> length k = 8%nat.
Proof. intros k K. unfold key, str_charset in K. repeat match goal with H : Forall2 _ _ (_ :: _) |- _ => inversion H; subst; clear H end. match goal with H : Forall2 _ _ [] |- _ => inversion H; subst; clear H end. reflexivity. Qed.
Lemma long_det : forall (P : Z -> Prop) (p : Z -> bool) v w r w' r', (forall c, P c <-> p c = true) -> longest P v w r -> longest P v w' r' -> w' = w /\ r' = r.
Proof. intros P p v w r w' r' HP A B. apply (longest_all P p) in A, B; auto. destruct A, B. subst. auto. Qed.
Lemma quote_split : forall (q : Z) x r x' r', ~ In q x -> ~ In q x' -> x ++ q :: r = x' ++ q :: r' -> x' = x /\ r' = r.
Proof.
  induction x as [|c x IH]; intros r [|c' x'] r' N N' E; cbn [app] in E; try (injection E; intros; subst; auto; fail).
  - injection E as -> _. cbn in N'. tauto.
  - injection E as -> _. cbn in N. tauto.
  - injection E as -> E. destruct (IH r x' r') as [-> ->]; auto; cbn in *; tauto.
Qed.
Lemma charset_det : forall i v c r, charset_at sp i v c r -> forall c' r', charset_at sp i v c' r' -> c' = c /\ r' = r.
Proof.
  intros i v c r H c' r' H'. inversion H as [q x t Q N E1|q x Q N E1|v' x t F L E1]; subst; inversion H' as [q' x' t' Q' N' E1'|q' x' Q' N' E1'|v'' x' t' F' L' E1']; subst.
  - destruct (quote_split q x r x' r') as [-> ->]; auto.
  - exfalso. apply N'. apply in_or_app. right. left. reflexivity.
  - destruct (F' q); auto. eexists; eauto.
  - exfalso. apply N. apply in_or_app. right. left. reflexivity.
  - auto.
  - destruct (F' q); auto. eexists; eauto.
  - destruct (F q'); auto. eexists; eauto.
  - destruct (F q'); auto. eexists; eauto.
  - assert (HP : forall d, ~ blank sp d <-> negb (sp d) = true). { intros d. unfold blank. destruct (sp d); cbn; split; congruence. }
    destruct (long_det (fun c => ~ blank sp c) (fun c => negb (sp c)) _ _ _ _ _ HP L L') as [-> ->]. auto.
Qed.
Lemma charset_case : forall i e, text_ok i e -> exists c y r, mime_charset txt sp i e = Ret (c, y) /\ charset_at sp i (vis i e) c r /\ text_ok y e /\ vis y e = r /\ (y = i + length (vis i e) - length r /\ length r <= length (vis i e))%nat.
Proof.
  intros i e H. unfold mime_charset.
  assert (D : (exists q r, vis i e = q :: r /\ is_quote q /\ (if (i <? e)%nat then let* c := rd txt i in Ret ((c =? 34) || (c =? 39), c) else Ret (false, 0)) = Ret (true, q)) \/
              ((forall q, first_is q (vis i e) -> ~ is_quote q) /\ exists z, (if (i <? e)%nat then let* c := rd txt i in Ret ((c =? 34) || (c =? 39), c) else Ret (false, 0)) = Ret (false, z))).
  { destruct (i <? e)%nat eqn:L.
    - destruct (ParserProps.skipn_at txt i) as (c & N & K). { apply (text_lt txt i e); auto. lia. } unfold rd. rewrite N. cbn [obind].
      assert (V : vis i e = if c =? 0 then [] else c :: vis (S i) e). { unfold ParserSpec.vis. rewrite K. replace (e - i)%nat with (S (e - S i)) by lia. reflexivity. }
      destruct ((c =? 34) || (c =? 39)) eqn:Q.
      + left. exists c, (vis (S i) e). rewrite V. replace (c =? 0) with false by lia. split; auto. split; auto. unfold is_quote. lia.
      + right. split; eauto. intros q (r & E) I. rewrite V in E. destruct (c =? 0); [discriminate|]. injection E as -> _. unfold is_quote in I. lia.
    - right. split; eauto. intros q (r & E). unfold ParserSpec.vis in E. replace (e - i)%nat with 0%nat in E by lia. discriminate. }
  destruct D as [(q & r & V & Q & ->)|(F & z & ->)]; cbn [obind].
  - destruct (vis_next txt _ _ _ _ H V) as [T W]. destruct (run_any (fun c => c <> q) (fun c => c =? q) (S i) e T) as (x & t & -> & L & T2 & V2 & _); [lia|]. cbn [obind]. rewrite (peek_spec txt _ _ T2), V2. cbn [obind]. rewrite W in L. destruct L as (E & F & St).
    assert (NI : ~ In q x). { rewrite Forall_forall in F. intros I. exact (F q I eq_refl). } destruct t as [|d t]; cbn [hd_error].
    + exists no_itv, (S i + length x)%nat, []. split; auto. rewrite V, E, app_nil_r. split; [constructor; auto|]. split; auto. split; auto. cbn [length]. lia.
    + cbn [stops] in St. assert (d = q) by lia. subst d. destruct (vis_next txt _ _ _ _ T2 V2) as [T3 V3]. exists (S i, (S i + length x)%nat), (S (S i + length x)), t. split; auto. rewrite V, E. split. { replace (S i) with (i + 1)%nat by lia. constructor; auto. } split; auto. split; auto. cbn [length]. rewrite app_length. cbn [length]. lia.
  - destruct (run_any (fun c => ~ blank sp c) sp i e H) as (x & t & -> & L & T2 & V2 & _). { intros c. unfold blank. destruct (sp c); intuition congruence. } cbn [obind]. exists (i, (i + length x)%nat), (i + length x)%nat, t. split; auto. split; [constructor; auto|]. split; auto. split; auto. destruct L as (E & _). rewrite E, app_length. lia.
Qed.
Lemma options_det : forall i v c r, options_at sp i v c r -> forall c' r', options_at sp i v c' r' -> c' = c /\ r' = r.
Proof.
  assert (LD : forall v w r w' r', longest (blank sp) v w r -> longest (blank sp) v w' r' -> w' = w /\ r' = r). { intros v w r w' r'. apply (long_det _ sp). reflexivity. }
  intros i v c r H c' r' H'. inversion H as [v' N|v' w t L NK|v' w k t c0 r0 L K Cs]; subst; inversion H' as [v2 N'|v2 w' t' L' NK'|v2 w' k' t' c0' r0' L' K' Cs']; subst.
  - auto.
  - destruct N. eexists; eauto.
  - destruct N. eexists; eauto.
  - destruct N'. eexists; eauto.
  - destruct (LD _ _ _ _ _ L L') as [-> ->]. auto.
  - destruct (LD _ _ _ _ _ L L') as [-> E]. destruct (NK _ _ (eq_sym E) K').
  - destruct N'. eexists; eauto.
  - destruct (LD _ _ _ _ _ L L') as [-> E]. destruct (NK' _ _ E K).
  - destruct (LD _ _ _ _ _ L L') as [-> E]. assert (LK : length k = length k') by (rewrite (key_len _ K), (key_len _ K'); auto). assert (k' = k /\ t' = t) as [-> ->]. { apply app_eq_app in E. destruct E as (z & [(A & B)|(A & B)]); subst; rewrite app_length in LK; destruct z; cbn [length] in LK; try lia; rewrite app_nil_r; auto. }
    eapply charset_det; eauto.
Qed.
Lemma mime_det : forall i v m r, mime_at sp i v m r -> forall m' r', mime_at sp i v m' r' -> m' = m /\ r' = r.
Proof.
  assert (LD : forall v w r w' r', longest (type_char sp) v w r -> longest (type_char sp) v w' r' -> w' = w /\ r' = r). { intros v w r w' r'. apply (long_det _ (fun c => negb (mime_stop sp c))). intros c. unfold type_char, blank, mime_stop. destruct (sp c); lia. }
  intros i v m r (b & x & u & t & c & L & N & L2 & N2 & O & ->) m' r' (b' & x' & u' & t' & c' & L' & N' & L2' & N2' & O' & ->). destruct (LD _ _ _ _ _ L L') as [-> E]. injection E as ->. destruct (LD _ _ _ _ _ L2 L2') as [-> ->]. destruct (options_det _ _ _ _ O _ _ O') as [-> ->]. auto.
Qed.

(** A match finds exactly the MIME type that starts at start. *)
Theorem mime_type_spec : forall s e, text_ok s e -> exists o, mime_type txt sp s e = Ret o /\ forall m, o = Some m <-> exists r, mime_at sp s (vis s e) m r.
Proof.
  intros s e H. assert (MS : forall c, type_char sp c <-> mime_stop sp c = false). { intros c. unfold type_char, blank, mime_stop. destruct (sp c); lia. }
  assert (RES : (mime_type txt sp s e = Ret None /\ forall m r, ~ mime_at sp s (vis s e) m r) \/ exists m r, mime_type txt sp s e = Ret (Some m) /\ mime_at sp s (vis s e) m r).
  2: { destruct RES as [(-> & N)|(m & r & -> & M)]; eexists; (split; [reflexivity|]); intros m'; split.
       - discriminate.
       - intros (r & M). destruct (N _ _ M).
       - intros E. injection E as <-. eauto.
       - intros (r' & M'). destruct (mime_det _ _ _ _ M _ _ M') as [-> _]. auto. }
  unfold mime_type. destruct (run_any _ _ s e H MS) as (b & r1 & -> & L1 & T1 & V1 & U1). cbn [obind]. destruct b as [|b0 b].
  { left. cbn [length]. replace (s + 0 <=? s)%nat with true by lia. split; auto. intros m r (b' & x & u & t & c & L & N & _). destruct (U1 _ _ L) as [-> _]. congruence. }
  assert (NB : b0 :: b <> []) by discriminate. remember (b0 :: b) as bs. replace (s + length bs <=? s)%nat with false by (subst bs; cbn [length]; lia). clear b0 b Heqbs.
  replace (if (e <=? s + length bs)%nat then Ret false else let* c := rd txt (s + length bs) in Ret (c =? 47)) with (if (s + length bs <? e)%nat then let* c := rd txt (s + length bs) in Ret (c =? 47) else Ret false).
  2: { destruct (s + length bs <? e)%nat eqn:A, (e <=? s + length bs)%nat eqn:B; auto; lia. }
  destruct (rd_case _ e 47 ltac:(lia) T1) as (sl & -> & S1 & S2). cbn [obind]. destruct sl.
  2: { left. split; auto. intros m r (b' & x & u & t & c & L & N & _). destruct (U1 _ _ L) as [-> E]. apply (S2 eq_refl). rewrite V1. eexists; eauto. }
  destruct (S1 eq_refl) as (x & V2 & T2 & W2). rewrite V1 in V2. rewrite V2 in L1, U1, V1. clear V2 r1. destruct (run_any _ _ _ e T2 MS) as (u & t & -> & L2 & T3 & V3 & U2). cbn [obind]. rewrite W2 in L2, U2. destruct u as [|u0 u].
  { left. cbn [length]. replace (_ <=? _)%nat with true by lia. split; auto. intros m r (b' & x' & u & t' & c & L & N & L2' & N2 & _). destruct (U1 _ _ L) as [-> E]. injection E as ->. destruct (U2 _ _ L2') as [-> _]. congruence. }
  assert (NU : u0 :: u <> []) by discriminate. remember (u0 :: u) as us. replace (S (s + length bs) + length us <=? S (s + length bs))%nat with false by (subst us; cbn [length]; lia). clear u0 u Hequs.
  right. assert (EV : vis s e = bs ++ 47 :: us ++ t). { destruct L1 as (-> & _). destruct L2 as (-> & _). reflexivity. }
  assert (LV : length (vis s e) = (length bs + S (length us + length t))%nat). { rewrite EV, app_length. cbn [length]. rewrite app_length. lia. }
  destruct (rd_case _ e 59 ltac:(lia) T3) as (se & -> & Se1 & Se2). cbn [obind]. destruct se.
  - destruct (Se1 eq_refl) as (v4 & V4 & T4 & W4). rewrite V3 in V4. rewrite V4 in *. clear V4 t. destruct (blank_case _ e T4) as (w & r5 & -> & L5 & T5 & V5 & U5). cbn [obind]. rewrite W4 in L5, U5. cbn [length] in LV. assert (LV4 : length v4 = (length w + length r5)%nat). { destruct L5 as (-> & _). apply app_length. }
    assert (NOK : (forall k t, vis (S (S (s + length bs) + length us) + length w) e = k ++ t -> ~ key k) -> mime_at sp s (vis s e) (Mime (s, (s + length bs)%nat) (S (s + length bs), (S (s + length bs) + length us)%nat) no_itv (S (S (s + length bs) + length us) + length w)) r5).
    { rewrite V5. intros NK. exists bs, x, us, (59 :: v4), no_itv. do 4 (split; auto). split; [eapply op_other; eauto|]. rewrite LV. f_equal; try lia; f_equal; lia. }
    set (j := (S (S (s + length bs) + length us) + length w)%nat) in *. destruct (j + 7 <? e)%nat eqn:J.
    + destruct (key_case str_charset j e) as (kb & -> & K1 & K2). { cbn; lia. } { unfold str_charset. repeat (constructor; [lia|]). constructor. } { auto. } { cbn [length str_charset]. lia. }
      cbn [obind]. destruct kb.
      * destruct (K1 eq_refl) as (k & t6 & V6 & F6 & T6 & W6). apply key_iff in F6. change (length str_charset) with 8%nat in *. destruct (charset_case _ e T6) as (c & y & r & -> & Cs & Ty & Vy & Ey). cbn [obind]. rewrite W6 in Cs, Ey. exists (Mime (s, (s + length bs)%nat) (S (s + length bs), (S (s + length bs) + length us)%nat) c y), r. split; auto.
        rewrite V5 in V6. rewrite V6 in *. clear V6 r5. exists bs, x, us, (59 :: v4), c. do 4 (split; auto). split. { eapply op_charset; eauto. rewrite (key_len _ F6). replace (s + length bs + 1 + length us + 1 + length w + 8)%nat with (j + 8)%nat by (unfold j; lia). auto. }
        rewrite LV, LV4, app_length, (key_len _ F6). f_equal; unfold j in *; try lia; f_equal; lia.
      * eexists. exists r5. split; [reflexivity|]. apply NOK. intros k t6 V6 K. apply key_iff in K. eapply K2; eauto.
    + eexists. exists r5. split; [reflexivity|]. apply NOK. intros k t6 V6 K. pose proof (vis_len txt j e T5) as VL. rewrite V6, app_length, (key_len _ K) in VL. lia.
  - eexists. exists t. split; [reflexivity|]. exists bs, x, us, t, no_itv. do 4 (split; auto). split. { constructor. rewrite <- V3. auto. } rewrite LV. f_equal; try lia; f_equal; lia.
Qed.
End Mime.
