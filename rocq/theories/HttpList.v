(** HTTP parsers: weighted values and collections of values. *)
From Coq Require Import ZifyBool ZifyNat Sorted Permutation.
From Verif Require Import Base StringModel StringSpec StringProofs StringTrim StringProps ParserModel ParserSpec ParserProps HtmlTagModel HtmlTagProps HttpModel HttpSpec HttpProps HttpParams HttpUrlSpec HttpUrl HttpMsgSpec HttpMsg HttpReq HttpReq2.
Ltac Zify.zify_post_hook ::= Z.div_mod_to_equations.

Section Http.
Set Default Proof Using "Type".
Context (txt : list Z).
Local Notation text_ok := (ParserSpec.text_ok txt).
Local Notation vis := (ParserSpec.vis txt).

Lemma white_case : forall i e, text_ok i e -> exists a r, skip_space txt isspace (S (e - i)) i e = Ret (i + length a)%nat /\ longest is_white (vis i e) a r /\ text_ok (i + length a) e /\ vis (i + length a) e = r /\
  (forall a' r', longest is_white (vis i e) a' r' -> a' = a /\ r' = r).
Proof.
  intros i e H. rewrite skip_white; auto. 2: { pose proof (vis_len txt i e H). lia. } exists (take_while white (vis i e)), (drop_while white (vis i e)). assert (L : longest is_white (vis i e) (take_while white (vis i e)) (drop_while white (vis i e))) by (apply white_run; auto).
  split; auto. split; auto. destruct (vis_app txt _ _ _ _ H (proj1 L)) as [T V]. split; auto. split; auto. intros a' r' L'. apply white_run in L'. auto.
Qed.
Lemma white_stop : forall a c t, Forall is_white a -> nonwhite c -> longest is_white (a ++ c :: t) a (c :: t).
Proof. intros a c t F N. split; auto. Qed.

(** ** An asterisk *)
Definition star_case (asterisk : nat -> nat -> outcome (option nat)) (star : list Z -> list Z -> list Z -> Prop) : Prop := forall s e, text_ok s e ->
  (asterisk s e = Ret None /\ forall u r, ~ star (vis s e) u r) \/
  (exists u r, asterisk s e = Ret (Some (s + length u)%nat) /\ star (vis s e) u r /\ vis s e = u ++ r /\ text_ok (s + length u) e /\ vis (s + length u) e = r).
Lemma asterisk_case : star_case (http_asterisk txt) star_at.
Proof.
  intros s e H. unfold http_asterisk. destruct (sign_case txt _ _ 42 H) as (b & -> & B1 & B2). cbn [obind]. destruct b.
  - right. destruct (B1 eq_refl) as (r & E & T & V). exists [42], r. cbn [length]. replace (s + 1)%nat with (S s) by lia. split; auto. split; [split; auto|]. split; auto.
  - left. split; auto. intros u r (E & ->). exact (B2 eq_refl _ E).
Qed.
(** C191 *)
Theorem http_any_type_spec : forall s e, text_ok s e -> exists r, http_any_type txt s e = Ret r /\
  forall y, r = Some y <-> exists u t, any_at (vis s e) u t /\ y = (s + length u)%nat.
Proof.
  intros s e H. unfold http_any_type, and_then. destruct (sign_case txt _ _ 42 H) as (b & E1 & B1 & B2). rewrite E1. cbn [obind]. destruct b.
  2: { cbn [obind]. eexists. split; [reflexivity|]. intros y. split; [discriminate|]. intros (u & t & (E & [-> | (-> & _)]) & _); destruct (B2 eq_refl _ E). }
  destruct (B1 eq_refl) as (r & E & T & V). destruct (sign_case txt _ _ 47 T) as (b & -> & C1 & C2). cbn [obind]. rewrite V in C1, C2.
  assert (One : (forall t, r <> 47 :: 42 :: t) -> exists q, Ret (Some (S s)) = Ret q /\ forall y, q = Some y <-> exists u t, any_at (vis s e) u t /\ y = (s + length u)%nat).
  { intros N. eexists. split; [reflexivity|]. intros y. split. { intros Q. injection Q as <-. exists [42], r. split; [split; auto|]. cbn [length]. lia. } intros (u & t & (E' & [-> | (-> & _)]) & ->). { rewrite E in E'. cbn [app] in E'. injection E' as E'. destruct (N _ E'). } cbn [length]. f_equal. lia. }
  destruct b. 2: { cbn [obind]. apply One. intros t Q. exact (C2 eq_refl _ Q). }
  destruct (C1 eq_refl) as (r1 & -> & T1 & V1). destruct (sign_case txt _ _ 42 T1) as (b & -> & D1 & D2). cbn [obind]. rewrite V1 in D1, D2. destruct b; cbn [obind]. 2: { apply One. intros t Q. injection Q as Q. exact (D2 eq_refl _ Q). }
  destruct (D1 eq_refl) as (r2 & -> & _). eexists. split; [reflexivity|]. intros y. split. { intros Q. injection Q as <-. exists [42; 47; 42], r2. split; [split; auto|]. reflexivity. }
  intros (u & t & (E' & [-> | (-> & N)]) & ->). { reflexivity. } rewrite E in E'. cbn [app] in E'. injection E' as <-. destruct (N r2 eq_refl).
Qed.
Lemma any_case : star_case (http_any_type txt) any_at.
Proof.
  intros s e H. destruct (http_any_type_spec s e H) as (r & E & R). destruct r as [y|].
  - right. destruct (proj1 (R y) eq_refl) as (u & t & P & ->). exists u, t. split; auto. split; auto. split; [apply P|]. apply (vis_app txt); auto. apply P.
  - left. split; auto. intros u t P. assert (None = Some (s + length u)%nat) by (apply R; eauto). discriminate.
Qed.

(** ** The quality *)
Lemma quality_det : forall v n r n' r', quality v n r -> quality v n' r' -> n' = n /\ r' = r.
Proof.
  intros v n r n' r' (a & b & c & d & q & E & F & Q & S & ->) (a' & b' & c' & d' & q' & E' & F' & Q' & S' & ->).
  apply Forall_app in F, F'. destruct F as [Fa F], F' as [Fa' F']. apply Forall_app in F, F'. destruct F as [Fb F], F' as [Fb' F']. apply Forall_app in F, F'. destruct F as [Fc Fd], F' as [Fc' Fd'].
  assert (D : forall a c t a' c' t', Forall is_white a -> nonwhite c -> Forall is_white a' -> nonwhite c' -> a ++ c :: t = a' ++ c' :: t' -> a' = a /\ c' = c /\ t' = t).
  { intros x y z x' y' z' Fx Ny Fx' Ny' Eq. pose proof (white_stop x y z Fx Ny) as L. pose proof (white_stop x' y' z' Fx' Ny') as L'. rewrite <- Eq in L'. apply white_run in L, L'. destruct L as [L1 L2], L' as [L1' L2']. split; [congruence|]. rewrite <- L2 in L2'. injection L2' as -> ->. auto. }
  assert (N59 : nonwhite 59) by (intros X; discriminate X). assert (N61 : nonwhite 61) by (intros X; discriminate X). assert (Nq : forall q, q = 113 \/ q = 81 -> nonwhite q) by (intros x [-> | ->] X; discriminate X).
  rewrite E in E'. destruct (D _ _ _ _ _ _ Fa N59 Fa' N59 E') as (-> & _ & E1). destruct (D _ _ _ _ _ _ Fb (Nq _ Q) Fb' (Nq _ Q') (eq_sym E1)) as (-> & -> & E2). destruct (D _ _ _ _ _ _ Fc N61 Fc' N61 (eq_sym E2)) as (-> & _ & E3).
  assert (L : longest is_white (d ++ r) d r) by (split; auto). assert (L' : longest is_white (d ++ r) d' r') by (split; auto). apply white_run in L, L'. destruct L as [L1 L2], L' as [L1' L2']. assert (Ed : d' = d) by congruence. assert (Er : r' = r) by congruence. rewrite Ed, Er. split; reflexivity.
Qed.

Section Weighted.
Context {V : Type} (asterisk : nat -> nat -> outcome (option nat)) (value : nat -> nat -> outcome (option V)) (vend : V -> nat).
Context (star : list Z -> list Z -> list Z -> Prop) (value_at : nat -> list Z -> V -> list Z -> Prop).
Definition value_case (value : nat -> nat -> outcome (option V)) (vend : V -> nat) (value_at : nat -> list Z -> V -> list Z -> Prop) : Prop := forall s e, text_ok s e ->
  (value s e = Ret None /\ forall b r, ~ value_at s (vis s e) b r) \/
  (exists b r, value s e = Ret (Some b) /\ value_at s (vis s e) b r /\ text_ok (vend b) e /\ vis (vend b) e = r /\ vend b = (s + length (vis s e) - length r)%nat /\ (length r < length (vis s e))%nat).

Lemma weighted_spec : star_case asterisk star -> value_case value vend value_at -> forall s e, text_ok s e -> exists r, http_weighted txt asterisk value vend None s e = Ret r /\
  (forall x w y, r = Some (x, w, y) -> weighted_at star value_at s (vis s e) x w y) /\
  (r = None -> (forall u t, ~ star (vis s e) u t) /\ (forall b t, ~ value_at s (vis s e) b t)).
Proof.
  intros HS HV s e H. unfold http_weighted. cbv zeta.
  assert (Rest : forall x last r, ((exists u, star (vis s e) u r /\ x = inl (s, s + length u)%nat) \/ ((forall u t, ~ star (vis s e) u t) /\ exists b, value_at s (vis s e) b r /\ x = inr b)) ->
    text_ok last e -> vis last e = r -> last = (s + length (vis s e) - length r)%nat -> (length r <= length (vis s e))%nat ->
    exists w y, (let* i := skip_space txt isspace (S (e - last)) last e in
      let* b := is_at txt i e 59 in
      let* (fac, i) :=
        if b then
          let* i := skip_space txt isspace (S (e - S i)) (S i) e in
          let* r := peek txt i e in
          if match r with Some c => (c =? 113) || (c =? 81) | None => false end then
            let* i := skip_space txt isspace (S (e - S i)) (S i) e in
            let* b := is_at txt i e 61 in
            if b then
              let* i := skip_space txt isspace (S (e - S i)) (S i) e in
              let* w := http_weight txt i e in
              match w with Some w => Ret (Some w, snd (hw_itv w)) | None => Ret (None, i) end
            else Ret (None, i)
          else Ret (None, i)
        else Ret (None, i) in
      match fac with Some w => Ret (Some (x, Some w, i)) | None => Ret (Some (x, None, last)) end) = Ret (Some (x, w, y)) /\ weighted_at star value_at s (vis s e) x w y).
  { clear HS HV. intros x last r HX T0 V0 EL LL.
    assert (No : (forall n t k f z, quality r n t -> ~ weight_at k t f z) -> exists w y, Ret (Some (x, None, last)) = Ret (Some (x, w, y)) /\ weighted_at star value_at s (vis s e) x w y).
    { intros N. exists None, last. split; auto. exists r. split; auto. }
    assert (N59 : nonwhite 59) by (intros X; discriminate X). assert (N61 : nonwhite 61) by (intros X; discriminate X). assert (Nq : forall q, q = 113 \/ q = 81 -> nonwhite q) by (intros z [-> | ->] X; discriminate X).
    destruct (white_case last e T0) as (a & r1 & -> & L1 & T1 & V1 & U1). cbn [obind]. rewrite V0 in L1, U1. destruct (sign_case txt _ _ 59 T1) as (b59 & -> & B1 & B2). cbn [obind]. rewrite V1 in B1, B2. destruct b59.
    2: { cbn [obind]. apply No. intros n t k f z (a' & b' & c' & d' & q' & E & F & _) _. apply Forall_app in F. destruct F as [Fa _]. destruct (U1 a' (59 :: b' ++ q' :: c' ++ 61 :: d' ++ t)) as [_ X]. { rewrite E. apply white_stop; auto. } exact (B2 eq_refl _ (eq_sym X)). }
    destruct (B1 eq_refl) as (r2 & -> & T2 & V2). destruct (white_case _ e T2) as (b & r3 & -> & L3 & T3 & V3 & U3). cbn [obind]. rewrite V2 in L3, U3. rewrite (peek_spec txt _ _ T3), V3. cbn [obind].
    destruct (match hd_error r3 with Some c => (c =? 113) || (c =? 81) | None => false end) eqn:Q.
    2: { cbn [obind]. apply No. intros n t k f z (a' & b' & c' & d' & q' & E & F & Q' & _) _. apply Forall_app in F. destruct F as [Fa F]. apply Forall_app in F. destruct F as [Fb _]. destruct (U1 a' (59 :: b' ++ q' :: c' ++ 61 :: d' ++ t)) as [_ X]. { rewrite E. apply white_stop; auto. }
      injection X as X. destruct (U3 b' (q' :: c' ++ 61 :: d' ++ t)) as [_ Y]. { rewrite <- X. apply white_stop; auto. } rewrite <- Y in Q. cbn [hd_error] in Q. lia. }
    destruct r3 as [|q r3]; [discriminate|]. cbn [hd_error] in Q. assert (Q3 : q = 113 \/ q = 81) by lia. destruct (vis_next txt _ _ _ _ T3 V3) as [T4 V4]. destruct (white_case _ e T4) as (c & r5 & -> & L5 & T5 & V5 & U5). cbn [obind]. rewrite V4 in L5, U5.
    destruct (sign_case txt _ _ 61 T5) as (b61 & -> & C1 & C2). cbn [obind]. rewrite V5 in C1, C2. destruct b61.
    2: { cbn [obind]. apply No. intros n t k f z (a' & b' & c' & d' & q' & E & F & Q' & _) _. apply Forall_app in F. destruct F as [Fa F]. apply Forall_app in F. destruct F as [Fb F]. apply Forall_app in F. destruct F as [Fc _]. destruct (U1 a' (59 :: b' ++ q' :: c' ++ 61 :: d' ++ t)) as [_ X]. { rewrite E. apply white_stop; auto. }
      injection X as X. destruct (U3 b' (q' :: c' ++ 61 :: d' ++ t)) as [_ Y]. { rewrite <- X. apply white_stop; auto. } injection Y as _ Y. destruct (U5 c' (61 :: d' ++ t)) as [_ W]. { rewrite <- Y. apply white_stop; auto. } exact (C2 eq_refl _ (eq_sym W)). }
    destruct (C1 eq_refl) as (r6 & -> & T6 & V6). destruct (white_case _ e T6) as (d & r7 & -> & L7 & T7 & V7 & U7). cbn [obind]. rewrite V6 in L7, U7.
    assert (QU : quality r (length (a ++ 59 :: b ++ q :: c ++ 61 :: d)) r7). { exists a, b, c, d, q. destruct L1 as (E1 & F1 & _), L3 as (E3 & F3 & _), L5 as (E5 & F5 & _), L7 as (E7 & F7 & S7). split. { rewrite E1, E3, E5, E7. reflexivity. } split; [repeat (apply Forall_app; split); auto|]. auto. }
    assert (Ei : (S (S (S (last + length a) + length b) + length c) + length d = s + length (vis s e) - length r7)%nat). { destruct QU as (_ & _ & _ & _ & _ & _ & _). destruct L1 as (E1 & _), L3 as (E3 & _), L5 as (E5 & _), L7 as (E7 & _). rewrite E1, E3, E5, E7 in EL, LL. repeat (rewrite app_length in EL, LL || cbn [length] in EL, LL). lia. }
    destruct (weight_case txt _ e T7) as [(-> & N)|(w & z & -> & W & _ & _ & Ew)]; cbn [obind].
    - rewrite V7 in N. apply No. intros n t k f z' QU'. destruct (quality_det _ _ _ _ _ QU QU') as [_ ->]. apply N.
    - rewrite V7 in W, Ew. exists (Some w), (snd (hw_itv w)). split; auto. exists r. split; auto. left. exists (length (a ++ 59 :: b ++ q :: c ++ 61 :: d)), r7, w, z. split; auto. rewrite <- Ei. split; auto. split; auto. rewrite Ew, Ei.
      assert (length r7 <= length (vis s e))%nat. { destruct L1 as (E1 & _), L3 as (E3 & _), L5 as (E5 & _), L7 as (E7 & _). rewrite E1, E3, E5, E7 in LL. repeat (rewrite app_length in LL || cbn [length] in LL). lia. } lia. }
  destruct (HS s e H) as [(-> & N)|(u & r & -> & P & Eu & T & W)]; cbn [obind].
  - destruct (HV s e H) as [(-> & N2)|(b & r & -> & P & T & W & E1 & E2)]; cbn [obind option_map].
    + eexists. split; [reflexivity|]. split; [discriminate|]. auto.
    + destruct (Rest (inr b) (vend b) r) as (w & y & E & A); auto. { right. split; auto. exists b. auto. } { lia. } rewrite E. eexists. split; [reflexivity|]. split; [|discriminate]. intros x' w' y' Q. injection Q as <- <- <-. auto.
  - assert (Lu : (length (vis s e) = length u + length r)%nat) by (rewrite Eu; apply app_length).
    destruct (Rest (inl (s, s + length u)%nat) (s + length u)%nat r) as (w & y & E & A); auto. { left. exists u. auto. } { lia. } { lia. } rewrite E. eexists. split; [reflexivity|]. split; [|discriminate]. intros x' w' y' Q. injection Q as <- <- <-. auto.
Qed.
End Weighted.

(** ** The values that are weighted *)
Lemma token_value : chars txt -> value_case (http_token txt) (fun y => y) token_item.
Proof.
  intros C s e H. destruct (token_case txt C s e H) as [(-> & N)|(w & r & -> & P & T & W & Nw & _)].
  - left. split; auto. intros b r (w & P & _). destruct (N _ _ P).
  - right. exists (s + length w)%nat, r. split; auto. split; [exists w; auto|]. split; auto. split; auto. apply tok_length in P. destruct w; [congruence|]. cbn [length] in *. lia.
Qed.
Lemma media_value : chars txt -> value_case (http_media_range txt) hm_end media_range_at.
Proof.
  intros C s e H. destruct (http_media_range_spec txt C s e H) as (r & -> & R). destruct r as [m|].
  - right. destruct (proj1 (R m) eq_refl) as (t & P). exists m, t. split; auto. split; auto. destruct P as (w & v1 & g & v2 & h & v3 & u & P1 & P2 & P3 & P4 & ->). cbn [hm_end].
    assert (Nw : w <> []) by apply P1. assert (E : vis s e = (w ++ g ++ 47 :: h ++ u) ++ t). { destruct P1 as ((-> & _) & _), P4 as ((-> & _) & _). apply gap_split in P2, P3. rewrite P2, P3. rewrite <- !app_assoc. cbn [app]. rewrite <- app_assoc. reflexivity. }
    destruct (vis_app txt _ _ _ _ H E) as [T W]. assert (Ln : (s + length (w ++ g ++ (47 :: h ++ u)%Z) = s + length w + length g + 1 + length h + length u)%nat) by (rewrite !app_length; cbn [length]; rewrite app_length; lia). rewrite Ln in T, W. split; auto. split; auto. rewrite E, app_length. destruct w; [congruence|]. cbn [length app] in *. lia.
  - left. split; auto. intros b t P. assert (None = Some b) by (apply R; eauto). discriminate.
Qed.
Lemma language_value : chars txt -> value_case (http_language txt) snd language_item.
Proof.
  intros C s e H. destruct (http_language_spec txt C s e H) as (r & -> & R). destruct r as [[l y]|].
  - right. destruct (proj1 (R l y) eq_refl) as (t & P & ->). exists (l, (s + length (vis s e) - length t)%nat), t. split; auto. split; [split; auto|]. cbn [snd].
    assert (E : exists w, vis s e = w ++ t /\ w <> []). { clear - P. induction P as [i v w r (-> & _) N _|i v w t l r (-> & _) N P (x & -> & _)]; [eauto|]. exists (w ++ 45 :: x). split; [rewrite <- app_assoc; reflexivity|]. destruct w; discriminate. }
    destruct E as (w & E & N). destruct (vis_app txt _ _ _ _ H E) as [T W]. rewrite E, app_length. replace (s + (length w + length t) - length t)%nat with (s + length w)%nat by lia. split; auto. split; auto. split; auto. destruct w; [congruence|]. cbn [length]. lia.
  - left. split; auto. intros [l y] t (P & E). cbn [fst snd] in *. assert (None = Some (l, y)) by (apply R; eauto). discriminate.
Qed.
(** C192 *)
Theorem http_weighted_value_spec : chars txt -> forall s e, text_ok s e ->
  (exists r, http_weighted txt (http_asterisk txt) (http_token txt) (fun y => y) None s e = Ret r /\
     (forall x w y, r = Some (x, w, y) -> weighted_at star_at token_item s (vis s e) x w y) /\
     (r = None -> (forall u t, ~ star_at (vis s e) u t) /\ (forall b t, ~ token_item s (vis s e) b t))) /\
  (exists r, http_weighted txt (http_asterisk txt) (http_language txt) snd None s e = Ret r /\
     (forall x w y, r = Some (x, w, y) -> weighted_at star_at language_item s (vis s e) x w y) /\
     (r = None -> (forall u t, ~ star_at (vis s e) u t) /\ (forall b t, ~ language_item s (vis s e) b t))) /\
  (exists r, http_weighted txt (http_any_type txt) (http_media_range txt) hm_end None s e = Ret r /\
     (forall x w y, r = Some (x, w, y) -> weighted_at any_at media_range_at s (vis s e) x w y) /\
     (r = None -> (forall u t, ~ any_at (vis s e) u t) /\ (forall b t, ~ media_range_at s (vis s e) b t))).
Proof.
  intros C s e H. split; [|split].
  - apply weighted_spec; auto. apply asterisk_case. apply token_value; auto.
  - apply weighted_spec; auto. apply asterisk_case. apply language_value; auto.
  - apply weighted_spec; auto. apply any_case. apply media_value; auto.
Qed.

(** ** Collections *)
Lemma comma_det : forall v w r w' r', comma v w r -> comma v w' r' -> w' = w /\ r' = r.
Proof.
  intros v w r w' r' (a & b & c & L & P) (a' & b' & c' & L' & P'). apply white_run in L, L'. destruct L as [-> ->], L' as [-> ->]. destruct P as [(t & E & Lt & ->)|(N & -> & ->)], P' as [(t' & E' & Lt' & ->)|(N' & -> & ->)]; auto.
  - rewrite E in E'. injection E' as ->. apply white_run in Lt, Lt'. destruct Lt as [-> ->], Lt' as [-> ->]. auto.
  - destruct N'. eexists; eauto.
  - destruct N. eexists; eauto.
Qed.
Section Collect.
Context {V A : Type} (item : nat -> nat -> outcome (option V)) (vend : V -> nat) (put : A -> V -> A) (item_at : nat -> list Z -> V -> list Z -> Prop).
Lemma collect_spec : value_case item vend item_at -> forall fuel i e acc, text_ok i e -> (length (vis i e) < fuel)%nat ->
  exists l, collect_loop txt item vend put fuel i e acc = Ret (fold_left put l acc) /\ items_at item_at i (vis i e) l.
Proof.
  intros HI. induction fuel; intros i e acc H L; [lia|]. cbn [collect_loop]. cbv zeta.
  assert (Hc : exists w r, (let* i1 := skip_space txt isspace (S (e - i)) i e in let* b := is_at txt i1 e 44 in if b then skip_space txt isspace (S (e - S i1)) (S i1) e else Ret i1) = Ret (i + length w)%nat /\ comma (vis i e) w r /\ text_ok (i + length w) e /\ vis (i + length w) e = r /\ (length r <= length (vis i e))%nat /\ length (vis i e) = (length w + length r)%nat).
  { destruct (white_case i e H) as (a & r1 & -> & L1 & T1 & V1 & _). cbn [obind]. destruct (sign_case txt _ _ 44 T1) as (b & -> & B1 & B2). cbn [obind]. rewrite V1 in B1, B2. assert (E1 : vis i e = a ++ r1) by apply L1. destruct b.
    - destruct (B1 eq_refl) as (r2 & -> & T2 & V2). destruct (white_case _ e T2) as (c & r3 & -> & L3 & T3 & V3 & _). rewrite V2 in L3. exists (a ++ 44 :: c), r3. rewrite app_length. cbn [length]. replace (i + (length a + S (length c)))%nat with (S (i + length a) + length c)%nat by lia. split; auto.
      split. { exists a, (44 :: r2), c. split; auto. left. exists r2. auto. } split; auto. split; auto. rewrite E1, (proj1 L3), !app_length. cbn [length]. rewrite app_length. lia.
    - exists a, r1. split; auto. split. { exists a, r1, []. split; auto. right. split; auto. intros (x & E). exact (B2 eq_refl _ E). } split; auto. split; auto. rewrite E1, app_length. lia. }
  destruct Hc as (w & r & E & Cm & T & W & Lr & Lw).
  destruct (i <? e)%nat eqn:Le.
  - assert (E' : forall X (k : nat -> outcome X), (let* i1 := skip_space txt isspace (S (e - i)) i e in let* b := is_at txt i1 e 44 in let* i2 := if b then skip_space txt isspace (S (e - S i1)) (S i1) e else Ret i1 in k i2) = k (i + length w)%nat).
    { intros X k. destruct (skip_space txt isspace (S (e - i)) i e) as [i1| |]; try discriminate. cbn [obind] in *. destruct (is_at txt i1 e 44) as [b| |]; try discriminate. cbn [obind] in *. rewrite E. reflexivity. }
    rewrite E'. destruct (HI _ e T) as [(-> & N)|(x & t & -> & P & T2 & W2 & E2 & L2)]; cbn [obind].
    + exists []. split; auto. constructor. intros w' r' x t Cm'. destruct (comma_det _ _ _ _ _ Cm Cm') as [-> ->]. rewrite W in N. apply N.
    + rewrite W in P, E2, L2. destruct (IHfuel (vend x) e (put acc x) T2) as (l & -> & Q). { rewrite W2. lia. } exists (x :: l). split; auto. rewrite W2 in Q. eapply items_more; eauto. replace (i + length (vis i e) - length t)%nat with (vend x) by lia. auto.
  - exists []. split; auto. constructor. intros w' r' x t Cm'. destruct (comma_det _ _ _ _ _ Cm Cm') as [-> ->]. assert (vis i e = []). { unfold ParserSpec.vis. replace (e - i)%nat with 0%nat by lia. reflexivity. } rewrite H0 in Lr. cbn [length] in Lr.
    intros P. destruct (HI _ e T) as [(_ & N)|(x' & t' & _ & _ & _ & _ & _ & L2)]. { rewrite W in N. destruct (N _ _ P). } rewrite W in L2. lia.
Qed.
End Collect.
Lemma weighted_case : forall {V : Type} asterisk (value : nat -> nat -> outcome (option V)) vend star value_at, star_case asterisk star -> (forall s v u r, star v u r -> u <> [] /\ v = u ++ r /\ (s <= s)%nat) -> value_case value vend value_at ->
  (forall i v b r, value_at i v b r -> exists w, v = w ++ r /\ w <> []) ->
  value_case (http_weighted txt asterisk value vend None) snd (weighted_item star value_at).
Proof.
  intros V asterisk value vend star value_at HS Hs HV Hv s e H. destruct (weighted_spec asterisk value vend star value_at HS HV s e H) as (r & -> & R1 & R2). destruct r as [[[x w] y]|].
  - right. exists (x, w, y), (skipn (y - s) (vis s e)). split; auto. specialize (R1 _ _ _ eq_refl). split. { split; auto. }
    assert (B : (s < y <= s + length (vis s e))%nat).
    { destruct R1 as (r & P & Q). assert (E : exists u, vis s e = u ++ r /\ u <> []). { destruct P as [(u & P & _)|(_ & b & P & _)]; [|eauto]. destruct (Hs 0%nat _ _ _ P) as (N & E & _). eauto. } destruct E as (u & E & N).
      assert (0 < length u)%nat by (destruct u; [congruence|cbn [length]; lia]). assert (length (vis s e) = length u + length r)%nat by (rewrite E, app_length; lia). destruct Q as [(n & t & f & z & (a & b & c & d & q & Er & _) & (ds & t2 & (Et & _) & Wt) & _ & ->)|(_ & _ & ->)]; [|lia].
      assert (length t = length ds + length t2)%nat by (rewrite Et, app_length; lia). assert (length z <= length t2)%nat. { destruct Wt as [(fs & -> & _)|(_ & -> & _)]; [|lia]. cbn [length]. rewrite app_length. lia. } apply (f_equal (@length Z)) in Er. repeat (rewrite app_length in Er || cbn [length] in Er). lia. }
    cbn [snd]. destruct (vis_to txt s e y H) as [T W]; [lia|]. split; auto. split; auto. rewrite skipn_length. lia.
  - left. split; auto. destruct (R2 eq_refl) as [N1 N2]. intros [[x w] y] t ((r & P & _) & _). cbn [fst snd] in P. destruct P as [(u & P & _)|(_ & b & P & _)]; [destruct (N1 _ _ P)|destruct (N2 _ _ P)].
Qed.

(** *** The order *)
Lemma insert_perm : forall {V} (more : V -> V -> bool) l x, Permutation (multiset_insert more l x) (x :: l).
Proof. intros V more l x. induction l as [|y l IH]; cbn [multiset_insert]; auto. destruct (more x y); auto. rewrite IH. apply perm_swap. Qed.
Lemma insert_filter : forall {V} (more : V -> V -> bool) k l x, weak_order more -> Sorted.StronglySorted (fun a b => more b a = false) l -> filter (same more k) (multiset_insert more l x) = filter (same more k) (l ++ [x]).
Proof.
  intros V more k l x (I & T & W) S. induction S as [|y l S IH F]; cbn [multiset_insert app filter]; auto. destruct (more x y) eqn:M.
  - cbn [filter]. destruct (same more k x) eqn:K.
    + assert (Q : forall z, In z (y :: l) -> same more k z = false).
      { intros z Iz. assert (Mz : more x z = true). { destruct Iz as [->|Iz]; auto. rewrite Forall_forall in F. specialize (F z Iz). destruct (more x z) eqn:E; auto. destruct (more z x) eqn:E2; [rewrite (T z x y) in F; auto; discriminate|].
          destruct (more y z) eqn:E3. { rewrite (T x y z) in E; auto. } destruct (W x z y) as [Q _]; auto; try congruence. }
        unfold same in *. apply andb_prop in K. destruct K as [K1 K2]. destruct (more k z) eqn:Z1; auto. destruct (more z k) eqn:Z2; auto. cbn. destruct (more k x) eqn:K3; [discriminate|]. destruct (more x k) eqn:K4; [discriminate|]. destruct (W x k z) as [Q _]; auto. congruence. }
      assert (Nil : forall m, (forall z, In z m -> same more k z = false) -> filter (same more k) m = []). { intros m. induction m as [|z m IHm]; intros Hz; cbn [filter]; auto. rewrite Hz by (left; auto). apply IHm. intros. apply Hz. right. auto. }
      rewrite filter_app. rewrite (Q y) by (left; auto). rewrite (Nil l) by (intros; apply Q; right; auto). cbn [app filter]. rewrite K. reflexivity.
    + rewrite filter_app. cbn [filter]. rewrite K, app_nil_r. reflexivity.
  - cbn [filter]. rewrite IH. reflexivity.
Qed.
Lemma insert_sorted : forall {V} (more : V -> V -> bool) l x, weak_order more -> Sorted.StronglySorted (fun a b => more b a = false) l -> Sorted.StronglySorted (fun a b => more b a = false) (multiset_insert more l x).
Proof.
  intros V more l x (I & T & W) S. induction S as [|y l S IH F]; cbn [multiset_insert]. { repeat constructor. } destruct (more x y) eqn:M.
  - constructor; [constructor; auto|]. constructor. { destruct (more y x) eqn:E; auto. rewrite <- (I x). symmetry. eapply T; eauto. } rewrite Forall_forall in *. intros z Iz. specialize (F z Iz). destruct (more z x) eqn:E; auto. rewrite <- F. symmetry. eapply T; eauto.
  - constructor; auto. apply (Permutation_Forall (Permutation_sym (insert_perm more l x))). constructor; auto.
Qed.
Lemma fold_insert : forall {V} (more : V -> V -> bool) l acc, weak_order more -> Sorted.StronglySorted (fun a b => more b a = false) acc -> let m := fold_left (multiset_insert more) l acc in
  Permutation m (acc ++ l) /\ Sorted.StronglySorted (fun a b => more b a = false) m /\ forall k, filter (same more k) m = filter (same more k) (acc ++ l).
Proof.
  intros V more l. induction l as [|x l IH]; intros acc W S; cbn [fold_left]. { rewrite app_nil_r. auto. } destruct (IH (multiset_insert more acc x) W (insert_sorted more acc x W S)) as (A & B & D). split; [|split; auto].
  - rewrite A, insert_perm. cbn [app]. apply Permutation_middle.
  - intros k. rewrite D. rewrite !filter_app, insert_filter, filter_app by auto. cbn [filter]. rewrite <- app_assoc. destruct (same more k x); reflexivity.
Qed.
Lemma weighted_collection : forall {V : Type} asterisk (value : nat -> nat -> outcome (option V)) vend star value_at more, star_case asterisk star -> (forall s v u r, star v u r -> u <> [] /\ v = u ++ r /\ (s <= s)%nat) -> value_case value vend value_at ->
  (forall i v b r, value_at i v b r -> exists w, v = w ++ r /\ w <> []) -> weak_order more -> forall s e, text_ok s e -> exists m l,
  collect_loop txt (http_weighted txt asterisk value vend None) snd (multiset_insert more) (S (e - s)) s e [] = Ret m /\
  items_at (weighted_item star value_at) s (vis s e) l /\ Permutation m l /\ Sorted.StronglySorted (fun a b => more b a = false) m /\ (forall k, filter (same more k) m = filter (same more k) l).
Proof.
  intros V asterisk value vend star value_at more HS Hs HV Hv W s e H.
  destruct (collect_spec (http_weighted txt asterisk value vend None) snd (multiset_insert more) (weighted_item star value_at) (weighted_case asterisk value vend star value_at HS Hs HV Hv) (S (e - s)) s e [] H) as (l & E & I).
  - pose proof (vis_len txt s e H). lia.
  - rewrite E. destruct (fold_insert more l [] W) as (A & B & D). { constructor. } eexists. exists l. split; [reflexivity|]. auto.
Qed.
(** C193: all the elements there are, in the order of their weights, equal ones as they stand in the text.  [more] stands for the comparison of the weights. *)
Theorem http_weighted_collection_spec : chars txt -> forall s e, text_ok s e ->
  (forall more, weak_order more -> exists m l,
     collect_loop txt (http_weighted txt (http_asterisk txt) (http_language txt) snd None) snd (multiset_insert more) (S (e - s)) s e [] = Ret m /\
     items_at (weighted_item star_at language_item) s (vis s e) l /\ Permutation m l /\ Sorted.StronglySorted (fun a b => more b a = false) m /\ (forall k, filter (same more k) m = filter (same more k) l)) /\
  (forall more, weak_order more -> exists m l,
     collect_loop txt (http_weighted txt (http_any_type txt) (http_media_range txt) hm_end None) snd (multiset_insert more) (S (e - s)) s e [] = Ret m /\
     items_at (weighted_item any_at media_range_at) s (vis s e) l /\ Permutation m l /\ Sorted.StronglySorted (fun a b => more b a = false) m /\ (forall k, filter (same more k) m = filter (same more k) l)).
Proof.
  intros C s e H. split; intros more W; apply weighted_collection; auto.
  - apply asterisk_case.
  - intros s0 v u r (Ev & ->). split; [discriminate|auto].
  - apply language_value; auto.
  - intros i v [l y] r (P & _). cbn [fst] in P. clear - P. induction P as [i v w r (-> & _) N _|i v w t l r (-> & _) N P (x & -> & _)]; [eauto|]. exists (w ++ 45 :: x). split; [rewrite <- app_assoc; reflexivity|]. destruct w; discriminate.
  - apply any_case.
  - intros s0 v u r (Ev & [-> | (-> & _)]); (split; [discriminate|auto]).
  - apply media_value; auto.
  - intros i v m t (w & v1 & g & v2 & h & v3 & u & P1 & P2 & P3 & P4 & _). assert (Nw : w <> []) by apply P1. exists (w ++ g ++ 47 :: h ++ u). destruct P1 as ((-> & _) & _), P4 as ((-> & _) & _). apply gap_split in P2, P3. rewrite P2, P3. split. { rewrite <- !app_assoc. cbn [app]. rewrite <- app_assoc. reflexivity. } destruct w; [congruence|discriminate].
Qed.
(** C194: a list of tokens *)
Theorem http_value_collection_spec : chars txt -> forall s e, text_ok s e -> exists l,
  collect_loop txt (http_token txt) (fun y => y) (fun l y => l ++ [y]) (S (e - s)) s e [] = Ret l /\ items_at token_item s (vis s e) l.
Proof.
  intros C s e H. destruct (collect_spec _ (fun y => y) (fun l y => l ++ [y]) token_item (token_value C) (S (e - s)) s e [] H) as (l & E & I). { pose proof (vis_len txt s e H). lia. }
  exists l. rewrite E. split; auto. f_equal. assert (F : forall m acc, fold_left (fun l (y : nat) => l ++ [y]) m acc = acc ++ m). { induction m as [|y m IH]; intros acc; cbn [fold_left]; [rewrite app_nil_r; auto|]. rewrite IH, <- app_assoc. reflexivity. } rewrite F. reflexivity.
Qed.
End Http.
