(** HTTP parsers: addresses. *)
From Coq Require Import ZifyBool ZifyNat.
From Verif Require Import Base StringModel StringSpec StringProofs StringTrim ParserModel ParserSpec ParserProps HtmlTagModel HtmlTagProps HttpModel HttpSpec HttpProps HttpParams HttpUrlSpec.
Ltac Zify.zify_post_hook ::= Z.div_mod_to_equations.

Lemma uint_graphic : forall c, -128 <= c <= 127 -> c <> 0 -> (graphic c <-> (uint c <? 32) || (uint c =? 127) || isspace c = false).
Proof. intros c R N. rewrite isspace_white. unfold white, uint, graphic. change (2 ^ 32) with 4294967296. lia. Qed.
Section Http.
Set Default Proof Using "Type".
Context (txt : list Z) (C : chars txt).
Local Notation text_ok := (ParserSpec.text_ok txt).
Local Notation vis := (ParserSpec.vis txt).

Lemma run_case : forall (P : Z -> Prop) (stop : Z -> bool) s e, text_ok s e -> (forall c, -128 <= c <= 127 -> c <> 0 -> P c <-> stop c = false) ->
  exists w r, run_all txt stop s e = Ret (s + length w)%nat /\ longest P (vis s e) w r /\ text_ok (s + length w) e /\ vis (s + length w) e = r /\ (forall w' r', longest P (vis s e) w' r' -> w' = w /\ r' = r).
Proof using C.
  intros P stop s e H HP. pose proof (vis_chars txt s e H C) as VC. pose proof (vis_nz txt s e H) as VN. set (p := fun c => negb (stop c)).
  assert (LW : forall w r, longest P (vis s e) w r <-> w = take_while p (vis s e) /\ r = drop_while p (vis s e)).
  { intros w r. apply longest_while. intros c I. unfold chars in VC. rewrite Forall_forall in VC, VN. rewrite HP by auto. unfold p. destruct (stop c); cbn; split; congruence. }
  exists (take_while p (vis s e)), (drop_while p (vis s e)). split; [apply run_all_spec; auto|]. split; [apply LW; auto|]. destruct (vis_app txt s e _ _ H (split_while p (vis s e))) as [A B]. split; auto. split; auto. intros w' r' L. apply LW in L. auto.
Qed.
Lemma lt_nil : forall s (w : list Z), (s <? s + length w)%nat = match w with [] => false | _ => true end.
Proof using Type. clear C. intros s [|c w]; cbn [length]; lia. Qed.
(** C182 *)
Theorem http_url_server_spec : forall s e, text_ok s e -> exists r, http_url_server txt s e = Ret r /\ forall y, r = Some y <-> exists w t, longest server_char (vis s e) w t /\ w <> [] /\ y = (s + length w)%nat.
Proof using C.
  intros s e H. unfold http_url_server. destruct (run_case server_char server_stop s e H) as (w & r & -> & L & _ & _ & U).
  { intros c R N. unfold server_char. rewrite uint_graphic by auto. unfold server_stop. generalize (uint c). intros u. destruct (isspace c); lia. }
  cbn [obind]. rewrite lt_nil. eexists. split; [reflexivity|]. intros y. split.
  - destruct w as [|c w]; [discriminate|]. intros E. exists (c :: w), r. split; auto. split; congruence.
  - intros (w' & t & L' & N & ->). destruct (U _ _ L') as [-> _]. destruct w; congruence.
Qed.
(** ports *)
Definition isdig (c : Z) : bool := (48 <=? c) && (c <=? 57).
Lemma digit_run : forall v w r, longest digit_char v w r <-> w = take_while isdig v /\ r = drop_while isdig v.
Proof using Type. intros. apply longest_all. intros c. unfold digit_char, isdig. lia. Qed.
Lemma num_ge : forall d a, 0 <= a -> Forall digit_char d -> a <= fold_left (fun v c => v * 10 + digit_value c) d a.
Proof using Type. clear C. induction d as [|c d IH]; intros a A F; cbn [fold_left]; [lia|]. inversion F; subst. unfold digit_char in *. assert (E : digit_value c = c - 48) by (unfold digit_value; replace ((48 <=? c) && (c <=? 57)) with true by lia; auto). rewrite E. etransitivity; [|apply IH; auto]; lia. Qed.
Lemma digits_while : forall v, Forall digit_char (take_while isdig v).
Proof using Type. clear C. induction v as [|c v IH]; cbn [take_while]; [constructor|]. destruct (isdig c) eqn:E; constructor; auto. unfold digit_char, isdig in *. lia. Qed.
Lemma port_loop_is : forall fuel i e a, text_ok i e -> (length (vis i e) < fuel)%nat -> 0 <= a <= 65535 ->
  port_loop txt fuel i e a = Ret (let d := take_while isdig (vis i e) in let n := fold_left (fun v c => v * 10 + digit_value c) d a in if n <=? 65535 then Some ((i + length d)%nat, n) else None).
Proof using Type.
  clear C. induction fuel; intros i e a H L A; [lia|]. cbn [port_loop]. rewrite (peek_spec txt i e H). cbn [obind]. destruct (vis i e) as [|c r] eqn:V; cbn [hd_error take_while].
  { cbv zeta. cbn [fold_left length]. replace (a <=? 65535) with true by lia. rewrite Nat.add_0_r. reflexivity. }
  change ((48 <=? c) && (c <=? 57)) with (isdig c). destruct (isdig c) eqn:D.
  - cbv zeta. cbn [fold_left length]. assert (E : digit_value c = c - 48) by (unfold digit_value; unfold isdig in D; rewrite D; auto). rewrite E. destruct (vis_next txt _ _ _ _ H V) as [T W]. cbn [length] in L. destruct (a * 10 + (c - 48) >? 65535) eqn:O.
    + pose proof (num_ge (take_while isdig r) (a * 10 + (c - 48)) ltac:(unfold isdig in D; lia) (digits_while r)). replace (_ <=? 65535) with false by lia. reflexivity.
    + rewrite IHfuel; auto; rewrite ?W; try lia; [|unfold isdig in D; lia]. cbv zeta. replace (i + S (length (take_while isdig r)))%nat with (S i + length (take_while isdig r))%nat by lia. reflexivity.
  - cbv zeta. cbn [fold_left length]. replace (a <=? 65535) with true by lia. rewrite Nat.add_0_r. reflexivity.
Qed.
Lemma port_case : forall s e, text_ok s e ->
  (http_url_port txt s e = Ret None /\ forall k p r, ~ port_at k (vis s e) p r) \/
  (exists p r, http_url_port txt s e = Ret (Some p) /\ port_at s (vis s e) p r /\ text_ok (snd (ho_itv p)) e /\ vis (snd (ho_itv p)) e = r /\ (forall p' r', port_at s (vis s e) p' r' -> p' = p /\ r' = r)).
Proof using Type.
  clear C. intros s e H. unfold http_url_port. rewrite port_loop_is; [|auto|pose proof (vis_len txt s e H); lia|lia]. cbn [obind]. cbv zeta. unfold port_at. fold (numeral_value 10 (take_while isdig (vis s e))).
  destruct (numeral_value 10 (take_while isdig (vis s e)) <=? 65535) eqn:N.
  - rewrite lt_nil. destruct (take_while isdig (vis s e)) as [|c d] eqn:D.
    + left. split; auto. intros k p r (d & L & E & _). apply digit_run in L. destruct L as [-> _]. congruence.
    + right. exists (HPort (s, s + length (c :: d))%nat (numeral_value 10 (c :: d))), (drop_while isdig (vis s e)). split; auto. rewrite <- D in *. split. { exists (take_while isdig (vis s e)). split; [apply digit_run; auto|]. split; [congruence|]. split; auto. lia. }
      cbn [ho_itv snd]. destruct (vis_app txt s e _ _ H (split_while isdig (vis s e))) as [A B]. split; auto. split; auto. intros p' r' (d' & L & E & _ & ->). apply digit_run in L. destruct L as [-> ->]. auto.
  - left. split; auto. intros k p r (d & L & E & M & _). apply digit_run in L. destruct L as [-> _]. lia.
Qed.
Theorem http_url_port_spec : forall s e, text_ok s e -> exists r, http_url_port txt s e = Ret r /\ forall p, r = Some p <-> exists t, port_at s (vis s e) p t.
Proof using Type.
  clear C. intros s e H. destruct (port_case s e H) as [(-> & N)|(p & t & -> & P & _ & _ & U)]; eexists; (split; [reflexivity|]); intros q; split.
  - discriminate.
  - intros (t & P). destruct (N _ _ _ P).
  - intros E. injection E as <-. eauto.
  - intros (t' & P'). destruct (U _ _ P') as [-> _]. auto.
Qed.
(** paths *)
Lemma segment_case : forall s e, text_ok s e -> exists w r, http_url_segment txt s e = Ret (s + length w)%nat /\ longest segment_char (vis s e) w r /\ text_ok (s + length w) e /\ vis (s + length w) e = r /\ (forall w' r', longest segment_char (vis s e) w' r' -> w' = w /\ r' = r).
Proof using C. intros s e H. apply run_case; auto. intros c R N. unfold segment_char. rewrite uint_graphic by auto. unfold segment_stop. generalize (uint c). intros u. destruct (isspace c); lia. Qed.
Lemma path_det : forall i v l r, path_at i v l r -> forall l' r', path_at i v l' r' -> chars v -> Forall (fun c => c <> 0) v -> l' = l /\ r' = r.
Proof using Type.
  clear C. assert (LD : forall v w r w' r', longest segment_char v w r -> longest segment_char v w' r' -> w' = w /\ r' = r).
  { intros v w r w' r' A B. apply (longest_all segment_char (fun c => ((c <? 0) || ((32 <? c) && (c <? 127))) && negb (c =? 63) && negb (c =? 47))) in A, B; try (intros c; unfold segment_char, graphic; lia). destruct A as [-> ->], B as [-> ->]. auto. }
  intros i v l r H. induction H as [i v w r L N|i v w t l r L P IH]; intros l' r' H' VC VN; inversion H' as [i' v' w' r2 L' N'|i' v' w' t' l2 r2 L' P']; subst.
  - destruct (LD _ _ _ _ _ L L') as [-> ->]. auto.
  - destruct (LD _ _ _ _ _ L L') as [-> ->]. exfalso. apply N. inversion P'; eexists; eauto.
  - destruct (LD _ _ _ _ _ L L') as [-> ->]. exfalso. apply N'. inversion P; eexists; eauto.
  - destruct (LD _ _ _ _ _ L L') as [-> ->]. assert (E : v = w ++ t) by (apply L). unfold chars in *. rewrite E in VC, VN. apply Forall_cons_iff in VC, VN. destruct VC as [_ VC], VN as [_ VN]. apply Forall_app in VC, VN. destruct (IH _ _ P') as [-> ->]; tauto.
Qed.
Lemma path_loop_is : forall fuel j e acc, text_ok j e -> (length (vis j e) < fuel)%nat ->
  exists l y, path_loop txt fuel j e acc = Ret (acc ++ l, y) /\ text_ok y e /\ (y = j + (length (vis j e) - length (vis y e)) /\ length (vis y e) <= length (vis j e))%nat /\
    (l = [] /\ y = j /\ ~ first_is 47 (vis j e) \/ path_at j (vis j e) l (vis y e)).
Proof using C.
  induction fuel; intros j e acc H L; [lia|]. cbn [path_loop]. destruct (sign_case txt _ _ 47 H) as (b & -> & B1 & B2). cbn [obind]. destruct b.
  - destruct (B1 eq_refl) as (r & V & T & W). destruct (segment_case _ _ T) as (w & t & -> & LW & T2 & V2 & U). cbn [obind]. rewrite W in LW. assert (E : r = w ++ t) by apply LW.
    rewrite V, E in L. cbn [length] in L. rewrite app_length in L. destruct (IHfuel (S j + length w)%nat e (acc ++ [(S j, (S j + length w)%nat)]) T2) as (l & y & -> & Ty & Ey & Py). { rewrite V2. lia. }
    rewrite V2 in Ey, Py. exists ((S j, (S j + length w)%nat) :: l), y. rewrite <- app_assoc. split; auto. split; auto. split. { rewrite V, E. cbn [length]. rewrite app_length. lia. }
    right. rewrite V. replace (S j) with (j + 1)%nat in * by lia. destruct Py as [(-> & -> & N)|P].
    + rewrite V2. constructor; auto.
    + eapply path_more; eauto.
  - exists [], j. rewrite app_nil_r. split; auto. split; auto. split; [lia|]. left. split; auto. split; auto. intros (r & E). eapply B2; eauto.
Qed.
(** C183 *)
Theorem http_url_path_spec : forall s e, text_ok s e -> (s < e)%nat -> exists r, http_url_path txt s e = Ret r /\
  forall l y, r = Some (l, y) <-> exists t, path_at s (vis s e) l t /\ y = (s + length (vis s e) - length t)%nat.
Proof using C.
  intros s e H LE. pose proof (vis_chars txt s e H C) as VC. pose proof (vis_nz txt s e H) as VN. unfold http_url_path. replace (s <? e)%nat with true by lia. destruct (ParserProps.skipn_at txt s) as (c & N & K). { apply (text_lt txt s e); auto. } unfold rd. rewrite N. cbn [obind].
  assert (V : vis s e = if c =? 0 then [] else c :: vis (S s) e). { unfold vis. rewrite K. replace (e - s)%nat with (S (e - S s)) by lia. reflexivity. }
  destruct (c =? 47) eqn:E; cbn [negb].
  - replace (c =? 0) with false in V by lia. assert (c = 47) by lia. subst c. destruct (vis_next txt _ _ _ _ H V) as [T _]. destruct (segment_case _ _ T) as (w & t & -> & LW & T2 & V2 & U). cbn [obind]. pose proof (vis_len txt _ _ T2) as B.
    destruct (path_loop_is (S (e - s)) _ e [(S s, (S s + length w)%nat)] T2) as (l & y & -> & Ty & Ey & Py); [lia|]. cbn [obind]. assert (Ew : vis (S s) e = w ++ t) by apply LW.
    assert (P : path_at s (vis s e) ([(S s, (S s + length w)%nat)] ++ l) (vis y e)).
    { rewrite V, V2 in *. replace (S s) with (s + 1)%nat in * by lia. cbn [app]. destruct Py as [(-> & -> & Nf)|P]; [rewrite V2; constructor|eapply path_more]; eauto. }
    eexists. split; [reflexivity|]. intros l' y'. split.
    + intros Q. injection Q as <- <-. exists (vis y e). split; auto. rewrite V2 in Ey. rewrite V, Ew. cbn [length]. rewrite app_length. lia.
    + intros (t' & P' & ->). destruct (path_det _ _ _ _ P _ _ P' VC VN) as [-> ->]. do 2 f_equal. rewrite V2 in Ey. rewrite V, Ew. cbn [length]. rewrite app_length. lia.
  - eexists. split; [reflexivity|]. intros l y. split; [discriminate|]. intros (t & P & _). rewrite V in P. destruct (c =? 0); [inversion P|]. inversion P; subst; discriminate.
Qed.
(** ** Parameters; the text must be terminated before end: line 6250 looks at the unit there *)
Definition terminated (s e : nat) : Prop := (s + length (vis s e) < e)%nat.
Lemma terminated_at : forall s e y, text_ok s e -> terminated s e -> (s <= y <= s + length (vis s e))%nat -> terminated y e.
Proof using Type. clear C. intros s e y H T L. unfold terminated in *. destruct (vis_to txt s e y H L) as [_ W]. rewrite W, skipn_length. lia. Qed.
Lemma term_rd : forall y e, text_ok y e -> terminated y e -> exists c, rd txt y = Ret c /\ (c = 61 <-> first_is 61 (vis y e)).
Proof using Type.
  clear C. intros y e H T. unfold terminated in T. assert (L : (y < length txt)%nat) by (apply (text_lt txt y e); auto; lia). destruct (ParserProps.skipn_at txt y L) as (c & N & K). exists c. unfold rd. rewrite N. split; auto.
  assert (V : vis y e = if c =? 0 then [] else c :: vis (S y) e). { unfold vis. rewrite K. replace (e - y)%nat with (S (e - S y)) by lia. reflexivity. } rewrite V. split.
  - intros ->. exists (vis (S y) e). reflexivity.
  - intros (r & E). destruct (c =? 0); [discriminate|]. congruence.
Qed.
Lemma pname_ok : forall c, -128 <= c <= 127 -> c <> 0 -> pname_char c <-> pname_stop c = false.
Proof using Type. clear C. intros c R N. unfold pname_char. rewrite uint_graphic by auto. unfold pname_stop. generalize (uint c). intros u. destruct (isspace c); lia. Qed.
Lemma pvalue_ok : forall c, -128 <= c <= 127 -> c <> 0 -> pvalue_char c <-> pvalue_stop c = false.
Proof using Type. clear C. intros c R N. unfold pvalue_char. rewrite uint_graphic by auto. unfold pvalue_stop. generalize (uint c). intros u. destruct (isspace c); lia. Qed.
Lemma uparam_case : forall s e, text_ok s e -> terminated s e ->
  (http_url_parameter txt s e = Ret None /\ forall k p r, ~ uparam_at k (vis s e) p r) \/
  (exists p r, http_url_parameter txt s e = Ret (Some p) /\ uparam_at s (vis s e) p r /\ text_ok (hu_end p) e /\ vis (hu_end p) e = r /\ (s < hu_end p <= s + length (vis s e))%nat /\ (forall p' r', uparam_at s (vis s e) p' r' -> p' = p /\ r' = r)).
Proof using C.
  intros s e H T. unfold http_url_parameter. destruct (run_case pname_char pname_stop s e H pname_ok) as (n & t & -> & L & T1 & V1 & U). cbn [obind]. rewrite lt_nil. assert (Dn : n = [] \/ n <> []) by (destruct n; [left|right]; congruence). destruct Dn as [->|Nn].
  { left. split; auto. intros k p r (n' & t' & L' & N & _). destruct (U _ _ L') as [-> _]. congruence. }
  replace (match n with [] => false | _ => true end) with true by (destruct n; congruence). right. assert (Ev : vis s e = n ++ t) by apply L.
  destruct (term_rd _ _ T1) as (c & -> & Cc). { apply (terminated_at s); auto. rewrite Ev, app_length. lia. } cbn [obind]. rewrite V1 in Cc. destruct (c =? 61) eqn:Q.
  - destruct Cc as [Cc _]. destruct (Cc ltac:(lia)) as (u & ->). destruct (vis_next txt _ _ _ _ T1 V1) as [T2 V2]. destruct (run_case pvalue_char pvalue_stop _ e T2 pvalue_ok) as (x & r & -> & Lx & T3 & V3 & Ux). cbn [obind]. rewrite V2 in Lx, Ux. assert (Eu : u = x ++ r) by apply Lx.
    eexists. exists r. split; [reflexivity|]. cbn [hu_end]. split. { exists n, (61 :: u). split; auto. split; auto. left. exists u, x. split; auto. split; auto. cbv zeta. repeat f_equal; lia. }
    split; auto. split; auto. split. { rewrite Ev, Eu, !app_length. cbn [length]. rewrite app_length. lia. }
    intros p' r' (n' & t' & L' & N' & Cs). destruct (U _ _ L') as [-> ->]. destruct Cs as [(u' & x' & E & Lx' & ->)|(Nf & _)]; [|destruct Nf; eexists; eauto]. injection E as <-. destruct (Ux _ _ Lx') as [-> ->]. split; auto. cbv zeta. repeat f_equal; lia.
  - assert (Nf : ~ first_is 61 t). { intros F. apply Cc in F. lia. } eexists. exists t. split; [reflexivity|]. cbn [hu_end]. split. { exists n, t. split; auto. }
    split; auto. split; auto. split. { rewrite Ev, app_length. destruct n; [congruence|]. cbn [length]. lia. }
    intros p' r' (n' & t' & L' & N' & Cs). destruct (U _ _ L') as [-> ->]. destruct Cs as [(u' & x' & -> & _)|(_ & -> & ->)]; [destruct Nf; eexists; eauto|auto].
Qed.
(** C183 *)
Theorem http_url_parameter_spec : forall s e, text_ok s e -> terminated s e -> exists r, http_url_parameter txt s e = Ret r /\ forall p, r = Some p <-> exists t, uparam_at s (vis s e) p t.
Proof using C.
  intros s e H T. destruct (uparam_case s e H T) as [(-> & N)|(p & t & -> & P & _ & _ & _ & U)]; eexists; (split; [reflexivity|]); intros q; split.
  - discriminate.
  - intros (t & P). destruct (N _ _ _ P).
  - intros E. injection E as <-. eauto.
  - intros (t' & P'). destruct (U _ _ P') as [-> _]. auto.
Qed.
Lemma query_case : forall fuel i e acc, text_ok i e -> terminated i e -> (length (vis i e) < fuel)%nat ->
  exists l y, query_loop txt fuel i e acc = Ret (acc ++ l, y) /\ query_at i (vis i e) l (vis y e) /\ text_ok y e /\ (i <= y <= i + length (vis i e))%nat /\ (y = i + (length (vis i e) - length (vis y e)) /\ length (vis y e) <= length (vis i e))%nat.
Proof using C.
  induction fuel; intros i e acc H T L; [lia|]. cbn [query_loop]. rewrite (peek_spec txt i e H). cbn [obind]. pose proof (vis_chars txt i e H C) as VC. pose proof (vis_nz txt i e H) as VN.
  destruct (vis i e) as [|c r] eqn:V; cbn [hd_error].
  { exists [], i. rewrite app_nil_r. rewrite V. split; auto. split; [constructor; cbn; auto|]. split; auto. cbn [length]. lia. }
  inversion VC; inversion VN; subst. destruct (query_stop c) eqn:Q.
  { exists [], i. rewrite app_nil_r. rewrite V. split; auto. split; [constructor; cbn [stops]; rewrite uint_graphic by auto; unfold query_stop in Q; clear - Q; destruct (isspace c); lia|]. split; auto. cbn [length]. lia. }
  destruct (c =? 38) eqn:A.
  - assert (c = 38) by lia. subst c. destruct (vis_next txt _ _ _ _ H V) as [T1 W]. cbn [length] in L. destruct (IHfuel (S i) e acc T1) as (l & y & -> & P & Ty & B & Ey). { eapply (terminated_at i); eauto. rewrite V. cbn [length]. lia. } { rewrite W. lia. }
    exists l, y. split; auto. rewrite W in *. split. { apply query_amp. replace (i + 1)%nat with (S i) by lia. auto. } split; auto. cbn [length]. lia.
  - destruct (uparam_case i e H T) as [(-> & N)|(p & t & -> & P & T1 & V1 & B & U)]; cbn [obind].
    + exists [], i. rewrite app_nil_r, V. split; auto. split; [|split; auto; cbn [length]; lia]. constructor. cbn [stops]. intros [G1 G2]. rewrite V in N. set (w := take_while (fun c => negb (pname_stop c)) (c :: r)). 
      assert (PN : pname_char c) by (unfold pname_char; repeat split; auto; lia).
      assert (exists n t, longest pname_char (c :: r) n t /\ n <> []) as (n & t & Ln & Nn).
      { destruct (run_case pname_char pname_stop i e H pname_ok) as (n & t & _ & Ln & _). rewrite V in Ln. exists n, t. split; auto. intros ->. destruct Ln as (E & _ & St). cbn [app] in E. subst t. cbn [stops] in St. tauto. }
      destruct t as [|d t]. { apply (N 0%nat (HUParam (0, 0 + length n)%nat no_itv (0 + length n)) []). exists n, []. split; auto. split; auto. right. split; auto. intros (? & ?); discriminate. }
      destruct (Z.eq_dec d 61) as [->|Nd].
      * assert (exists x z, longest pvalue_char t x z) as (x & z & Lx). { assert (G : forall v, exists x z, longest pvalue_char v x z). 2: apply G. intros v. set (p := fun c => ((c <? 0) || ((32 <? c) && (c <? 127))) && negb (c =? 38)). exists (take_while p v), (drop_while p v). apply (longest_all pvalue_char p); auto. intros a. unfold p, pvalue_char, graphic. lia. }
        eapply (N 0%nat _ z). exists n, (61 :: t). split; auto. split; auto. left. exists t, x. split; [auto|]. split; [auto|]. cbv zeta. reflexivity.
      * apply (N 0%nat (HUParam (0, 0 + length n)%nat no_itv (0 + length n)) (d :: t)). exists n, (d :: t). split; auto. split; auto. right. split; auto. intros (? & E). injection E as -> _. lia.
    + rewrite <- V in *. assert (Bt : length t = (i + length (vis i e) - hu_end p)%nat). { destruct (vis_to txt i e (hu_end p) H) as [_ W]; [lia|]. rewrite <- V1, W, skipn_length. lia. } 
      destruct (IHfuel (hu_end p) e (acc ++ [p]) T1) as (l & y & -> & P2 & Ty & B2 & Ey). { eapply (terminated_at i); eauto. lia. } { rewrite V1. lia. }
      exists (p :: l), y. rewrite <- app_assoc. split; auto. rewrite V1 in *. split; [eapply query_param; eauto|]. split; auto. rewrite Bt in *. split; lia.
Qed.
Lemma uparam_det : forall i v p r p' r', uparam_at i v p r -> uparam_at i v p' r' -> p' = p /\ r' = r.
Proof using Type.
  clear C. intros i v p r p' r' (n & t & L & N & Cs) (n' & t' & L' & N' & Cs').
  apply (longest_all pname_char (fun c => ((c <? 0) || ((32 <? c) && (c <? 127))) && negb (c =? 38) && negb (c =? 61))) in L, L'; try (intros c; unfold pname_char, graphic; lia). destruct L as [-> ->], L' as [-> ->].
  destruct Cs as [(u & x & E & Lx & ->)|(F & -> & ->)], Cs' as [(u' & x' & E' & Lx' & ->)|(F' & -> & ->)]; auto.
  - rewrite E in E'. injection E' as <-. apply (longest_all pvalue_char (fun c => ((c <? 0) || ((32 <? c) && (c <? 127))) && negb (c =? 38))) in Lx, Lx'; try (intros c; unfold pvalue_char, graphic; lia). destruct Lx as [-> ->], Lx' as [-> ->]. auto.
  - destruct F'. eexists; eauto.
  - destruct F. eexists; eauto.
Qed.
Lemma uparam_first : forall i v p r, uparam_at i v p r -> exists c t, v = c :: t /\ pname_char c.
Proof using Type. clear C. intros i v p r (n & t & (-> & F & _) & N & _). destruct n as [|c n]; [congruence|]. inversion F; subst. exists c, (n ++ t). auto. Qed.
Lemma query_det : forall i v l r, query_at i v l r -> forall l' r', query_at i v l' r' -> l' = l /\ r' = r.
Proof using Type.
  clear C. intros i v l r H. induction H as [i v S|i v l r Q IH|i v p t l r P Q IH]; intros l' r' H'; inversion H' as [i' v' S'|i' v' l2 r2 Q'|i' v' p' t' l2 r2 P' Q']; subst; auto.
  - exfalso. apply S. split; [unfold graphic; lia|lia].
  - apply uparam_first in P'. destruct P' as (c & t2 & -> & G1 & G2 & G3). exfalso. apply S. auto.
  - exfalso. apply S'. split; [unfold graphic; lia|lia].
  - apply uparam_first in P'. destruct P' as (c & t2 & E & G1 & G2 & G3). congruence.
  - apply uparam_first in P. destruct P as (c & t2 & -> & G1 & G2 & G3). exfalso. apply S'. auto.
  - apply uparam_first in P. destruct P as (c & t2 & E & G1 & G2 & G3). congruence.
  - destruct (uparam_det _ _ _ _ _ _ P P') as [-> ->]. destruct (IH _ _ Q') as [-> ->]. auto.
Qed.
(** ** Addresses *)
Lemma abs_case : forall tolow s e, (forall c, tolow c = 0 <-> c = 0) -> text_ok s e -> exists b,
  (if (s + 7 <=? e)%nat then let* r := strnicmp4 tolow (skipn s txt) 7 str_http 7 in Ret (r =? 0) else Ret false) = Ret b /\ (b = true <-> absolute tolow (vis s e)).
Proof using Type.
  clear C. intros tolow s e TL H. destruct (s + 7 <=? e)%nat eqn:L.
  - destruct (strnicmp_zero tolow tolow TL 7 (skipn s txt) str_http) as (r & E & R). { repeat constructor; discriminate. } { destruct H as (_ & _ & [H|H]); [left; lia|right; auto]. }
    change (length str_http) with 7%nat in E. rewrite E. cbn [obind]. exists (r =? 0). split; auto. unfold absolute. replace (firstn 7 (vis s e)) with (zstr 7 (skipn s txt)). { rewrite <- R. lia. }
    unfold vis. rewrite <- zstr_min. f_equal. lia.
  - exists false. split; auto. split; [discriminate|]. intros A. apply (f_equal (@length Z)) in A. rewrite !map_length in A. change (length str_http) with 7%nat in A. rewrite firstn_length in A. pose proof (vis_len txt s e H). lia.
Qed.
Lemma port_det : forall i v p r p' r', port_at i v p r -> port_at i v p' r' -> p' = p /\ r' = r.
Proof using Type. clear C. intros i v p r p' r' (d & L & _ & _ & ->) (d' & L' & _ & _ & ->). apply digit_run in L, L'. destruct L as [-> ->], L' as [-> ->]. auto. Qed.
Lemma server_det : forall v w r w' r', longest server_char v w r -> longest server_char v w' r' -> w' = w /\ r' = r.
Proof using Type.
  clear C. intros v w r w' r' L L'. apply (longest_all server_char (fun c => ((c <? 0) || ((32 <? c) && (c <? 127))) && negb (c =? 58) && negb (c =? 47))) in L, L'; try (intros c; unfold server_char, graphic; lia). destruct L as [-> ->], L' as [-> ->]. auto.
Qed.
Lemma head_det : forall tolow s v sv p i v1 sv' p' i' v1', head_at tolow s v sv p i v1 -> head_at tolow s v sv' p' i' v1' -> sv' = sv /\ p' = p /\ i' = i /\ v1' = v1.
Proof using Type.
  clear C. intros tolow s v sv p i v1 sv' p' i' v1' [(A & w & t & L & N & -> & P)|(A & -> & -> & -> & ->)] [(A' & w' & t' & L' & N' & -> & P')|(A' & -> & -> & -> & ->)]; try tauto.
  destruct (server_det _ _ _ _ _ L L') as [-> ->]. split; auto. destruct P as [(u & -> & P & ->)|[(-> & P & -> & ->)|(F & -> & -> & ->)]].
  - destruct P' as [(u' & E & P' & ->)|[(E & P' & -> & ->)|(F & -> & -> & ->)]].
    + injection E as <-. destruct (port_det _ _ _ _ _ _ P P') as [-> ->]. auto.
    + injection E as ->. destruct (P' _ _ _ P).
    + destruct F. eexists; eauto.
  - destruct P' as [(u' & E & P' & ->)|[(E & P' & -> & ->)|(F & -> & -> & ->)]].
    + injection E as ->. destruct (P _ _ _ P').
    + injection E as ->. auto.
    + destruct F. eexists; eauto.
  - destruct P' as [(u' & E & P' & ->)|[(E & P' & -> & ->)|(F' & -> & -> & ->)]]; auto; destruct F; eexists; eauto.
Qed.
(** C184 *)
Theorem http_url_spec : forall tolow s e, (forall c, tolow c = 0 <-> c = 0) -> text_ok s e -> terminated s e -> exists r, http_url txt tolow s e = Ret r /\ forall u, r = Some u <-> exists t, url_at tolow s (vis s e) u t.
Proof using C.
  intros tolow s e TL H T. unfold http_url. destruct (abs_case tolow s e TL H) as (abs & -> & A). cbn [obind].
  (* server and port *)
  set (head := if abs then _ else _).
  assert (Hd : exists h, head = Ret h /\ match h with
    | None => forall sv p i v1, ~ head_at tolow s (vis s e) sv p i v1
    | Some (sv, p, i) => head_at tolow s (vis s e) sv p i (vis i e) /\ text_ok i e /\ (s <= i <= s + length (vis s e))%nat end).
  { unfold head. clear head. destruct abs.
    - destruct A as [A _]. specialize (A eq_refl). assert (L7 : (7 <= length (vis s e))%nat). { unfold absolute in A. apply (f_equal (@length Z)) in A. rewrite !map_length in A. change (length str_http) with 7%nat in A. rewrite firstn_length in A. lia. }
      destruct (vis_skip txt 7 s e H L7) as [T7 V7]. unfold http_url_server. destruct (run_case server_char server_stop _ e T7) as (w & t & -> & L & T1 & V1 & U).
      { intros c R N. unfold server_char. rewrite uint_graphic by auto. unfold server_stop. generalize (uint c). intros u. destruct (isspace c); lia. }
      cbn [obind]. rewrite lt_nil. rewrite V7 in L, U. assert (Dn : w = [] \/ w <> []) by (destruct w; [left|right]; congruence). destruct Dn as [->|Nn].
      { exists None. split; auto. intros sv p i v1 [(_ & w' & t' & L' & N' & _)|(A' & _)]; [|tauto]. destruct (U _ _ L') as [-> _]. congruence. }
      replace (match w with [] => false | _ => true end) with true by (destruct w; congruence). cbn [obind]. destruct (sign_case txt _ _ 58 T1) as (b & -> & B1 & B2). cbn [obind]. rewrite V1 in B1, B2.
      assert (LV : (length (vis s e) = 7 + length w + length t)%nat). { destruct L as (E & _). apply (f_equal (@length Z)) in E. rewrite skipn_length, app_length in E. lia. }
      destruct b.
      + destruct (B1 eq_refl) as (u & -> & T2 & V2). cbn [length] in LV. destruct (port_case _ _ T2) as [(-> & N)|(p & r & -> & P & T3 & V3 & _)]; cbn [obind].
        * eexists. split; [reflexivity|]. split; [|split; [auto|lia]]. left. split; auto. exists w, (58 :: u). split; auto. split; auto. split; auto. right. left. rewrite V2 in *. split; auto. split; auto. split; auto. lia.
        * eexists. split; [reflexivity|]. split; [|split; [auto|]].
          -- left. split; auto. exists w, (58 :: u). split; auto. split; auto. split; auto. left. exists u. rewrite V2 in P. replace (s + 7 + length w + 1)%nat with (S (s + 7 + length w)) by lia. rewrite V3. auto.
          -- destruct P as (d & (E & _) & _ & _ & ->). cbn [ho_itv snd] in *. rewrite V2 in E. rewrite E, app_length in LV. lia.
      + eexists. split; [reflexivity|]. split; [|split; [auto|lia]]. left. split; auto. exists w, t. split; auto. split; auto. split; auto. right. right. split. { intros (u & E). eapply B2; eauto. } auto.
    - eexists. split; [reflexivity|]. split; [|split; [auto|lia]]. right. split; auto. intros Q. apply A in Q. discriminate. }
  destruct Hd as (h & -> & Hh). cbn [obind]. destruct h as [[[sv p] i]|].
  2: { eexists. split; [reflexivity|]. intros u. split; [discriminate|]. intros (t & sv & p & i & v1 & segs & v2 & l & y & Hh' & _). destruct (Hh _ _ _ _ Hh'). }
  destruct Hh as (Hh & T1 & B1). assert (Ti : terminated i e) by (apply (terminated_at s); auto; lia).
  destruct (http_url_path_spec i e T1) as (r & -> & R). { unfold terminated in Ti. lia. } cbn [obind].
  assert (LV : (length (vis i e) = length (vis s e) - (i - s))%nat). { destruct (vis_to txt s e i H) as [_ W]; [lia|]. rewrite W, skipn_length. reflexivity. }
  destruct r as [[segs j]|].
  2: { eexists. split; [reflexivity|]. intros u. split; [discriminate|]. intros (t & sv' & p' & i' & v1 & segs & v2 & l & y & Hh' & P & _). destruct (head_det _ _ _ _ _ _ _ _ _ _ _ Hh Hh') as (-> & -> & -> & ->). assert (None = Some (segs, (i + length (vis i e) - length v2)%nat)) by (apply R; eauto). discriminate. }
  destruct (proj1 (R segs j) eq_refl) as (v2 & P & Ej).
  assert (Sf : exists w, vis i e = w ++ v2). { clear - P. induction P as [i v w r L N|i v w t l r L P IH]. { exists (47 :: w). destruct L as (-> & _). reflexivity. } destruct IH as (x & ->). destruct L as (-> & _). exists (47 :: w ++ x). cbn [app]. rewrite <- app_assoc. reflexivity. }
  destruct Sf as (w & Ew). assert (Lw : (length (vis i e) = length w + length v2)%nat) by (rewrite Ew, app_length; auto). destruct (vis_app txt _ _ _ _ T1 Ew) as [T2 V2]. replace (i + length w)%nat with j in T2, V2 by lia.
  destruct (sign_case txt _ _ 63 T2) as (b & -> & Q1 & Q2). cbn [obind]. rewrite V2 in Q1, Q2. pose proof (vis_chars txt _ _ T1 C) as VC. pose proof (vis_nz txt _ _ T1) as VN. destruct b.
  - destruct (Q1 eq_refl) as (v3 & -> & T3 & V3). cbn [length] in Lw, Ej. assert (T3t : terminated (S j) e) by (apply (terminated_at i); auto; lia).
    destruct (query_case (S (e - j)) (S j) e [] T3 T3t) as (l & y & -> & Q & Ty & By & Ey). { pose proof (vis_len txt _ _ T3). lia. } cbn [obind app fst snd]. rewrite V3 in Q, By, Ey.
    assert (EU : forall r, url_at tolow s (vis s e) (HUrl sv p (i, j) segs l y) r <-> r = vis y e).
    { intros r. split.
      - intros (sv' & p' & i' & v1 & segs' & v2' & l' & y' & Hh' & P' & Qs & Ey' & E). destruct (head_det _ _ _ _ _ _ _ _ _ _ _ Hh Hh') as (-> & -> & -> & ->). destruct (path_det _ _ _ _ P _ _ P' VC VN) as [-> ->].
        destruct Qs as [(v3' & E3 & Q')|(F & _)]; [|destruct F; eexists; eauto]. injection E3 as <-. replace (i + length (vis i e) - length v3)%nat with (S j) in Q' by lia. destruct (query_det _ _ _ _ Q _ _ Q') as [_ ->]. auto.
      - intros ->. exists sv, p, i, (vis i e), segs, (63 :: v3), l, y. split; auto. split; auto. split. { left. exists v3. split; auto. replace (i + length (vis i e) - length v3)%nat with (S j) by lia. auto. } split; [lia|]. f_equal; f_equal; cbn [length]; lia. }
    eexists. split; [reflexivity|]. intros u. split.
    + intros E. injection E as <-. exists (vis y e). apply EU. auto.
    + intros (t & sv' & p' & i' & v1 & segs' & v2' & l' & y' & Hh' & P' & Qs & Ey' & ->). destruct (head_det _ _ _ _ _ _ _ _ _ _ _ Hh Hh') as (-> & -> & -> & ->). destruct (path_det _ _ _ _ P _ _ P' VC VN) as [-> ->].
      destruct Qs as [(v3' & E3 & Q')|(F & _)]; [|destruct F; eexists; eauto]. injection E3 as <-. replace (i + length (vis i e) - length v3)%nat with (S j) in Q' by lia. destruct (query_det _ _ _ _ Q _ _ Q') as [-> ->]. do 2 f_equal; [f_equal|]; cbn [length]; lia.
  - cbn [obind fst snd]. assert (F : ~ first_is 63 v2). { intros (x & E). eapply Q2; eauto. } eexists. split; [reflexivity|]. intros u. split.
    + intros E. injection E as <-. exists v2, sv, p, i, (vis i e), segs, v2, [], j. split; auto. split; auto. split; auto. split; [lia|]. f_equal. f_equal. auto.
    + intros (t & sv' & p' & i' & v1 & segs' & v2' & l' & y' & Hh' & P' & Qs & Ey' & ->). destruct (head_det _ _ _ _ _ _ _ _ _ _ _ Hh Hh') as (-> & -> & -> & ->). destruct (path_det _ _ _ _ P _ _ P' VC VN) as [-> ->].
      destruct Qs as [(v3' & E3 & Q')|(_ & -> & ->)]; [destruct F; eexists; eauto|]. do 2 f_equal; [f_equal|]; lia.
Qed.
End Http.
