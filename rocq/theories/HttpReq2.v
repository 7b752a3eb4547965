(** HTTP parsers: request lines and headers. *)
From Coq Require Import ZifyBool ZifyNat.
From Verif Require Import Base StringModel StringSpec StringProofs StringTrim StringProps ParserModel ParserSpec ParserProps HtmlTagModel HtmlTagProps HttpModel HttpSpec HttpProps HttpParams HttpUrlSpec HttpUrl HttpMsgSpec HttpMsg HttpReq.
Ltac Zify.zify_post_hook ::= Z.div_mod_to_equations.

Lemma longest_suffix : forall p v w r, longest p v w r -> exists x, v = x ++ r.
Proof. intros p v w r (-> & _). eauto. Qed.
Lemma path_suffix : forall i v l r, path_at i v l r -> exists x, v = x ++ r.
Proof.
  intros i v l r H. induction H as [i v w r (-> & _)|i v w t l r (-> & _) P (x & ->)].
  - exists (47 :: w). reflexivity.
  - exists (47 :: w ++ x). cbn [app]. rewrite <- app_assoc. reflexivity.
Qed.
Lemma uparam_suffix : forall i v p r, uparam_at i v p r -> exists x, v = x ++ r.
Proof. intros i v p r (n & t & (-> & _) & _ & [(u & x & -> & (-> & _) & _)|(_ & -> & _)]); [exists (n ++ 61 :: x); rewrite <- app_assoc; reflexivity|eauto]. Qed.
Lemma query_suffix : forall i v l r, query_at i v l r -> exists x, v = x ++ r.
Proof.
  intros i v l r H. induction H as [i v S|i v l r Q (x & ->)|i v p t l r P Q (x & ->)].
  - exists []. reflexivity.
  - exists (38 :: x). reflexivity.
  - apply uparam_suffix in P. destruct P as (w & ->). exists (w ++ x). rewrite <- app_assoc. reflexivity.
Qed.
Lemma head_suffix : forall tolow s v sv p i v1, head_at tolow s v sv p i v1 -> exists x, v = x ++ v1.
Proof.
  intros tolow s v sv p i v1 [(A & w & t & (E & _) & N & _ & P)|(_ & _ & _ & _ & ->)]; [|exists []; reflexivity].
  rewrite <- (firstn_skipn 7 v), E. destruct P as [(u & -> & (d & (-> & _) & _) & _)|[(-> & _)|(_ & -> & _)]].
  - exists (firstn 7 v ++ w ++ 58 :: d). rewrite <- !app_assoc. reflexivity.
  - exists (firstn 7 v ++ w ++ [58]). rewrite <- !app_assoc. reflexivity.
  - exists (firstn 7 v ++ w). rewrite <- !app_assoc. reflexivity.
Qed.
Lemma url_suffix : forall tolow s v u r, url_at tolow s v u r -> (exists x, v = x ++ r) /\ ur_end u = (s + length v - length r)%nat.
Proof.
  intros tolow s v u r (sv & p & i & v1 & segs & v2 & l & y & Hd & P & Q & -> & ->). split; auto. apply head_suffix in Hd. destruct Hd as (a & ->). apply path_suffix in P. destruct P as (b & ->).
  destruct Q as [(v3 & -> & Q)|(_ & _ & ->)]. { apply query_suffix in Q. destruct Q as (c & ->). exists (a ++ b ++ 63 :: c). rewrite <- !app_assoc. reflexivity. } exists (a ++ b). rewrite <- app_assoc. reflexivity.
Qed.

Lemma white_dec : forall c, is_white c \/ nonwhite c.
Proof. intros c. unfold nonwhite, is_white. destruct (white c); [left; auto|right; congruence]. Qed.
Lemma white10 : is_white 10. Proof. reflexivity. Qed.
Lemma white13 : is_white 13. Proof. reflexivity. Qed.
Lemma not_break_nonwhite : forall c t, nonwhite c -> ~ at_break (c :: t).
Proof. intros c t N [(r & E)|(r & E)]; injection E as -> _; apply N; reflexivity. Qed.
Lemma white_until : forall h c t, Forall is_white h -> ~ In 10 h -> nonwhite c -> line_until nonwhite (h ++ c :: t) h (c :: t).
Proof.
  intros h c t F N W. split; auto. split. 2: { right. right. exists c, t. auto. }
  intros a d b E. subst h. apply Forall_app in F. destruct F as [_ F]. inversion F as [|? ? Wd Fb]; subst. split; [|unfold nonwhite; tauto]. intros [(r & E)|(r & E)].
  - injection E as -> _. apply N. apply in_or_app. right. left. auto.
  - injection E as -> E. destruct b as [|x b]; cbn [app] in E; injection E as -> E. { apply W. reflexivity. } apply N. apply in_or_app. right. right. left. auto.
Qed.
Lemma until_white : forall v h r, line_until nonwhite v h r -> v = h ++ r /\ Forall is_white h /\ ~ In 10 h.
Proof.
  intros v h r (E & A & _). split; auto. split.
  - apply Forall_forall. intros c I. apply in_split in I. destruct I as (a & b & Eh). destruct (A _ _ _ Eh) as [_ B]. destruct (white_dec c); tauto.
  - intros I. apply in_split in I. destruct I as (a & b & Eh). destruct (A _ _ _ Eh) as [B _]. apply B. left. eexists. reflexivity.
Qed.
Lemma verb_until : forall m c t, Forall nonwhite m -> is_white c -> line_until is_white (m ++ c :: t) m (c :: t).
Proof.
  intros m c t F W. split; auto. split. 2: { right. right. exists c, t. auto. }
  intros a d b E. subst m. apply Forall_app in F. destruct F as [_ F]. inversion F as [|? ? Wd Fb]; subst. split; [|exact Wd]. apply not_break_nonwhite. auto.
Qed.
Lemma until_verb : forall v h r, line_until is_white v h r -> v = h ++ r /\ Forall nonwhite h.
Proof. intros v h r (E & A & _). split; auto. apply Forall_forall. intros c I. apply in_split in I. destruct I as (a & b & Eh). destruct (A _ _ _ Eh) as [_ B]. exact B. Qed.
Lemma gap_break : forall g c t, g <> [] -> ~ In 10 g -> nonwhite c -> f_break (g ++ c :: t) = O.
Proof.
  intros g c t N I W. destruct (f_break (g ++ c :: t)) eqn:E; auto. exfalso. assert (B : at_break (g ++ c :: t)) by (apply break_iff; lia). destruct g as [|x g]; [congruence|]. destruct B as [(r & B)|(r & B)]; cbn [app] in B; injection B as ->.
  - apply I. left. auto.
  - destruct g as [|y g]; cbn [app] in *. { injection H as -> _. apply W. reflexivity. } injection H as -> _. apply I. right. left. auto.
Qed.
Lemma f_break_nonwhite : forall c t, nonwhite c -> f_break (c :: t) = O.
Proof. intros c t N. destruct (f_break (c :: t)) eqn:E; auto. destruct (not_break_nonwhite c t N). apply break_iff. lia. Qed.

Section Http.
Set Default Proof Using "Type".
Context (txt : list Z) (C : chars txt).
Local Notation text_ok := (ParserSpec.text_ok txt).
Local Notation vis := (ParserSpec.vis txt).

Lemma nonspace_iff : forall c, nonwhite c <-> negb (isspace c) = true.
Proof using Type. clear C. intros c. rewrite isspace_white. unfold nonwhite, is_white. destruct (white c); cbn; split; congruence. Qed.
Lemma space_iff : forall c, is_white c <-> isspace c = true.
Proof using Type. clear C. intros c. rewrite isspace_white. reflexivity. Qed.

Lemma url_case : forall tolow s e, (forall c, tolow c = 0 <-> c = 0) -> text_ok s e -> terminated txt s e ->
  (http_url txt tolow s e = Ret None /\ forall u r, ~ url_at tolow s (vis s e) u r) \/
  (exists u r, http_url txt tolow s e = Ret (Some u) /\ url_at tolow s (vis s e) u r /\ text_ok (ur_end u) e /\ vis (ur_end u) e = r).
Proof using C.
  intros tolow s e TL H T. destruct (http_url_spec txt C tolow s e TL H T) as (r & E & R). destruct r as [u|].
  - right. destruct (R u) as [R1 _]. destruct (R1 eq_refl) as (t & P). exists u, t. split; auto. split; auto. destruct (url_suffix _ _ _ _ _ P) as ((x & Ex) & Ee). destruct (vis_app txt _ _ _ _ H Ex) as [A B]. rewrite Ee, Ex, app_length. replace (s + (length x + length t) - length t)%nat with (s + length x)%nat by lia. auto.
  - left. split; auto. intros u t P. destruct (R u) as [_ R2]. assert (None = Some u) by eauto. discriminate.
Qed.

Lemma after_case : forall k e verb u, text_ok k e -> ur_end u = k -> exists proto y,
  (let* a := line_all txt (fun c => negb (isspace c)) (ur_end u) e in
   match a with
   | LBreak y => Ret (Some (HRequest verb u None y))
   | LEnd y => Ret (Some (HRequest verb u None y))
   | LUnit y _ =>
       let* b := line_break txt y e in
       match b with
       | Some z => Ret (Some (HRequest verb u None z))
       | None =>
           let* p := http_protocol txt y e in
           match p with
           | None => Ret (Some (HRequest verb u None y))
           | Some p =>
               let* a := line_all txt (fun _ => false) (pr_end p) e in
               match a with
               | LBreak z => Ret (Some (HRequest verb u (Some p) z))
               | LEnd z => Ret (Some (HRequest verb u (Some p) z))
               | LUnit _ _ => Ret None
               end
           end
       end
   end) = Ret (Some (HRequest verb u proto y)) /\ after_url k (vis k e) proto y.
Proof using C.
  intros k e verb u H Ek. rewrite Ek. clear Ek. destruct (line_all_case txt nonwhite _ nonspace_iff k e H) as (h & r & LU & T & V & -> & PP). cbn [obind]. assert (Ev : vis k e = h ++ r) by apply LU.
  destruct r as [|c r].
  { exists None. eexists. split; [reflexivity|]. exists h, []. split; auto. left. split; auto. split; auto. rewrite Ev, app_nil_r. auto. }
  destruct (f_break (c :: r)) as [|n] eqn:B; cbn [Nat.eqb].
  2: { exists None. eexists. split; [reflexivity|]. exists h, (c :: r). split; auto. right. left. destruct (break_split (c :: r)) as (w & t & W & Lw). { apply break_iff. congruence. } exists w, t. split; auto. split; auto. destruct W as (Et & _). rewrite B in Lw. rewrite Ev, Et, !app_length. lia. }
  rewrite (break_is txt _ _ T), V, B. cbn [obind]. specialize (PP eq_refl).
  destruct (protocol_case txt C _ _ T) as [(-> & N)|(p & n & maj & min & x & -> & P & I & T2 & V2)]; cbn [obind].
  - exists None. eexists. split; [reflexivity|]. exists h, (c :: r). split; auto. right. right. exists c, r. split; auto. split; auto. left. split; auto. split; auto. rewrite V in N. exact N.
  - destruct (line_all_case txt (fun _ => False) (fun _ => false) ltac:(intros; split; [tauto|discriminate]) _ e T2) as (h2 & r2 & LU2 & T3 & V3 & -> & PP2). cbn [obind]. rewrite V2 in LU2. rewrite V in P.
    assert (Ex : exists q, c :: r = q ++ x /\ pr_end p = (k + length h + length q)%nat).
    { destruct P as (_ & _ & _ & P). destruct I as (_ & _ & _ & E & _). destruct min as [m|]. - destruct P as [_ P]. exists (n ++ 47 :: maj ++ 46 :: m). split. { rewrite P. rewrite <- !app_assoc. cbn [app]. rewrite <- !app_assoc. reflexivity. } rewrite E, !app_length. cbn [length]. rewrite app_length. cbn [length]. lia.
      - exists (n ++ 47 :: maj). split. { rewrite P, <- app_assoc. reflexivity. } rewrite E, !app_length. cbn [length]. lia. }
    destruct Ex as (q & Eq & Ee). assert (Ex : x = h2 ++ r2) by apply LU2.
    destruct r2 as [|c2 r2].
    { exists (Some p). eexists. split; [reflexivity|]. exists h, (c :: r). split; auto. right. right. exists c, r. split; auto. split; auto. right. exists p, n, maj, min, x, h2, []. split; auto. split; auto. split; auto. split; auto. left. split; auto. rewrite Ev, Eq, Ex, !app_length. cbn [length]. lia. }
    destruct (f_break (c2 :: r2)) as [|n2] eqn:B2; cbn [Nat.eqb]. { destruct (PP2 eq_refl). }
    exists (Some p). eexists. split; [reflexivity|]. exists h, (c :: r). split; auto. right. right. exists c, r. split; auto. split; auto. right. exists p, n, maj, min, x, h2, (c2 :: r2). split; auto. split; auto. split; auto. split; auto. right.
    destruct (break_split (c2 :: r2)) as (w & t & W & Lw). { apply break_iff. congruence. } exists w, t. split; auto. destruct W as (Et & _). rewrite B2 in Lw. rewrite Ev, Eq, Ex, Et, !app_length. lia.
Qed.

(** C189 *)
Theorem http_request_spec : forall tolow s e, (forall c, tolow c = 0 <-> c = 0) -> text_ok s e -> terminated txt s e -> exists r, http_request txt tolow s e = Ret r /\
  (forall q, r = Some q -> request_at tolow s (vis s e) q) /\ (r = None -> forall q, ~ request_at tolow s (vis s e) q).
Proof using C.
  intros tolow s e TL H TM. unfold http_request. cbv zeta. destruct (line_all_case txt nonwhite _ nonspace_iff s e H) as (a & r & LU & T & V & -> & PP). cbn [obind]. assert (Ev : vis s e = a ++ r) by apply LU.
  assert (R0 : forall q, request_at tolow s (vis s e) q -> exists m g u t, r = m ++ g ++ u /\ Forall nonwhite m /\ m <> [] /\ Forall is_white g /\ ~ In 10 g /\ g <> [] /\ (exists c t, u = c :: t /\ nonwhite c) /\ url_at tolow (s + length a + length m + length g) u (rq_url q) t).
  { intros q (a' & m & g & u & t & E & Fa & Na & Fm & Nm & Fg & Ng & Gn & Cu & _ & Pu & _). destruct m as [|c m]; [congruence|]. inversion Fm as [|? ? Fc Fm']; subst.
    assert (LU' : line_until nonwhite (vis s e) a' ((c :: m) ++ g ++ u)). { rewrite E. cbn [app]. apply white_until; auto. } destruct (until_det _ _ _ _ _ _ LU LU') as [-> E']. exists (c :: m), g, u, t. repeat (split; [auto; discriminate|]). auto. }
  destruct r as [|c0 r]. { eexists. split; [reflexivity|]. split; [discriminate|]. intros _ q Q. destruct (R0 q Q) as (m & g & u & t & E & _ & Nm & _). destruct m; [congruence|discriminate]. }
  destruct (f_break (c0 :: r)) as [|n0] eqn:B; cbn [Nat.eqb].
  2: { eexists. split; [reflexivity|]. split; [discriminate|]. intros _ q Q. destruct (R0 q Q) as (m & g & u & t & E & Fm & Nm & _). destruct m as [|c m]; [congruence|]. inversion Fm as [|? ? Fc Fm']; subst. cbn [app] in E. injection E as -> E. rewrite f_break_nonwhite in B by auto. discriminate. }
  specialize (PP eq_refl). cbn beta iota in PP. set (r0 := c0 :: r) in *.
  destruct (line_all_case txt is_white _ space_iff _ e T) as (m & r1 & LU1 & T1 & V1 & -> & PP1). cbn [obind]. rewrite V in LU1. destruct (until_verb _ _ _ LU1) as [E1 Fm].
  assert (R1 : forall q, request_at tolow s (vis s e) q -> exists g u t, r1 = g ++ u /\ Forall is_white g /\ ~ In 10 g /\ g <> [] /\ (exists c t, u = c :: t /\ nonwhite c) /\ url_at tolow (s + length a + length m + length g) u (rq_url q) t).
  { intros q Q. destruct (R0 q Q) as (m' & g & u & t & E & Fm' & Nm & Fg & Ng & Gn & Cu & Pu). destruct g as [|c g]; [congruence|]. inversion Fg as [|? ? Fc Fg']; subst.
    assert (LU' : line_until is_white r0 m' ((c :: g) ++ u)). { rewrite E. cbn [app]. apply verb_until; auto. } destruct (until_det _ _ _ _ _ _ LU1 LU') as [-> E']. exists (c :: g), u, t. repeat (split; [auto; discriminate|]). auto. }
  destruct r1 as [|c1 r1]. { eexists. split; [reflexivity|]. split; [discriminate|]. intros _ q Q. destruct (R1 q Q) as (g & u & t & E & _ & _ & Ng & _). destruct g; [congruence|discriminate]. }
  destruct (f_break (c1 :: r1)) as [|n1] eqn:B1; cbn [Nat.eqb].
  2: { eexists. split; [reflexivity|]. split; [discriminate|]. intros _ q Q. destruct (R1 q Q) as (g & u & t & E & Fg & Ng & Gn & (c & x & -> & W) & _). rewrite E, gap_break in B1; auto. discriminate. }
  specialize (PP1 eq_refl). cbn beta iota in PP1. assert (Nm : m <> []). { intros ->. cbn [app] in E1. unfold r0 in E1. injection E1 as -> _. apply PP. exact PP1. }
  destruct (vis_next txt _ _ _ _ T1 V1) as [T2 V2]. destruct (line_all_case txt nonwhite _ nonspace_iff _ e T2) as (g & u & LU2 & T3 & V3 & -> & PP3). cbn [obind]. rewrite V2 in LU2. destruct (until_white _ _ _ LU2) as (E2 & Fg & Ng).
  assert (R2 : forall q, request_at tolow s (vis s e) q -> (exists c t, u = c :: t /\ nonwhite c) /\ exists t, url_at tolow (S (s + length a + length m) + length g) u (rq_url q) t).
  { intros q Q. destruct (R1 q Q) as (g' & u' & t & E & Fg' & Ng' & Gn & Cu & Pu). destruct g' as [|c g']; [congruence|]. cbn [app] in E. injection E as <- E. pose proof (Forall_inv_tail Fg') as Fg2. destruct Cu as (c & x & -> & W).
    assert (LU' : line_until nonwhite r1 g' (c :: x)). { rewrite E. apply white_until; auto. intros I. apply Ng'. right. auto. } destruct (until_det _ _ _ _ _ _ LU2 LU') as [-> E']. split; [exists c, x; auto|]. exists t. rewrite <- E'. cbn [length] in Pu. replace (S (s + length a + length m) + length g)%nat with (s + length a + length m + S (length g))%nat by lia. auto. }
  destruct u as [|c3 u]. { eexists. split; [reflexivity|]. split; [discriminate|]. intros _ q Q. destruct (R2 q Q) as ((c & x & E & _) & _). discriminate. }
  destruct (f_break (c3 :: u)) as [|n3] eqn:B3; cbn [Nat.eqb].
  2: { eexists. split; [reflexivity|]. split; [discriminate|]. intros _ q Q. destruct (R2 q Q) as ((c & x & E & W) & _). injection E as -> ->. rewrite f_break_nonwhite in B3 by auto. discriminate. }
  specialize (PP3 eq_refl). cbn beta iota in PP3.
  assert (Tk : terminated txt (S (s + length a + length m) + length g) e). { apply (terminated_at txt s); auto. rewrite Ev, E1, E2, !app_length. cbn [length]. rewrite app_length. lia. }
  destruct (url_case tolow _ e TL T3 Tk) as [(-> & N)|(U & t & -> & Pu & T4 & V4)]; cbn [obind].
  { eexists. split; [reflexivity|]. split; [discriminate|]. intros _ q Q. destruct (R2 q Q) as (_ & t & Pu). rewrite V3 in N. destruct (N _ _ Pu). }
  destruct (after_case (ur_end U) e (s + length a, s + length a + length m)%nat U T4 eq_refl) as (proto & y & E & A). cbv zeta in E. rewrite E. eexists. split; [reflexivity|]. split; [|discriminate]. intros q Eq. injection Eq as <-.
  exists a, m, (c1 :: g), (c3 :: u), t. destruct (until_white _ _ _ LU) as (_ & Fa & Na). cbn [rq_verb rq_url rq_proto rq_end].
  split. { rewrite Ev, E1, E2. reflexivity. } split; auto. split; auto. split; auto. split; auto. split; [constructor; auto|]. split. { intros [->|I]; [|tauto]. cbn [f_break] in B1. discriminate. } split; [discriminate|]. split; [exists c3, u; auto|]. split; auto. split.
  { cbn [length]. replace (s + length a + length m + S (length g))%nat with (S (s + length a + length m) + length g)%nat by lia. rewrite <- V3. exact Pu. }
  rewrite <- V4. exact A.
Qed.
End Http.
