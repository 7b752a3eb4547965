(** Properties C220 and C221: emoticons. *)
From Coq Require Import ZifyBool ZifyNat.
From Verif Require Import Base StringModel StringSpec StringProofs ParserModel ParserSpec ParserProps ParserNumModel ParserNumProps ParserPeg DateSpec TimeProps UrlModel UrlSpec DnsProps.

Section Props.
Context (txt : list Z).
Local Notation text_ok := (text_ok txt).
Local Notation vis := (vis txt).
Local Notation in_vis := (in_vis txt).
Context (Em A : option espec) (Ey : espec) (N : option espec) (Mo : espec).
Context (GEm : o_good txt Em) (GA : o_good txt A) (GEy : good txt Ey) (GN : o_good txt N) (GM : good txt Mo) (AM : advances txt (es_f Mo)).
(** the bounds of the mouth may be anything *)
Context (IM : forall k a b, es_wf Mo k -> es_wf Mo (set_interval k a b)).
Section At.
Context (e : nat) (fl : pflags).
Local Notation again := (again Mo).
Lemma mouths_ok : forall fuel km h x, es_wf Mo km -> text_ok x e -> (length (vis x e) < fuel)%nat ->
  exists km' y, mouths (es_P Mo) fuel km h x e fl = Ret (km', y) /\ es_wf Mo km' /\ star_is (again h) x y e fl /\ text_ok y e /\ in_vis x y e.
Proof.
  induction fuel as [|fuel IH]; intros km h x W T L; [lia|]. cbn [mouths]. destruct (ranv_p txt Mo km x e fl GM W T) as (k1 & -> & W1 & R1). cbn [obind o_f o_wf] in *.
  assert (ST : again h x e fl = None -> star_is (again h) x x e fl /\ in_vis x x e) by (intros F; split; [split; auto; exists 0%nat; reflexivity|unfold ParserPeg.in_vis; lia]).
  destruct (es_f Mo x e fl) as [y|] eqn:F; cbn [found andb].
  2:{ destruct ST as [S1 S2]. { unfold UrlSpec.again. rewrite F. destruct (_ =? h); auto. } exists k1, x. auto. }
  destruct R1 as (_ & -> & -> & Ty & Iy). destruct (num (Some Mo) x e fl =? h) eqn:H.
  - pose proof (AM x e fl y T F) as Ly. pose proof (vis_shorter txt x y e T Ly Iy). destruct (IH k1 h y W1 Ty) as (k2 & z & -> & W2 & S2 & Tz & Iz); [lia|]. exists k2, z. split; auto. split; auto. split; [|split; auto; apply (in_trans txt x y); auto].
    eapply star_cons; eauto. unfold UrlSpec.again. rewrite H. auto.
  - destruct ST as [S1 S2]. { unfold UrlSpec.again. rewrite H. auto. } exists k1, x. auto.
Qed.
Lemma again_ok : forall km m x, es_wf Mo km -> text_ok m e -> es_f Mo m e fl = Some x -> member e fl (Some Mo) km (Some (m, x)) -> text_ok x e -> in_vis m x e ->
  exists km' y, mouth_again (es_P Mo) km e fl = Ret (km', y) /\ es_wf Mo km' /\ mouth_at e fl Mo m y /\ iv km' = (m, y) /\ text_ok y e /\ in_vis m y e.
Proof.
  intros km m x W Tm F (_ & I & V) Tx Ix. unfold mouth_again. unfold iv in I. injection I as Is Ie. rewrite Is, Ie.
  assert (Vh : the_val km = num (Some Mo) m e fl) by (unfold the_val, num; cbn [o_g] in *; congruence).
  destruct (mouths_ok (S (e - x)) km (the_val km) x W Tx) as (k1 & y & -> & W1 & S1 & Ty & Iy). { pose proof (vis_end txt x e Tx). lia. }
  cbn [obind]. do 2 eexists. split; [reflexivity|]. split; auto. split; [exists x; split; auto; rewrite Vh in S1; exact S1|]. split; [reflexivity|]. split; auto. apply (in_trans txt m x); auto.
Qed.
Lemma mouth_unique : forall m y z, mouth_at e fl Mo m y -> mouth_at e fl Mo m z -> y = z.
Proof. intros m y z (x & F & S1) (x' & F' & S2). assert (x' = x) by congruence. subst x'. eapply star_unique; eauto. Qed.
Lemma mouth_there : forall m, text_ok m e -> es_f Mo m e fl <> None -> exists y, mouth_at e fl Mo m y.
Proof.
  intros m T H. destruct (es_f Mo m e fl) as [x|] eqn:F; [|congruence]. destruct (vis_to txt m e x T (el_within _ _ _ _ _ GM m e fl x T F)) as [Tx _].
  destruct (star_spec txt (again (num (Some Mo) m e fl)) x e fl) as (y & _ & S & _); auto.
  { intros a b Ta. unfold UrlSpec.again. destruct (_ =? _); [|discriminate]. intros Fa. split; [apply (AM a e fl b Ta Fa)|apply (el_within _ _ _ _ _ GM a e fl b Ta Fa)]. }
  exists y, x. split; auto.
Qed.
Theorem emo_unique : forall s y u y' u', emo_at e fl Em A Ey N Mo s y u -> emo_at e fl Em A Ey N Mo s y' u' -> y = y' /\ u = u'.
Proof.
  assert (AP : forall s x a x' a', apex_at e fl A s x a -> apex_at e fl A s x' a' -> x = x' /\ a = a').
  { unfold apex_at. intros s x a x' a'. destruct (o_f A s e fl); intros [-> ->] [-> ->]; auto. }
  intros s y u y' u' H H'.
  inversion H as [y1 F1|x1 a1 c1 d1 y1 F1 A1 (E1 & N1 & M1)|x1 a1 c1 y1 F1 A1 O1 (E1 & M1)]; inversion H' as [y2 F2|x2 a2 c2 d2 y2 F2 A2 (E2 & N2 & M2)|x2 a2 c2 y2 F2 A2 O2 (E2 & M2)]; subst; try congruence; auto.
  - split; congruence.
  - destruct (AP _ _ _ _ _ A1 A2) as [<- <-]. assert (c2 = c1) by congruence. subst c2. assert (d2 = d1) by congruence. subst d2. rewrite (mouth_unique _ _ _ M1 M2). auto.
  - destruct (AP _ _ _ _ _ A1 A2) as [<- <-]. exfalso. exact (O2 _ _ _ (conj E1 (conj N1 M1))).
  - destruct (AP _ _ _ _ _ A1 A2) as [<- <-]. exfalso. exact (O1 _ _ _ (conj E2 (conj N2 M2))).
  - destruct (AP _ _ _ _ _ A1 A2) as [<- <-]. assert (c2 = c1) by congruence. subst c2. rewrite (mouth_unique _ _ _ M1 M2). auto.
Qed.
End At.
Definition emo_wf (st : pst) : Prop := vals st = [] /\ exists a b c d f, kids st = [a; b; c; d; f] /\ o_wf Em a /\ o_wf A b /\ es_wf Ey c /\ o_wf N d /\ es_wf Mo f.
Ltac wf5 := split; [reflexivity|]; do 5 eexists; split; [reflexivity|]; auto 10.
Definition span_iv (w : span) : nat * nat := match w with Some p => p | None => no_iv end.
(** C220: which emoticons are matched and what the members tell; of the mouth the bounds *)
Theorem emoticon_spec :
  let P := emoticon_p (o_P Em) (o_P A) (es_P Ey) (o_P N) (es_P Mo) in
  emo_wf (p_init P) /\
  (forall st, emo_wf st -> emo_wf (p_inval P st) /\ iv (p_inval P st) = no_iv /\ forall n, (n < 5)%nat -> iv (kid n (p_inval P st)) = no_iv) /\
  forall st s e fl, emo_wf st -> text_ok s e ->
   exists st' r, p_match P st s e fl = Ret (st', r) /\ emo_wf st' /\
    (r = true <-> exists y u, emo_at e fl Em A Ey N Mo s y u) /\
    (forall y u, emo_at e fl Em A Ey N Mo s y u -> iv st' = (s, y) /\ in_vis s y e /\
       member e fl Em (kid 0 st') (em_all u) /\ member e fl A (kid 1 st') (em_apex u) /\ member e fl (Some Ey) (kid 2 st') (em_eyes u) /\ member e fl N (kid 3 st') (em_nose u) /\ iv (kid 4 st') = span_iv (em_mouth u)) /\
    (r = false -> iv st' = no_iv /\ forall n, (n < 5)%nat -> iv (kid n st') = no_iv).
Proof.
  intros P. split; [|split].
  { split; [reflexivity|]. do 5 eexists. split; [reflexivity|]. split; [apply (ini_o txt); auto|]. split; [apply (ini_o txt); auto|]. split; [apply (ini_p txt); auto|]. split; [apply (ini_o txt); auto|apply (ini_p txt); auto]. }
  { intros st (V & a & b & c & d & f & K & W1 & W2 & W3 & W4 & W5). unfold P, emoticon_p. cbn [p_inval]. rewrite K.
    destruct (inv_o txt Em a GEm W1) as [? J1]. destruct (inv_o txt A b GA W2) as [? J2]. destruct (inv_p txt Ey c GEy W3) as [? J3]. destruct (inv_o txt N d GN W4) as [? J4]. destruct (inv_p txt Mo f GM W5) as [? J5].
    split; [wf5|]. split; [reflexivity|]. intros [|[|[|[|[|n]]]]] L; auto. lia. }
  intros st s e fl (V & kem & ka & key & kn & kmo & K & W1 & W2 & W3 & W4 & W5) T. unfold P, emoticon_p. cbn [p_match]. rewrite K. clear K.
  pose (GOAL := fun r : outcome (pst * bool) => exists st' b, r = Ret (st', b) /\ emo_wf st' /\
    (b = true <-> exists y u, emo_at e fl Em A Ey N Mo s y u) /\
    (forall y u, emo_at e fl Em A Ey N Mo s y u -> iv st' = (s, y) /\ in_vis s y e /\
       member e fl Em (kid 0 st') (em_all u) /\ member e fl A (kid 1 st') (em_apex u) /\ member e fl (Some Ey) (kid 2 st') (em_eyes u) /\ member e fl N (kid 3 st') (em_nose u) /\ iv (kid 4 st') = span_iv (em_mouth u)) /\
    (b = false -> iv st' = no_iv /\ forall n, (n < 5)%nat -> iv (kid n st') = no_iv)).
  match goal with |- exists st' r, ?X = _ /\ _ => change (GOAL X) end.
  assert (YES : forall st' y u, emo_wf st' -> emo_at e fl Em A Ey N Mo s y u -> iv st' = (s, y) -> in_vis s y e ->
       member e fl Em (kid 0 st') (em_all u) -> member e fl A (kid 1 st') (em_apex u) -> member e fl (Some Ey) (kid 2 st') (em_eyes u) -> member e fl N (kid 3 st') (em_nose u) -> iv (kid 4 st') = span_iv (em_mouth u) -> GOAL (Ret (st', true))).
  { clear. intros st' y u W U I Iv M1 M2 M3 M4 M5. exists st', true. split; auto. split; auto. split; [split; eauto|]. split; [|discriminate]. intros y' u' U'. destruct (emo_unique e fl s y u y' u' U U') as [<- <-]. auto 10. }
  destruct (ranv_o txt Em kem s e fl GEm W1 T) as (kem1 & -> & W1' & R1). cbn [obind]. destruct (o_f Em s e fl) as [y|] eqn:FE; cbn [found].
  { destruct R1 as (M & -> & _ & Ty & Iy). destruct (inv_o txt A ka GA W2) as [? J2]. destruct (inv_p txt Ey key GEy W3) as [? J3]. destruct (inv_o txt N kn GN W4) as [? J4]. destruct (inv_p txt Mo kmo GM W5) as [? J5].
    eapply YES; [wf5|eapply EWhole; eauto|reflexivity|exact Iy|exact M|exact J2|exact J3|exact J4|exact J5]. }
  destruct (ranv_o txt A ka s e fl GA W2 T) as (ka1 & -> & W2' & R2). cbn [obind].
  assert (AX : exists x a, (if found (o_f A s e fl) then i_end ka1 else s) = x /\ apex_at e fl A s x a /\ text_ok x e /\ in_vis s x e /\ member e fl A ka1 a).
  { unfold apex_at. destruct (o_f A s e fl) as [x|]; cbn [found].
    - destruct R2 as (M & -> & _ & Tx & Ix). exists x, (Some (s, x)). auto 10.
    - exists s, None. split; auto. split; auto. split; auto. split; [unfold ParserPeg.in_vis; lia|exact R2]. }
  destruct AX as (x & a & -> & AX & Tx & Ix & Ma). cbv zeta. clear R2.
  assert (UX : forall x' a', apex_at e fl A s x' a' -> x' = x). { intros x' a'. unfold apex_at in *. destruct (o_f A s e fl); destruct AX as [-> ->]; intros [-> ->]; auto. }
  assert (NO : forall key kn kmo, es_wf Ey key -> o_wf N kn -> es_wf Mo kmo -> (forall c d y, ~ nosed_at e fl Ey N Mo x c d y) -> (forall c y, ~ noseless_at e fl Ey Mo x c y) ->
     GOAL (Ret (Pst 1 0 [] [op_inval (o_P Em) kem1; op_inval (o_P A) ka1; p_inval (es_P Ey) key; op_inval (o_P N) kn; p_inval (es_P Mo) kmo], false))).
  { clear key kn kmo W3 W4 W5. intros key kn kmo W3 W4 W5 N1 N2. destruct (inv_o txt Em kem1 GEm W1') as [? J1]. destruct (inv_o txt A ka1 GA W2') as [? J2]. destruct (inv_p txt Ey key GEy W3) as [? J3]. destruct (inv_o txt N kn GN W4) as [? J4]. destruct (inv_p txt Mo kmo GM W5) as [? J5].
    assert (NU : forall y u, ~ emo_at e fl Em A Ey N Mo s y u). { intros y u U. inversion U; subst; try congruence; match goal with X : apex_at _ _ _ s _ _ |- _ => apply UX in X; subst end; [eapply N1|eapply N2]; eauto. }
    do 2 eexists. split; [reflexivity|]. split; [wf5|]. split; [split; [discriminate|intros (y & u & U); exfalso; eapply NU; eauto]|]. split; [intros y u U; exfalso; eapply NU; eauto|]. intros _. split; [reflexivity|]. intros [|[|[|[|[|n]]]]] L; auto. lia. }
  destruct (ranv_p txt Ey key x e fl GEy W3 Tx) as (key1 & -> & W3' & R3). cbn [obind o_f o_wf] in *. destruct (es_f Ey x e fl) as [c|] eqn:FY; cbn [found negb].
  2:{ apply NO; auto; [intros c d y (H & _)|intros c y (H & _)]; congruence. }
  destruct R3 as (My & -> & _ & Tc & Ic).
  destruct (ranv_o txt N kn c e fl GN W4 Tc) as (kn1 & -> & W4' & R4). cbn [obind].
  assert (LESS : forall kmo, es_wf Mo kmo -> (forall c d y, ~ nosed_at e fl Ey N Mo x c d y) -> GOAL
     (let* (kmo, b) := p_match (es_P Mo) kmo c e fl in
      if b then let* (kmo, y) := mouth_again (es_P Mo) kmo e fl in Ret (Pst s y [] [kem1; ka1; key1; op_inval (o_P N) kn1; kmo], true)
      else Ret (Pst 1 0 [] [op_inval (o_P Em) kem1; op_inval (o_P A) ka1; p_inval (es_P Ey) key1; op_inval (o_P N) kn1; p_inval (es_P Mo) kmo], false))).
  { clear kmo W5. intros kmo W5 NN. destruct (ranv_p txt Mo kmo c e fl GM W5 Tc) as (km1 & -> & W5' & R5). cbn [obind o_f o_wf] in *. destruct (es_f Mo c e fl) as [m|] eqn:FM; cbn [found].
    - destruct R5 as (Mm & _ & _ & Tm & Im). destruct (again_ok e fl km1 c m W5' Tc FM Mm Tm Im) as (km2 & y & -> & W6 & MA & I6 & Ty & Iy). cbn [obind]. destruct (inv_o txt N kn1 GN W4') as [? J4].
      eapply YES; [wf5|eapply ENoseless; eauto; split; eauto|reflexivity| |exact R1|exact Ma|exact My|exact J4|exact I6]. apply (in_trans txt s x); auto. apply (in_trans txt x c); auto.
    - apply NO; auto. intros c' y (H & m & Hm & _). congruence. }
  destruct (o_f N c e fl) as [d|] eqn:FN; cbn [found].
  - destruct R4 as (Mn & -> & _ & Td & Id). destruct (ranv_p txt Mo kmo d e fl GM W5 Td) as (km1 & -> & W5' & R5). cbn [obind o_f o_wf] in *. destruct (es_f Mo d e fl) as [m|] eqn:FM; cbn [found].
    + destruct R5 as (Mm & _ & _ & Tm & Im). destruct (again_ok e fl km1 d m W5' Td FM Mm Tm Im) as (km2 & y & -> & W6 & MA & I6 & Ty & Iy). cbn [obind].
      eapply YES; [wf5|eapply ENosed; eauto; split; eauto|reflexivity| |exact R1|exact Ma|exact My|exact Mn|exact I6]. apply (in_trans txt s x); auto. apply (in_trans txt x c); auto. apply (in_trans txt c d); auto.
    + apply LESS; auto. intros c' d' y (H1 & H2 & m & H3 & _). assert (c' = c) by congruence. subst c'. assert (d' = d) by congruence. subst d'. congruence.
  - cbn [obind]. apply LESS; auto. intros c' d' y (H1 & H2 & _). assert (c' = c) by congruence. subst c'. congruence.
Qed.
End Props.

(** C221 as stated: after a match the member mouth tells which mouth it was (hit_offset).  False, whatever the set of mouths: the
    last thing the mouth parser did was not to match, or to match another mouth. *)
Lemma set_hit : forall txt tolow set st s e fl st' b, p_match (cu_set txt tolow set false) st s e fl = Ret (st', b) -> b = true \/ vals st' = [-1].
Proof.
  intros txt tolow set st s e fl st' b. unfold cu_set. cbn [p_match]. destruct (peek txt s e) as [[c|]| |]; cbn [obind]; try discriminate; [|intros H; injection H as <- <-; auto].
  destruct (if fl_ci fl then _ else _) as [[r|]| |]; cbn [obind negb]; try discriminate; intros H; injection H as <- <-; auto.
Qed.
Lemma mouths_hit : forall txt tolow set fuel km h x e fl km' y, mouths (cu_set txt tolow set false) fuel km h x e fl = Ret (km', y) -> the_val km' <> h \/ the_val km' = -1.
Proof.
  induction fuel as [|fuel IH]; intros km h x e fl km' y; cbn [mouths]; [discriminate|]. destruct (p_match (cu_set txt tolow set false) km x e fl) as [[k b]| |] eqn:M; cbn [obind]; try discriminate.
  destruct (set_hit _ _ _ _ _ _ _ _ _ M) as [->|V]; cbn [andb].
  - destruct (Z.eqb_spec (the_val k) h) as [Q|Q]; [apply IH|]. intros H. injection H as <- <-. auto.
  - destruct b; cbn [andb].
    + destruct (the_val k =? h); [apply IH|]. intros H. injection H as <- <-. right. unfold the_val. rewrite V. reflexivity.
    + intros H. injection H as <- <-. right. unfold the_val. rewrite V. reflexivity.
Qed.
(** so after a match hit_offset is never the place in the set of the mouth that is there *)
Theorem emoticon_hit_refuted : forall txt tolow set km h x e fl km' y,
  p_match (cu_set txt tolow set false) km x e fl = Ret (h, true) -> mouth_again (cu_set txt tolow set false) h e fl = Ret (km', y) -> the_val h <> -1 -> the_val km' <> the_val h.
Proof.
  intros txt tolow set km h x e fl km' y M H Nh. unfold mouth_again in H. destruct (mouths _ _ h _ _ e fl) as [[k z]| |] eqn:E; cbn [obind] in H; try discriminate. injection H as <- <-. unfold the_val in *. cbn [set_interval vals] in *.
  destruct (mouths_hit _ _ _ _ _ _ _ _ _ _ _ E) as [H|H]; unfold the_val in H; congruence.
Qed.
