(** Properties C215 and C216: DNS names and URL paths. *)
From Coq Require Import ZifyBool ZifyNat.
From Verif Require Import Base StringModel StringSpec StringProofs ParserModel ParserSpec ParserProps ParserNumModel ParserNumProps ParserPeg DateSpec TimeProps UrlModel UrlSpec.

Section Props.
Context (txt : list Z).
Local Notation text_ok := (text_ok txt).
Local Notation vis := (vis txt).
Local Notation in_vis := (in_vis txt).

(** a parser whose matches are determined by a relation is an element *)
Lemma element_of : forall P (wf : pst -> Prop) (R : nat -> nat -> pflags -> nat -> list Z -> Prop),
  wf (p_init P) ->
  (forall st, wf st -> wf (p_inval P st) /\ iv (p_inval P st) = (1, 0)%nat) ->
  (forall s e fl y v z w, text_ok s e -> R s e fl y v -> R s e fl z w -> y = z /\ v = w) ->
  (forall st s e fl, wf st -> text_ok s e -> exists st' r, p_match P st s e fl = Ret (st', r) /\ wf st' /\
     if r then exists y, R s e fl y (vals st') /\ iv st' = (s, y) /\ in_vis s y e else (forall y v, ~ R s e fl y v) /\ iv st' = (1, 0)%nat) ->
  exists f g, element txt P wf f g /\ forall s e fl y, text_ok s e -> (f s e fl = Some y <-> R s e fl y (g s e fl)) /\ (f s e fl = None <-> forall y v, ~ R s e fl y v).
Proof.
  intros P wf R Wi Iv Fu M.
  pose (f := fun s e fl => match p_match P (p_init P) s e fl with Ret (st, true) => Some (i_end st) | _ => None end : option nat).
  pose (g := fun s e fl => match p_match P (p_init P) s e fl with Ret (st, true) => vals st | _ => [] end).
  assert (K : forall s e fl, text_ok s e -> match f s e fl with Some y => R s e fl y (g s e fl) /\ in_vis s y e | None => forall y v, ~ R s e fl y v end).
  { intros s e fl T. destruct (M (p_init P) s e fl Wi T) as (st & r & E & W & H). unfold f, g. rewrite E. destruct r; [|apply H]. destruct H as (y & H & I & V). injection I as _ ->. auto. }
  exists f, g. split.
  - constructor; auto.
    + intros st s e fl W T. destruct (M st s e fl W T) as (st' & r & E & W' & H). exists st'. pose proof (K s e fl T) as Kk. rewrite E. destruct r, (f s e fl) as [y|]; cbn [found].
      * destruct H as (z & H & I & V), Kk as [Kk _]. destruct (Fu _ _ _ _ _ _ _ T H Kk) as [-> ->]. auto.
      * exfalso. destruct H as (z & H & _). eapply Kk; eauto.
      * exfalso. destruct H as [H _], Kk as [Kk _]. eapply H; eauto.
      * destruct H. auto.
    + intros s e fl x T F. pose proof (K s e fl T) as Kk. rewrite F in Kk. apply Kk.
  - intros s e fl y T. pose proof (K s e fl T) as Kk. destruct (f s e fl) as [x|] eqn:F.
    + destruct Kk as [Kk _]. split; split; intros H.
      * congruence.
      * destruct (Fu _ _ _ _ _ _ _ T H Kk). congruence.
      * discriminate.
      * exfalso. eapply H; eauto.
    + split; split; auto; try discriminate. intros H. exfalso. eapply Kk; eauto.
Qed.

Lemma adv_none : forall p x e fl, good txt p -> advances txt (es_f p) -> text_ok x e -> vis x e = [] -> es_f p x e fl = None.
Proof.
  intros p x e fl G A T V. destruct (es_f p x e fl) as [y|] eqn:F; auto. pose proof (A x e fl y T F). pose proof (el_within _ _ _ _ _ G x e fl y T F) as W. rewrite V in W. cbn [length] in W. lia.
Qed.
Lemma vis_shorter : forall s x e, text_ok s e -> (s < x)%nat -> in_vis s x e -> (length (vis x e) < length (vis s e))%nat.
Proof. intros s x e T L W. destruct (vis_to txt s e x T W) as [_ ->]. rewrite skipn_length. unfold ParserPeg.in_vis in W. lia. Qed.

(** ** DNS names *)
Section Dns.
Context (abs : bool) (D Se : espec) (GD : good txt D) (GS : good txt Se) (AD : advances txt (es_f D)) (AS : advances txt (es_f Se)).
Context (e : nat) (fl : pflags).
Local Notation f := (es_f D).
Local Notation sp := (fun x => es_f Se x e fl).
Context (DIS : forall x, text_ok x e -> f x e fl = None \/ sp x = None).
Local Notation edge := (edge e fl D).
Local Notation ends_well := (ends_well e fl D).
Local Notation label_at := (label_at e fl D).

Lemma tail_step : forall i y, ends_well i y <-> exists c, f i e fl = Some c /\ (edge i /\ y = c \/ c <> i /\ ends_well c y).
Proof.
  intros i y. split.
  - intros (n & m & Rp & F & Ed). destruct n as [|n]; cbn [reps] in Rp.
    + subst m. exists y. auto.
    + destruct Rp as (c & F' & Ne & Rp). exists c. split; auto. right. split; auto. exists n, m. auto.
  - intros (c & F & [[Ed ->]|[Ne (n & m & Rp & F' & Ed)]]).
    + exists 0%nat, i. repeat split; auto.
    + exists (S n), m. repeat split; auto. cbn [reps]. eauto.
Qed.
Lemma tail_lt : forall i y, text_ok i e -> ends_well i y -> (i < y)%nat /\ in_vis i y e.
Proof.
  intros i y T (n & m & Rp & F & _). revert i T Rp. induction n as [|n IH]; intros i T Rp; cbn [reps] in Rp.
  - subst m. split; [apply (AD i e fl y T F)|apply (el_within _ _ _ _ _ GD i e fl y T F)].
  - destruct Rp as (c & F' & _ & Rp). pose proof (AD i e fl c T F'). pose proof (el_within _ _ _ _ _ GD i e fl c T F') as W. destruct (vis_to txt i e c T W) as [Tc _].
    destruct (IH c Tc Rp) as [L V]. split; [lia|]. apply (in_trans txt i c); auto.
Qed.
Lemma edge_dec : forall k i, the_val k = num (Some D) i e fl -> on_edge k = true <-> edge i.
Proof. intros k i E. unfold on_edge, UrlSpec.edge. rewrite E. destruct (Z.eqb_spec (num (Some D) i e fl) 0) as [Q|Q]; cbn [negb]; split; intros H; auto; try discriminate; contradiction. Qed.

Lemma inner_ok : forall fuel kd ks i y, es_wf D kd -> es_wf Se ks -> text_ok i e -> (length (vis i e) < fuel)%nat ->
  (on_edge kd = true -> y = i) -> (on_edge kd = false -> sp y = None) -> (y <= i)%nat ->
  exists kd' ks' i' z done, dns_inner txt abs (es_P D) (es_P Se) fuel kd ks i y e fl = Ret (kd', ks', i', z, done) /\ es_wf D kd' /\ es_wf Se ks' /\
  exists a, (a = y \/ ends_well i a) /\ (forall z, z = y \/ ends_well i z -> (z <= a)%nat /\ (z = a \/ sp z = None)) /\
    match sp a with
    | Some b => i' = b /\ z = (if abs then b else a) /\ done = false /\ text_ok b e /\ in_vis a b e
    | None => z = a /\ (done = true \/ text_ok i' e /\ vis i' e = [])
    end.
Proof.
  induction fuel as [|fuel IH]; intros kd ks i y Wd Ws T L E1 E2 Ly; [lia|]. cbn [dns_inner]. rewrite (peek_spec txt i e T). cbn [obind].
  destruct (vis i e) as [|u r] eqn:V; cbn [hd_error].
  { pose proof (adv_none D i e fl GD AD T V) as Nd. pose proof (adv_none Se i e fl GS AS T V) as Ns.
    do 5 eexists. split; [reflexivity|]. split; auto. split; auto. exists y. split; auto. split.
    - intros z [->|H]; [split; auto; lia|]. exfalso. apply tail_step in H. destruct H as (c & F & _). congruence.
    - assert (X : sp y = None) by (destruct (on_edge kd) eqn:O; [rewrite (E1 eq_refl)|]; auto). cbv beta in X. rewrite X. auto. }
  assert (STEP : forall ks, es_wf Se ks -> sp y = None -> exists kd' ks' i' z done,
     (let* (kd0, b) := p_match (es_P D) kd i e fl in
      if b then dns_inner txt abs (es_P D) (es_P Se) fuel kd0 ks (i_end kd0) (if on_edge kd0 then i_end kd0 else y) e fl else Ret (kd0, ks, i, y, true)) = Ret (kd', ks', i', z, done) /\ es_wf D kd' /\ es_wf Se ks' /\
     exists a, (a = y \/ ends_well i a) /\ (forall z, z = y \/ ends_well i z -> (z <= a)%nat /\ (z = a \/ sp z = None)) /\
     match sp a with
     | Some b => i' = b /\ z = (if abs then b else a) /\ done = false /\ text_ok b e /\ in_vis a b e
     | None => z = a /\ (done = true \/ text_ok i' e /\ vis i' e = [])
     end).
  { clear ks Ws E2. intros ks Ws Ny. destruct (ranv_p txt D kd i e fl GD Wd T) as (kd' & -> & Wd' & Rd). cbn [obind o_f o_wf] in *.
    destruct (f i e fl) as [c|] eqn:F; cbn [found].
    - destruct Rd as (_ & -> & Vd & Tc & Ic). pose proof (AD i e fl c T F) as Lc. pose proof (vis_shorter i c e T Lc Ic) as Sh. pose proof (edge_dec kd' i Vd) as Ed.
      destruct (IH kd' ks c (if on_edge kd' then c else y) Wd' Ws Tc) as (kd2 & ks2 & i' & z & dn & Eq & W1 & W2 & a & Ha & Mx & Rs).
      + rewrite V in Sh. lia.
      + intros O. rewrite O. auto.
      + intros O. rewrite O. auto.
      + destruct (on_edge kd'); lia.
      + do 5 eexists. split; [exact Eq|]. split; auto. split; auto. exists a. split; [|split; [|exact Rs]].
        * destruct Ha as [Ha|Ha].
          -- destruct (on_edge kd') eqn:O; [|auto]. right. apply tail_step. exists c. split; auto. left. split; auto. apply Ed. auto.
          -- right. apply tail_step. exists c. split; auto. right. split; auto. lia.
        * intros t [->|H].
          -- destruct (on_edge kd'); [|apply Mx; auto]. destruct (Mx c (or_introl eq_refl)) as [X _]. split; [lia|auto].
          -- apply tail_step in H. destruct H as (c' & F' & H). assert (c' = c) by congruence. subst c'. destruct H as [[H ->]|[_ H]]; [|apply Mx; auto].
             assert (O : on_edge kd' = true) by (apply Ed; auto). rewrite O in Mx. apply Mx. auto.
    - do 5 eexists. split; [reflexivity|]. split; auto. split; auto. exists y. split; auto. split.
      + intros z [->|H]; [split; auto; lia|]. exfalso. apply tail_step in H. destruct H as (c & F' & _). congruence.
      + cbv beta in Ny. rewrite Ny. auto. }
  destruct (on_edge kd) eqn:O.
  - specialize (E1 eq_refl). subst y. destruct (ranv_p txt Se ks i e fl GS Ws T) as (ks' & -> & Ws' & Rs). cbn [obind o_f o_wf] in *.
    destruct (es_f Se i e fl) as [b|] eqn:F; cbn [found].
    + destruct Rs as (_ & -> & _ & Tb & Ib). do 5 eexists. split; [reflexivity|]. split; auto. split; auto. exists i. split; auto. split.
      * intros z [->|H]; [split; auto|]. exfalso. apply tail_step in H. destruct H as (c & F' & _). destruct (DIS i T); congruence.
      * cbv beta. rewrite F. repeat split; auto; apply Tb || apply Ib.
    + apply STEP; auto.
  - cbn [obind]. apply STEP; auto.
Qed.

Local Notation dns_upto := (dns_upto e fl abs D Se).
Lemma upto_step : forall n i z, dns_upto (S n) i z <->
  label_at i z \/ (abs = true /\ exists x, label_at i x /\ sp x = Some z) \/ exists a b, label_at i a /\ sp a = Some b /\ dns_upto n b z.
Proof.
  intros n i z. split.
  - intros (k & L & H). destruct k as [|k]; cbn [labels_at] in H.
    + destruct H; auto.
    + right. right. destruct H as [(a & b & L1 & S1 & H)|(A & x & (a & b & L1 & S1 & H) & S2)]; exists a, b; (split; [auto|]; split; [auto|]); exists k; (split; [lia|]); [auto|]. right. split; auto. exists x. auto.
  - intros [H|[(A & x & H & S1)|(a & b & L1 & S1 & k & L & H)]].
    + exists 0%nat. split; [lia|]. auto.
    + exists 0%nat. split; [lia|]. right. split; auto. exists x. auto.
    + exists (S k). split; [lia|]. cbn [labels_at]. destruct H as [H|(A & x & H & S2)]; [left; eauto|]. right. split; auto. exists x. split; auto. exists a, b. auto.
Qed.
Lemma label_lt : forall i y, text_ok i e -> label_at i y -> (i < y)%nat /\ in_vis i y e.
Proof. intros i y T [_ H]. apply tail_lt; auto. Qed.
Lemma sep_lt : forall i y, text_ok i e -> sp i = Some y -> (i < y)%nat /\ in_vis i y e.
Proof. intros i y T H. split; [apply (AS i e fl y T H)|apply (el_within _ _ _ _ _ GS i e fl y T H)]. Qed.
Lemma upto_lt : forall n i y, text_ok i e -> dns_upto n i y -> (i < y)%nat /\ in_vis i y e.
Proof.
  induction n as [|n IH]; intros i y T H. { destruct H as (k & L & _). lia. }
  apply upto_step in H. destruct H as [H|[(A & x & H & S1)|(a & b & H & S1 & U)]].
  - apply label_lt; auto.
  - destruct (label_lt i x T H) as [L V]. destruct (vis_to txt i e x T V) as [Tx _]. destruct (sep_lt x y Tx S1) as [L2 V2]. split; [lia|]. apply (in_trans txt i x); auto.
  - destruct (label_lt i a T H) as [L V]. destruct (vis_to txt i e a T V) as [Ta _]. destruct (sep_lt a b Ta S1) as [L2 V2]. destruct (vis_to txt a e b Ta V2) as [Tb _]. destruct (IH b y Tb U) as [L3 V3].
    split; [lia|]. apply (in_trans txt i a); auto. apply (in_trans txt a b); auto.
Qed.
Lemma outer_ok : forall n some kd ks i y, es_wf D kd -> es_wf Se ks -> text_ok i e ->
  exists kd' ks' o, dns_outer txt abs (es_P D) (es_P Se) n some kd ks i y e fl = Ret (kd', ks', o) /\ es_wf D kd' /\ es_wf Se ks' /\
  ((exists z, longest (dns_upto n) i z /\ o = Some z) \/ (forall z, ~ dns_upto n i z) /\ o = if some then Some y else None).
Proof.
  induction n as [|n IH]; intros some kd ks i y Wd Ws T; cbn [dns_outer].
  { do 3 eexists. split; [reflexivity|]. split; auto. split; auto. right. split; auto. intros z (k & L & _). lia. }
  rewrite (peek_spec txt i e T). cbn [obind]. destruct (vis i e) as [|u r] eqn:V; cbn [hd_error].
  { do 3 eexists. split; [reflexivity|]. split; auto. split; auto. right. split; auto. intros z H. destruct (upto_lt _ _ _ T H) as [A B]. unfold ParserPeg.in_vis in B. rewrite V in B. cbn [length] in B. lia. }
  destruct (ranv_p txt D kd i e fl GD Wd T) as (kd1 & -> & Wd1 & Rd). cbn [obind o_f o_wf] in *.
  destruct (f i e fl) as [c|] eqn:F; cbn [found andb].
  2:{ do 3 eexists. split; [reflexivity|]. split; auto. split; auto. right. split; auto.
      assert (NL : forall a, ~ label_at i a) by (intros a [_ H]; apply tail_step in H; destruct H as (c & F' & _); congruence).
      intros z H. apply upto_step in H. destruct H as [H|[(_ & x & H & _)|(a & b & H & _)]]; eapply NL; eauto. }
  destruct Rd as (_ & Ec & Vd & Tc & Ic). pose proof (edge_dec kd1 i Vd) as Ed. destruct (on_edge kd1) eqn:O.
  2:{ do 3 eexists. split; [reflexivity|]. split; auto. split; auto. right. split; auto.
      assert (NL : forall a, ~ label_at i a) by (intros a [H _]; apply Ed in H; congruence).
      intros z H. apply upto_step in H. destruct H as [H|[(_ & x & H & _)|(a & b & H & _)]]; eapply NL; eauto. }
  assert (Ei : edge i) by (apply Ed; auto). rewrite Ec. pose proof (AD i e fl c T F) as Lc.
  destruct (inner_ok (S (e - i)) kd1 ks c c Wd1 Ws Tc) as (kd2 & ks2 & i' & z & dn & -> & Wd2 & Ws2 & a & Ha & Mx & Rs); auto.
  { pose proof (vis_end txt c e Tc). lia. } { congruence. }
  cbn [obind].
  assert (LA : forall t, label_at i t <-> t = c \/ ends_well c t).
  { intros t. unfold UrlSpec.label_at. rewrite tail_step. split.
    - intros [_ (c' & F' & H)]. assert (c' = c) by congruence. subst. destruct H as [[_ H]|[_ H]]; auto.
    - intros [->|H]; (split; [auto|]); exists c; (split; [auto|]); [auto|]. right. split; auto. lia. }
  pose proof (proj2 (LA a) Ha) as La. destruct (label_lt i a T La) as [Lia Via]. destruct (vis_to txt i e a T Via) as [Ta _].
  destruct (es_f Se a e fl) as [b|] eqn:Sa.
  - destruct Rs as (-> & -> & -> & Tb & Ib). destruct (sep_lt a b Ta Sa) as [Lab _].
    destruct (IH true kd2 ks2 b (if abs then b else a) Wd2 Ws2 Tb) as (kd3 & ks3 & o & -> & Wd3 & Ws3 & H). do 3 eexists. split; [reflexivity|]. split; auto. split; auto. left.
    destruct H as [(z & [U M] & ->)|[N ->]].
    + exists z. split; auto. destruct (upto_lt _ _ _ Tb U) as [Lz _]. split.
      * apply upto_step. right. right. exists a, b. auto.
      * intros t Ht. apply upto_step in Ht. destruct Ht as [H|[(_ & x & H & Sx)|(a' & b' & H & S' & U')]].
        -- apply LA in H. destruct (Mx t H). lia.
        -- apply LA in H. destruct (Mx x H) as [_ [->|K]]; cbv beta in *; [|congruence]. assert (t = b) by congruence. lia.
        -- apply LA in H. destruct (Mx a' H) as [_ [->|K]]; cbv beta in *; [|congruence]. assert (b' = b) by congruence. subst b'. auto.
    + eexists. split; [|reflexivity]. split.
      * apply upto_step. destruct abs; [right; left; eauto|auto].
      * intros t Ht. apply upto_step in Ht. destruct Ht as [H|[(A & x & H & Sx)|(a' & b' & H & S' & U')]].
        -- apply LA in H. destruct (Mx t H). destruct abs; lia.
        -- rewrite A. apply LA in H. destruct (Mx x H) as [_ [->|K]]; cbv beta in *; [|congruence]. assert (t = b) by congruence. lia.
        -- exfalso. apply LA in H. destruct (Mx a' H) as [_ [->|K]]; cbv beta in *; [|congruence]. assert (b' = b) by congruence. subst b'. eapply N; eauto.
  - destruct Rs as (-> & Rs).
    assert (LO : longest (dns_upto (S n)) i a).
    { split; [apply upto_step; auto|]. intros t Ht. apply upto_step in Ht. destruct Ht as [H|[(A & x & H & Sx)|(a' & b' & H & S' & U')]].
      - apply LA in H. apply (Mx t H).
      - exfalso. apply LA in H. destruct (Mx x H) as [_ [->|K]]; cbv beta in *; congruence.
      - exfalso. apply LA in H. destruct (Mx a' H) as [_ [->|K]]; cbv beta in *; congruence. }
    destruct dn; cbn [negb].
    + do 3 eexists. split; [reflexivity|]. split; auto. split; auto. left. exists a. auto.
    + destruct Rs as [Rs|[Ti Vi]]; [discriminate|].
      assert (X : dns_outer txt abs (es_P D) (es_P Se) n true kd2 ks2 i' a e fl = Ret (kd2, ks2, Some a)). { destruct n; cbn [dns_outer]; auto. rewrite (peek_spec txt i' e Ti), Vi. reflexivity. }
      rewrite X. do 3 eexists. split; [reflexivity|]. split; auto. split; auto. left. exists a. auto.
Qed.
End Dns.

(** the separator is nowhere a character of a label *)
Definition apart (D Se : espec) : Prop := forall x e fl, text_ok x e -> es_f D x e fl = None \/ es_f Se x e fl = None.
Definition dns_wf (D Se : espec) (st : pst) : Prop := vals st = [] /\ exists a b, kids st = [a; b] /\ es_wf D a /\ es_wf Se b.
(** C215: a DNS name is matched exactly where there is one, and the longest. *)
Theorem dns_name_spec : forall abs D Se, good txt D -> good txt Se -> advances txt (es_f D) -> advances txt (es_f Se) -> apart D Se ->
  exists f, element txt (dns_name txt abs (es_P D) (es_P Se)) (dns_wf D Se) f no_vals /\ advances txt f /\
  forall s e fl y, text_ok s e -> (f s e fl = Some y <-> longest (dns_at e fl abs D Se) s y) /\ (f s e fl = None <-> forall y, ~ dns_at e fl abs D Se s y).
Proof.
  intros abs D Se GD GS AD AS DI.
  destruct (element_of (dns_name txt abs (es_P D) (es_P Se)) (dns_wf D Se) (fun s e fl y v => longest (dns_at e fl abs D Se) s y /\ v = [])) as (f & g & El & Sp).
  - split; [reflexivity|]. do 2 eexists. split; [reflexivity|]. split; apply (ini_p txt); auto.
  - intros st (V & a & b & K & Wa & Wb). split; [|reflexivity]. split; [exact V|]. exists a, b. auto.
  - intros s e fl y v z w T [[A B] ->] [[A' B'] ->]. split; auto. pose proof (B z A'). pose proof (B' y A). lia.
  - intros st s e fl (V & kd & ks & K & Wd & Ws) T. unfold dns_name. cbn [p_match]. rewrite K.
    destruct (outer_ok abs D Se GD GS AD AS e fl (fun x Tx => DI x e fl Tx) 127 false kd ks s (i_end st) Wd Ws T) as (kd' & ks' & o & -> & Wd' & Ws' & H). cbn [obind].
    destruct H as [(z & Lo & ->)|[N ->]].
    + do 2 eexists. split; [reflexivity|]. split. { split; [reflexivity|]. do 2 eexists. split; [reflexivity|]. auto. }
      exists z. cbn [vals]. split; [split; auto|]. split; [reflexivity|]. destruct Lo as [Lo _]. apply (upto_lt abs D Se GD GS AD AS e fl (fun x Tx => DI x e fl Tx) 127 s z T Lo).
    + do 2 eexists. split; [reflexivity|]. split. { split; [reflexivity|]. do 2 eexists. split; [reflexivity|]. auto. }
      split; [|reflexivity]. intros y v [[H _] _]. eapply N; eauto.
  - assert (El' : element txt (dns_name txt abs (es_P D) (es_P Se)) (dns_wf D Se) f no_vals).
    { destruct El as [E1 E2 E3 E4]. constructor; auto. intros st s e fl W T. destruct (E2 st s e fl W T) as (st' & A & B & C). exists st'. split; auto. split; auto. destruct (f s e fl) as [x|]; auto. destruct C as [C _]. split; auto. apply B. }
    assert (SP : forall s e fl y, text_ok s e -> (f s e fl = Some y <-> longest (dns_at e fl abs D Se) s y) /\ (f s e fl = None <-> forall y, ~ dns_at e fl abs D Se s y)).
    { intros s e fl y T. destruct (Sp s e fl y T) as [A B]. destruct (f s e fl) as [x|] eqn:F.
      - destruct (Sp s e fl x T) as [Ax _]. rewrite F in Ax. destruct (proj1 Ax eq_refl) as [Lo Gn]. split; split; intros H; try discriminate.
        + injection H as <-. auto.
        + f_equal. destruct H as [H1 H2], Lo as [L1 L2]. pose proof (H2 x L1). pose proof (L2 y H1). lia.
        + exfalso. destruct Lo as [L1 _]. eapply H; eauto.
      - split; split; intros H; try discriminate; auto.
        + exfalso. apply (proj1 B eq_refl y []). auto.
        + intros z Hz. destruct El as [E1 E2 _ _]. destruct (E2 (p_init (dns_name txt abs (es_P D) (es_P Se))) s e fl E1 T) as (st' & Em & _ & _). rewrite F in Em. cbn [found] in Em.
          revert Em. unfold dns_name. cbn [p_match p_init kids new_pst].
          destruct (outer_ok abs D Se GD GS AD AS e fl (fun x Tx => DI x e fl Tx) 127 false (p_init (es_P D)) (p_init (es_P Se)) s (i_end (new_pst [] [p_init (es_P D); p_init (es_P Se)])) (ini_p txt D GD) (ini_p txt Se GS) T) as (kd' & ks' & o & -> & _ & _ & X). cbn [obind].
          destruct X as [(t & _ & ->)|[N ->]]; [discriminate|]. intros _. eapply N; eauto. }
    exists f. split; auto. split; auto. intros s e fl x T F. apply (SP s e fl x T) in F. destruct F as [F _]. apply (upto_lt abs D Se GD GS AD AS e fl (fun x Tx => DI x e fl Tx) 127 s x T F).
Qed.

(** ** URL paths *)
Section Path.
Context (C Q B : espec) (GC : good txt C) (GQ : good txt Q) (GB : good txt B) (AC : advances txt (es_f C)) (AQ : advances txt (es_f Q)) (AB : advances txt (es_f B)).
Context (e : nat) (fl : pflags).
Lemma star_nil : forall f x, f x e fl = None -> star_is f x x e fl.
Proof. intros f x H. split; auto. exists 0%nat. reflexivity. Qed.
Lemma star_cons : forall (f : pfun) x y z, f x e fl = Some y -> (x < y)%nat -> star_is f y z e fl -> star_is f x z e fl.
Proof. intros f x y z F L [(n & R) N]. split; auto. exists (S n). cbn [reps]. exists y. repeat split; auto. lia. Qed.
Lemma chars_ok : forall fuel kc x, es_wf C kc -> text_ok x e -> (length (vis x e) < fuel)%nat ->
  exists kc' y, path_chars txt (es_P C) fuel kc x e fl = Ret (kc', y) /\ es_wf C kc' /\ bookmark_at e fl C x y /\ text_ok y e /\ in_vis x y e.
Proof.
  induction fuel as [|fuel IH]; intros kc x Wc T L; [lia|]. cbn [path_chars]. rewrite (peek_spec txt x e T). cbn [obind].
  assert (ST : es_f C x e fl = None -> bookmark_at e fl C x x /\ in_vis x x e) by (intros F; split; [apply star_nil; auto|unfold ParserPeg.in_vis; lia]).
  destruct (vis x e) as [|u r] eqn:V; cbn [hd_error].
  { destruct (ST (adv_none C x e fl GC AC T V)). do 2 eexists. split; [reflexivity|]. auto. }
  destruct (ranv_p txt C kc x e fl GC Wc T) as (kc1 & -> & Wc1 & Rc). cbn [obind o_f o_wf] in *. destruct (es_f C x e fl) as [y|] eqn:F; cbn [found].
  - destruct Rc as (_ & -> & _ & Ty & Iy). pose proof (AC x e fl y T F) as Ly. pose proof (vis_shorter x y e T Ly Iy) as Sh. rewrite V in Sh. destruct (IH kc1 y Wc1 Ty) as (kc2 & z & -> & W & Bk & Tz & Iz); [lia|].
    do 2 eexists. split; [reflexivity|]. split; auto. split; [eapply star_cons; eauto|]. split; auto. apply (in_trans txt x y); auto.
  - destruct (ST eq_refl). do 2 eexists. split; [reflexivity|]. auto.
Qed.
Lemma query_ok : forall fuel kc kb x, es_wf C kc -> es_wf B kb -> text_ok x e -> (length (vis x e) < fuel)%nat ->
  exists kc' kb' y, path_query txt (es_P C) (es_P B) fuel kc kb x e fl = Ret (kc', kb', y, es_f B y e fl) /\ es_wf C kc' /\ es_wf B kb' /\ query_at e fl C B x y /\ text_ok y e /\ in_vis x y e.
Proof.
  induction fuel as [|fuel IH]; intros kc kb x Wc Wb T L; [lia|]. cbn [path_query]. rewrite (peek_spec txt x e T). cbn [obind].
  assert (ST : unless (es_f B) (es_f C) x e fl = None -> query_at e fl C B x x /\ in_vis x x e) by (intros F; split; [apply star_nil; auto|unfold ParserPeg.in_vis; lia]).
  destruct (vis x e) as [|u r] eqn:V; cbn [hd_error].
  { pose proof (adv_none B x e fl GB AB T V) as Nb. pose proof (adv_none C x e fl GC AC T V) as Nc. destruct ST as [Q1 Q2]; [unfold unless; rewrite Nb; auto|]. do 3 eexists. split; [rewrite <- Nb; reflexivity|]. auto. }
  destruct (ranv_p txt B kb x e fl GB Wb T) as (kb1 & -> & Wb1 & Rb). cbn [obind o_f o_wf] in *. destruct (es_f B x e fl) as [b|] eqn:Fb; cbn [found].
  { destruct Rb as (_ & -> & _ & _ & _). destruct ST as [Q1 Q2]; [unfold unless; rewrite Fb; auto|]. do 3 eexists. split; [rewrite <- Fb; reflexivity|]. auto. }
  destruct (ranv_p txt C kc x e fl GC Wc T) as (kc1 & -> & Wc1 & Rc). cbn [obind o_f o_wf] in *. destruct (es_f C x e fl) as [y|] eqn:F; cbn [found].
  - destruct Rc as (_ & -> & _ & Ty & Iy). pose proof (AC x e fl y T F) as Ly. pose proof (vis_shorter x y e T Ly Iy) as Sh. rewrite V in Sh. destruct (IH kc1 kb1 y Wc1 Wb1 Ty) as (kc2 & kb2 & z & -> & W & W2 & Bk & Tz & Iz); [lia|].
    do 3 eexists. split; [reflexivity|]. split; auto. split; auto. split; [eapply star_cons; eauto; unfold unless; rewrite Fb; auto|]. split; auto. apply (in_trans txt x y); auto.
  - destruct ST as [Q1 Q2]; [unfold unless; rewrite Fb; auto|]. do 3 eexists. split; [rewrite <- Fb; reflexivity|]. auto.
Qed.
Lemma plain_ok : forall fuel kc kq kb x, es_wf C kc -> es_wf Q kq -> es_wf B kb -> text_ok x e -> (length (vis x e) < fuel)%nat ->
  exists kc' kq' kb' y, path_path txt (es_P C) (es_P Q) (es_P B) fuel kc kq kb x e fl =
      Ret (kc', kq', kb', y, match es_f Q y e fl with Some q => Some (true, q) | None => match es_f B y e fl with Some b => Some (false, b) | None => None end end) /\
    es_wf C kc' /\ es_wf Q kq' /\ es_wf B kb' /\ plain_at e fl C Q B x y /\ text_ok y e /\ in_vis x y e.
Proof.
  induction fuel as [|fuel IH]; intros kc kq kb x Wc Wq Wb T L; [lia|]. cbn [path_path]. rewrite (peek_spec txt x e T). cbn [obind].
  assert (ST : unless (es_f Q) (unless (es_f B) (es_f C)) x e fl = None -> plain_at e fl C Q B x x /\ in_vis x x e) by (intros F; split; [apply star_nil; auto|unfold ParserPeg.in_vis; lia]).
  destruct (vis x e) as [|u r] eqn:V; cbn [hd_error].
  { pose proof (adv_none Q x e fl GQ AQ T V) as Nq. pose proof (adv_none B x e fl GB AB T V) as Nb. pose proof (adv_none C x e fl GC AC T V) as Nc.
    destruct ST as [Q1 Q2]; [unfold unless; rewrite Nq, Nb; auto|]. exists kc, kq, kb, x. rewrite Nq, Nb. auto 10. }
  destruct (ranv_p txt Q kq x e fl GQ Wq T) as (kq1 & -> & Wq1 & Rq). cbn [obind o_f o_wf] in *. destruct (es_f Q x e fl) as [q|] eqn:Fq; cbn [found].
  { destruct Rq as (_ & -> & _ & _ & _). destruct ST as [Q1 Q2]; [unfold unless; rewrite Fq; auto|]. exists kc, kq1, kb, x. rewrite Fq. auto 10. }
  destruct (ranv_p txt B kb x e fl GB Wb T) as (kb1 & -> & Wb1 & Rb). cbn [obind o_f o_wf] in *. destruct (es_f B x e fl) as [b|] eqn:Fb; cbn [found].
  { destruct Rb as (_ & -> & _ & _ & _). destruct ST as [Q1 Q2]; [unfold unless; rewrite Fq, Fb; auto|]. exists kc, kq1, kb1, x. rewrite Fq, Fb. auto 10. }
  destruct (ranv_p txt C kc x e fl GC Wc T) as (kc1 & -> & Wc1 & Rc). cbn [obind o_f o_wf] in *. destruct (es_f C x e fl) as [y|] eqn:F; cbn [found].
  - destruct Rc as (_ & -> & _ & Ty & Iy). pose proof (AC x e fl y T F) as Ly. pose proof (vis_shorter x y e T Ly Iy) as Sh. rewrite V in Sh. destruct (IH kc1 kq1 kb1 y Wc1 Wq1 Wb1 Ty) as (kc2 & kq2 & kb2 & z & -> & W & W2 & W3 & Bk & Tz & Iz); [lia|].
    do 4 eexists. split; [reflexivity|]. split; auto. split; auto. split; auto. split; [eapply star_cons; eauto; unfold unless; rewrite Fq, Fb; auto|]. split; auto. apply (in_trans txt x y); auto.
  - destruct ST as [Q1 Q2]; [unfold unless; rewrite Fq, Fb; auto|]. exists kc1, kq1, kb1, x. rewrite Fq, Fb. auto 10.
Qed.
Lemma path_unique : forall s y p z q, path_at e fl C Q B s y p -> path_at e fl C Q B s z q -> y = z /\ p = q.
Proof.
  intros s y p z q H H'. inversion H; inversion H'; subst;
    repeat match goal with
    | A : plain_at _ _ _ _ _ s ?x, B' : plain_at _ _ _ _ _ s ?x' |- _ => assert (x' = x) by (eapply star_unique; eauto); subst x'; clear B'
    | A : es_f ?p ?x e fl = Some ?u, B' : es_f ?p ?x e fl = Some ?v |- _ => assert (v = u) by congruence; subst v; clear B'
    | A : query_at _ _ _ _ ?x ?u, B' : query_at _ _ _ _ ?x ?v |- _ => assert (v = u) by (eapply star_unique; eauto); subst v; clear B'
    | A : bookmark_at _ _ _ ?x ?u, B' : bookmark_at _ _ _ ?x ?v |- _ => assert (v = u) by (eapply star_unique; eauto); subst v; clear B'
    end; auto; congruence.
Qed.
End Path.
Definition path_wf (C Q B : espec) (st : pst) : Prop := length (vals st) = 6%nat /\ exists a b c, kids st = [a; b; c] /\ es_wf C a /\ es_wf Q b /\ es_wf B c.
(** C216: path, query and bookmark, and their bounds. *)
Theorem url_path_spec : forall C Q B, good txt C -> good txt Q -> good txt B -> advances txt (es_f C) -> advances txt (es_f Q) -> advances txt (es_f B) ->
  exists f g, element txt (url_path txt (es_P C) (es_P Q) (es_P B)) (path_wf C Q B) f g /\
  forall s e fl y, text_ok s e -> (f s e fl = Some y <-> exists p, path_at e fl C Q B s y p /\ g s e fl = path_vals p) /\ (f s e fl = None <-> forall y p, ~ path_at e fl C Q B s y p).
Proof.
  intros C Q B GC GQ GB AC AQ AB.
  destruct (element_of (url_path txt (es_P C) (es_P Q) (es_P B)) (path_wf C Q B) (fun s e fl y v => exists p, path_at e fl C Q B s y p /\ v = path_vals p)) as (f & g & El & Sp).
  - split; [reflexivity|]. do 3 eexists. split; [reflexivity|]. split; [|split]; apply (ini_p txt); auto.
  - intros st (V & a & b & c & K & Wa & Wb & Wc). split; [|reflexivity]. split; [reflexivity|]. exists a, b, c. auto.
  - intros s e fl y v z w T (p & Hp & ->) (q & Hq & ->). destruct (path_unique C Q B e fl s y p z q Hp Hq) as [-> ->]. auto.
  - intros st s e fl (V & kc & kq & kb & K & Wc & Wq & Wb) T. unfold url_path. cbn [p_match]. rewrite K.
    destruct (plain_ok C Q B GC GQ GB AC AQ AB e fl (S (e - s)) kc kq kb s Wc Wq Wb T) as (kc1 & kq1 & kb1 & x & -> & Wc1 & Wq1 & Wb1 & Pl & Tx & Ix). { pose proof (vis_end txt s e T). lia. }
    cbn [obind]. destruct (es_f Q x e fl) as [q|] eqn:Fq.
    + destruct (vis_to txt x e q Tx (el_within _ _ _ _ _ GQ x e fl q Tx Fq)) as [Tq _].
      destruct (query_ok C B GC GB AC AB e fl (S (e - q)) kc1 kb1 q Wc1 Wb1 Tq) as (kc2 & kb2 & y & -> & Wc2 & Wb2 & Qu & Ty & Iy). { pose proof (vis_end txt q e Tq). lia. }
      assert (Isy : in_vis s y e). { apply (in_trans txt s x); auto. apply (in_trans txt x q); auto. apply (el_within _ _ _ _ _ GQ x e fl q Tx Fq). }
      cbn [obind]. destruct (es_f B y e fl) as [b|] eqn:Fb.
      * destruct (vis_to txt y e b Ty (el_within _ _ _ _ _ GB y e fl b Ty Fb)) as [Tb _].
        destruct (chars_ok C GC AC e fl (S (e - b)) kc2 b Wc2 Tb) as (kc3 & z & -> & Wc3 & Bk & Tz & Iz). { pose proof (vis_end txt b e Tb). lia. }
        cbn [obind]. do 2 eexists. split; [reflexivity|]. split. { split; [reflexivity|]. do 3 eexists. split; [reflexivity|]. auto. }
        exists z. split; [eexists; split; [eapply PQueryBookmark; eauto|reflexivity]|]. split; [reflexivity|]. apply (in_trans txt s y); auto. apply (in_trans txt y b); auto. apply (el_within _ _ _ _ _ GB y e fl b Ty Fb).
      * do 2 eexists. split; [reflexivity|]. split. { split; [reflexivity|]. do 3 eexists. split; [reflexivity|]. auto. }
        exists y. split; [eexists; split; [eapply PQuery; eauto|reflexivity]|]. split; [reflexivity|]. auto.
    + destruct (es_f B x e fl) as [b|] eqn:Fb.
      * destruct (vis_to txt x e b Tx (el_within _ _ _ _ _ GB x e fl b Tx Fb)) as [Tb _].
        destruct (chars_ok C GC AC e fl (S (e - b)) kc1 b Wc1 Tb) as (kc3 & z & -> & Wc3 & Bk & Tz & Iz). { pose proof (vis_end txt b e Tb). lia. }
        cbn [obind]. do 2 eexists. split; [reflexivity|]. split. { split; [reflexivity|]. do 3 eexists. split; [reflexivity|]. auto. }
        exists z. split; [eexists; split; [eapply PBookmark; eauto|reflexivity]|]. split; [reflexivity|]. apply (in_trans txt s x); auto. apply (in_trans txt x b); auto. apply (el_within _ _ _ _ _ GB x e fl b Tx Fb).
      * destruct (Nat.ltb_spec s x) as [L|L]; do 2 eexists; (split; [reflexivity|]); (split; [split; [reflexivity|]; do 3 eexists; split; [reflexivity|]; auto|]).
        -- exists x. split; [eexists; split; [eapply PPlain; eauto|reflexivity]|]. split; [reflexivity|]. auto.
        -- split; [|reflexivity]. intros y v (p & H & _). assert (x = s) by (unfold ParserPeg.in_vis in Ix; lia). subst x.
           inversion H; subst; match goal with A : plain_at _ _ _ _ _ s ?x |- _ => assert (x = s) by (eapply star_unique; eauto); subst x end; try congruence; lia.
  - exists f, g. split; auto. intros s e fl y T. destruct (Sp s e fl y T) as [A B0]. split; auto. split; intros H.
    + intros z p Hp. apply (proj1 B0 H z (path_vals p)). eauto.
    + apply B0. intros z v (p & Hp & _). eapply H; eauto.
Qed.
End Props.
