(** Composite numeral parsers, continued (property C111): mixed, monetary and scientific numerals. *)
From Coq Require Import ZifyBool ZifyNat.
From Verif Require Import Base StringModel StringSpec StringProofs ParserModel ParserSpec ParserProps ParserNumModel ParserNumProps ParserPeg.
Ltac Zify.zify_post_hook ::= Z.div_mod_to_equations.

Section Peg.
Context (txt : list Z).
Local Notation text_ok := (text_ok txt).
Local Notation vis := (vis txt).
Local Notation good := (good txt).
Local Notation o_good := (o_good txt).
Local Notation in_vis := (in_vis txt).

(** ** mixed numeral: an optional sign, then integer, spaces and fraction; or an integer before a space; or a fraction; or an integer *)
Definition mixed_body (i fr sp : pfun) : pfun :=
  branch_fn [seq_fn [i; no_ml sp; no_ml (star_fn sp); fr]; before_fn i (no_ml sp); fr; i].
Definition mixed_ivs (i fr sp : pfun) (x e : nat) (fl : pflags) : list (nat * nat) :=
  let single := match fr x e fl with Some z => [no_iv; (x, z)] | None => [ivo x (i x e fl); no_iv] end in
  match seq_fn [i; no_ml sp; no_ml (star_fn sp)] x e fl, i x e fl with
  | Some y, Some a => [(x, a); ivo y (fr y e fl)]
  | _, _ => single
  end.
Definition wf_mixed (o1 o2 o3 : option espec) (i fr sp : espec) (st : pst) : Prop :=
  vals st = [] /\ exists a b c ki kf ks, kids st = [a; b; c; ki; kf; ks] /\ o_wf o1 a /\ o_wf o2 b /\ o_wf o3 c /\ es_wf i ki /\ es_wf fr kf /\ es_wf sp ks.
Theorem mixed_numeral_spec : forall o1 o2 o3 i fr sp, o_good o1 -> o_good o2 -> o_good o3 -> good i -> good fr -> good sp -> advances txt (es_f sp) ->
  let f := seq_fn [sign_fn o1 o2 o3; mixed_body (es_f i) (es_f fr) (es_f sp)] in
  composite txt (mixed_numeral (o_P o1) (o_P o2) (o_P o3) (es_P i) (es_P fr) (es_P sp)) (wf_mixed o1 o2 o3 i fr sp) f 5
    (fun s e fl => match sign_fn o1 o2 o3 s e fl, f s e fl with Some x, Some _ => sign_ivs o1 o2 o3 s e fl ++ mixed_ivs (es_f i) (es_f fr) (es_f sp) x e fl | _, _ => repeat no_iv 5 end).
Proof.
  intros o1 o2 o3 i fr sp G1 G2 G3 Gi Gf Gs As f. apply composite_of.
  - split; [reflexivity|]. do 6 eexists. split; [reflexivity|]. repeat split; try (apply ini_o with (txt := txt)); try (apply ini_p with (txt := txt)); auto.
  - intros st (V & a & b & c & ki & kf & ks & E & Wa & Wb & Wc & Wi & Wf & Ws). cbn [mixed_numeral p_inval]. rewrite E. split; [|reflexivity]. split; [reflexivity|]. do 6 eexists. split; [reflexivity|]. split; [apply (inv_o txt); auto|]. split; [apply (inv_o txt); auto|]. split; [apply (inv_o txt); auto|]. split; [apply (inv_p txt); auto|]. split; [apply (inv_p txt); auto|]. exact Ws.
  - intros st s e fl (V & a & b & c & ki & kf & ks & E & Wa & Wb & Wc & Wi & Wf & Ws) H. cbn [mixed_numeral p_match]. rewrite E. unfold f. cbn [seq_fn]. clear f.
    destruct (sign_spec txt o1 o2 o3 a b c s e fl G1 G2 G3 Wa Wb Wc H) as (a' & b' & c' & x & -> & Wa' & Wb' & Wc' & Es & Ei & Hx & Wx). cbn [obind]. rewrite Es.
    destruct (inv_o txt o1 a' G1 Wa') as [Va Ia]. destruct (inv_o txt o2 b' G2 Wb') as [Vb Ib]. destruct (inv_o txt o3 c' G3 Wc') as [Vc Ic].
    unfold mixed_body, mixed_ivs, before_fn, no_ml. cbn [branch_fn seq_fn].
    (* the last two choices *)
    assert (Rest : forall ki1 ks1, es_wf i ki1 -> es_wf sp ks1 -> exists st',
       (let* (kf1, b3) := p_match (es_P fr) kf x e fl in
        if b3 then Ret (Pst s (i_end kf1) [] [a'; b'; c'; p_inval (es_P i) ki1; kf1; ks1], true) else
        let* (ki2, b4) := p_match (es_P i) ki1 x e fl in
        if b4 then Ret (Pst s (i_end ki2) [] [a'; b'; c'; ki2; p_inval (es_P fr) kf1; ks1], true)
        else Ret (Pst 1 0 [] [op_inval (o_P o1) a'; op_inval (o_P o2) b'; op_inval (o_P o3) c'; p_inval (es_P i) ki2; p_inval (es_P fr) kf1; ks1], false))
       = Ret (st', found (branch_fn [es_f fr; es_f i] x e fl)) /\ wf_mixed o1 o2 o3 i fr sp st' /\ vals st' = [] /\ iv st' = ivo s (branch_fn [es_f fr; es_f i] x e fl) /\
       (forall y, branch_fn [es_f fr; es_f i] x e fl = Some y -> in_vis s y e) /\
       firstn 5 (map iv (kids st')) = match branch_fn [es_f fr; es_f i] x e fl with Some _ => sign_ivs o1 o2 o3 s e fl ++ match es_f fr x e fl with Some z => [no_iv; (x, z)] | None => [ivo x (es_f i x e fl); no_iv] end | None => repeat no_iv 5 end).
    { intros ki1 ks1 Wi1 Ws1. cbn [branch_fn]. destruct (ran_p txt fr kf x e fl Gf Wf Hx) as (kf' & -> & Wf' & Rf). cbn [obind]. destruct (inv_p txt fr kf' Gf Wf') as [Vf If]. destruct (inv_p txt i ki1 Gi Wi1) as [Vi Ii]. destruct (es_f fr x e fl) as [z|]; cbn [found].
      - destruct Rf as (Rf & -> & Hz & Wz). eexists. split; [reflexivity|]. cbn [vals kids map firstn ivo]. rewrite Rf, Ii. split; [split; [reflexivity|]; do 6 eexists; split; [reflexivity|]; auto 10|]. split; auto. split; auto. split; [|rewrite <- Ei; reflexivity].
        intros y Ey. injection Ey as <-. apply (in_trans txt s x); auto.
      - destruct (ran_p txt i ki1 x e fl Gi Wi1 Hx) as (ki2 & -> & Wi2 & Ri). cbn [obind]. destruct (inv_p txt i ki2 Gi Wi2) as [Vi2 Ii2]. destruct (es_f i x e fl) as [z|]; cbn [found].
        + destruct Ri as (Ri & -> & Hz & Wz). eexists. split; [reflexivity|]. cbn [vals kids map firstn ivo]. rewrite If, Ri. split; [split; [reflexivity|]; do 6 eexists; split; [reflexivity|]; auto 10|]. split; auto. split; auto. split; [|rewrite <- Ei; reflexivity].
          intros y Ey. injection Ey as <-. apply (in_trans txt s x); auto.
        + eexists. split; [reflexivity|]. cbn [vals kids map firstn ivo]. rewrite Ia, Ib, Ic, If, Ii2. split; [split; [reflexivity|]; do 6 eexists; split; [reflexivity|]; auto 10|]. repeat split; auto; discriminate. }
    cbn [branch_fn] in Rest.
    destruct (ran_p txt i ki x e fl Gi Wi Hx) as (ki' & -> & Wi' & Ri). cbn [obind]. destruct (es_f i x e fl) as [y|] eqn:Fi; cbn [found negb].
    2:{ destruct (Rest ki' ks Wi' Ws) as (st' & E1 & E2 & E3 & E4 & E5 & E6). exists st'. destruct (es_f fr x e fl); (split; [exact E1|]; split; [exact E2|]; split; [exact E3|]; split; [exact E4|]; split; [exact E5|exact E6]). }
    destruct Ri as (Ri & -> & Hy & Wy). destruct (ran_p txt sp ks y e (one_line fl) Gs Ws Hy) as (ks' & -> & Ws' & Rs). cbn [obind]. destruct (es_f sp y e (one_line fl)) as [u|] eqn:Fs; cbn [found negb].
    2:{ destruct (Rest ki' ks' Wi' Ws') as (st' & E1 & E2 & E3 & E4 & E5 & E6). exists st'. destruct (es_f fr x e fl); (split; [exact E1|]; split; [exact E2|]; split; [exact E3|]; split; [exact E4|]; split; [exact E5|exact E6]). }
    destruct Rs as (_ & -> & Hu & Wu). assert (Wsu : in_vis s u e). { apply (in_trans txt s x); auto. apply (in_trans txt x y); auto. }
    destruct (skip_spec txt sp (S (e - s)) ks' u e (one_line fl) Gs As Ws' Hu) as (ks2 & v & -> & Ws2 & S2 & Hv & Wv). { destruct (vis_to txt s e u H Wsu) as [_ ->]. rewrite skipn_length. pose proof (vis_end txt s e H). lia. }
    rewrite S2. cbn [obind]. destruct (ran_p txt fr kf v e fl Gf Wf Hv) as (kf' & -> & Wf' & Rf). cbn [obind]. destruct (inv_p txt fr kf' Gf Wf') as [Vf If]. destruct (es_f fr v e fl) as [z|]; cbn [found].
    + destruct Rf as (Rf & -> & Hz & Wz). eexists. split; [reflexivity|]. cbn [vals kids map firstn ivo]. rewrite Rf, Ri. split; [split; [reflexivity|]; do 6 eexists; split; [reflexivity|]; auto 10|]. split; auto. split; auto. split; [|rewrite <- Ei; reflexivity].
      intros w Ew. injection Ew as <-. apply (in_trans txt s u); auto. apply (in_trans txt u v); auto.
    + eexists. split; [reflexivity|]. cbn [vals kids map firstn ivo]. rewrite If, Ri. split; [split; [reflexivity|]; do 6 eexists; split; [reflexivity|]; auto 10|]. split; auto. split; auto. split; [|rewrite <- Ei; reflexivity].
      intros w Ew. injection Ew as <-. apply (in_trans txt s x); auto.
Qed.

(** ** integer and decimal part: an integer, with an optional separator and decimals; or a separator and decimals *)
Definition number_fn (i ds d : pfun) : pfun := branch_fn [seq_fn [i; opt_fn (seq_fn [ds; d])]; seq_fn [ds; d]].
(** ... and the intervals of the three parsers after it *)
Definition number_ivs (i ds d : pfun) (x e : nat) (fl : pflags) : list (nat * nat) :=
  let x1 := match i x e fl with Some y => y | None => x end in
  ivo x (i x e fl) :: match seq_fn [ds; d] x1 e fl with Some _ => seq_ivs [ds; d] x1 e fl | None => [no_iv; no_iv] end.
Lemma empty_iv : forall k s x, iv k = (s, x) -> iempty k = (x <=? s)%nat.
Proof. intros k s x H. injection H as H1 H2. unfold iempty. rewrite H1, H2. reflexivity. Qed.
Lemma int_dec_spec : forall i ds d ki ks kd x e fl, good i -> good ds -> good d -> advances txt (es_f i) -> advances txt (es_f d) -> es_wf i ki -> es_wf ds ks -> es_wf d kd -> text_ok x e ->
  exists ki' ks' kd' y, int_dec_step (es_P i) (es_P ds) (es_P d) ki ks kd x e fl = Ret (ki', ks', kd', y) /\ es_wf i ki' /\ es_wf ds ks' /\ es_wf d kd' /\
    [iv ki'; iv ks'; iv kd'] = number_ivs (es_f i) (es_f ds) (es_f d) x e fl /\
    number_fn (es_f i) (es_f ds) (es_f d) x e fl = (if iempty ki' && iempty kd' then None else Some y) /\ text_ok y e /\ in_vis x y e.
Proof.
  intros i ds d ki ks kd x e fl Gi Gs Gd Ai Ad Wi Ws Wd H. unfold int_dec_step, number_fn, number_ivs, opt_fn. cbn [branch_fn seq_fn seq_ivs].
  destruct (ran_p txt i ki x e fl Gi Wi H) as (ki' & -> & Wi' & Ri). cbn [obind].
  assert (K : forall x1, text_ok x1 e -> in_vis x x1 e -> exists ks' kd' y,
    (let* (ks1, b2) := p_match (es_P ds) ks x1 e fl in
     if negb b2 then Ret (ki', p_inval (es_P ds) ks1, p_inval (es_P d) kd, x1)
     else let* (kd1, b3) := p_match (es_P d) kd (i_end ks1) e fl in if b3 then Ret (ki', ks1, kd1, i_end kd1) else Ret (ki', p_inval (es_P ds) ks1, p_inval (es_P d) kd1, x1)) = Ret (ki', ks', kd', y) /\
    es_wf ds ks' /\ es_wf d kd' /\ [iv ks'; iv kd'] = match seq_fn [es_f ds; es_f d] x1 e fl with Some _ => seq_ivs [es_f ds; es_f d] x1 e fl | None => [no_iv; no_iv] end /\
    y = match seq_fn [es_f ds; es_f d] x1 e fl with Some z => z | None => x1 end /\ iempty kd' = match seq_fn [es_f ds; es_f d] x1 e fl with Some _ => false | None => true end /\ text_ok y e /\ in_vis x y e).
  { intros x1 H1 W1. cbn [seq_fn seq_ivs]. destruct (ran_p txt ds ks x1 e fl Gs Ws H1) as (ks' & -> & Ws' & Rs). cbn [obind]. destruct (inv_p txt ds ks' Gs Ws') as [Vs Is]. destruct (inv_p txt d kd Gd Wd) as [Vd Id]. destruct (es_f ds x1 e fl) as [p|]; cbn [found negb].
    2:{ do 3 eexists. split; [reflexivity|]. rewrite Is, Id, (empty_iv _ _ _ Id). auto 10. }
    destruct Rs as (Rs & -> & Hp & Wp). destruct (ran_p txt d kd p e fl Gd Wd Hp) as (kd' & -> & Wd' & Rd). cbn [obind]. destruct (inv_p txt d kd' Gd Wd') as [Vd' Id']. destruct (es_f d p e fl) as [q|] eqn:Fd; cbn [found].
    - destruct Rd as (Rd & -> & Hq & Wq). pose proof (Ad p e fl q Hp Fd) as Aq. do 3 eexists. split; [reflexivity|]. rewrite Rs, Rd, (empty_iv _ _ _ Rd). replace (q <=? p)%nat with false by lia. split; auto. split; auto. split; auto. split; auto. split; auto. split; auto.
      apply (in_trans txt x x1); auto. apply (in_trans txt x1 p); auto.
    - do 3 eexists. split; [reflexivity|]. rewrite Is, Id', (empty_iv _ _ _ Id'). auto 10. }
  destruct (es_f i x e fl) as [x1|] eqn:Fi; cbn [found ivo].
  - destruct Ri as (Ri & -> & H1 & W1). pose proof (Ai x e fl x1 H Fi) as A1. destruct (K x1 H1 W1) as (ks' & kd' & y & -> & K1 & K2 & K3 & K4 & K5 & K6 & K7). cbn [seq_fn seq_ivs] in K3, K4, K5. do 4 eexists. split; [reflexivity|]. rewrite Ri, (empty_iv _ _ _ Ri). replace (x1 <=? x)%nat with false by lia. cbn [andb].
    split; auto. split; auto. split; auto. split; [rewrite K3; reflexivity|]. split; auto. rewrite K4. destruct (es_f ds x1 e fl) as [p|]; auto. destruct (es_f d p e fl); auto.
  - destruct (K x H ltac:(split; lia)) as (ks' & kd' & y & -> & K1 & K2 & K3 & K4 & K5 & K6 & K7). cbn [seq_fn seq_ivs] in K3, K4, K5. do 4 eexists. split; [reflexivity|]. rewrite Ri, (empty_iv _ _ _ Ri). cbn [Nat.leb andb].
    split; auto. split; auto. split; auto. split; [rewrite K3; reflexivity|]. split; auto. rewrite K5, K4. destruct (es_f ds x e fl) as [p|]; auto. destruct (es_f d p e fl); auto.
Qed.

(** ** monetary numeral: an optional sign, the currency, and a number.  All three signs must be there. *)
Definition wf_money (o1 o2 o3 : espec) (c i ds d : espec) (st : pst) : Prop :=
  vals st = [] /\ exists k1 k2 k3 kc ki ks kd, kids st = [k1; k2; k3; kc; ki; ks; kd] /\ es_wf o1 k1 /\ es_wf o2 k2 /\ es_wf o3 k3 /\ es_wf c kc /\ es_wf i ki /\ es_wf ds ks /\ es_wf d kd.
Lemma nn_some : forall o1 o2 o3 k1 k2 k3 s e fl,
  sign_step_by nn_match (Some (es_P o1)) (Some (es_P o2)) (Some (es_P o3)) k1 k2 k3 s e fl = sign_step (o_P (Some o1)) (o_P (Some o2)) (o_P (Some o3)) k1 k2 k3 s e fl.
Proof. reflexivity. Qed.
Theorem monetary_numeral_spec : forall o1 o2 o3 c i ds d, good o1 -> good o2 -> good o3 -> good c -> good i -> good ds -> good d -> advances txt (es_f i) -> advances txt (es_f d) ->
  let sign := sign_fn (Some o1) (Some o2) (Some o3) in
  let f := seq_fn [sign; es_f c; number_fn (es_f i) (es_f ds) (es_f d)] in
  composite txt (monetary_numeral (Some (es_P o1)) (Some (es_P o2)) (Some (es_P o3)) (es_P c) (es_P i) (es_P ds) (es_P d)) (wf_money o1 o2 o3 c i ds d) f 7
    (fun s e fl => match sign s e fl with
       | Some x => match es_f c x e fl, f s e fl with Some y, Some _ => sign_ivs (Some o1) (Some o2) (Some o3) s e fl ++ (x, y) :: number_ivs (es_f i) (es_f ds) (es_f d) y e fl | _, _ => repeat no_iv 7 end
       | None => repeat no_iv 7 end).
Proof.
  intros o1 o2 o3 c i ds d G1 G2 G3 Gc Gi Gs Gd Ai Ad sign f. apply composite_of.
  - split; [reflexivity|]. do 7 eexists. split; [reflexivity|]. repeat split; apply ini_p with (txt := txt); auto.
  - intros st (V & k1 & k2 & k3 & kc & ki & ks & kd & E & W1 & W2 & W3 & Wc & Wi & Ws & Wd). cbn [monetary_numeral p_inval]. rewrite E. split; [|reflexivity]. split; [reflexivity|]. do 7 eexists. split; [reflexivity|]. cbn [op_inval].
    repeat (split; [apply (inv_p txt); auto|]). apply (inv_p txt); auto.
  - intros st s e fl (V & k1 & k2 & k3 & kc & ki & ks & kd & E & W1 & W2 & W3 & Wc & Wi & Ws & Wd) H. cbn [monetary_numeral p_match]. rewrite E. unfold f. cbn [seq_fn]. clear f.
    rewrite nn_some. destruct (sign_spec txt (Some o1) (Some o2) (Some o3) k1 k2 k3 s e fl G1 G2 G3 W1 W2 W3 H) as (a' & b' & c' & x & -> & Wa' & Wb' & Wc' & Es & Ei & Hx & Wx). cbn [obind]. unfold sign. rewrite Es.
    destruct (inv_p txt o1 a' G1 Wa') as [Va Ia]. destruct (inv_p txt o2 b' G2 Wb') as [Vb Ib]. destruct (inv_p txt o3 c' G3 Wc') as [Vc Ic]. cbn [op_inval].
    destruct (ran_p txt c kc x e fl Gc Wc Hx) as (kc' & -> & Wkc & Rc). cbn [obind]. destruct (inv_p txt c kc' Gc Wkc) as [Vkc Ikc]. destruct (es_f c x e fl) as [y|]; cbn [found negb].
    2:{ destruct (inv_p txt i ki Gi Wi) as [Vi Ii]. destruct (inv_p txt ds ks Gs Ws) as [Vs Is]. destruct (inv_p txt d kd Gd Wd) as [Vd Id]. eexists. split; [reflexivity|]. cbn [vals kids map firstn ivo]. rewrite Ia, Ib, Ic, Rc, Ii, Is, Id.
        split; [split; [reflexivity|]; do 7 eexists; split; [reflexivity|]; auto 10|]. repeat split; auto; discriminate. }
    destruct Rc as (Rc & -> & Hy & Wy). destruct (int_dec_spec i ds d ki ks kd y e fl Gi Gs Gd Ai Ad Wi Ws Wd Hy) as (ki' & ks' & kd' & z & -> & Wi' & Ws' & Wd' & En & Ez & Hz & Wz). cbn [obind].
    destruct (inv_p txt i ki' Gi Wi') as [Vi Ii]. destruct (inv_p txt ds ks' Gs Ws') as [Vs Is]. destruct (inv_p txt d kd' Gd Wd') as [Vd Id]. rewrite Ez. destruct (iempty ki' && iempty kd'); cbn [found].
    + eexists. split; [reflexivity|]. cbn [vals kids map firstn ivo]. rewrite Ia, Ib, Ic, Ikc, Ii, Is, Id. split; [split; [reflexivity|]; do 7 eexists; split; [reflexivity|]; auto 10|]. repeat split; auto; discriminate.
    + eexists. split; [reflexivity|]. cbn [vals kids map firstn ivo]. split; [split; [reflexivity|]; do 7 eexists; split; [reflexivity|]; auto 10|]. split; auto. split; auto. split.
      * intros w Ew. injection Ew as <-. apply (in_trans txt s x); auto. apply (in_trans txt x y); auto.
      * rewrite <- Ei, <- En, Rc. reflexivity.
Qed.
(** Without one of the signs (the others are tested for null everywhere else) it goes through a null pointer. *)
Theorem monetary_null_sign_refuted : forall P2 P3 C I DS D st s e fl, length (kids st) = 7%nat ->
  p_match (monetary_numeral None P2 P3 C I DS D) st s e fl = UB.
Proof. intros P2 P3 C I DS D st s e fl L. cbn [monetary_numeral p_match]. destruct (kids st) as [|a [|b [|c [|k [|k0 [|k1 [|k2 [|]]]]]]]]; try discriminate. reflexivity. Qed.

(** ** scientific numeral: an optional sign, a number, an optional exponent *)
Definition exp_fn (es pe ne ex : pfun) : pfun := opt_fn (branch_fn [seq_fn [es; pe; ex]; seq_fn [es; ex]; seq_fn [es; ne; ex]]).
Lemma exp_spec : forall es pe ne ex k1 k2 k3 k4 x e fl, o_good es -> o_good pe -> o_good ne -> o_good ex -> o_wf es k1 -> o_wf pe k2 -> o_wf ne k3 -> o_wf ex k4 -> text_ok x e ->
  exists k1' k2' k3' k4' y, exp_step (o_P es) (o_P pe) (o_P ne) (o_P ex) k1 k2 k3 k4 x e fl = Ret (k1', k2', k3', k4', y) /\ o_wf es k1' /\ o_wf pe k2' /\ o_wf ne k3' /\ o_wf ex k4' /\
    exp_fn (o_f es) (o_f pe) (o_f ne) (o_f ex) x e fl = Some y /\ in_vis x y e /\
    (* the exponent has an interval when there is one, and then the negative sign has one when the exponent is negative *)
    match branch_fn [seq_fn [o_f es; o_f pe; o_f ex]; seq_fn [o_f es; o_f ex]] x e fl with
    | Some z => iv k3' = no_iv /\ is_valid k4' = true /\ i_end k4' = z
    | None => match seq_fn [o_f es; o_f ne; o_f ex] x e fl with Some z => iv k2' = no_iv /\ is_valid k3' = true /\ is_valid k4' = true /\ i_end k4' = z | None => iv k1' = no_iv /\ iv k2' = no_iv /\ iv k3' = no_iv /\ iv k4' = no_iv end
    end.
Proof.
  intros es pe ne ex k1 k2 k3 k4 x e fl G1 G2 G3 G4 W1 W2 W3 W4 H. unfold exp_step, exp_fn, opt_fn. cbn [branch_fn seq_fn].
  assert (Val : forall k s y, iv k = (s, y) -> in_vis s y e -> is_valid k = true). { intros k s y E [A _]. injection E as E1 E2. unfold is_valid. rewrite E1, E2. lia. }
  (* nothing, or a negative exponent *)
  assert (Second : forall a b d, o_wf es a -> o_wf pe b -> o_wf ex d -> exists k1' k2' k3' k4' y,
    (let* (kes2, b0) := op_match (o_P es) a x e fl in
     if negb b0 then Ret (op_inval (o_P es) kes2, op_inval (o_P pe) b, op_inval (o_P ne) k3, op_inval (o_P ex) d, x)
     else let* (kne1, b1) := op_match (o_P ne) k3 (i_end kes2) e fl in
          if negb b1 then Ret (op_inval (o_P es) kes2, op_inval (o_P pe) b, op_inval (o_P ne) kne1, op_inval (o_P ex) d, x)
          else let* (kex1, b2) := op_match (o_P ex) d (i_end kne1) e fl in
               if negb b2 then Ret (op_inval (o_P es) kes2, op_inval (o_P pe) b, op_inval (o_P ne) kne1, op_inval (o_P ex) kex1, x)
               else Ret (kes2, op_inval (o_P pe) b, kne1, kex1, i_end kex1)) = Ret (k1', k2', k3', k4', y) /\ o_wf es k1' /\ o_wf pe k2' /\ o_wf ne k3' /\ o_wf ex k4' /\
    match seq_fn [o_f es; o_f ne; o_f ex] x e fl with Some z => y = z /\ in_vis x y e /\ iv k2' = no_iv /\ is_valid k3' = true /\ is_valid k4' = true /\ i_end k4' = z | None => y = x /\ iv k1' = no_iv /\ iv k2' = no_iv /\ iv k3' = no_iv /\ iv k4' = no_iv end).
  { intros a b d Wa Wb Wd. cbn [seq_fn]. destruct (ran_o txt es a x e fl G1 Wa H) as (a' & -> & Wa' & Ra). cbn [obind]. destruct (inv_o txt es a' G1 Wa') as [Va Ia]. destruct (inv_o txt pe b G2 Wb) as [Vb Ib]. destruct (inv_o txt ne k3 G3 W3) as [V3 I3]. destruct (inv_o txt ex d G4 Wd) as [Vd Id].
    destruct (o_f es x e fl) as [y|]; cbn [found negb]. 2:{ do 5 eexists. split; [reflexivity|]. auto 12. }
    destruct Ra as (Ra & -> & Hy & Wy). destruct (ran_o txt ne k3 y e fl G3 W3 Hy) as (k3' & -> & W3' & R3). cbn [obind]. destruct (inv_o txt ne k3' G3 W3') as [V3' I3']. destruct (o_f ne y e fl) as [z|]; cbn [found negb]. 2:{ do 5 eexists. split; [reflexivity|]. auto 12. }
    destruct R3 as (R3 & -> & Hz & Wz). destruct (ran_o txt ex d z e fl G4 Wd Hz) as (d' & -> & Wd' & Rd). cbn [obind]. destruct (inv_o txt ex d' G4 Wd') as [Vd' Id']. destruct (o_f ex z e fl) as [w|]; cbn [found negb]. 2:{ do 5 eexists. split; [reflexivity|]. auto 12. }
    destruct Rd as (Rd & -> & Hw & Ww). do 5 eexists. split; [reflexivity|]. split; auto. split; auto. split; auto. split; auto. split; auto. split; [apply (in_trans txt x y); auto; apply (in_trans txt y z); auto|]. split; auto. split; [eapply Val; eauto|]. split; [eapply Val; eauto|]. injection Rd; auto. }
  cbn [seq_fn] in Second. destruct (inv_o txt ne k3 G3 W3) as [V3 I3].
  destruct (ran_o txt es k1 x e fl G1 W1 H) as (k1' & -> & W1' & R1). cbn [obind]. destruct (o_f es x e fl) as [y|] eqn:Fes; cbn [found negb].
  2:{ destruct (Second k1' k2 k4 W1' W2 W4) as (a & b & c & d & z & Eq & S1 & S2 & S3 & S4 & -> & S5). exists a, b, c, d, x. split; auto. split; auto. split; auto. split; auto. split; auto. split; auto. split; [split; lia|]. auto. }
  destruct R1 as (R1 & -> & Hy & Wy). destruct (ran_o txt pe k2 y e fl G2 W2 Hy) as (k2' & -> & W2' & R2). cbn [obind].
  assert (Plain : forall d, o_wf ex d -> match o_f pe y e fl with Some z => o_f ex z e fl = None | None => True end -> exists k1'0 k2'0 k3' k4' y0,
    (let* (kex1, b) := op_match (o_P ex) d y e fl in
     if b then Ret (k1', k2', op_inval (o_P ne) k3, kex1, i_end kex1)
     else let* (kes2, b0) := op_match (o_P es) k1' x e fl in
     if negb b0 then Ret (op_inval (o_P es) kes2, op_inval (o_P pe) k2', op_inval (o_P ne) k3, op_inval (o_P ex) kex1, x)
     else let* (kne1, b1) := op_match (o_P ne) k3 (i_end kes2) e fl in
          if negb b1 then Ret (op_inval (o_P es) kes2, op_inval (o_P pe) k2', op_inval (o_P ne) kne1, op_inval (o_P ex) kex1, x)
          else let* (kex2, b2) := op_match (o_P ex) kex1 (i_end kne1) e fl in
               if negb b2 then Ret (op_inval (o_P es) kes2, op_inval (o_P pe) k2', op_inval (o_P ne) kne1, op_inval (o_P ex) kex2, x)
               else Ret (kes2, op_inval (o_P pe) k2', kne1, kex2, i_end kex2)) = Ret (k1'0, k2'0, k3', k4', y0) /\ o_wf es k1'0 /\ o_wf pe k2'0 /\ o_wf ne k3' /\ o_wf ex k4' /\
    match match o_f ex y e fl with Some x2 => Some x2 | None => match o_f ne y e fl with Some x1 => match o_f ex x1 e fl with Some x2 => Some x2 | None => None end | None => None end end with Some z => Some z | None => Some x end = Some y0 /\ in_vis x y0 e /\
    match o_f ex y e fl with
    | Some z => iv k3' = no_iv /\ is_valid k4' = true /\ i_end k4' = z
    | None => match (match o_f ne y e fl with Some x1 => match o_f ex x1 e fl with Some x2 => Some x2 | None => None end | None => None end) with Some z => iv k2'0 = no_iv /\ is_valid k3' = true /\ is_valid k4' = true /\ i_end k4' = z | None => iv k1'0 = no_iv /\ iv k2'0 = no_iv /\ iv k3' = no_iv /\ iv k4' = no_iv end
    end).
  { intros d Wd _. destruct (ran_o txt ex d y e fl G4 Wd Hy) as (d' & -> & Wd' & Rd). cbn [obind]. destruct (o_f ex y e fl) as [z|] eqn:Fex; cbn [found].
    - destruct Rd as (Rd & -> & Hz & Wz). do 5 eexists. split; [reflexivity|]. split; auto. split; auto. split; auto. split; auto. split; auto. split; [apply (in_trans txt x y); auto|]. split; auto. split; [eapply Val; eauto|]. injection Rd; auto.
    - destruct (Second k1' k2' d' W1' W2' Wd') as (a & b & c & d2 & z & Eq & S1 & S2 & S3 & S4 & S5). exists a, b, c, d2, z. split; auto. split; auto. split; auto. split; auto. split; auto.
      destruct (o_f ne y e fl) as [u|]; [destruct (o_f ex u e fl) as [w|]|].
      + destruct S5 as (-> & S5 & S6). auto.
      + destruct S5 as (-> & S5). split; auto. split; [split; lia|]. auto.
      + destruct S5 as (-> & S5). split; auto. split; [split; lia|]. auto. }
  destruct (o_f pe y e fl) as [z|] eqn:Fpe; cbn [found negb].
  - destruct R2 as (R2 & -> & Hz & Wz). destruct (ran_o txt ex k4 z e fl G4 W4 Hz) as (k4' & -> & W4' & R4). cbn [obind]. destruct (o_f ex z e fl) as [w|] eqn:Fw; cbn [found].
    + destruct R4 as (R4 & -> & Hw & Ww). do 5 eexists. split; [reflexivity|]. split; auto. split; auto. split; auto. split; auto. split; auto. split; [apply (in_trans txt x y); auto; apply (in_trans txt y z); auto|]. split; auto. split; [eapply Val; eauto|]. injection R4; auto.
    + destruct (Plain k4' W4' eq_refl) as (a & b & c & d & u & Eq & P1 & P2 & P3 & P4 & P5 & P6 & P7). exists a, b, c, d, u. split; auto. split; auto. split; auto. split; auto. split; auto. clear - P5 P6 P7; destruct (o_f ex y e fl); [auto|]; destruct (o_f ne y e fl) as [q|]; [destruct (o_f ex q e fl); auto|auto].
  - destruct (Plain k4 W4 I) as (a & b & c & d & u & Eq & P1 & P2 & P3 & P4 & P5 & P6 & P7). exists a, b, c, d, u. split; auto. split; auto. split; auto. split; auto. split; auto. clear - P5 P6 P7; destruct (o_f ex y e fl); [auto|]; destruct (o_f ne y e fl) as [q|]; [destruct (o_f ex q e fl); auto|auto].
Qed.
Definition wf_sci (o1 o2 o3 : option espec) (i ds d : espec) (es pe ne ex : option espec) (st : pst) : Prop :=
  vals st = [] /\ exists k1 k2 k3 ki ks kd j1 j2 j3 j4, kids st = [k1; k2; k3; ki; ks; kd; j1; j2; j3; j4] /\ o_wf o1 k1 /\ o_wf o2 k2 /\ o_wf o3 k3 /\ es_wf i ki /\ es_wf ds ks /\ es_wf d kd /\ o_wf es j1 /\ o_wf pe j2 /\ o_wf ne j3 /\ o_wf ex j4.
Theorem scientific_numeral_spec : forall o1 o2 o3 i ds d es pe ne ex, o_good o1 -> o_good o2 -> o_good o3 -> good i -> good ds -> good d -> o_good es -> o_good pe -> o_good ne -> o_good ex -> advances txt (es_f i) -> advances txt (es_f d) ->
  let f := seq_fn [sign_fn o1 o2 o3; number_fn (es_f i) (es_f ds) (es_f d); exp_fn (o_f es) (o_f pe) (o_f ne) (o_f ex)] in
  composite txt (scientific_numeral (o_P o1) (o_P o2) (o_P o3) (es_P i) (es_P ds) (es_P d) (o_P es) (o_P pe) (o_P ne) (o_P ex)) (wf_sci o1 o2 o3 i ds d es pe ne ex) f 6
    (fun s e fl => match sign_fn o1 o2 o3 s e fl, f s e fl with Some x, Some _ => sign_ivs o1 o2 o3 s e fl ++ number_ivs (es_f i) (es_f ds) (es_f d) x e fl | _, _ => repeat no_iv 6 end).
Proof.
  intros o1 o2 o3 i ds d es pe ne ex G1 G2 G3 Gi Gs Gd Ge Gp Gn Gx Ai Ad f. apply composite_of.
  - split; [reflexivity|]. do 10 eexists. split; [reflexivity|]. repeat split; try (apply ini_o with (txt := txt)); try (apply ini_p with (txt := txt)); auto.
  - intros st (V & k1 & k2 & k3 & ki & ks & kd & j1 & j2 & j3 & j4 & E & W1 & W2 & W3 & Wi & Ws & Wd & X1 & X2 & X3 & X4). cbn [scientific_numeral p_inval]. rewrite E. split; [|reflexivity]. split; [reflexivity|]. do 10 eexists. split; [reflexivity|].
    do 3 (split; [apply (inv_o txt); auto|]). do 3 (split; [apply (inv_p txt); auto|]). do 3 (split; [apply (inv_o txt); auto|]). apply (inv_o txt); auto.
  - intros st s e fl (V & k1 & k2 & k3 & ki & ks & kd & j1 & j2 & j3 & j4 & E & W1 & W2 & W3 & Wi & Ws & Wd & X1 & X2 & X3 & X4) H. cbn [scientific_numeral p_match]. rewrite E. unfold f. cbn [seq_fn]. clear f.
    destruct (sign_spec txt o1 o2 o3 k1 k2 k3 s e fl G1 G2 G3 W1 W2 W3 H) as (a' & b' & c' & x & -> & Wa' & Wb' & Wc' & Es & Ei & Hx & Wx). cbn [obind]. rewrite Es.
    destruct (inv_o txt o1 a' G1 Wa') as [Va Ia]. destruct (inv_o txt o2 b' G2 Wb') as [Vb Ib]. destruct (inv_o txt o3 c' G3 Wc') as [Vc Ic].
    destruct (int_dec_spec i ds d ki ks kd x e fl Gi Gs Gd Ai Ad Wi Ws Wd Hx) as (ki' & ks' & kd' & z & -> & Wi' & Ws' & Wd' & En & Ez & Hz & Wz). cbn [obind].
    destruct (inv_p txt i ki' Gi Wi') as [Vi Ii]. destruct (inv_p txt ds ks' Gs Ws') as [Vs Is]. destruct (inv_p txt d kd' Gd Wd') as [Vd Id]. rewrite Ez. destruct (iempty ki' && iempty kd'); cbn [found].
    + destruct (inv_o txt es j1 Ge X1) as [Ve _]. destruct (inv_o txt pe j2 Gp X2) as [Vp _]. destruct (inv_o txt ne j3 Gn X3) as [Vn _]. destruct (inv_o txt ex j4 Gx X4) as [Vx _].
      eexists. split; [reflexivity|]. cbn [vals kids map firstn ivo]. rewrite Ia, Ib, Ic, Ii, Is, Id. split; [split; [reflexivity|]; do 10 eexists; split; [reflexivity|]; repeat split; auto|]. repeat split; auto; discriminate.
    + destruct (exp_spec es pe ne ex j1 j2 j3 j4 z e fl Ge Gp Gn Gx X1 X2 X3 X4 Hz) as (j1' & j2' & j3' & j4' & y & -> & Y1 & Y2 & Y3 & Y4 & Ey & Wy & _). cbn [obind]. rewrite Ey. cbn [found].
      eexists. split; [reflexivity|]. cbn [vals kids map firstn ivo]. split; [split; [reflexivity|]; do 10 eexists; split; [reflexivity|]; repeat split; auto|]. split; auto. split; auto. split.
      * intros w Ew. injection Ew as <-. apply (in_trans txt s x); auto. apply (in_trans txt x z); auto.
      * rewrite <- Ei, <- En. reflexivity.
Qed.
End Peg.
