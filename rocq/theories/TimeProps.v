(** Properties C211 and C212: times and angles. *)
From Coq Require Import ZifyBool ZifyNat.
From Verif Require Import Base StringModel StringSpec StringProofs ParserModel ParserSpec ParserProps ParserNumModel ParserNumProps ParserPeg DateModel DateSpec.

Section Props.
Context (txt : list Z).
Local Notation text_ok := (text_ok txt).
Local Notation o_good := (o_good txt).
(** what a match of a held parser does, with its members *)
Definition ranv (o : option espec) (s e : nat) (fl : pflags) (r : outcome (pst * bool)) : Prop :=
  exists k', r = Ret (k', found (o_f o s e fl)) /\ o_wf o k' /\
    match o_f o s e fl with Some x => member e fl o k' (Some (s, x)) /\ i_end k' = x /\ the_val k' = num o s e fl /\ text_ok x e /\ in_vis txt s x e | None => iv k' = no_iv end.
Lemma ranv_o : forall o k s e fl, o_good o -> o_wf o k -> text_ok s e -> ranv o s e fl (op_match (o_P o) k s e fl).
Proof.
  intros [p|] k s e fl G W H; cbn [o_P o_f o_wf op_match option_map].
  - destruct (el_match _ _ _ _ _ G k s e fl W H) as (k' & E & W' & R). exists k'. cbn [o_f o_wf]. split; auto. split; auto. destruct (es_f p s e fl) as [x|] eqn:F; auto. destruct R as [R V]. pose proof (el_within _ _ _ _ _ G s e fl x H F) as Wi.
    split; [cbn [member o_f o_g]; auto|]. split; [injection R; auto|]. split; [unfold the_val, num; cbn [o_g]; congruence|]. split; auto. apply (vis_to txt s e x H Wi).
  - exists k. cbn [o_f found]. auto.
Qed.
Lemma ranv_p : forall p k s e fl, good txt p -> es_wf p k -> text_ok s e -> ranv (Some p) s e fl (p_match (es_P p) k s e fl).
Proof. intros p k s e fl G W H. apply (ranv_o (Some p)); auto. Qed.

(** *** Time *)
Definition time_wf (H M Se : espec) (S_ F Fs : option espec) (st : pst) : Prop :=
  vals st = [] /\ exists a b c d f g, kids st = [a; b; c; d; f; g] /\ es_wf H a /\ es_wf M b /\ o_wf S_ c /\ o_wf F d /\ es_wf Se f /\ o_wf Fs g.
Definition kid (n : nat) (st : pst) : pst := nth n (kids st) (new_pst [] []).
Ltac wf_done := split; [reflexivity|]; do 6 eexists; split; [reflexivity|]; auto 10.
Theorem time_spec : forall H M Se S_ F Fs, good txt H -> good txt M -> good txt Se -> o_good S_ -> o_good F -> o_good Fs ->
  let P := time_p (es_P H) (es_P M) (o_P S_) (o_P F) (es_P Se) (o_P Fs) in
  let wf := time_wf H M Se S_ F Fs in
  wf (p_init P) /\
  forall st s e fl, wf st -> text_ok s e ->
   exists st' r, p_match P st s e fl = Ret (st', r) /\ wf st' /\
    if r then exists y h m sc ms, time_at e fl (Some H) (Some M) S_ F (Some Se) Fs s y h m sc ms /\ iv st' = (s, y) /\ in_vis txt s y e /\
           member e fl (Some H) (kid 0 st') (Some h) /\ member e fl (Some M) (kid 1 st') (Some m) /\ member e fl S_ (kid 2 st') sc /\ member e fl F (kid 3 st') ms
    else (forall a b c, ~ hm_at e fl (Some H) (Some M) (Some Se) s a b c) /\ iv st' = no_iv /\ forall n, (n < 4)%nat -> iv (kid n st') = no_iv.
Proof.
  intros H M Se S_ F Fs GH GM GSe GS GF GFs P wf. split.
  { split; [reflexivity|]. do 6 eexists. split; [reflexivity|]. split; [apply (ini_p txt); auto|]. split; [apply (ini_p txt); auto|]. split; [apply (ini_o txt); auto|]. split; [apply (ini_o txt); auto|]. split; [apply (ini_p txt); auto|apply (ini_o txt); auto]. }
  intros st s e fl (V & kh & km & ks & kf & kse & kfs & E & Wh & Wm & Ws & Wf & Wse & Wfs) T. unfold P, time_p. cbn [p_match]. rewrite E. clear E.
  assert (BAD : forall kh km kse, es_wf H kh -> es_wf M km -> es_wf Se kse -> (forall a b c, ~ hm_at e fl (Some H) (Some M) (Some Se) s a b c) ->
     exists st' r, Ret (Pst 1 0 [] [p_inval (es_P H) kh; p_inval (es_P M) km; op_inval (o_P S_) ks; op_inval (o_P F) kf; kse; kfs], false) = Ret (st', r) /\ wf st' /\
       if r then exists y h m sc ms, time_at e fl (Some H) (Some M) S_ F (Some Se) Fs s y h m sc ms /\ iv st' = (s, y) /\ in_vis txt s y e /\
           member e fl (Some H) (kid 0 st') (Some h) /\ member e fl (Some M) (kid 1 st') (Some m) /\ member e fl S_ (kid 2 st') sc /\ member e fl F (kid 3 st') ms
    else (forall a b c, ~ hm_at e fl (Some H) (Some M) (Some Se) s a b c) /\ iv st' = no_iv /\ forall n, (n < 4)%nat -> iv (kid n st') = no_iv).
  { clear - GH GM GSe GS GF GFs Ws Wf Wfs. intros kh km kse Wh Wm Wse N. destruct (inv_p txt H kh GH Wh) as [? I1]. destruct (inv_p txt M km GM Wm) as [? I2]. destruct (inv_o txt S_ ks GS Ws) as [? I3]. destruct (inv_o txt F kf GF Wf) as [? I4].
    do 2 eexists. split; [reflexivity|]. split; [wf_done|]. split; auto. split; [reflexivity|]. intros [|[|[|[|n]]]] L; auto. lia. }
  destruct (ranv_p H kh s e fl GH Wh T) as (kh' & -> & Wh' & Rh). cbn [obind o_f] in *. cbv zeta.
  destruct (es_f H s e fl) as [a|] eqn:EH; cbn [found negb]; [|apply BAD; auto; intros a b c (X & _); cbn [o_f] in X; congruence].
  destruct Rh as (Mh & -> & Vh & Ta & Ia).
  destruct (ranv_p Se kse a e fl GSe Wse Ta) as (kse' & -> & Wse' & Rse). cbn [obind o_f] in *.
  destruct (es_f Se a e fl) as [b|] eqn:ESe; cbn [found negb]; [|apply BAD; auto; intros a' b c (X & Y & _); cbn [o_f] in X, Y; congruence].
  destruct Rse as (Mse & -> & Vse & Tb & Ib).
  destruct (ranv_p M km b e fl GM Wm Tb) as (km' & -> & Wm' & Rm). cbn [obind o_f] in *.
  destruct (es_f M b e fl) as [c|] eqn:EM; cbn [found negb andb]; [|apply BAD; auto; intros a' b' c (X & Y & Z & _); cbn [o_f] in X, Y, Z; congruence].
  destruct Rm as (Mm & Em & Vm & Tc & Ic). rewrite Vm.
  destruct (num (Some M) b e fl <? 60) eqn:L; cbn [negb].
  2:{ apply BAD; auto. intros a' b' c' (X & Y & Z & W). cbn [o_f] in X, Y, Z. assert (b' = b) by congruence. subst. lia. }
  assert (HM : hm_at e fl (Some H) (Some M) (Some Se) s a b c) by (repeat split; cbn [o_f]; auto; lia).
  assert (Isc : in_vis txt s c e). { apply (in_trans txt s a); auto. apply (in_trans txt a b); auto. }
  rewrite Vse, Em. clear BAD Mse Vse. rename kse' into kse1, Wse' into Wse1.
  assert (NOSEC : forall kse ks, es_wf Se kse -> o_wf S_ ks -> (forall d x, ~ sec_at e fl S_ (Some Se) a c d x) ->
     exists st' r, Ret (Pst s c [] [kh'; km'; op_inval (o_P S_) ks; op_inval (o_P F) kf; kse; kfs], true) = Ret (st', r) /\ wf st' /\
       if r then exists y h m sc ms, time_at e fl (Some H) (Some M) S_ F (Some Se) Fs s y h m sc ms /\ iv st' = (s, y) /\ in_vis txt s y e /\
           member e fl (Some H) (kid 0 st') (Some h) /\ member e fl (Some M) (kid 1 st') (Some m) /\ member e fl S_ (kid 2 st') sc /\ member e fl F (kid 3 st') ms
    else (forall a b c, ~ hm_at e fl (Some H) (Some M) (Some Se) s a b c) /\ iv st' = no_iv /\ forall n, (n < 4)%nat -> iv (kid n st') = no_iv).
  { clear Ws ks. intros kse0 ks Wse0 Ws N. destruct (inv_o txt S_ ks GS Ws) as [? I3]. destruct (inv_o txt F kf GF Wf) as [? I4].
    do 2 eexists. split; [reflexivity|]. split; [wf_done|]. cbn iota. do 5 eexists. split; [eapply Hm; eauto|]. split; [reflexivity|]. auto. }
  destruct (ranv_p Se kse1 c e fl GSe Wse1 Tc) as (kse' & -> & Wse' & Rse). cbn [obind o_f] in *.
  destruct (es_f Se c e fl) as [d|] eqn:ESe2; cbn [found negb andb]; [|apply NOSEC; auto; intros d x (X & _); cbn [o_f] in X; congruence].
  destruct Rse as (Mse & -> & -> & Td & Id).
  destruct (num (Some Se) c e fl =? num (Some Se) a e fl) eqn:Q; cbn [negb]; [|apply NOSEC; auto; intros d' x (_ & X & _); lia].
  destruct (ranv_o S_ ks d e fl GS Ws Td) as (ks' & -> & Ws' & Rs). cbn [obind].
  destruct (o_f S_ d e fl) as [x|] eqn:ES; cbn [found negb andb]; [|apply NOSEC; auto; intros d' x (X & _ & Y & _); cbn [o_f] in X; assert (d' = d) by congruence; congruence].
  destruct Rs as (Ms & Es & Vs & Tx & Ix). rewrite Vs, Es.
  destruct (num S_ d e fl <? 60) eqn:L2; cbn [negb]; [|apply NOSEC; auto; intros d' x' (X & _ & _ & Y); cbn [o_f] in X; assert (d' = d) by congruence; subst; lia].
  assert (SEC : sec_at e fl S_ (Some Se) a c d x) by (repeat split; cbn [o_f]; auto; lia).
  assert (Isx : in_vis txt s x e). { apply (in_trans txt s c); auto. apply (in_trans txt c d); auto. }
  clear NOSEC.
  assert (NOMS : forall kfs kf, o_wf Fs kfs -> o_wf F kf -> (forall p y, ~ ms_at e fl F Fs x p y) ->
     exists st' r, Ret (Pst s x [] [kh'; km'; ks'; op_inval (o_P F) kf; kse'; kfs], true) = Ret (st', r) /\ wf st' /\
       if r then exists y h m sc ms, time_at e fl (Some H) (Some M) S_ F (Some Se) Fs s y h m sc ms /\ iv st' = (s, y) /\ in_vis txt s y e /\
           member e fl (Some H) (kid 0 st') (Some h) /\ member e fl (Some M) (kid 1 st') (Some m) /\ member e fl S_ (kid 2 st') sc /\ member e fl F (kid 3 st') ms
    else (forall a b c, ~ hm_at e fl (Some H) (Some M) (Some Se) s a b c) /\ iv st' = no_iv /\ forall n, (n < 4)%nat -> iv (kid n st') = no_iv).
  { clear Wf kf Wfs kfs. intros kfs kf Wfs Wf N. destruct (inv_o txt F kf GF Wf) as [? I4].
    do 2 eexists. split; [reflexivity|]. split; [wf_done|]. cbn iota. do 5 eexists. split; [eapply Hms; eauto|]. split; [reflexivity|]. auto. }
  destruct (ranv_o Fs kfs x e fl GFs Wfs Tx) as (kfs' & -> & Wfs' & Rfs). cbn [obind].
  destruct (o_f Fs x e fl) as [p|] eqn:EFs; cbn [found negb]; [|apply NOMS; auto; intros p y (X & _); congruence].
  destruct Rfs as (Mfs & -> & Vfs & Tp & Ip).
  destruct (ranv_o F kf p e fl GF Wf Tp) as (kf' & -> & Wf' & Rf). cbn [obind].
  destruct (o_f F p e fl) as [y|] eqn:EF; cbn [found negb andb]; [|apply NOMS; auto; intros p' y (X & Y & _); congruence].
  destruct Rf as (Mf & Ef & Vf & Ty & Iy). rewrite Vf, Ef.
  destruct (num F p e fl <? 1000) eqn:L3; cbn [negb]; [|apply NOMS; auto; intros p' y' (X & _ & Y); assert (p' = p) by congruence; subst; lia].
  do 2 eexists. split; [reflexivity|]. split; [wf_done|]. cbn iota. do 5 eexists. split; [apply (Hmsm e fl (Some H) (Some M) S_ F (Some Se) Fs s a b c d x p y); auto; split; auto; split; auto; lia|]. split; [reflexivity|].
  split; auto. apply (in_trans txt s x); auto. apply (in_trans txt x p); auto.
Qed.
(** There is at most one such time, so the theorem tells the members of every time. *)
Theorem time_unique : forall e fl H M S_ F Se Fs s y h m sc ms y' h' m' sc' ms',
  time_at e fl H M S_ F Se Fs s y h m sc ms -> time_at e fl H M S_ F Se Fs s y' h' m' sc' ms' -> y = y' /\ h = h' /\ m = m' /\ sc = sc' /\ ms = ms'.
Proof.
  intros e fl H M S_ F Se Fs s y h m sc ms y' h' m' sc' ms' A B.
  assert (HM : forall a b c a' b' c', hm_at e fl H M Se s a b c -> hm_at e fl H M Se s a' b' c' -> a = a' /\ b = b' /\ c = c').
  { intros a b c a' b' c' (X & Y & Z & _) (X' & Y' & Z' & _). assert (a = a') by congruence. subst a'. assert (b = b') by congruence. subst b'. assert (c = c') by congruence. auto. }
  assert (SC : forall a c d x d' x', sec_at e fl S_ Se a c d x -> sec_at e fl S_ Se a c d' x' -> d = d' /\ x = x').
  { intros a c d x d' x' (X & _ & Y & _) (X' & _ & Y' & _). assert (d = d') by congruence. subst d'. split; congruence. }
  assert (MS : forall x p y p' y', ms_at e fl F Fs x p y -> ms_at e fl F Fs x p' y' -> p = p' /\ y = y').
  { intros x p z p' z' (X & Y & _) (X' & Y' & _). assert (p = p') by congruence. subst p'. split; congruence. }
  destruct A as [a b c A1 A2|a b c d x A1 A2 A3|a b c d x p y A1 A2 A3], B as [a' b' c' B1 B2|a' b' c' d' x' B1 B2 B3|a' b' c' d' x' p' y' B1 B2 B3];
    destruct (HM _ _ _ _ _ _ A1 B1) as (<- & <- & <-); try (exfalso; (apply (A2 _ _ B2) || apply (B2 _ _ A2))); auto;
    destruct (SC _ _ _ _ _ _ A2 B2) as (<- & <-); auto; try (exfalso; (apply (A3 _ _ B3) || apply (B3 _ _ A3))).
  destruct (MS _ _ _ _ _ A3 B3) as (<- & <-). auto.
Qed.

(** *** Angle *)
Definition angle_wf (D Ds M Ms : espec) (S_ Ss Dc : option espec) (st : pst) : Prop :=
  vals st = [] /\ exists a b c d f g h, kids st = [a; b; c; d; f; g; h] /\ es_wf D a /\ es_wf Ds b /\ es_wf M c /\ es_wf Ms d /\ o_wf S_ f /\ o_wf Ss g /\ o_wf Dc h.
(** degrees and minutes: a part and its separator *)
Definition a_step (P Q : pcls) (top : option Z) (k kq : pst) (x e : nat) (fl : pflags) : outcome (pst * pst * nat) :=
  let* (k, b) := p_match P k x e fl in
  let* (kq, b) := (if b && match top with Some t => the_val k <? t | None => true end then p_match Q kq (i_end k) e fl else Ret (kq, false)) in
  Ret (if b then (k, kq, i_end kq) else (p_inval P k, p_inval Q kq, x)).
Lemma a_step_spec : forall P Q top k kq x e fl, good txt P -> good txt Q -> es_wf P k -> es_wf Q kq -> text_ok x e ->
  exists k' kq' y wp wq, a_step (es_P P) (es_P Q) top k kq x e fl = Ret (k', kq', y) /\ es_wf P k' /\ es_wf Q kq' /\ text_ok y e /\ in_vis txt x y e /\
    step_at e fl (Some P) (Some Q) top x y wp wq /\ member e fl (Some P) k' wp /\ member e fl (Some Q) kq' wq.
Proof.
  intros P Q top k kq x e fl GP GQ Wk Wq T. unfold a_step.
  assert (BAD : forall k kq, es_wf P k -> es_wf Q kq -> (forall a y, ~ unit_at e fl (Some P) (Some Q) top x a y) ->
    exists k' kq' y wp wq, Ret (p_inval (es_P P) k, p_inval (es_P Q) kq, x) = Ret (k', kq', y) /\ es_wf P k' /\ es_wf Q kq' /\ text_ok y e /\ in_vis txt x y e /\
    step_at e fl (Some P) (Some Q) top x y wp wq /\ member e fl (Some P) k' wp /\ member e fl (Some Q) kq' wq).
  { clear - GP GQ T. intros k kq Wk Wq N. destruct (inv_p txt P k GP Wk) as [? I1]. destruct (inv_p txt Q kq GQ Wq) as [? I2]. do 5 eexists. split; [reflexivity|]. split; auto. split; auto. split; auto. split; [split; lia|]. split; [apply Absent; auto|]. auto. }
  destruct (ranv_p P k x e fl GP Wk T) as (k' & -> & Wk' & R). cbn [obind o_f] in *.
  destruct (es_f P x e fl) as [a|] eqn:EP; cbn [found andb obind]; [|apply BAD; auto; intros a y (X & _); cbn [o_f] in X; congruence].
  destruct R as (Mk & Ek & Vk & Ta & Ia). rewrite Vk, Ek.
  destruct (match top with Some t => num (Some P) x e fl <? t | None => true end) eqn:L; cbn [obind].
  2:{ apply BAD; auto. intros a' y (_ & X & _). destruct top; [lia|discriminate]. }
  destruct (ranv_p Q kq a e fl GQ Wq Ta) as (kq' & -> & Wq' & R). cbn [obind o_f] in *.
  destruct (es_f Q a e fl) as [y|] eqn:EQ; cbn [found]; [|apply BAD; auto; intros a' y (X & _ & Y); cbn [o_f] in X, Y; congruence].
  destruct R as (Mq & -> & Vq & Ty & Iy). do 5 eexists. split; [reflexivity|]. split; auto. split; auto. split; auto. split; [apply (in_trans txt x a); auto|].
  split; [apply (There _ _ _ _ _ _ a y)|auto]. split; [exact EP|]. split; [destruct top; auto; lia|exact EQ].
Qed.
Lemma text_member : forall e fl o k w, member e fl o k w -> (i_start k <? i_end k)%nat = true <-> some_text w.
Proof. intros e fl o k [[a b]|] M; cbn [member some_text] in *; [destruct M as (_ & M & _)|]; unfold iv, no_iv in M; injection M as -> ->; lia. Qed.
Theorem angle_spec : forall D Ds M Ms S_ Ss Dc, good txt D -> good txt Ds -> good txt M -> good txt Ms -> o_good S_ -> o_good Ss -> o_good Dc ->
  let P := angle_p (es_P D) (es_P Ds) (es_P M) (es_P Ms) (o_P S_) (o_P Ss) (o_P Dc) in
  let wf := angle_wf D Ds M Ms S_ Ss Dc in
  wf (p_init P) /\
  forall st s e fl, wf st -> text_ok s e ->
   exists st' r x y z wd wds wm wms ws wss, p_match P st s e fl = Ret (st', r) /\ wf st' /\
    (* degrees, minutes and seconds, each of which may be missing *)
    step_at e fl (Some D) (Some Ds) None s x wd wds /\ step_at e fl (Some M) (Some Ms) (Some 60) x y wm wms /\ secs_at e fl S_ Ss y z ws wss /\
    member e fl (Some D) (kid 0 st') wd /\ member e fl (Some Ds) (kid 1 st') wds /\ member e fl (Some M) (kid 2 st') wm /\ member e fl (Some Ms) (kid 3 st') wms /\
    member e fl S_ (kid 4 st') ws /\ member e fl Ss (kid 5 st') wss /\
    (* but not all of them *)
    (r = true <-> some_text wd \/ some_text wm \/ some_text ws) /\
    if r then match o_f Dc z e fl with
              | Some u => iv st' = (s, u) /\ member e fl Dc (kid 6 st') (Some (z, u)) /\ in_vis txt s u e
              | None => iv st' = (s, z) /\ iv (kid 6 st') = no_iv /\ in_vis txt s z e
              end
    else iv st' = no_iv /\ iv (kid 6 st') = no_iv.
Proof.
  intros D Ds M Ms S_ Ss Dc GD GDs GM GMs GS GSs GDc P wf. split.
  { split; [reflexivity|]. do 7 eexists. split; [reflexivity|]. split; [apply (ini_p txt); auto|]. split; [apply (ini_p txt); auto|]. split; [apply (ini_p txt); auto|]. split; [apply (ini_p txt); auto|]. split; [apply (ini_o txt); auto|]. split; [apply (ini_o txt); auto|apply (ini_o txt); auto]. }
  intros st s e fl (V & kd & kds & km & kms & ks & kss & kdc & E & Wd & Wds & Wm & Wms & Ws & Wss & Wdc) T. unfold P, angle_p. cbn [p_match]. rewrite E. clear E.
  destruct (a_step_spec D Ds None kd kds s e fl GD GDs Wd Wds T) as (kd' & kds' & x & wd & wds & A1 & Wd' & Wds' & Tx & Ix & S1 & M1 & M2).
  unfold a_step in A1. destruct (p_match (es_P D) kd s e fl) as [[? b]| |]; cbn [obind] in *; try discriminate. rewrite andb_true_r in A1.
  destruct (if b then _ else _) as [[? b1]| |] in A1 |- *; cbn [obind] in *; try discriminate. injection A1 as A1. rewrite A1. clear A1 b b1 p p0.
  destruct (a_step_spec M Ms (Some 60) km kms x e fl GM GMs Wm Wms Tx) as (km' & kms' & y & wm & wms & A1 & Wm' & Wms' & Ty & Iy & S2 & M3 & M4).
  unfold a_step in A1. destruct (p_match (es_P M) km x e fl) as [[k1 b]| |]; cbn [obind] in *; try discriminate.
  destruct (if b && _ then _ else _) as [[? b1]| |] in A1 |- *; cbn [obind] in *; try discriminate. injection A1 as A1. rewrite A1. clear A1 b b1 k1 p.
  destruct (ranv_o S_ ks y e fl GS Ws Ty) as (ks1 & -> & Ws1 & Rs). cbn [obind].
  set (R := (if found (o_f S_ y e fl) && (the_val ks1 <? 60) then _ else _ : outcome (pst * pst * nat))).
  assert (A : exists ks' kss' z ws wss, R = Ret (ks', kss', z) /\ o_wf S_ ks' /\ o_wf Ss kss' /\ text_ok z e /\ in_vis txt y z e /\ secs_at e fl S_ Ss y z ws wss /\ member e fl S_ ks' ws /\ member e fl Ss kss' wss).
  { unfold R. clear R. destruct (inv_o txt S_ ks1 GS Ws1) as [? I1]. destruct (inv_o txt Ss kss GSs Wss) as [? I2].
    destruct (o_f S_ y e fl) as [a|] eqn:ES; cbn [found andb].
    2:{ do 5 eexists. split; [reflexivity|]. split; auto. split; auto. split; auto. split; [split; lia|]. split; [apply SecNone; congruence|auto]. }
    destruct Rs as (Mk & Ek & Vk & Ta & Ia). rewrite Vk. destruct (num S_ y e fl <? 60) eqn:L.
    2:{ do 5 eexists. split; [reflexivity|]. split; auto. split; auto. split; auto. split; [split; lia|]. split; [apply SecNone; intros; lia|auto]. }
    apply Z.ltb_lt in L. cbv zeta. rewrite Ek. destruct (ranv_o Ss kss a e fl GSs Wss Ta) as (kss1 & -> & Wss1 & Rss). cbn [obind]. destruct (inv_o txt Ss kss1 GSs Wss1) as [? I3].
    destruct (o_f Ss a e fl) as [z|] eqn:ESs; cbn [found].
    - destruct Rss as (Mss & -> & _ & Tz & Iz). do 5 eexists. split; [reflexivity|]. split; auto. split; auto. split; auto. split; [apply (in_trans txt y a); auto|]. split; [eapply SecSign; eauto|auto].
    - do 5 eexists. split; [reflexivity|]. split; auto. split; auto. split; auto. split; auto. split; [eapply SecBare; eauto|auto]. }
  destruct A as (ks' & kss' & z & ws & wss & -> & Ws' & Wss' & Tz & Iz & S3 & M5 & M6). cbn [obind].
  pose proof (text_member _ _ _ _ _ M1) as Q1. pose proof (text_member _ _ _ _ _ M3) as Q2. pose proof (text_member _ _ _ _ _ M5) as Q3.
  assert (Isz : in_vis txt s z e). { apply (in_trans txt s x); auto. apply (in_trans txt x y); auto. }
  set (B := ((i_start kd' <? i_end kd')%nat || (i_start km' <? i_end km')%nat || match o_P S_ with Some _ => (i_start ks' <? i_end ks')%nat | None => false end)).
  assert (QB : B = true <-> some_text wd \/ some_text wm \/ some_text ws).
  { unfold B. rewrite !orb_true_iff, Q1, Q2. destruct S_ as [p|]; cbn [o_P option_map]; [rewrite Q3; tauto|]. assert (~ some_text ws). { inversion S3; subst; cbn [o_f] in *; try discriminate; auto. } split; [intros [X|X]; [tauto|discriminate]|tauto]. }
  destruct B.
  - destruct (ranv_o Dc kdc z e fl GDc Wdc Tz) as (kdc' & -> & Wdc' & Rdc). cbn [obind]. destruct (inv_o txt Dc kdc' GDc Wdc') as [? I]. destruct (o_f Dc z e fl) as [u|] eqn:EDc; cbn [found].
    + destruct Rdc as (Mdc & -> & _ & Tu & Iu). exists (Pst s u [] [kd'; kds'; km'; kms'; ks'; kss'; kdc']), true. do 9 eexists. split; [reflexivity|]. split; [split; [reflexivity|]; do 7 eexists; split; [reflexivity|]; auto 10|].
      split; [exact S1|]. split; [exact S2|]. split; [exact S3|]. repeat (split; [eassumption|]). rewrite EDc. split; [reflexivity|]. split; auto. apply (in_trans txt s z); auto.
    + exists (Pst s z [] [kd'; kds'; km'; kms'; ks'; kss'; op_inval (o_P Dc) kdc']), true. do 9 eexists. split; [reflexivity|]. split; [split; [reflexivity|]; do 7 eexists; split; [reflexivity|]; auto 10|].
      split; [exact S1|]. split; [exact S2|]. split; [exact S3|]. repeat (split; [eassumption|]). rewrite EDc. auto.
  - destruct (inv_o txt Dc kdc GDc Wdc) as [? I]. exists (Pst 1 0 [] [kd'; kds'; km'; kms'; ks'; kss'; op_inval (o_P Dc) kdc]), false. do 9 eexists. split; [reflexivity|]. split; [split; [reflexivity|]; do 7 eexists; split; [reflexivity|]; auto 10|].
    split; [exact S1|]. split; [exact S2|]. split; [exact S3|]. repeat (split; [eassumption|]). auto.
Qed.
End Props.
