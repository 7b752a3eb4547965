(** Properties C211-C214: concrete cases, and what a matched date need not be. *)
From Coq Require Import ZifyBool ZifyNat.
From Verif Require Import Base StringModel StringSpec ParserModel ParserSpec ParserProps ParserEx ParserNumModel ParserNumProps ParserPeg ParserInt ParserTs ParserRefEx DateModel DateSpec TimeProps DateProps.

(** plain parsers: decimal numbers; a period, hyphen or slash; a blank *)
Definition pint (t : list Z) : pcls := integer10 t (digit_cus t ex_low dec_chars).
Definition pset (t : list Z) (l : list Z) : pcls := cu_set t ex_low l false.
Definition plain_part (t : list Z) (p : dpart) : option pcls := Some (pint t).
Definition plain_date (t : list Z) (mask : Z) : pcls := date_p (plain_part t) (pset t [46; 45; 47]) (cu t ex_low 32 false) mask.
Lemma pint_good : forall t, exists i, es_P i = pint t /\ good t i.
Proof. intros t. destruct (integer10_value t ex_low) as (wf & f & g & El & _). exists (ESpec (pint t) wf f g). split; [reflexivity|exact El]. Qed.
Lemma pset_good : forall t l, Forall (fun c => c <> 0) l -> exists i, es_P i = pset t l /\ good t i.
Proof. intros t l N. destruct (cu_set_spec t ex_low l false N) as (f & g & El & _). exists (ESpec (pset t l) (fun st => exists z, vals st = [z]) f g). split; [reflexivity|exact El]. Qed.
(** The theorem applies to them, for every text and every mask. *)
Theorem plain_date_spec : forall t mask, exists P Se Sp, (forall p, o_P (P p) = Some (pint t)) /\ es_P Se = pset t [46; 45; 47] /\
  date_wf P Se Sp (p_init (plain_date t mask)) /\
  forall st s e fl, date_wf P Se Sp st -> text_ok t s e ->
   let is_date := fun f y w => allowed mask f /\ date_at e fl P Se Sp f s y w in
   exists st' r, p_match (plain_date t mask) st s e fl = Ret (st', r) /\ date_wf P Se Sp st' /\
    (r = true <-> exists f y w, is_date f y w) /\
    (forall f y w, is_date f y w -> (forall g y' w', is_date g y' w' -> format_bit f <= format_bit g) ->
       iv st' = (s, y) /\ in_vis t s y e /\ date_format st' = 2 ^ format_bit f /\ forall p, member e fl (P p) (date_member p st') (w p)) /\
    (r = false -> iv st' = no_iv /\ date_format st' = 0 /\ forall p, iv (date_member p st') = no_iv).
Proof.
  intros t mask. destruct (pint_good t) as (i & Ei & Gi). destruct (pset_good t [46; 45; 47]) as (se & Ese & Gse). { repeat constructor; lia. }
  exists (fun _ => Some i), se, (cu_spec_of t ex_low 32). split; [intros; cbn; congruence|]. split; auto.
  pose proof (date_spec t (fun _ => Some i) se (cu_spec_of t ex_low 32) mask (fun _ => Gi) Gse) as S0. cbn [o_P option_map] in S0. rewrite Ei, Ese in S0. apply S0.
  - exact (blank_good t).
  - exact (blank_advances t).
  - discriminate.
Qed.
Definition run_date (t : list Z) (mask : Z) : outcome (bool * (nat * nat) * Z * list (Z * (nat * nat))) :=
  let* (st, b) := p_match (plain_date t mask) (p_init (plain_date t mask)) 0 100 no_fl in
  Ret (b, iv st, date_format st, map (fun p => (the_val (date_member p st), iv (date_member p st))) [Day; Month; Year]).
(** "24. 12. 2020x": day, month and year *)
Example ex_dmy : run_date [50; 52; 46; 32; 49; 50; 46; 32; 50; 48; 50; 48; 120; 0] 127 = Ret (true, (0, 12)%nat, 1, [(24, (0, 2)%nat); (12, (4, 6)%nat); (2020, (8, 12)%nat)]).
Proof. vm_compute. reflexivity. Qed.
(** "12/24/2020": there is no month 24, so it is month, day and year *)
Example ex_mdy : run_date [49; 50; 47; 50; 52; 47; 50; 48; 50; 48; 0] 127 = Ret (true, (0, 10)%nat, 2, [(24, (3, 5)%nat); (12, (0, 2)%nat); (2020, (6, 10)%nat)]).
Proof. vm_compute. reflexivity. Qed.
(** "2020-2-29": year, month and day *)
Example ex_ymd : run_date [50; 48; 50; 48; 45; 50; 45; 50; 57; 0] 127 = Ret (true, (0, 9)%nat, 4, [(29, (7, 9)%nat); (2, (5, 6)%nat); (2020, (0, 4)%nat)]).
Proof. vm_compute. reflexivity. Qed.
(** "24. 12. ": day and month; the second period belongs to it *)
Example ex_dm : run_date [50; 52; 46; 32; 49; 50; 46; 32; 0] 96 = Ret (true, (0, 7)%nat, 32, [(24, (0, 2)%nat); (12, (4, 6)%nat); (0, (1, 0)%nat)]).
Proof. vm_compute. reflexivity. Qed.
(** "24. 12-": a hyphen does not *)
Example ex_dm2 : run_date [50; 52; 46; 32; 49; 50; 45; 0] 96 = Ret (true, (0, 6)%nat, 32, [(24, (0, 2)%nat); (12, (4, 6)%nat); (0, (1, 0)%nat)]).
Proof. vm_compute. reflexivity. Qed.
(** "2020-12": year and month *)
Example ex_ym : run_date [50; 48; 50; 48; 45; 49; 50; 0] 24 = Ret (true, (0, 7)%nat, 8, [(0, (1, 0)%nat); (12, (5, 7)%nat); (2020, (0, 4)%nat)]).
Proof. vm_compute. reflexivity. Qed.
(** "24.12-2020": the separators differ *)
Example ex_mix : run_date [50; 52; 46; 49; 50; 45; 50; 48; 50; 48; 0] 7 = Ret (false, (1, 0)%nat, 0, [(0, (1, 0)%nat); (0, (1, 0)%nat); (0, (1, 0)%nat)]).
Proof. vm_compute. reflexivity. Qed.

(** What a user relies on: a date that is matched is in the calendar.  False: 29 February is, in every year; and SIZE_MAX counts as
    the first day or month. *)
Definition leap (y : Z) : bool := (y mod 4 =? 0) && (negb (y mod 100 =? 0) || (y mod 400 =? 0)).
Definition calendar_date (d m y : Z) : Prop := 1 <= m <= 12 /\ 1 <= d <= (if (m =? 2) && negb (leap y) then 28 else month_days m).
Definition date_exists_claim : Prop := forall t mask st s e fl st', text_ok t s e -> dk_of st <> None -> p_match (plain_date t mask) st s e fl = Ret (st', true) -> date_format st' < 8 ->
  calendar_date (the_val (date_member Day st')) (the_val (date_member Month st')) (the_val (date_member Year st')).
Definition ex_feb : list Z := [50; 57; 46; 50; 46; 50; 48; 50; 49; 0].
Definition ex_big : list Z := [49; 56; 52; 52; 54; 55; 52; 52; 48; 55; 51; 55; 48; 57; 53; 53; 49; 54; 49; 53; 46; 53; 46; 50; 48; 50; 48; 0].
Definition first_match (t : list Z) : pst := match p_match (plain_date t 1) (p_init (plain_date t 1)) 0 100 no_fl with Ret (st, true) => st | _ => new_pst [] [] end.
Lemma first_match_feb : p_match (plain_date ex_feb 1) (p_init (plain_date ex_feb 1)) 0 100 no_fl = Ret (first_match ex_feb, true).
Proof. vm_compute. reflexivity. Qed.
Theorem date_exists_refuted : ~ date_exists_claim.
Proof.
  intros C. assert (T : text_ok ex_feb 0 100). { split; [lia|]. split; [cbn; lia|]. right. unfold ex_feb. cbn [skipn]. do 9 right. left. reflexivity. }
  assert (K : dk_of (p_init (plain_date ex_feb 1)) <> None) by discriminate. pose proof (C ex_feb 1 (p_init (plain_date ex_feb 1)) 0%nat 100%nat no_fl (first_match ex_feb) T K first_match_feb) as X. assert (F : date_format (first_match ex_feb) < 8) by (vm_compute; reflexivity). specialize (X F). assert (V : the_val (date_member Day (first_match ex_feb)) = 29 /\ the_val (date_member Month (first_match ex_feb)) = 2 /\ the_val (date_member Year (first_match ex_feb)) = 2021) by (vm_compute; auto).
  destruct V as (E1 & E2 & E3). rewrite E1, E2, E3 in X. unfold calendar_date in X. vm_compute in X. destruct X as [_ [_ X]]. apply X. reflexivity.
Qed.
Lemma first_match_big : p_match (plain_date ex_big 1) (p_init (plain_date ex_big 1)) 0 100 no_fl = Ret (first_match ex_big, true).
Proof. vm_compute. reflexivity. Qed.
(** ... nor does the day exist in any year *)
Definition day_exists_claim : Prop := forall t mask st s e fl st', text_ok t s e -> dk_of st <> None -> p_match (plain_date t mask) st s e fl = Ret (st', true) -> date_format st' < 8 ->
  day_ok (the_val (date_member Day st')) (the_val (date_member Month st')).
Theorem day_exists_refuted : ~ day_exists_claim.
Proof.
  intros C. assert (T : text_ok ex_big 0 100). { split; [lia|]. split; [cbn; lia|]. right. unfold ex_big. cbn [skipn]. do 27 right. left. reflexivity. }
  assert (K : dk_of (p_init (plain_date ex_big 1)) <> None) by discriminate. pose proof (C ex_big 1 (p_init (plain_date ex_big 1)) 0%nat 100%nat no_fl (first_match ex_big) T K first_match_big) as X. assert (F : date_format (first_match ex_big) < 8) by (vm_compute; reflexivity). specialize (X F). destruct X as [_ [_ X]]. vm_compute in X. apply X. reflexivity.
Qed.
(** What holds, of any parsers: when the numbers read are below SIZE_MAX, the day exists in that month, in some year. *)
Theorem date_exists_partial : forall e fl P Se Sp f s y w, date_at e fl P Se Sp f s y w -> (forall p, of_part e fl P w p <> 18446744073709551615) ->
  (has_part f Day -> day_ok (of_part e fl P w Day) (of_part e fl P w Month)) /\ month_ok (of_part e fl P w Month).
Proof.
  intros e fl P Se Sp f s y w D N. assert (O : forall p, or_first (of_part e fl P w p) = of_part e fl P w p). { intros p. unfold or_first. destruct (Z.eqb_spec (of_part e fl P w p) 18446744073709551615); auto. exfalso. eapply N; eauto. }
  assert (A : day_ok (of_part e fl P w Day) (of_part e fl P w Month) -> (True -> day_ok (of_part e fl P w Day) (of_part e fl P w Month)) /\ month_ok (of_part e fl P w Month)) by (intros X; split; [auto|apply X]).
  destruct f; cbn [date_at has_part] in *.
  1-3: destruct D as (a & b & d & f & h & i & _ & _ & _ & _ & _ & _ & _ & X); rewrite !O in X; auto.
  1-2: destruct D as (a & b & d & _ & _ & _ & _ & X); rewrite !O in X; split; [intros []|exact X].
  all: destruct D as (a & b & d & f & _ & _ & _ & _ & X & _); rewrite !O in X; auto.
Qed.

(** *** Times and angles *)
Definition plain_time (t : list Z) : pcls := time_p (pint t) (pint t) (Some (pint t)) (Some (pint t)) (pset t [58; 46]) (Some (pset t [44; 46])).
Definition run_time (t : list Z) : outcome (bool * (nat * nat) * list (Z * (nat * nat))) :=
  let* (st, b) := p_match (plain_time t) (p_init (plain_time t)) 0 100 no_fl in Ret (b, iv st, map (fun n => (the_val (kid n st), iv (kid n st))) [0; 1; 2; 3]%nat).
Theorem plain_time_spec : forall t, exists H Se Fs, es_P H = pint t /\ es_P Se = pset t [58; 46] /\ es_P Fs = pset t [44; 46] /\
  let wf := time_wf H H Se (Some H) (Some H) (Some Fs) in
  wf (p_init (plain_time t)) /\ forall st s e fl, wf st -> text_ok t s e ->
   exists st' r, p_match (plain_time t) st s e fl = Ret (st', r) /\ wf st' /\
    if r then exists y h m sc ms, time_at e fl (Some H) (Some H) (Some H) (Some H) (Some Se) (Some Fs) s y h m sc ms /\ iv st' = (s, y) /\ in_vis t s y e /\
           member e fl (Some H) (kid 0 st') (Some h) /\ member e fl (Some H) (kid 1 st') (Some m) /\ member e fl (Some H) (kid 2 st') sc /\ member e fl (Some H) (kid 3 st') ms
    else (forall a b c, ~ hm_at e fl (Some H) (Some H) (Some Se) s a b c) /\ iv st' = no_iv /\ forall n, (n < 4)%nat -> iv (kid n st') = no_iv.
Proof.
  intros t. destruct (pint_good t) as (i & Ei & Gi). destruct (pset_good t [58; 46]) as (se & Ese & Gse). { repeat constructor; lia. } destruct (pset_good t [44; 46]) as (fs & Efs & Gfs). { repeat constructor; lia. }
  exists i, se, fs. split; auto. split; auto. split; auto. cbv zeta. pose proof (time_spec t i i se (Some i) (Some i) (Some fs) Gi Gi Gse Gi Gi Gfs) as S0. cbn [o_P option_map] in S0. rewrite Ei, Ese, Efs in S0. exact S0.
Qed.
(** "99:59:59.999": the hour is any number *)
Example ex_hmsm : run_time [57; 57; 58; 53; 57; 58; 53; 57; 46; 57; 57; 57; 0] = Ret (true, (0, 12)%nat, [(99, (0, 2)%nat); (59, (3, 5)%nat); (59, (6, 8)%nat); (999, (9, 12)%nat)]).
Proof. vm_compute. reflexivity. Qed.
(** "1:02:03.1000": 1000 are not milliseconds *)
Example ex_hms : run_time [49; 58; 48; 50; 58; 48; 51; 46; 49; 48; 48; 48; 0] = Ret (true, (0, 7)%nat, [(1, (0, 1)%nat); (2, (2, 4)%nat); (3, (5, 7)%nat); (0, (1, 0)%nat)]).
Proof. vm_compute. reflexivity. Qed.
(** "1:02.03": the separators differ *)
Example ex_hm : run_time [49; 58; 48; 50; 46; 48; 51; 0] = Ret (true, (0, 4)%nat, [(1, (0, 1)%nat); (2, (2, 4)%nat); (0, (1, 0)%nat); (0, (1, 0)%nat)]).
Proof. vm_compute. reflexivity. Qed.
(** "1:60": no minute *)
Example ex_no_time : run_time [49; 58; 54; 48; 0] = Ret (false, (1, 0)%nat, [(0, (1, 0)%nat); (0, (1, 0)%nat); (0, (1, 0)%nat); (0, (1, 0)%nat)]).
Proof. vm_compute. reflexivity. Qed.
(** degree, minute and second signs as the units o, m and s; a decimal part introduced by a period is a number here *)
Definition plain_angle (t : list Z) : pcls := angle_p (pint t) (pset t [111]) (pint t) (pset t [109]) (Some (pint t)) (Some (pset t [115])) (Some (pset t [46])).
Definition run_angle (t : list Z) : outcome (bool * (nat * nat) * list (nat * nat)) :=
  let* (st, b) := p_match (plain_angle t) (p_init (plain_angle t)) 0 100 no_fl in Ret (b, iv st, map iv (kids st)).
Example angle_applies : forall t, exists D Ds Ms Ss Dc, es_P D = pint t /\ angle_p (es_P D) (es_P Ds) (es_P D) (es_P Ms) (o_P (Some D)) (o_P (Some Ss)) (o_P (Some Dc)) = plain_angle t /\
  good t D /\ good t Ds /\ good t Ms /\ good t Ss /\ good t Dc.
Proof.
  intros t. destruct (pint_good t) as (i & Ei & Gi). destruct (pset_good t [111]) as (a & Ea & Ga). { repeat constructor; lia. } destruct (pset_good t [109]) as (b & Eb & Gb). { repeat constructor; lia. }
  destruct (pset_good t [115]) as (c & Ec & Gc). { repeat constructor; lia. } destruct (pset_good t [46]) as (d & Ed & Gd). { repeat constructor; lia. } exists i, a, b, c, d. split; auto. split; auto. unfold plain_angle. cbn [o_P option_map]. congruence.
Qed.
(** "46o3m5s.": everything *)
Example ex_full : run_angle [52; 54; 111; 51; 109; 53; 115; 46; 0] = Ret (true, (0, 8), [(0, 2); (2, 3); (3, 4); (4, 5); (5, 6); (6, 7); (7, 8)])%nat.
Proof. vm_compute. reflexivity. Qed.
(** "46o5": degrees and seconds, whose sign is missing *)
Example ex_deg_sec : run_angle [52; 54; 111; 53; 0] = Ret (true, (0, 4), [(0, 2); (2, 3); (1, 0); (1, 0); (3, 4); (1, 0); (1, 0)])%nat.
Proof. vm_compute. reflexivity. Qed.
(** "5m": minutes *)
Example ex_min : run_angle [53; 109; 0] = Ret (true, (0, 2), [(1, 0); (1, 0); (0, 1); (1, 2); (1, 0); (1, 0); (1, 0)])%nat.
Proof. vm_compute. reflexivity. Qed.
(** "60m": 60 is neither a minute nor a second *)
Example ex_not : run_angle [54; 48; 109; 0] = Ret (false, (1, 0), [(1, 0); (1, 0); (1, 0); (1, 0); (1, 0); (1, 0); (1, 0)])%nat.
Proof. vm_compute. reflexivity. Qed.

Print Assumptions time_spec.
Print Assumptions angle_spec.
Print Assumptions date_spec.
Print Assumptions date_exists_refuted.
Print Assumptions date_exists_partial.
