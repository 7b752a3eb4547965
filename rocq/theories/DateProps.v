(** Properties C213-C215: dates. *)
From Coq Require Import ZifyBool ZifyNat.
From Verif Require Import Base StringModel StringSpec StringProofs ParserModel ParserSpec ParserProps ParserNumModel ParserNumProps ParserPeg DateModel DateSpec TimeProps.

(** the calendar *)
Lemma date_valid_spec : forall d m, date_valid d m = true <-> day_ok (or_first d) (or_first m).
Proof.
  intros d m. unfold date_valid. change smax with 18446744073709551615. fold (or_first d). fold (or_first m). generalize (or_first d) (or_first m). clear d m. intros d m. unfold day_ok, month_ok, month_days.
  destruct (m =? 1) eqn:E1; [assert (m = 1) by lia; subst; lazy -[Z.le Z.leb andb iff]; lia|]. destruct (m =? 2) eqn:E2; [assert (m = 2) by lia; subst; lazy -[Z.le Z.leb andb iff]; lia|].
  destruct (m =? 3) eqn:E3; [assert (m = 3) by lia; subst; lazy -[Z.le Z.leb andb iff]; lia|]. destruct (m =? 4) eqn:E4; [assert (m = 4) by lia; subst; lazy -[Z.le Z.leb andb iff]; lia|].
  destruct (m =? 5) eqn:E5; [assert (m = 5) by lia; subst; lazy -[Z.le Z.leb andb iff]; lia|]. destruct (m =? 6) eqn:E6; [assert (m = 6) by lia; subst; lazy -[Z.le Z.leb andb iff]; lia|].
  destruct (m =? 7) eqn:E7; [assert (m = 7) by lia; subst; lazy -[Z.le Z.leb andb iff]; lia|]. destruct (m =? 8) eqn:E8; [assert (m = 8) by lia; subst; lazy -[Z.le Z.leb andb iff]; lia|].
  destruct (m =? 9) eqn:E9; [assert (m = 9) by lia; subst; lazy -[Z.le Z.leb andb iff]; lia|]. destruct (m =? 10) eqn:E10; [assert (m = 10) by lia; subst; lazy -[Z.le Z.leb andb iff]; lia|].
  destruct (m =? 11) eqn:E11; [assert (m = 11) by lia; subst; lazy -[Z.le Z.leb andb iff]; lia|]. destruct (m =? 12) eqn:E12; [assert (m = 12) by lia; subst; lazy -[Z.le Z.leb andb iff]; lia|].
  cbn [orb]. split; [discriminate|lia].
Qed.
Lemma month_valid_spec : forall m, date_valid smax m = true <-> month_ok (or_first m).
Proof.
  intros m. rewrite date_valid_spec. change (or_first smax) with 1. unfold day_ok, month_ok, month_days. split; [tauto|]. intros A. split; auto. destruct (or_first m =? 2); [lia|]. destruct (_ || _); lia.
Qed.
Lemma allowed_spec : forall mask f, (Z.land mask (format_no f) =? format_no f) = true <-> allowed mask f.
Proof.
  intros mask f. unfold allowed. assert (E : format_no f = Z.shiftl 1 (format_bit f)) by (destruct f; reflexivity). assert (N : 0 <= format_bit f) by (destruct f; cbn; lia). rewrite E. rewrite Z.eqb_eq. split; intros A.
  - assert (Z.testbit (Z.land mask (Z.shiftl 1 (format_bit f))) (format_bit f) = true). { rewrite A, Z.shiftl_spec, Z.sub_diag by auto. reflexivity. } rewrite Z.land_spec in H. apply andb_prop in H. tauto.
  - apply Z.bits_inj'. intros n Hn. rewrite Z.land_spec. rewrite Z.shiftl_1_l, Z.pow2_bits_eqb by auto. destruct (Z.eqb_spec (format_bit f) n); [subst; rewrite A; reflexivity|apply andb_false_r].
Qed.

Section Props.
Context (txt : list Z) (P : dpart -> option espec) (Se Sp : espec) (GP : forall p, o_good txt (P p)) (GSe : good txt Se) (GSp : good txt Sp) (ASp : advances txt (es_f Sp)) (e : nat) (fl : pflags).
Local Notation text_ok := (text_ok txt).
Local Notation PP := (fun p => o_P (P p)).
Local Notation gap := (gap e fl Sp).
Local Notation pair_at := (pair_at e fl P Se Sp).
Local Notation again_at := (again_at e fl Se Sp).
Local Notation mem k := (fun p => member e fl (P p) (dk p k)).
Definition dwf (k : dkids) : Prop := (forall p, o_wf (P p) (dk p k)) /\ es_wf Se (dk_sep k) /\ es_wf Sp (dk_space k).
Lemma dk_set_same : forall p x k, dk p (dk_set p x k) = x.
Proof. intros []; reflexivity. Qed.
Lemma dk_set_other : forall p q x k, p <> q -> dk q (dk_set p x k) = dk q k.
Proof. intros [] []; auto; congruence. Qed.
Lemma dk_set_wf : forall p x k, dwf k -> o_wf (P p) x -> dwf (dk_set p x k).
Proof. intros p x k (A & B & C) W. split; [|destruct p; auto]. intros q. destruct p, q; auto; try apply (A Day); try apply (A Month); try apply (A Year). Qed.

Lemma skip_ok : forall k x, dwf k -> text_ok x e -> exists k' y, d_skip (es_P Sp) k x e fl = Ret (k', y) /\ dwf k' /\ gap x y /\ text_ok y e /\ in_vis txt x y e /\ (forall p, dk p k' = dk p k) /\ dk_sep k' = dk_sep k.
Proof.
  intros k x (A & B & C) T. unfold d_skip. destruct (skip_spec txt Sp (S (e - x)) (dk_space k) x e (one_line fl) GSp ASp C T) as (k' & y & -> & W & St & Ty & Iy). { pose proof (vis_end txt x e T). lia. }
  cbn [obind]. exists (dk_set_space k' k), y. split; auto. split; [split; [intros []; [apply (A Day)|apply (A Month)|apply (A Year)]|split; auto]|]. split; [|split; [exact Ty|]; split; [exact Iy|]; split; [intros p0; destruct p0; reflexivity|reflexivity]].
  destruct (star_spec txt (es_f Sp) x e (one_line fl)) as (y' & E & R & _); auto. { intros a b Ta F. split; [apply (ASp a e (one_line fl) b Ta F)|apply (el_within _ _ _ _ _ GSp a e (one_line fl) b Ta F)]. }
  assert (y' = y) by congruence. subst y'. exact R.
Qed.
Lemma sep_ok : forall k x, dwf k -> text_ok x e -> exists k', d_sep (es_P Se) k x e fl = Ret (k', found (es_f Se x e fl)) /\ dwf k' /\ (forall p, dk p k' = dk p k) /\
  match es_f Se x e fl with Some y => i_end (dk_sep k') = y /\ the_val (dk_sep k') = num (Some Se) x e fl /\ text_ok y e /\ in_vis txt x y e | None => True end.
Proof.
  intros k x (A & B & C) T. unfold d_sep. destruct (ranv_p txt Se (dk_sep k) x e fl GSe B T) as (k' & -> & W & R). cbn [obind o_f] in *. exists (dk_set_sep k' k). split; auto. split; [split; [intros []; [apply (A Day)|apply (A Month)|apply (A Year)]|split; auto]|].
  split; [intros []; reflexivity|]. destruct (es_f Se x e fl); auto. cbn [dk_set_sep dk_sep]. tauto.
Qed.
Lemma part_ok : forall p k x, P p <> None -> dwf k -> text_ok x e -> exists k', d_part PP p k x e fl = Ret (k', found (o_f (P p) x e fl)) /\ dwf k' /\ (forall q, p <> q -> dk q k' = dk q k) /\ dk_sep k' = dk_sep k /\
  match o_f (P p) x e fl with Some y => mem k' p (Some (x, y)) /\ i_end (dk p k') = y /\ text_ok y e /\ in_vis txt x y e | None => True end.
Proof.
  intros p k x N W T. unfold d_part. destruct (ranv_o txt (P p) (dk p k) x e fl (GP p) (proj1 W p) T) as (k' & E & W' & R).
  replace (nn_match (o_P (P p)) (dk p k) x e fl) with (op_match (o_P (P p)) (dk p k) x e fl) by (destruct (P p); [reflexivity|congruence]). rewrite E. cbn [obind]. exists (dk_set p k' k). split; auto. split; [apply dk_set_wf; auto|].
  split; [intros q Q; apply dk_set_other; auto|]. split; [destruct p; reflexivity|]. destruct (o_f (P p) x e fl); auto. rewrite dk_set_same. tauto.
Qed.
Lemma gap_unique : forall x y y', gap x y -> gap x y' -> y = y'.
Proof. intros x y y'. apply star_unique. Qed.

Lemma pair_unique : forall p q s a b d f a' b' d' f', pair_at p q s a b d f -> pair_at p q s a' b' d' f' -> a = a' /\ b = b' /\ d = d' /\ f = f'.
Proof.
  intros p q s a b d f a' b' d' f' (c & A1 & A2 & A3 & A4 & A5) (c' & B1 & B2 & B3 & B4 & B5). assert (a = a') by congruence. subst a'. assert (b = b') by (eapply gap_unique; eauto). subst b'. assert (c = c') by congruence. subst c'. assert (d = d') by (eapply gap_unique; eauto). subst d'. repeat split; auto. congruence.
Qed.
Lemma again_unique : forall b f h h', again_at b f h -> again_at b f h' -> h = h'.
Proof. intros b f h h' (g & A1 & A2 & A3) (g' & B1 & B2 & B3). assert (g = g') by (eapply gap_unique; eauto). subst g'. congruence. Qed.

Lemma pair_ok : forall p q k s, p <> q -> P p <> None -> P q <> None -> dwf k -> text_ok s e ->
  exists k' o, d_pair PP (es_P Se) (es_P Sp) p q k s e fl = Ret (k', o) /\ dwf k' /\
   match o with
   | Some hit => exists a b d f, pair_at p q s a b d f /\ hit = num (Some Se) b e fl /\ mem k' p (Some (s, a)) /\ mem k' q (Some (d, f)) /\ i_end (dk q k') = f /\ text_ok f e /\ in_vis txt s f e
   | None => forall a b d f, ~ pair_at p q s a b d f
   end.
Proof.
  intros p q k s NE Np Nq W T. unfold d_pair.
  destruct (part_ok p k s Np W T) as (k1 & -> & W1 & O1 & S1 & R1). cbn [obind]. destruct (o_f (P p) s e fl) as [a|] eqn:EP; cbn [found negb].
  2:{ do 2 eexists. split; [reflexivity|]. split; auto. intros a b d f (c & X & _). congruence. }
  destruct R1 as (M1 & -> & Ta & Ia). destruct (skip_ok k1 a W1 Ta) as (k2 & b & -> & W2 & G1 & Tb & Ib & O2 & S2). cbn [obind].
  destruct (sep_ok k2 b W2 Tb) as (k3 & -> & W3 & O3 & R3). cbn [obind]. destruct (es_f Se b e fl) as [c|] eqn:ES; cbn [found negb].
  2:{ do 2 eexists. split; [reflexivity|]. split; auto. intros a' b' d f (c & X & Y & Z & _). assert (a' = a) by congruence. subst a'. assert (b' = b) by (eapply gap_unique; eauto). subst. congruence. }
  destruct R3 as (-> & V3 & Tc & Ic). cbv zeta. destruct (skip_ok k3 c W3 Tc) as (k4 & d & -> & W4 & G2 & Td & Id & O4 & S4). cbn [obind].
  destruct (part_ok q k4 d Nq W4 Td) as (k5 & -> & W5 & O5 & S5 & R5). cbn [obind]. destruct (o_f (P q) d e fl) as [f|] eqn:EQ; cbn [found].
  2:{ do 2 eexists. split; [reflexivity|]. split; auto. intros a' b' d' f (c' & X & Y & Z & U & V). assert (a' = a) by congruence. subst a'. assert (b' = b) by (eapply gap_unique; eauto). subst. assert (c' = c) by congruence. subst. assert (d' = d) by (eapply gap_unique; eauto). subst. congruence. }
  destruct R5 as (M5 & E5 & Tf & If). do 2 eexists. split; [reflexivity|]. split; auto. exists a, b, d, f. split; [exists c; auto|]. split; auto. split; [rewrite O5, O4, O3, O2 by congruence; auto|]. split; auto. split; auto. split; auto.
  apply (in_trans txt s a); auto. apply (in_trans txt a b); auto. apply (in_trans txt b c); auto. apply (in_trans txt c d); auto.
Qed.
Lemma again_ok : forall q b f k, dwf k -> i_end (dk q k) = f -> text_ok f e ->
  exists k' o, d_again (es_P Se) (es_P Sp) q (num (Some Se) b e fl) k e fl = Ret (k', o) /\ dwf k' /\ (forall p, dk p k' = dk p k) /\
   match o with Some h => again_at b f h /\ text_ok h e /\ in_vis txt f h e | None => forall h, ~ again_at b f h end.
Proof.
  intros q b f k W Ef T. unfold d_again. rewrite Ef. destruct (skip_ok k f W T) as (k1 & g & -> & W1 & G1 & Tg & Ig & O1 & S1). cbn [obind].
  destruct (sep_ok k1 g W1 Tg) as (k2 & -> & W2 & O2 & R2). cbn [obind]. do 2 eexists. split; [reflexivity|]. split; auto. split; [intros p; rewrite O2; auto|].
  assert (N : forall g' h, gap f g' -> es_f Se g' e fl = Some h -> g' = g /\ es_f Se g e fl = Some h). { intros g' h X Y. assert (g' = g) by (eapply gap_unique; eauto). subst; auto. }
  destruct (es_f Se g e fl) as [h|] eqn:ES; cbn [found andb].
  2:{ intros h (g' & X & Y & _). destruct (N g' h X Y). congruence. }
  destruct R2 as (-> & -> & Th & Ih). destruct (num (Some Se) g e fl =? num (Some Se) b e fl) eqn:Q.
  - split; [exists g; split; [exact G1|]; split; [exact ES|lia]|]. split; auto. apply (in_trans txt f g); auto.
  - intros h' (g' & X & Y & Z). destruct (N g' h' X Y). subst. lia.
Qed.
(** the value of a member *)
Lemma mem_val : forall k p s x, mem k p (Some (s, x)) -> the_val (dk p k) = num (P p) s e fl.
Proof. intros k p s x (_ & _ & V). unfold the_val, num. rewrite V. reflexivity. Qed.
Definition read_is (w : reading) (k : dkids) : Prop := forall p, mem k p (w p).
Lemma read_val : forall w k p s x, w p = Some (s, x) -> read_is w k -> the_val (dk p k) = of_part e fl P w p.
Proof. intros w k p s x E R. specialize (R p). rewrite E in R. unfold of_part. rewrite E. eapply mem_val; eauto. Qed.
Lemma inval_ok : forall p k, dwf k -> dwf (d_inval PP p k) /\ iv (dk p (d_inval PP p k)) = no_iv /\ (forall q, p <> q -> dk q (d_inval PP p k) = dk q k).
Proof. intros p k W. unfold d_inval. destruct (inv_o txt (P p) (dk p k) (GP p) (proj1 W p)) as [A B]. split; [apply dk_set_wf; auto|]. split; [rewrite dk_set_same; auto|]. intros q Q. apply dk_set_other; auto. Qed.

Definition three (p q r : dpart) : Prop := p <> q /\ q <> r /\ p <> r.
Definition reads (p q r : dpart) (a b c : option (nat * nat)) : reading :=
  fun x => match x, p, q with Day, Day, _ | Month, Month, _ | Year, Year, _ => a | Day, _, Day | Month, _, Month | Year, _, Year => b | _, _, _ => c end.
Lemma reads_is : forall p q r a b c, three p q r -> reads p q r a b c p = a /\ reads p q r a b c q = b /\ reads p q r a b c r = c.
Proof. intros [] [] [] a b c (A & B & C); try congruence; auto. Qed.
Lemma three_all : forall p q r (X : dpart -> Prop), three p q r -> X p -> X q -> X r -> forall x, X x.
Proof. intros [] [] [] X (A & B & C) U V W []; auto; congruence. Qed.
Lemma val_ext : forall w w' p, w p = w' p -> of_part e fl P w p = of_part e fl P w' p.
Proof. intros w w' p E. unfold of_part. rewrite E. reflexivity. Qed.

Definition outcome_of (at_ : nat -> reading -> Prop) (s : nat) (r : outcome (dkids * option nat)) : Prop :=
  exists k' o, r = Ret (k', o) /\ dwf k' /\ match o with Some y => exists w, at_ y w /\ read_is w k' /\ in_vis txt s y e | None => forall y w, ~ at_ y w end.
Lemma three_ok : forall p q r k s, three p q r -> P p <> None -> P q <> None -> P r <> None -> dwf k -> text_ok s e ->
  outcome_of (three_at e fl P Se Sp p q r s) s (d_three PP (es_P Se) (es_P Sp) p q r k s e fl).
Proof.
  intros p q r k s TH Np Nq Nr W T. unfold d_three, outcome_of. pose proof TH as (N1 & N2 & N3).
  destruct (pair_ok p q k s N1 Np Nq W T) as (k1 & o & -> & W1 & R1). cbn [obind]. destruct o as [hit|].
  2:{ do 2 eexists. split; [reflexivity|]. split; auto. intros y w (a & b & d & f & h & i & X & _). eapply R1; eauto. }
  destruct R1 as (a & b & d & f & PA & -> & M1 & M2 & E1 & Tf & If).
  assert (U : forall a' b' d' f', pair_at p q s a' b' d' f' -> a' = a /\ b' = b /\ d' = d /\ f' = f) by (intros; eapply pair_unique; eauto).
  destruct (again_ok q b f k1 W1 E1 Tf) as (k2 & o & -> & W2 & O2 & R2). cbn [obind]. destruct o as [h|].
  2:{ do 2 eexists. split; [reflexivity|]. split; auto. intros y w (a' & b' & d' & f' & h & i & X & Y & _). destruct (U _ _ _ _ X) as (-> & -> & -> & ->). eapply R2; eauto. }
  destruct R2 as (AG & Th & Ih). destruct (skip_ok k2 h W2 Th) as (k3 & i & -> & W3 & G3 & Ti & Ii & O3 & S3). cbn [obind].
  destruct (part_ok r k3 i Nr W3 Ti) as (k4 & -> & W4 & O4 & S4 & R4). cbn [obind]. do 2 eexists. split; [reflexivity|]. split; auto.
  assert (U2 : forall h' i', again_at b f h' -> gap h' i' -> h' = h /\ i' = i). { intros h' i' X Y. assert (h' = h) by (eapply again_unique; eauto). subst h'. split; auto. eapply gap_unique; eauto. }
  destruct (o_f (P r) i e fl) as [y|] eqn:ER; cbn [found andb].
  2:{ intros y w (a' & b' & d' & f' & h' & i' & X & Y & Z & V & _). destruct (U _ _ _ _ X) as (-> & -> & -> & ->). destruct (U2 _ _ Y Z) as (-> & ->). congruence. }
  destruct R4 as (M4 & E4 & Ty & Iy). set (w := reads p q r (Some (s, a)) (Some (d, f)) (Some (i, y))). destruct (reads_is p q r (Some (s, a)) (Some (d, f)) (Some (i, y)) TH) as (w1 & w2 & w3). fold w in w1, w2, w3.
  assert (RI : read_is w k4). { unfold read_is. apply (three_all p q r); auto; [rewrite w1, O4, O3, O2 by auto; auto|rewrite w2, O4, O3, O2 by auto; auto|rewrite w3; auto]. }
  assert (WV : forall x, the_val (dk x k4) = of_part e fl P w x). { apply (three_all p q r); auto; eapply read_val; eauto. }
  change (dk_day k4) with (dk Day k4). change (dk_month k4) with (dk Month k4). rewrite !WV. destruct (date_valid (of_part e fl P w Day) (of_part e fl P w Month)) eqn:DV.
  - rewrite E4. exists w. split; [|split; auto]. { exists a, b, d, f, h, i. repeat (split; auto). all: apply date_valid_spec in DV; apply DV. }
    apply (in_trans txt s f); auto. apply (in_trans txt f h); auto. apply (in_trans txt h i); auto.
  - intros y' w' (a' & b' & d' & f' & h' & i' & X & Y & Z & V & w1' & w2' & w3' & DO). destruct (U _ _ _ _ X) as (-> & -> & -> & ->). destruct (U2 _ _ Y Z) as (-> & ->). assert (y' = y) by congruence. subst y'.
    assert (WE : forall x, of_part e fl P w' x = of_part e fl P w x). { apply (three_all p q r); auto; apply val_ext; congruence. } rewrite !WE in DO. apply date_valid_spec in DO. congruence.
Qed.
Lemma month_ok_ : forall p q k s, three p q Day -> P p <> None -> P q <> None -> dwf k -> text_ok s e ->
  outcome_of (month_at e fl P Se Sp p q s) s (d_month PP (es_P Se) (es_P Sp) p q k s e fl).
Proof.
  intros p q k s TH Np Nq W T. unfold d_month, outcome_of. pose proof TH as (N1 & N2 & N3).
  destruct (pair_ok p q k s N1 Np Nq W T) as (k1 & o & -> & W1 & R1). cbn [obind]. destruct o as [hit|].
  2:{ do 2 eexists. split; [reflexivity|]. split; auto. intros y w (a & b & d & X & _). eapply R1; eauto. }
  destruct R1 as (a & b & d & f & PA & -> & M1 & M2 & E1 & Tf & If).
  assert (U : forall a' b' d' f', pair_at p q s a' b' d' f' -> a' = a /\ b' = b /\ d' = d /\ f' = f) by (intros; eapply pair_unique; eauto).
  set (w := reads p q Day (Some (s, a)) (Some (d, f)) None). destruct (reads_is p q Day (Some (s, a)) (Some (d, f)) None TH) as (w1 & w2 & w3). fold w in w1, w2, w3.
  assert (WV : the_val (dk Month k1) = of_part e fl P w Month). { assert (Q : p = Month \/ q = Month) by (destruct p, q; auto; congruence). destruct Q as [-> | ->]; unfold of_part; [rewrite w1|rewrite w2]; eapply mem_val; eauto. }
  change (dk_month k1) with (dk Month k1). rewrite WV. destruct (date_valid smax (of_part e fl P w Month)) eqn:DV; (do 2 eexists; split; [reflexivity|]).
  - destruct (inval_ok Day k1 W1) as (V1 & V2 & V3). split; auto. exists w. rewrite E1. split; [|split; auto]. { exists a, b, d. repeat (split; auto). all: apply month_valid_spec in DV; apply DV. }
    unfold read_is. apply (three_all p q Day); auto; [rewrite w1, V3 by congruence; auto|rewrite w2, V3 by congruence; auto|rewrite w3; exact V2].
  - split; auto. intros y' w' (a' & b' & d' & X & w1' & w2' & w3' & DO). destruct (U _ _ _ _ X) as (-> & -> & -> & ->). rewrite (val_ext w' w Month) in DO. apply month_valid_spec in DO; congruence. destruct p, q; congruence.
Qed.
Lemma day_ok_ : forall p q k s, three p q Year -> P p <> None -> P q <> None -> dwf k -> text_ok s e ->
  outcome_of (day_at e fl P Se Sp p q s) s (d_day PP (es_P Se) (es_P Sp) p q k s e fl).
Proof.
  intros p q k s TH Np Nq W T. unfold d_day, outcome_of. pose proof TH as (N1 & N2 & N3).
  destruct (pair_ok p q k s N1 Np Nq W T) as (k1 & o & -> & W1 & R1). cbn [obind]. destruct o as [hit|].
  2:{ do 2 eexists. split; [reflexivity|]. split; auto. intros y w (a & b & d & f & X & _). eapply R1; eauto. }
  destruct R1 as (a & b & d & f & PA & -> & M1 & M2 & E1 & Tf & If).
  assert (U : forall a' b' d' f', pair_at p q s a' b' d' f' -> a' = a /\ b' = b /\ d' = d /\ f' = f) by (intros; eapply pair_unique; eauto).
  set (w := reads p q Year (Some (s, a)) (Some (d, f)) None). destruct (reads_is p q Year (Some (s, a)) (Some (d, f)) None TH) as (w1 & w2 & w3). fold w in w1, w2, w3.
  assert (WV : the_val (dk Day k1) = of_part e fl P w Day /\ the_val (dk Month k1) = of_part e fl P w Month).
  { assert (Q : p = Month /\ q = Day \/ p = Day /\ q = Month) by (destruct p, q; auto; congruence). unfold of_part. destruct Q as [[-> ->] | [-> ->]]; rewrite w1, w2; split; eapply mem_val; eauto. }
  change (dk_day k1) with (dk Day k1). change (dk_month k1) with (dk Month k1). destruct WV as [-> ->]. destruct (date_valid (of_part e fl P w Day) (of_part e fl P w Month)) eqn:DV.
  - cbv zeta. destruct (inval_ok Year k1 W1) as (V1 & V2 & V3). destruct (again_ok q b f (d_inval PP Year k1) V1) as (k2 & o & -> & W2 & O2 & R2); auto. { rewrite V3 by congruence. auto. }
    cbn [obind]. do 2 eexists. split; [reflexivity|]. split; auto. rewrite O2, V3, E1 by congruence. exists w.
    assert (RI : read_is w k2). { unfold read_is. apply (three_all p q Year); auto; [rewrite w1, O2, V3 by congruence; auto|rewrite w2, O2, V3 by congruence; auto|rewrite w3, O2; exact V2]. }
    apply date_valid_spec in DV. destruct o as [h|].
    + destruct R2 as (AG & Th & Ih). split; [|split; auto; apply (in_trans txt s f); auto]. exists a, b, d, f. repeat (split; auto). all: apply DV.
    + split; [|split; auto]. exists a, b, d, f. auto 10.
  - do 2 eexists. split; [reflexivity|]. split; auto. intros y' w' (a' & b' & d' & f' & X & w1' & w2' & w3' & DO & _). destruct (U _ _ _ _ X) as (-> & -> & -> & ->).
    assert (WE : forall x, of_part e fl P w' x = of_part e fl P w x). { apply (three_all p q Year); auto; apply val_ext; congruence. } rewrite !WE in DO. apply date_valid_spec in DO. congruence.
Qed.
Definition needs (f : dformat) : Prop := forall p, has_part f p -> P p <> None.
Lemma format_ok : forall f k s, needs f -> dwf k -> text_ok s e -> outcome_of (date_at e fl P Se Sp f s) s (d_format PP (es_P Se) (es_P Sp) f k s e fl).
Proof.
  intros f k s N W T. assert (A : has_part f Day -> P Day <> None) by apply N. assert (B : has_part f Month -> P Month <> None) by apply N. assert (C : has_part f Year -> P Year <> None) by apply N. destruct f; cbn [has_part] in *; cbn [date_at d_format]; (apply three_ok || apply month_ok_ || apply day_ok_); auto; repeat split; discriminate.
Qed.
Lemma date_unique : forall f s y w y' w', date_at e fl P Se Sp f s y w -> date_at e fl P Se Sp f s y' w' -> y = y' /\ forall p, w p = w' p.
Proof.
  assert (TU : forall p q r s y w y' w', three p q r -> three_at e fl P Se Sp p q r s y w -> three_at e fl P Se Sp p q r s y' w' -> y = y' /\ forall p, w p = w' p).
  { intros p q r s y w y' w' TH (a & b & d & f & h & i & A1 & A2 & A3 & A4 & A5 & A6 & A7 & _) (a' & b' & d' & f' & h' & i' & B1 & B2 & B3 & B4 & B5 & B6 & B7 & _).
    destruct (pair_unique _ _ _ _ _ _ _ _ _ _ _ A1 B1) as (<- & <- & <- & <-). pose proof (again_unique _ _ _ _ A2 B2). subst h'. pose proof (gap_unique _ _ _ A3 B3). subst i'. assert (y = y') by congruence. subst y'. split; auto. apply (three_all p q r); auto; congruence. }
  assert (MU : forall p q s y w y' w', three p q Day -> month_at e fl P Se Sp p q s y w -> month_at e fl P Se Sp p q s y' w' -> y = y' /\ forall p, w p = w' p).
  { intros p q s y w y' w' TH (a & b & d & A1 & A2 & A3 & A4 & _) (a' & b' & d' & B1 & B2 & B3 & B4 & _). destruct (pair_unique _ _ _ _ _ _ _ _ _ _ _ A1 B1) as (<- & <- & <- & <-). split; auto. apply (three_all p q Day); auto; congruence. }
  assert (DU : forall p q s y w y' w', three p q Year -> day_at e fl P Se Sp p q s y w -> day_at e fl P Se Sp p q s y' w' -> y = y' /\ forall p, w p = w' p).
  { intros p q s y w y' w' TH (a & b & d & f & A1 & A2 & A3 & A4 & _ & A5) (a' & b' & d' & f' & B1 & B2 & B3 & B4 & _ & B5). destruct (pair_unique _ _ _ _ _ _ _ _ _ _ _ A1 B1) as (<- & <- & <- & <-). split; [|apply (three_all p q Year); auto; congruence].
    destruct A5 as [A5|[A5 ->]], B5 as [B5|[B5 ->]]; auto; [eapply again_unique; eauto|exfalso; eapply B5; eauto|exfalso; eapply A5; eauto]. }
  intros [] s y w y' w' A B; cbn [date_at] in *; (eapply TU + eapply MU + eapply DU); try eassumption; repeat split; discriminate.
Qed.
(** the first of the formats *)
Definition first_at (mask : Z) (fs : list dformat) (f : dformat) (s y : nat) (w : reading) : Prop :=
  exists l r, fs = l ++ f :: r /\ allowed mask f /\ date_at e fl P Se Sp f s y w /\ forall g, In g l -> allowed mask g -> forall y w, ~ date_at e fl P Se Sp g s y w.
Lemma try_ok : forall mask s, text_ok s e -> (forall f, allowed mask f -> needs f) -> forall fs k, dwf k ->
  exists k' o, d_try PP (es_P Se) (es_P Sp) fs mask k s e fl = Ret (k', o) /\ dwf k' /\
   match o with Some (f, y) => exists w, first_at mask fs f s y w /\ read_is w k' /\ in_vis txt s y e | None => forall f, In f fs -> allowed mask f -> forall y w, ~ date_at e fl P Se Sp f s y w end.
Proof.
  intros mask s T N. induction fs as [|f fs IH]; intros k W; cbn [d_try].
  { do 2 eexists. split; [reflexivity|]. split; auto. }
  assert (SK : forall k', dwf k' -> (allowed mask f -> forall y w, ~ date_at e fl P Se Sp f s y w) -> exists k'' o, d_try PP (es_P Se) (es_P Sp) fs mask k' s e fl = Ret (k'', o) /\ dwf k'' /\
    match o with Some (g, y) => exists w, first_at mask (f :: fs) g s y w /\ read_is w k'' /\ in_vis txt s y e | None => forall g, In g (f :: fs) -> allowed mask g -> forall y w, ~ date_at e fl P Se Sp g s y w end).
  { intros k' W' NO. destruct (IH k' W') as (k'' & o & E & W'' & R). exists k'', o. split; auto. split; auto. destruct o as [[g y]|].
    - destruct R as (w & (l & r & -> & F2 & F3 & F4) & R2 & R3). exists w. split; auto. exists (f :: l), r. split; auto. split; auto. split; auto. intros g' [<-|I]; auto.
    - intros g [<-|I]; auto. }
  destruct (Z.land mask (format_no f) =? format_no f) eqn:L.
  2:{ apply SK; auto. intros A. apply allowed_spec in A. congruence. }
  apply allowed_spec in L. destruct (format_ok f k s (N f L) W T) as (k1 & o & -> & W1 & R1). cbn [obind]. destruct o as [y|].
  - destruct R1 as (w & A & B & C). do 2 eexists. split; [reflexivity|]. split; auto. exists w. split; [|auto]. exists [], fs. split; [reflexivity|]. split; [exact L|]. split; [exact A|]. intros g [].
  - apply SK; auto.
Qed.
End Props.

Definition date_wf (P : dpart -> option espec) (Se Sp : espec) (st : pst) : Prop := exists k, dk_of st = Some k /\ dwf P Se Sp k.
(** the members day, month and year, and format *)
Definition date_member (p : dpart) (st : pst) : pst := kid match p with Day => 0 | Month => 1 | Year => 2 end st.
Definition date_format (st : pst) : Z := nth 0 (vals st) 0.
(** A date: of the formats allowed, in the order dmy, mdy, ymd, ym, my, dm, md, the first there is. *)
Theorem date_spec : forall txt P Se Sp mask, (forall p, o_good txt (P p)) -> good txt Se -> good txt Sp -> advances txt (es_f Sp) -> (forall f p, allowed mask f -> has_part f p -> P p <> None) ->
  let C := date_p (fun p => o_P (P p)) (es_P Se) (es_P Sp) mask in
  date_wf P Se Sp (p_init C) /\
  forall st s e fl, date_wf P Se Sp st -> text_ok txt s e ->
   let is_date := fun f y w => allowed mask f /\ date_at e fl P Se Sp f s y w in
   exists st' r, p_match C st s e fl = Ret (st', r) /\ date_wf P Se Sp st' /\
    (r = true <-> exists f y w, is_date f y w) /\
    (forall f y w, is_date f y w -> (forall g y' w', is_date g y' w' -> format_bit f <= format_bit g) ->
       iv st' = (s, y) /\ in_vis txt s y e /\ date_format st' = 2 ^ format_bit f /\ forall p, member e fl (P p) (date_member p st') (w p)) /\
    (r = false -> iv st' = no_iv /\ date_format st' = 0 /\ forall p, iv (date_member p st') = no_iv).
Proof.
  intros txt P Se Sp mask GP GSe GSp ASp N C. split.
  { unfold date_wf. eexists. split; [reflexivity|]. split; [intros []; apply (ini_o txt); auto|]. split; apply (ini_p txt); auto. }
  intros st s e fl (k & Ek & W) T is_date. unfold C, date_p. cbn [p_match]. rewrite Ek.
  destruct (try_ok txt P Se Sp GP GSe GSp ASp e fl mask s T (fun f A p => N f p A) date_formats k W) as (k' & o & -> & W' & R). cbn [obind].
  assert (AL : forall f, In f date_formats) by (intros []; cbn; auto 10).
  destruct o as [[f y]|].
  - destruct R as (w & (l & r & El & A & D & F) & RI & I). do 2 eexists. split; [reflexivity|]. split; [exists k'; split; [destruct k'; reflexivity|auto]|]. split; [|split; [|discriminate]].
    + split; auto. intros _. exists f, y, w. split; auto.
    + intros f' y' w' [A' D'] MIN. assert (f' = f).
      { assert (IN : In f' l \/ f' = f \/ In f' r). { specialize (AL f'). rewrite El in AL. apply in_app_or in AL. destruct AL as [X|[X|X]]; auto. }
        destruct IN as [IN|[IN|IN]]; auto; [exfalso; apply (F f' IN A' y' w' D')|]. exfalso. specialize (MIN f y w (conj A D)).
        clear - El IN MIN. unfold date_formats in El. do 7 (destruct l as [|? l]; [injection El as <- <-; cbn in IN; repeat (destruct IN as [<-|IN]; [cbn in MIN; lia|]); destruct IN|injection El as <- El]). destruct l; discriminate. }
      subst f'. destruct (date_unique P Se Sp e fl f s y w y' w' D D') as (<- & WE). split; [reflexivity|]. split; auto. split; [destruct f; reflexivity|]. intros p. rewrite <- WE. specialize (RI p). destruct k', p; exact RI.
  - do 2 eexists. split; [reflexivity|]. unfold d_none. destruct (inval_ok txt P Se Sp GP Day k' W') as (V1 & V2 & V3). destruct (inval_ok txt P Se Sp GP Month _ V1) as (V4 & V5 & V6). destruct (inval_ok txt P Se Sp GP Year _ V4) as (V7 & V8 & V9).
    set (k3 := d_inval _ Year _) in *. split; [exists k3; split; [destruct k3; reflexivity|exact V7]|]. split; [|split].
    + split; [discriminate|]. intros (f & y & w & A & D). exfalso. apply (R f (AL f) A y w D).
    + intros f y w [A D]. exfalso. apply (R f (AL f) A y w D).
    + intros _. split; [reflexivity|]. split; [reflexivity|]. assert (X : forall p, iv (dk p k3) = no_iv). { intros []; [rewrite V9, V6 by discriminate; exact V2|rewrite V9 by discriminate; exact V5|exact V8]. }
      intros p. specialize (X p). destruct k3, p; exact X.
Qed.
