(** Properties C223-C226: phone numbers. *)
From Coq Require Import ZifyBool ZifyNat.
From Verif Require Import Base StringModel StringSpec StringProofs ParserModel ParserSpec ParserProps ParserNumModel ParserNumProps ParserPeg DateSpec TimeProps UrlSpec DnsProps PhoneModel PhoneSpec.

Lemma has_snoc : forall t l i, has t (l ++ [i]) <-> has t l \/ it_tok i = t.
Proof. intros t l i. unfold has. rewrite map_app, in_app_iff. cbn [map In]. tauto. Qed.
Lemma last_snoc : forall t l i, last_is t (l ++ [i]) <-> it_tok i = t.
Proof.
  intros t l i. split; [intros (l' & a & b & H); apply app_inj_tail in H; destruct H as [_ ->]; reflexivity|]. intros <-. destruct i as [t a b]. exists l, a, b. reflexivity.
Qed.
Lemma last_nil : forall t, ~ last_is t [].
Proof. intros t (l & a & b & H). destruct l; discriminate. Qed.
Lemma inside_snoc : forall l i, inside (l ++ [i]) <-> (has TLeft l \/ it_tok i = TLeft) /\ ~ has TRight l /\ it_tok i <> TRight.
Proof. intros l i. unfold inside. rewrite !has_snoc. tauto. Qed.

Section Props.
Context (txt : list Z).
Local Notation text_ok := (text_ok txt).
Local Notation vis := (vis txt).
Local Notation in_vis := (in_vis txt).
Context (D L R : espec) (Pl Se Sp : option espec).
Section Unique.
Context (e : nat) (fl : pflags).
Lemma next_unique : forall l x t y t' y', next_at e fl D L R Se Sp l x t y -> next_at e fl D L R Se Sp l x t' y' -> t = t' /\ y = y'.
Proof.
  intros l x t y t' y' (M & F & N) (M' & F' & N'). assert (E : t = t').
  { destruct (Nat.lt_trichotomy (rank t) (rank t')) as [H|[H|H]]; [rewrite (N' _ H M) in F; discriminate| |rewrite (N _ H M') in F'; discriminate]. destruct t, t'; cbn in H; auto; discriminate. }
  subst t'. split; congruence.
Qed.
Lemma pieces_unique : forall l x z, pieces e fl D L R Se Sp l x z -> forall z', pieces e fl D L R Se Sp l x z' -> z = z'.
Proof.
  induction 1 as [l x N|l x t y z N P IH]; intros z' H; inversion H as [? ? N'|? ? t' y' ? N' P']; subst; auto.
  - exfalso. eapply N; eauto.
  - exfalso. eapply N'; eauto.
  - destruct (next_unique _ _ _ _ _ _ N N') as [<- <-]. auto.
Qed.
Lemma last_sure_unique : forall l a i b a' i' b', l = a ++ i :: b -> l = a' ++ i' :: b' -> sure a i -> sure a' i' ->
  (forall c j d, b = c ++ j :: d -> ~ sure (a ++ i :: c) j) -> (forall c j d, b' = c ++ j :: d -> ~ sure (a' ++ i' :: c) j) -> a = a' /\ i = i'.
Proof.
  intros l a i b a' i' b' E E' S S' N N'. rewrite E in E'. clear l E.
  destruct (app_eq_app _ _ _ _ E') as (m & [[-> H]|[-> H]]).
  - destruct m as [|j m].
    + cbn in H. injection H as -> ->. rewrite app_nil_r. auto.
    + cbn in H. injection H as -> ->. exfalso. apply (N' m i b); [reflexivity|]. exact S.
  - destruct m as [|j m].
    + cbn in H. injection H as -> ->. rewrite app_nil_r. auto.
    + cbn in H. injection H as -> ->. exfalso. apply (N m i' b'); [reflexivity|]. exact S'.
Qed.
Theorem phone_unique : forall s y v y' v', phone_at txt e fl D L R Pl Se Sp s y v -> phone_at txt e fl D L R Pl Se Sp s y' v' -> y = y' /\ v = v'.
Proof.
  intros s y v y' v' (x & p & l & a & i & b & P & Q & _ & E & S & N & -> & ->) (x' & p' & l' & a' & i' & b' & P' & Q' & _ & E' & S' & N' & -> & ->).
  assert (x = x' /\ p = p') as [<- <-]. { unfold plus_at in *. destruct (o_f Pl s e fl); destruct P as [-> ->], P' as [-> ->]; auto. }
  assert (X : l' = l) by (symmetry; eapply pieces_unique; eauto). rewrite X in E'. destruct (last_sure_unique _ _ _ _ _ _ _ E E' S S' N N') as [<- <-]. auto.
Qed.
End Unique.

(** ** Lists of pieces *)
Lemma snoc_split : forall (l : list item) i0 a i b, l ++ [i0] = a ++ i :: b -> (b = [] /\ a = l /\ i = i0) \/ exists b', b = b' ++ [i0] /\ l = a ++ i :: b'.
Proof.
  intros l i0 a i b H. destruct (rev b) as [|j r] eqn:Rb.
  - left. assert (b = []) by (rewrite <- (rev_involutive b), Rb; reflexivity). subst b. apply app_inj_tail in H. destruct H as [-> ->]. auto.
  - right. assert (Eb : b = rev r ++ [j]) by (rewrite <- (rev_involutive b), Rb; reflexivity). subst b. rewrite app_comm_cons, app_assoc in H. apply app_inj_tail in H. destruct H as [-> ->]. exists (rev r). auto.
Qed.
Lemma outer_snoc : forall l i, outer_digit (l ++ [i]) <-> outer_digit l \/ it_tok i = TDigit /\ ~ inside l.
Proof.
  intros l i. split.
  - intros (a & j & b & E & T & N). destruct (snoc_split _ _ _ _ _ E) as [(-> & -> & ->)|(b' & -> & ->)]; auto. left. exists a, j, b'. auto.
  - intros [(a & j & b & -> & T & N)|[T N]]; [exists a, j, (b ++ [i])|exists l, i, []]; rewrite <- ?app_assoc; auto.
Qed.
Lemma written_snoc : forall l t a b, written txt (l ++ [Item t a b]) = written txt l ++ match t with TSep | TSpace => [] | _ => slice txt a b end.
Proof. intros. unfold written. rewrite flat_map_app. cbn [flat_map it_tok it_from it_to]. rewrite app_nil_r. reflexivity. Qed.
(** the last place where the number may end *)
Definition last_sure (l a : list item) (i : item) : Prop := exists b, l = a ++ i :: b /\ sure a i /\ forall c j d, b = c ++ j :: d -> ~ sure (a ++ i :: c) j.
Lemma last_sure_new : forall l i, sure l i -> last_sure (l ++ [i]) l i.
Proof. intros l i S. exists []. split; auto. split; auto. intros c j d H. destruct c; discriminate. Qed.
Lemma last_sure_old : forall l i a j, ~ sure l i -> last_sure l a j -> last_sure (l ++ [i]) a j.
Proof.
  intros l i a j N (b & -> & S & M). exists (b ++ [i]). split; [rewrite <- app_assoc; reflexivity|]. split; auto. intros c k d H. destruct (snoc_split _ _ _ _ _ H) as [(-> & -> & ->)|(b' & -> & ->)]; auto. eapply M; eauto.
Qed.

(** ** The loop *)
Context (GD : good txt D) (GL : good txt L) (GR : good txt R) (GSe : o_good txt Se) (GSp : o_good txt Sp).
Context (AD : advances txt (es_f D)) (AL : advances txt (es_f L)) (AR : advances txt (es_f R)) (ASe : advances txt (o_f Se)) (ASp : advances txt (o_f Sp)).
(** a space is not a right parenthesis *)
Context (RS : forall s e fl, es_f R s e fl <> None -> o_f Sp s e (one_line fl) = None).
Lemma append_ok : forall v a b e, text_ok a e -> in_vis a b e -> append_text txt v a b = Ret (v ++ slice txt a b).
Proof.
  intros v a b e T I. unfold append_text. pose proof (vis_end txt a e T) as V. unfold ParserPeg.in_vis in I. replace ((a <=? b)%nat && (b <=? length txt)%nat) with true by lia. reflexivity.
Qed.
Section At.
Context (s e : nat) (fl : pflags) (p : list Z).
Definition wfq (q : ph) : Prop := es_wf D (kd q) /\ es_wf L (kl q) /\ es_wf R (kr q) /\ o_wf Se (ks q) /\ o_wf Sp (kp q).
(** where the number would end *)
Definition safe (l : list item) (q : ph) : Prop :=
  (phd q = true <-> outer_digit l) /\ (psv q <= length (pv q))%nat /\ in_vis s (pse q) e /\
  ((exists a i, last_sure l a i /\ pse q = it_to i /\ firstn (psv q) (pv q) = p ++ written txt (a ++ [i])) \/ (forall a i b, l = a ++ i :: b -> ~ sure a i)).
Definition core (l : list item) (q : ph) : Prop := wfq q /\ safe l q.
Definition inv (l : list item) (q : ph) : Prop :=
  core l q /\ pv q = p ++ written txt l /\ (pip q = true <-> inside l) /\ (pad q = true <-> last_is TDigit l) /\ (pap q = true <-> last_is TRight l) /\
  (is_valid (kl q) = true <-> has TLeft l) /\ (is_valid (kr q) = true <-> has TRight l) /\ (has TRight l -> has TLeft l) /\
  (forall a b, In (Item TLeft a b) l -> the_val (kl q) = num (Some L) a e fl) /\ in_vis s (px q) e.
Lemma valid_no : forall k, iv k = no_iv -> is_valid k = false.
Proof. intros k H. injection H as H1 H2. unfold is_valid. rewrite H1, H2. reflexivity. Qed.
Lemma valid_yes : forall k x y, iv k = (x, y) -> in_vis x y e -> is_valid k = true.
Proof. intros k x y H [I _]. injection H as H1 H2. unfold is_valid. rewrite H1, H2. lia. Qed.
Lemma firstn_app_le : forall n (a b : list Z), (n <= length a)%nat -> firstn n (a ++ b) = firstn n a.
Proof. intros n a b H. rewrite firstn_app. replace (n - length a)%nat with 0%nat by lia. cbn. apply app_nil_r. Qed.
(** a piece behind which the number may not end *)
Lemma safe_old : forall l q i q' w, safe l q -> ~ sure l i -> ~ (it_tok i = TDigit /\ ~ inside l) -> phd q' = phd q -> psv q' = psv q -> pse q' = pse q -> pv q' = pv q ++ w -> safe (l ++ [i]) q'.
Proof.
  intros l q i q' w (H1 & H2 & H3 & H4) N N' E1 E2 E3 E4. unfold safe. rewrite E1, E2, E3, E4, outer_snoc. split; [tauto|]. split; [rewrite app_length; lia|]. split; auto.
  destruct H4 as [(a & j & LS & H5 & H6)|H4].
  - left. exists a, j. split; [apply last_sure_old; auto|]. split; auto. rewrite firstn_app_le; auto.
  - right. intros a j b E. destruct (snoc_split _ _ _ _ _ E) as [(-> & -> & ->)|(b' & -> & ->)]; auto. eapply H4; eauto.
Qed.
(** one behind which it may *)
Lemma safe_new : forall l q t x y, sure l (Item t x y) -> phd q = true \/ t = TRight -> (phd q = true <-> outer_digit (l ++ [Item t x y])) -> pv q = p ++ written txt (l ++ [Item t x y]) -> psv q = length (pv q) -> pse q = y -> in_vis s y e -> safe (l ++ [Item t x y]) q.
Proof.
  intros l q t x y S _ O V E1 E2 I. unfold safe. split; auto. split; [lia|]. split; [rewrite E2; auto|]. left. exists l, (Item t x y). split; [apply last_sure_new; auto|]. split; auto. rewrite E1, firstn_all. auto.
Qed.
Lemma looks_adv : forall t x y, text_ok x e -> looks D L R Se Sp t x e fl = Some y -> (x < y)%nat /\ in_vis x y e.
Proof.
  assert (OV : forall o fl x y, o_good txt o -> text_ok x e -> o_f o x e fl = Some y -> in_vis x y e). { intros [o|] fl' x y G T F; [apply (el_within _ _ _ _ _ G x e fl' y T F)|discriminate]. }
  intros t x y T F. destruct t; cbn [looks] in F.
  - split; [apply (AD x e fl y T F)|apply (OV (Some D) fl x y GD T F)].
  - split; [apply (AL x e fl y T F)|apply (OV (Some L) fl x y GL T F)].
  - split; [apply (AR x e fl y T F)|apply (OV (Some R) fl x y GR T F)].
  - split; [apply (ASe x e fl y T F)|apply (OV Se fl x y GSe T F)].
  - split; [apply (ASp x e (one_line fl) y T F)|apply (OV Sp (one_line fl) x y GSp T F)].
Qed.
Lemma in_item_snoc : forall i l j, In (i : item) (l ++ [j]) <-> In i l \/ j = i.
Proof. intros. rewrite in_app_iff. cbn [In]. tauto. Qed.
Lemma has_in : forall t a b l, In (Item t a b) l -> has t l.
Proof. intros t a b l H. apply (in_map it_tok) in H. exact H. Qed.
Lemma last_has : forall t l, last_is t l -> has t l.
Proof. intros t l (l' & a & b & ->). apply has_snoc. auto. Qed.
Lemma step_ok : forall l q, text_ok s e -> text_ok (px q) e -> inv l q ->
  exists q' b, ph_step txt (es_P D) (Some (es_P L)) (Some (es_P R)) (o_P Se) (o_P Sp) q e fl = Ret (q', b) /\
    if b then exists t, next_at e fl D L R Se Sp l (px q) t (px q') /\ inv (l ++ [Item t (px q) (px q')]) q' /\ (px q < px q')%nat /\ in_vis (px q) (px q') e
    else (forall t y, ~ next_at e fl D L R Se Sp l (px q) t y) /\ core l q'.
Proof.
  intros l q Ts T Iq. destruct Iq as (C & V & IP & AP & APR & VL & VR & RL & LN & Ix). pose proof C as [W S].
  assert (STOP : forall q', wfq q' -> phd q' = phd q -> psv q' = psv q -> pse q' = pse q -> pv q' = pv q -> core l q').
  { intros q' W' E1 E2 E3 E4. split; auto. unfold safe in *. rewrite E1, E2, E3, E4. exact S. }
  destruct q as [d lk rk sk spk x v se sv hd ad ip ap]. cbn [PhoneModel.kd PhoneModel.kl PhoneModel.kr PhoneModel.ks PhoneModel.kp px pv pse psv phd pad pip pap] in *.
  unfold ph_step. rewrite (peek_spec txt x e T). cbn [obind].
  destruct (vis x e) as [|c r] eqn:Vi; cbn [hd_error].
  { do 2 eexists. split; [reflexivity|]. cbn iota. split; [|exact C]. intros t y (_ & F & _). apply looks_adv in F; auto. destruct F as [F1 F2]. unfold ParserPeg.in_vis in F2. rewrite Vi in F2. cbn [length] in F2. lia. }
  clear c r Vi. destruct W as (Wd & Wl & Wr & Ws & Wp). cbn [PhoneModel.kd PhoneModel.kl PhoneModel.kr PhoneModel.ks PhoneModel.kp] in *.
  (* digit *)
  destruct (ranv_p txt D d x e fl GD Wd T) as (d1 & -> & Wd1 & R1). cbn [obind o_f o_wf] in *. destruct (es_f D x e fl) as [y|] eqn:FD; cbn [found].
  { destruct R1 as ((_ & Id & _) & Ed & _ & Ty & Iy). injection Id as Is Ie. rewrite Is, Ed, (append_ok _ _ _ _ T Iy). cbn [obind]. pose proof (AD x e fl y T FD) as Lt.
    exists (if ip then Ph d1 lk rk sk spk y (v ++ slice txt x y) se sv hd true ip false else Ph d1 lk rk sk spk y (v ++ slice txt x y) y (length (v ++ slice txt x y)) true true ip false), true. split; [reflexivity|]. cbn iota.
    assert (Ex : px (if ip then Ph d1 lk rk sk spk y (v ++ slice txt x y) se sv hd true ip false else Ph d1 lk rk sk spk y (v ++ slice txt x y) y (length (v ++ slice txt x y)) true true ip false) = y) by (destruct ip; reflexivity).
    rewrite Ex. exists TDigit. split; [split; [exact I|split; [exact FD|intros t' Q; cbn in Q; lia]]|]. split; [|auto].
    assert (NP : p ++ written txt (l ++ [Item TDigit x y]) = v ++ slice txt x y) by (rewrite written_snoc, V, app_assoc; reflexivity).
    assert (Isy : in_vis s y e) by (apply (in_trans txt s x); auto).
    split; [split; [destruct ip; split; auto|]|].
    - destruct ip.
      + eapply safe_old with (w := slice txt x y); [exact S| | | | | |]; try reflexivity; cbn [it_tok]; [intros [[_ Q]|Q]; [tauto|discriminate]|tauto].
      + apply safe_new; cbn [phd pv psv pse]; auto; [left; cbn [it_tok]; split; auto; intros Q; apply IP in Q; discriminate|].
        rewrite outer_snoc. cbn [it_tok]. split; auto. intros _. right. split; auto. intros Q. apply IP in Q. discriminate.
    - assert (HS : forall t, has t (l ++ [Item TDigit x y]) <-> has t l \/ TDigit = t) by (intros t; rewrite has_snoc; reflexivity).
      assert (CTL : (ip = true <-> inside (l ++ [Item TDigit x y])) /\ (true = true <-> last_is TDigit (l ++ [Item TDigit x y])) /\ (false = true <-> last_is TRight (l ++ [Item TDigit x y])) /\ (is_valid lk = true <-> has TLeft (l ++ [Item TDigit x y])) /\ (is_valid rk = true <-> has TRight (l ++ [Item TDigit x y])) /\ (has TRight (l ++ [Item TDigit x y]) -> has TLeft (l ++ [Item TDigit x y])) /\ (forall a b, In (Item TLeft a b) (l ++ [Item TDigit x y]) -> the_val lk = num (Some L) a e fl)).
      { rewrite !last_snoc, inside_snoc, !HS. cbn [it_tok]. unfold inside in IP. repeat split; try tauto; try discriminate; try (intros; apply IP; intuition discriminate); try (intros [Q|Q]; [tauto|discriminate]); try (intros Q; destruct (proj1 IP Q); tauto).
        intros a b Q. apply in_item_snoc in Q. destruct Q as [Q|Q]; [eauto|discriminate]. }
      destruct ip; cbn [PhoneModel.kd PhoneModel.kl PhoneModel.kr PhoneModel.ks PhoneModel.kp px pv pse psv phd pad pip pap]; intuition auto. }

  (* left parenthesis *)
  assert (C1 : exists lk1 b, (if negb (is_valid lk) && negb (is_valid rk) then op_match (Some (es_P L)) lk x e fl else Ret (lk, false)) = Ret (lk1, b) /\ es_wf L lk1 /\
     if b then exists y, ~ has TLeft l /\ es_f L x e fl = Some y /\ i_start lk1 = x /\ i_end lk1 = y /\ is_valid lk1 = true /\ the_val lk1 = num (Some L) x e fl /\ text_ok y e /\ in_vis x y e
     else (~ has TLeft l -> es_f L x e fl = None) /\ is_valid lk1 = is_valid lk /\ (has TLeft l -> lk1 = lk)).
  { destruct (is_valid lk) eqn:Q1; cbn [negb andb]. { exists lk, false. split; auto. split; auto. cbn iota. split; [intros Q; destruct Q; apply VL; auto|auto]. }
    assert (NL : ~ has TLeft l) by (intros Q; apply VL in Q; discriminate). destruct (is_valid rk) eqn:Q2; cbn [negb]. { exfalso. apply NL, RL, VR. auto. }
    cbn [op_match]. destruct (ranv_p txt L lk x e fl GL Wl T) as (k & -> & Wk & Rk). cbn [o_f o_wf] in *. exists k, (found (es_f L x e fl)). split; auto. split; auto. destruct (es_f L x e fl) as [y|]; cbn [found].
    - destruct Rk as ((_ & Ik & _) & Ek & Vk & Ty & Iy). exists y. split; auto. split; auto. injection Ik as Is Ie. split; auto. split; auto. split; [unfold is_valid; rewrite Is, Ie; destruct Iy; lia|]. auto.
    - split; auto. split; [apply valid_no; auto|]. intros Q. tauto. }
  destruct C1 as (lk1 & b1 & -> & Wl1 & H1). cbn [obind]. destruct b1.
  { destruct H1 as (y & NL & FL & -> & -> & Vd & Nm & Ty & Iy). rewrite (append_ok _ _ _ _ T Iy). cbn [obind]. pose proof (AL x e fl y T FL) as Lt.
    assert (ip = false) by (destruct ip; auto; destruct (proj1 IP eq_refl); tauto). subst ip.
    do 2 eexists. split; [reflexivity|]. cbn iota. cbn [px]. exists TLeft. split; [split; [exact NL|split; [exact FL|intros [] Q; cbn in Q; try lia; auto]]|]. split; [|auto].
    assert (NP : p ++ written txt (l ++ [Item TLeft x y]) = v ++ slice txt x y) by (rewrite written_snoc, V, app_assoc; reflexivity).
    assert (Isy : in_vis s y e) by (apply (in_trans txt s x); auto).
    assert (HS : forall t, has t (l ++ [Item TLeft x y]) <-> has t l \/ TLeft = t) by (intros t; rewrite has_snoc; reflexivity).
    assert (NR : ~ has TRight l) by tauto.
    split; [split; [split; auto|]|].
    - eapply safe_old with (w := slice txt x y); [exact S| | | | | |]; try reflexivity; cbn [it_tok]; [intros [[Q _]|Q]; discriminate|intros [Q _]; discriminate].
    - unfold inv. cbn [PhoneModel.kd PhoneModel.kl PhoneModel.kr PhoneModel.ks PhoneModel.kp px pv pse psv phd pad pip pap]. rewrite !last_snoc, inside_snoc, !HS. cbn [it_tok].
      split; [auto|]. split; [split; [intros _; split; [auto|split; [auto|discriminate]]|auto]|]. split; [split; [discriminate|discriminate]|]. split; [split; discriminate|]. split; [tauto|]. split; [split; [intros Q; left; apply VR; auto|intros [Q|Q]; [tauto|discriminate]]|]. split; [auto|]. split; [|auto].
      intros a b Q. apply in_item_snoc in Q. destruct Q as [Q|Q]; [apply has_in in Q; tauto|]. injection Q as <- <-. auto. }
  destruct H1 as (NL & Vl1 & Kl1). rewrite <- Vl1 in VL.
  assert (LN1 : forall a b, In (Item TLeft a b) l -> the_val lk1 = num (Some L) a e fl). { intros a b Q. rewrite (Kl1 (has_in _ _ _ _ Q)). eauto. }
  (* right parenthesis *)
  assert (C2 : exists rk1 b, (if ip && negb (is_valid rk) then op_match (Some (es_P R)) rk x e fl else Ret (rk, false)) = Ret (rk1, b) /\ es_wf R rk1 /\
     if b then exists y, inside l /\ es_f R x e fl = Some y /\ i_start rk1 = x /\ i_end rk1 = y /\ is_valid rk1 = true /\ the_val rk1 = num (Some R) x e fl /\ text_ok y e /\ in_vis x y e
     else (inside l -> es_f R x e fl = None) /\ is_valid rk1 = is_valid rk).
  { destruct ip; cbn [andb]. 2:{ exists rk, false. split; auto. split; auto. cbn iota. split; auto. intros Q. apply IP in Q. discriminate. }
    assert (In : inside l) by tauto. destruct (is_valid rk) eqn:Q2; cbn [negb]. { exfalso. apply In, VR. auto. }
    cbn [op_match]. destruct (ranv_p txt R rk x e fl GR Wr T) as (k & -> & Wk & Rk). cbn [o_f o_wf] in *. exists k, (found (es_f R x e fl)). split; auto. split; auto. destruct (es_f R x e fl) as [y|]; cbn [found].
    - destruct Rk as ((_ & Ik & _) & Ek & Vk & Ty & Iy). exists y. split; auto. split; auto. injection Ik as Is Ie. split; auto. split; auto. split; [unfold is_valid; rewrite Is, Ie; destruct Iy; lia|]. auto.
    - split; auto. apply valid_no; auto. }
  destruct C2 as (rk1 & b2 & -> & Wr1 & H2). cbn [obind].
  destruct b2; [|cbn [andb]].
  { destruct H2 as (y & Ins & FR & Es & Ee & Vd & Nm & Ty & Iy). cbn [andb]. destruct Ins as [IL NR]. assert (EL : exists a b, In (Item TLeft a b) l). { pose proof IL as IL'. unfold has in IL'. apply in_map_iff in IL'. destruct IL' as ([t a b] & E & Q). cbn in E. subst t. eauto. }
    assert (Eip : ip = true) by (apply IP; split; auto). subst ip.
    destruct (the_val lk1 =? the_val rk1) eqn:SK.
    - (* the same kind *)
      rewrite Es, Ee, (append_ok _ _ _ _ T Iy). cbn [obind]. pose proof (AR x e fl y T FR) as Lt.
      do 2 eexists. split; [reflexivity|]. cbn iota. cbn [px]. exists TRight. split.
      { split; [split; [split; auto|]|split; [exact FR|]]. - destruct EL as (a & b & Q). exists a, b. split; auto. rewrite <- (LN1 a b Q), <- Nm. lia. - intros [] Q; cbn in Q; try lia; cbn [may looks]; tauto. }
      split; [|auto].
      assert (NP : p ++ written txt (l ++ [Item TRight x y]) = v ++ slice txt x y) by (rewrite written_snoc, V, app_assoc; reflexivity).
      assert (Isy : in_vis s y e) by (apply (in_trans txt s x); auto).
      assert (HS : forall t, has t (l ++ [Item TRight x y]) <-> has t l \/ TRight = t) by (intros t; rewrite has_snoc; reflexivity).
      split; [split; [split; auto|]|].
      + destruct S as (S1 & _). apply safe_new; cbn [phd pv psv pse]; auto; [right; reflexivity|]. rewrite outer_snoc. cbn [it_tok phd] in *. intuition discriminate.
      + unfold inv. cbn [PhoneModel.kd PhoneModel.kl PhoneModel.kr PhoneModel.ks PhoneModel.kp px pv pse psv phd pad pip pap]. rewrite !last_snoc, inside_snoc, !HS. cbn [it_tok].
        split; [auto|]. split; [split; [discriminate|tauto]|]. split; [split; discriminate|]. split; [tauto|]. split; [split; [tauto|intros [Q|Q]; [tauto|discriminate]]|]. split; [tauto|]. split; [tauto|]. split; [|auto].
        intros a b Q. apply in_item_snoc in Q. destruct Q as [Q|Q]; [eauto|discriminate].
    - (* not of the same kind: nothing else fits *)
      cbn [andb negb]. rewrite Bool.andb_false_r. cbn [andb obind].
      assert (NS : o_f Sp x e (one_line fl) = None) by (apply RS; congruence).
      assert (C3 : exists k, (if ad || ap then op_match (o_P Sp) spk x e (one_line fl) else Ret (spk, false)) = Ret (k, false) /\ o_wf Sp k).
      { destruct (ad || ap); [|eauto]. destruct (ranv_o txt Sp spk x e (one_line fl) GSp Wp T) as (k & -> & Wk & _). rewrite NS. exists k. auto. }
      destruct C3 as (k & -> & Wk). cbn [obind]. do 2 eexists. split; [reflexivity|]. cbn iota. split; [|apply STOP; auto; split; auto].
      intros t y' (M & F & _). destruct t; cbn [may looks] in *; try congruence.
      + destruct M as (_ & a & b & Q & E). rewrite <- (LN1 a b Q), <- Nm in E. lia.
      + destruct M as [_ M]. apply M. split; auto. }
  destruct H2 as (NR & Vr1). rewrite <- Vr1 in VR.
  (* separator *)
  assert (C3 : exists k b, (if ad && negb ip && negb ap then op_match (o_P Se) sk x e fl else Ret (sk, false)) = Ret (k, b) /\ o_wf Se k /\
     if b then exists y, (last_is TDigit l /\ ~ inside l) /\ o_f Se x e fl = Some y /\ i_end k = y /\ text_ok y e /\ in_vis x y e
     else last_is TDigit l -> ~ inside l -> o_f Se x e fl = None).
  { destruct (ad && negb ip && negb ap) eqn:Q.
    - destruct (ranv_o txt Se sk x e fl GSe Ws T) as (k & -> & Wk & Rk). exists k, (found (o_f Se x e fl)). split; auto. split; auto. destruct (o_f Se x e fl) as [y|]; cbn [found]; auto. destruct Rk as (_ & Ek & _ & Ty & Iy). exists y. split; [|auto].
      split; [apply AP; destruct ad; [auto|discriminate]|]. intros X. apply IP in X. subst ip. destruct ad; discriminate.
    - exists sk, false. split; auto. split; auto. cbn iota. intros X Y. exfalso. assert (ap = false). { destruct ap; auto. destruct (proj1 APR eq_refl) as (l' & a & b & E). subst l. apply last_snoc in X. discriminate. }
      apply AP in X. assert (ip = false) by (destruct ip; auto; exfalso; apply Y, IP; auto). subst. discriminate. }
  destruct C3 as (sk1 & b3 & -> & Ws1 & H3). cbn [obind].
  assert (GO : forall t y q', (t = TSep \/ t = TSpace) -> wfq q' -> phd q' = hd -> psv q' = sv -> pse q' = se -> pv q' = v -> px q' = y -> pip q' = ip -> pad q' = false -> pap q' = false -> PhoneModel.kl q' = lk1 -> PhoneModel.kr q' = rk1 -> in_vis x y e -> inv (l ++ [Item t x y]) q').
  { intros t y q' Ht W' E1 E2 E3 E4 E5 E6 E7 E8 E9 E10 Iy. assert (Isy : in_vis s y e) by (apply (in_trans txt s x); auto).
    assert (HS : forall t', has t' (l ++ [Item t x y]) <-> has t' l \/ t = t') by (intros t'; rewrite has_snoc; reflexivity).
    split; [split; auto|].
    - eapply safe_old with (w := []); [exact S| | | | | |]; auto; cbn [it_tok]; [intros [[Q _]|Q]; cbn [it_tok] in Q; destruct Ht; congruence|intros [Q _]; cbn [it_tok] in Q; destruct Ht; congruence|cbn [pv]; rewrite app_nil_r; auto].
    - rewrite E4, E5, E6, E7, E8, E9, E10. rewrite !last_snoc, inside_snoc, !HS. cbn [it_tok]. unfold inside in IP.
      split; [rewrite written_snoc; destruct Ht; subst t; rewrite app_nil_r; auto|].
      split; [rewrite IP; destruct Ht; subst t; intuition discriminate|]. split; [destruct Ht; subst t; split; discriminate|]. split; [destruct Ht; subst t; split; discriminate|].
      split; [rewrite VL; destruct Ht; subst t; intuition discriminate|]. split; [rewrite VR; destruct Ht; subst t; intuition discriminate|]. split; [destruct Ht; subst t; intuition discriminate|]. split; [|auto].
      intros a b Q. apply in_item_snoc in Q. destruct Q as [Q|Q]; [eauto|destruct Ht; subst t; discriminate]. }
  destruct b3.
  { destruct H3 as (y & M & FS & <- & Ty & Iy). do 2 eexists. split; [reflexivity|]. cbn iota. cbn [px]. exists TSep. split; [split; [exact M|split; [exact FS|intros [] Q; cbn in Q; try lia; cbn [may looks]; tauto]]|].
    split; [apply GO; auto; split; auto|]. split; [apply (ASe x e fl _ T FS)|auto]. }
  (* space *)
  assert (C4 : exists k b, (if ad || ap then op_match (o_P Sp) spk x e (one_line fl) else Ret (spk, false)) = Ret (k, b) /\ o_wf Sp k /\
     if b then exists y, (last_is TDigit l \/ last_is TRight l) /\ o_f Sp x e (one_line fl) = Some y /\ i_end k = y /\ text_ok y e /\ in_vis x y e
     else last_is TDigit l \/ last_is TRight l -> o_f Sp x e (one_line fl) = None).
  { destruct (ad || ap) eqn:Q.
    - destruct (ranv_o txt Sp spk x e (one_line fl) GSp Wp T) as (k & -> & Wk & Rk). exists k, (found (o_f Sp x e (one_line fl))). split; auto. split; auto. destruct (o_f Sp x e (one_line fl)) as [y|]; cbn [found]; auto. destruct Rk as (_ & Ek & _ & Ty & Iy). exists y. split; [|auto].
      rewrite <- AP, <- APR. destruct ad, ap; auto; discriminate.
    - exists spk, false. split; auto. split; auto. cbn iota. rewrite <- AP, <- APR. intros X. destruct ad, ap; try discriminate; destruct X; discriminate. }
  destruct C4 as (sp1 & b4 & -> & Wp1 & H4). cbn [obind]. destruct b4.
  { destruct H4 as (y & M & FS & <- & Ty & Iy). do 2 eexists. split; [reflexivity|]. cbn iota. cbn [px]. exists TSpace. split; [split; [exact M|split; [exact FS|intros [] Q; cbn in Q; try lia; cbn [may looks]; tauto]]|].
    split; [apply GO; auto; split; auto|]. split; [apply (ASp x e _ _ T FS)|auto]. }
  do 2 eexists. split; [reflexivity|]. cbn iota. split; [|apply STOP; auto; split; auto].
  intros t y (M & F & _). destruct t; cbn [may looks] in *; try congruence.
  - rewrite NL in F; auto; discriminate.
  - rewrite NR in F; [discriminate|tauto].
  - rewrite H3 in F; [discriminate|tauto|tauto].
  - rewrite H4 in F; [discriminate|tauto].
Qed.
Lemma loop_ok : forall fuel q l, text_ok s e -> text_ok (px q) e -> inv l q -> (length (vis (px q) e) < fuel)%nat ->
  exists q' l', ph_loop txt (es_P D) (Some (es_P L)) (Some (es_P R)) (o_P Se) (o_P Sp) fuel q e fl = Ret q' /\ pieces e fl D L R Se Sp l (px q) l' /\ core l' q'.
Proof.
  induction fuel as [|fuel IH]; intros q l Ts T Iq Lf; [lia|]. cbn [ph_loop]. destruct (step_ok l q Ts T Iq) as (q' & b & -> & H). cbn [obind]. destruct b.
  - destruct H as (t & N & I' & Lt & Iv). destruct (vis_to txt (px q) e (px q') T Iv) as [T' _]. pose proof (vis_shorter txt _ _ e T Lt Iv). destruct (IH q' _ Ts T' I') as (q2 & l2 & -> & P2 & C2); [lia|]. exists q2, l2. split; auto. split; auto. eapply PMore; eauto.
  - destruct H as [N C]. exists q', l. split; auto. split; auto. apply PNone. auto.
Qed.
End At.
Context (GPl : o_good txt Pl).
Definition phone_wf (st : pst) : Prop := exists a b c d f g, kids st = [a; b; c; d; f; g] /\ es_wf D a /\ o_wf Pl b /\ es_wf L c /\ es_wf R d /\ o_wf Se f /\ o_wf Sp g.
Ltac wf6 := do 6 eexists; split; [reflexivity|]; auto 10.
(** C223: which phone numbers are matched, and their normalised value *)
Theorem phone_spec :
  let P := phone_p txt (es_P D) (o_P Pl) (Some (es_P L)) (Some (es_P R)) (o_P Se) (o_P Sp) in
  phone_wf (p_init P) /\
  (forall st, phone_wf st -> phone_wf (p_inval P st) /\ iv (p_inval P st) = no_iv /\ vals (p_inval P st) = []) /\
  forall st s e fl, phone_wf st -> text_ok s e ->
   exists st' r, p_match P st s e fl = Ret (st', r) /\ phone_wf st' /\
    (r = true <-> exists y v, phone_at txt e fl D L R Pl Se Sp s y v) /\
    (forall y v, phone_at txt e fl D L R Pl Se Sp s y v -> iv st' = (s, y) /\ vals st' = v /\ in_vis s y e) /\
    (r = false -> iv st' = no_iv /\ vals st' = []).
Proof.
  intros P. split; [|split].
  { do 6 eexists. split; [reflexivity|]. split; [apply (ini_p txt); auto|]. split; [apply (ini_o txt); auto|]. split; [apply (ini_p txt); auto|]. split; [apply (ini_p txt); auto|]. split; [apply (ini_o txt); auto|apply (ini_o txt); auto]. }
  { intros st (a & b & c & d & f & g & K & W). split; [exists a, b, c, d, f, g; auto|]. auto. }
  intros st s e fl (a & b & c & d & f & g & K & W1 & W2 & W3 & W4 & W5 & W6) T. unfold P, phone_p. cbn [p_match]. rewrite K. clear K.
  destruct (inv_p txt L c GL W3) as [W3' I3]. destruct (inv_p txt R d GR W4) as [W4' I4].
  destruct (ranv_o txt Pl b s e fl GPl W2 T) as (b1 & -> & W2' & R2). cbn [obind].
  assert (PL : exists v x, (if found (o_f Pl s e fl) then let* v := append_text txt [] (i_start b1) (i_end b1) in Ret (v, i_end b1) else Ret ([], s)) = Ret (v, x) /\ plus_at txt e fl Pl s x v /\ text_ok x e /\ in_vis s x e).
  { unfold plus_at. destruct (o_f Pl s e fl) as [x|]; cbn [found].
    - destruct R2 as ((_ & Ib & _) & Eb & _ & Tx & Ix). injection Ib as Is _. rewrite Is, Eb, (append_ok _ _ _ _ T Ix). cbn [obind app]. do 2 eexists. split; [reflexivity|]. auto.
    - do 2 eexists. split; [reflexivity|]. split; auto. split; auto. unfold ParserPeg.in_vis. lia. }
  destruct PL as (v & x & -> & PA & Tx & Ix). cbn [obind]. clear R2.
  set (q0 := Ph a (p_inval (es_P L) c) (p_inval (es_P R) d) f g x v s (length v) false false false false).
  assert (I0 : inv s e fl v [] q0).
  { split; [split; [unfold wfq, q0; cbn; auto|]|].
    - unfold safe, q0. cbn [phd psv pv pse]. split; [split; [discriminate|intros (a0 & i & b0 & E & _); destruct a0; discriminate]|]. split; [lia|]. split; [unfold ParserPeg.in_vis; lia|]. right. intros a0 i b0 E. destruct a0; discriminate.
    - unfold q0. cbn [PhoneModel.kd PhoneModel.kl PhoneModel.kr PhoneModel.ks PhoneModel.kp px pv pse psv phd pad pip pap]. rewrite (valid_no _ I3), (valid_no _ I4). unfold written, inside, has. cbn [flat_map map In]. rewrite app_nil_r.
      split; auto. split; [split; [discriminate|tauto]|]. split; [split; [discriminate|intros Q; apply last_nil in Q; tauto]|]. split; [split; [discriminate|intros Q; apply last_nil in Q; tauto]|]. split; [split; [discriminate|tauto]|]. split; [split; [discriminate|tauto]|]. split; [tauto|]. split; [tauto|auto]. }
  destruct (loop_ok s e fl v (S (S (e - x))) q0 [] T Tx I0) as (q & l & -> & Ps & (Wq & S1 & S2 & S3 & S4)). { cbn [px q0]. pose proof (vis_end txt x e Tx). lia. }
  cbn [obind]. cbn [px q0] in Ps. destruct Wq as (Wa & Wb & Wc & Wd & We).
  destruct (phd q) eqn:Hd.
  - replace (length (pv q) <? psv q)%nat with false by lia. do 2 eexists. split; [reflexivity|]. split; [wf6|].
    assert (OD : outer_digit l) by (apply S1; auto). destruct S4 as [(a0 & i & (b0 & El & Su & Mx) & Ey & Ev)|S4].
    2:{ exfalso. destruct OD as (a0 & i & b0 & El & Td & Ni). apply (S4 _ _ _ El). left. auto. }
    assert (PH : phone_at txt e fl D L R Pl Se Sp s (pse q) (firstn (psv q) (pv q))). { exists x, v, l, a0, i, b0. auto 10. }
    split; [split; eauto|]. split; [|discriminate]. intros y w PH'. destruct (phone_unique _ _ _ _ _ _ _ PH PH') as [<- <-]. auto.
  - do 2 eexists. split; [reflexivity|]. split; [wf6|].
    assert (NO : forall y w, ~ phone_at txt e fl D L R Pl Se Sp s y w). { intros y w (x' & p' & l' & a' & i' & b' & P' & Q' & OD & _). assert (x' = x) by (unfold plus_at in *; destruct (o_f Pl s e fl); destruct P', PA; congruence). subst x'. assert (l' = l) by (eapply pieces_unique; eauto). subst l'. apply S1 in OD. discriminate. }
    split; [split; [discriminate|intros (y & w & Q); exfalso; eapply NO; eauto]|]. split; [intros y w Q; exfalso; eapply NO; eauto|]. auto.
Qed.
(** ... so a phone number can be part of any other construct *)
Theorem phone_element : exists f g, element txt (phone_p txt (es_P D) (o_P Pl) (Some (es_P L)) (Some (es_P R)) (o_P Se) (o_P Sp)) phone_wf f g /\
  forall s e fl y, text_ok s e -> (f s e fl = Some y <-> exists v, phone_at txt e fl D L R Pl Se Sp s y v) /\ (forall v, phone_at txt e fl D L R Pl Se Sp s y v -> g s e fl = v).
Proof.
  destruct phone_spec as (W0 & WI & M). set (P := phone_p _ _ _ _ _ _ _) in *.
  set (f := fun s e fl => match p_match P (p_init P) s e fl with Ret (st, true) => Some (i_end st) | _ => None end).
  set (g := fun s e fl => match p_match P (p_init P) s e fl with Ret (st, true) => vals st | _ => [] end).
  assert (FS : forall s e fl y, text_ok s e -> (f s e fl = Some y <-> exists v, phone_at txt e fl D L R Pl Se Sp s y v) /\ (forall v, phone_at txt e fl D L R Pl Se Sp s y v -> g s e fl = v)).
  { intros s e fl y T. unfold f, g. destruct (M _ s e fl W0 T) as (st & r & -> & _ & H1 & H2 & H3). destruct r.
    - destruct (proj1 H1 eq_refl) as (y0 & v0 & P0). destruct (H2 _ _ P0) as (I0 & V0 & _). injection I0 as _ E0. split.
      + rewrite E0. split; [intros Q; injection Q as <-; eauto|]. intros (v & Pv). destruct (phone_unique _ _ _ _ _ _ _ P0 Pv) as [<- _]. reflexivity.
      + intros v Pv. destruct (phone_unique _ _ _ _ _ _ _ P0 Pv) as [_ <-]. auto.
    - split; [split; [discriminate|]|]; [intros (v & Pv)|intros v Pv]; assert (X : false = true) by (apply H1; eauto); discriminate. }
  exists f, g. split; [|exact FS]. constructor.
  - exact W0.
  - intros st s e fl W T. destruct (M st s e fl W T) as (st' & r & -> & W' & H1 & H2 & H3). exists st'. destruct (f s e fl) as [y|] eqn:F; cbn [found].
    + apply FS in F; auto. destruct F as (v & Pv). assert (r = true) by (apply H1; eauto). subst r. split; auto. split; auto. destruct (H2 _ _ Pv) as (I0 & V0 & _). split; auto. rewrite V0. symmetry. apply (proj2 (FS s e fl y T)). auto.
    + assert (r = false). { destruct r; auto. destruct (proj1 H1 eq_refl) as (y0 & v0 & P0). assert (f s e fl = Some y0) by (apply FS; eauto). congruence. } subst r. split; auto. split; auto. apply H3. auto.
  - intros s e fl y T F. apply FS in F; auto. destruct F as (v & Pv). destruct (M _ s e fl W0 T) as (st & r & _ & _ & _ & H2 & _). apply (H2 _ _ Pv).
  - intros st W. destruct (WI st W) as (A & B & _). auto.
Qed.
End Props.
