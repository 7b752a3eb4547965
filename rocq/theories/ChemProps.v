(** Property C226: chemical formulas. *)
From Coq Require Import ZifyBool ZifyNat.
From Verif Require Import Base StringModel StringSpec ParserModel ParserSpec ParserProps ParserEx ParserNumModel ParserNumProps ParserPeg ParserInt ParserTs ParserRefEx DateSpec TimeProps DateEx UrlSpec DnsProps UrlEx PhoneModel PhoneSpec PhoneEx.

Section Props.
Context (txt : list Z).
Local Notation text_ok := (text_ok txt).
Local Notation vis := (vis txt).
Local Notation in_vis := (in_vis txt).
Context (El Di Si : espec) (GE : good txt El) (GD : good txt Di) (GS : good txt Si) (AE : advances txt (es_f El)) (AD : advances txt (es_f Di)).
Section At.
Context (e : nat) (fl : pflags).
Lemma reps_max : forall f n s y m z, reps f n s y e fl -> f y e fl = None -> reps f m s z e fl -> f z e fl = None -> n = m /\ y = z.
Proof.
  induction n as [|n IH]; intros s y m z H N H' N'; destruct m as [|m]; cbn [reps] in *.
  - subst; auto.
  - subst y. destruct H' as (x & F & _). congruence.
  - subst z. destruct H as (x & F & _). congruence.
  - destruct H as (x & F & _ & H). destruct H' as (x' & F' & _ & H'). assert (x' = x) by congruence. subst x'. destruct (IH _ _ _ _ H N H' N') as [-> ->]. auto.
Qed.
Lemma groups_unique : forall s l y, groups e fl El Di s l y -> forall l' y', groups e fl El Di s l' y' -> l = l' /\ y = y'.
Proof.
  induction 1 as [x N|x n a l y (b & F & Rp & N) G IH]; intros l' y' H; inversion H as [? N'|? n' a' ? ? (b' & F' & Rp' & N') G']; subst; auto; try congruence.
  assert (b' = b) by congruence. subst b'. destruct (reps_max _ _ _ _ _ _ Rp N Rp' N') as [<- <-]. destruct (IH _ _ G') as [<- <-]. auto.
Qed.
Theorem formula_unique : forall s y d c y' d' c', formula_at e fl El Di Si s y d c -> formula_at e fl El Di Si s y' d' c' -> y = y' /\ d = d' /\ c = c'.
Proof.
  intros s y d c y' d' c' (l & x & _ & G & Hd & H) (l' & x' & _ & G' & Hd' & H'). destruct (groups_unique _ _ _ G _ _ G') as [<- <-].
  assert (d = d'). { destruct d, d'; auto; exfalso; [assert (false = true) by (apply Hd', Hd; auto)|assert (false = true) by (apply Hd, Hd'; auto)]; discriminate. }
  destruct c, c'; try (destruct H; congruence); try (destruct H'; congruence); try (split; [congruence|auto]). destruct H as [_ ->], H' as [_ ->]. auto.
Qed.
Lemma digits_ok : forall fuel k x hd, es_wf Di k -> text_ok x e -> (length (vis x e) < fuel)%nat ->
  exists k' n y, ch_digits (es_P Di) fuel k x hd e fl = Ret (k', y, if (n =? 0)%nat then hd else 1) /\ es_wf Di k' /\ reps (es_f Di) n x y e fl /\ es_f Di y e fl = None /\ text_ok y e /\ in_vis x y e.
Proof.
  induction fuel as [|fuel IH]; intros k x hd W T Lf; [lia|]. cbn [ch_digits]. destruct (ranv_p txt Di k x e fl GD W T) as (k1 & -> & W1 & R1). cbn [obind o_f o_wf] in *. destruct (es_f Di x e fl) as [z|] eqn:F; cbn [found].
  - destruct R1 as (_ & -> & _ & Tz & Iz). pose proof (AD x e fl z T F) as Lt. pose proof (vis_shorter txt x z e T Lt Iz). destruct (IH k1 z 1 W1 Tz) as (k2 & n & y & -> & W2 & Rp & N & Ty & Iy); [lia|].
    exists k2, (S n), y. cbn [Nat.eqb]. split; [destruct (n =? 0)%nat; reflexivity|]. split; auto. split; [cbn [reps]; exists z; split; auto; split; auto; lia|]. split; auto. split; auto. apply (in_trans txt x z); auto.
  - exists k1, 0%nat, x. split; auto. split; auto. split; [reflexivity|]. split; auto. split; auto. unfold ParserPeg.in_vis. lia.
Qed.
Definition b2z (b : bool) : Z := if b then 1 else 0.
Definition some_digits (l : list nat) : bool := existsb (fun n => negb (n =? 0)%nat) l.
Definition three_wf (k : list pst) : Prop := exists a b c, k = [a; b; c] /\ es_wf El a /\ es_wf Di b /\ es_wf Si c.
Lemma chem_loop_ok : forall fuel ke kd ks s x hd, es_wf El ke -> es_wf Di kd -> es_wf Si ks -> text_ok x e -> (length (vis x e) < fuel)%nat -> (s <= x)%nat ->
  exists st l z, groups e fl El Di x l z /\ in_vis x z e /\ three_wf (kids st) /\
    let hd' := b2z (hd || some_digits l) in
    if (s <? z)%nat then
      match es_f Si z e fl with
      | Some y => ch_loop (es_P El) (es_P Di) (es_P Si) fuel ke kd ks s x (b2z hd) e fl = Ret (st, true) /\ iv st = (s, y) /\ vals st = [hd'; 1] /\ in_vis x y e
      | None => ch_loop (es_P El) (es_P Di) (es_P Si) fuel ke kd ks s x (b2z hd) e fl = Ret (st, true) /\ iv st = (s, z) /\ vals st = [hd'; 0]
      end
    else ch_loop (es_P El) (es_P Di) (es_P Si) fuel ke kd ks s x (b2z hd) e fl = Ret (st, false) /\ iv st = no_iv /\ vals st = [hd'; 0].
Proof.
  induction fuel as [|fuel IH]; intros ke kd ks s x hd We Wd Ws T Lf Sx; [lia|]. cbn [ch_loop]. change (case_sensitive fl) with (sensitive fl).
  destruct (ranv_p txt El ke x e (sensitive fl) GE We T) as (ke1 & -> & We1 & R1). cbn [obind o_f o_wf] in *. destruct (es_f El x e (sensitive fl)) as [a|] eqn:F; cbn [found].
  - destruct R1 as (_ & -> & _ & Ta & Ia). pose proof (AE x e (sensitive fl) a T F) as Lt. pose proof (vis_shorter txt x a e T Lt Ia) as Sh. pose proof (vis_end txt a e Ta) as Ve.
    destruct (digits_ok (S (S (e - a))) kd a (b2z hd) Wd Ta) as (kd1 & n & b & -> & Wd1 & Rp & N & Tb & Ib); [lia|]. cbn [obind].
    assert (Iab : in_vis x b e) by (apply (in_trans txt x a); auto).
    assert (Hlen : (length (vis b e) <= length (vis a e))%nat). { destruct (vis_to txt a e b Ta Ib) as [_ ->]. rewrite skipn_length. lia. }
    assert (Eh : (if (n =? 0)%nat then b2z hd else 1) = b2z (hd || negb (n =? 0)%nat)) by (destruct (n =? 0)%nat, hd; reflexivity). rewrite Eh.
    destruct (IH ke1 kd1 ks s b (hd || negb (n =? 0)%nat) We1 Wd1 Ws Tb) as (st & l & z & G & Iz & Wk & H); [lia|destruct Ia, Ib; lia|].
    exists st, (n :: l), z. split; [econstructor; eauto; exists a; auto|]. split; [apply (in_trans txt x b); auto|]. split; auto. cbv zeta in *. cbn [some_digits existsb] in *. fold (some_digits l). rewrite orb_assoc.
    destruct (s <? z)%nat; auto. destruct (es_f Si z e fl) as [y|]; auto. destruct H as (H1 & H2 & H3 & H4). split; auto. split; auto. split; auto. apply (in_trans txt x b); auto.
  - destruct (s <? x)%nat eqn:Lx.
    + destruct (ranv_p txt Si ks x e fl GS Ws T) as (ks1 & E & Ws1 & R2). cbn [o_f o_wf] in *. rewrite E. cbn [obind].
      exists (match es_f Si x e fl with Some y => Pst s y [b2z hd; 1] [ke1; kd; ks1] | None => Pst s x [b2z hd; 0] [ke1; kd; ks1] end), [], x. split; [constructor; auto|]. split; [unfold ParserPeg.in_vis; lia|]. split; [destruct (es_f Si x e fl); do 3 eexists; (split; [reflexivity|]); auto|].
      rewrite Lx. cbv zeta. unfold some_digits. cbn [existsb]. rewrite Bool.orb_false_r. destruct (es_f Si x e fl) as [y|]; cbn [found].
      * destruct R2 as (_ & -> & _ & _ & Iy). auto.
      * auto.
    + exists (Pst 1 0 [b2z hd; 0] [ke1; kd; ks]), [], x. split; [constructor; auto|]. split; [unfold ParserPeg.in_vis; lia|]. split; [do 3 eexists; split; [reflexivity|]; auto|]. rewrite Lx. cbv zeta. unfold some_digits. cbn [existsb]. rewrite Bool.orb_false_r. auto.
Qed.
Lemma groups_grow : forall x l z, groups e fl El Di x l z -> text_ok x e -> (l = [] -> z = x) /\ (l <> [] -> (x < z)%nat).
Proof.
  induction 1 as [x N|x n a l y (b & F & Rp & N) G IH]; intros T; [split; [auto|congruence]|]. split; [discriminate|]. intros _. pose proof (AE x e _ b T F) as Lt.
  destruct (vis_to txt x e b T (el_within _ _ _ _ _ GE x e _ b T F)) as [Tb _].
  assert (RI : forall n b, text_ok b e -> reps (es_f Di) n b a e fl -> text_ok a e /\ (b <= a)%nat).
  { clear - GD. induction n as [|n IH]; intros b Tb H; cbn [reps] in H; [subst; auto|]. destruct H as (c & Fc & _ & H). pose proof (el_within _ _ _ _ _ GD b e _ c Tb Fc) as Wi. destruct (vis_to txt b e c Tb Wi) as [Tc _]. destruct (IH c Tc H) as [X Y]. split; [exact X|lia]. }
  destruct (RI _ _ Tb Rp) as [Ta Lb]. destruct (IH Ta) as [H1 H2]. destruct l as [|m l]; [rewrite H1 by auto; lia|]. specialize (H2 ltac:(discriminate)). lia.
Qed.
End At.
Definition chem_wf (st : pst) : Prop := (exists d c, vals st = [b2z d; b2z c]) /\ three_wf (kids st).
(** C226 *)
Theorem formula_spec :
  let P := chem_p (es_P El) (es_P Di) (es_P Si) in
  chem_wf (p_init P) /\
  (forall st, chem_wf st -> chem_wf (p_inval P st) /\ iv (p_inval P st) = no_iv /\ vals (p_inval P st) = [0; 0]) /\
  forall st s e fl, chem_wf st -> text_ok s e ->
   exists st' r, p_match P st s e fl = Ret (st', r) /\ chem_wf st' /\
    (r = true <-> exists y d c, formula_at e fl El Di Si s y d c) /\
    (forall y d c, formula_at e fl El Di Si s y d c -> iv st' = (s, y) /\ vals st' = [b2z d; b2z c] /\ in_vis s y e) /\
    (r = false -> iv st' = no_iv /\ vals st' = [0; 0]).
Proof.
  intros P. split; [|split].
  { split; [exists false, false; reflexivity|]. do 3 eexists. split; [reflexivity|]. split; [apply (ini_p txt); auto|]. split; apply (ini_p txt); auto. }
  { intros st (_ & W). split; [split; [exists false, false; reflexivity|exact W]|]. auto. }
  intros st s e fl (_ & a & b & c & K & Wa & Wb & Wc) T. unfold P, chem_p. cbn [p_match]. rewrite K. clear K. pose proof (vis_end txt s e T).
  destruct (chem_loop_ok e fl (S (S (e - s))) a b c s s false Wa Wb Wc T ltac:(lia) ltac:(lia)) as (st' & l & z & G & Iz & Wk & H1). cbv zeta in H1. cbn [b2z orb] in H1.
  destruct (groups_grow e fl _ _ _ G T) as [N1 N2].
  assert (SD : some_digits l = true <-> exists n, In n l /\ n <> 0%nat). { unfold some_digits. rewrite existsb_exists. split; intros (n & I & Q); exists n; split; auto; destruct (n =? 0)%nat eqn:X; try discriminate; auto; [apply Nat.eqb_neq in X; auto|apply Nat.eqb_eq in X; tauto]. }
  destruct (s <? z)%nat eqn:Lz.
  - assert (NE : l <> []) by (intros ->; specialize (N1 eq_refl); lia).
    assert (RES : exists y ch, ch_loop (es_P El) (es_P Di) (es_P Si) (S (S (e - s))) a b c s s 0 e fl = Ret (st', true) /\ iv st' = (s, y) /\ vals st' = [b2z (some_digits l); b2z ch] /\ in_vis s y e /\ formula_at e fl El Di Si s y (some_digits l) ch).
    { destruct (es_f Si z e fl) as [y|] eqn:F.
      - destruct H1 as (H1 & H2 & H3 & H4). exists y, true. split; auto. split; auto. split; auto. split; auto. exists l, z. auto.
      - destruct H1 as (H1 & H2 & H3). exists z, false. split; auto. split; auto. split; auto. split; auto. exists l, z. auto. }
    destruct RES as (y & ch & -> & Iv & Vs & Iy & FA). exists st', true. split; auto. split; [split; [exists (some_digits l), ch; auto|exact Wk]|]. split; [split; eauto|]. split; [|discriminate].
    intros y' d' c' FA'. destruct (formula_unique e fl _ _ _ _ _ _ _ FA FA') as (<- & <- & <-). auto.
  - destruct H1 as (-> & Iv & Vs). assert (l = []). { destruct l; auto. specialize (N2 ltac:(discriminate)). lia. } subst l.
    exists st', false. split; auto. split; [split; [exists false, false; exact Vs|exact Wk]|].
    assert (NO : forall y d ch, ~ formula_at e fl El Di Si s y d ch). { intros y d ch (l' & x' & NE & G' & _). destruct (groups_unique e fl _ _ _ G _ _ G') as [<- _]. auto. }
    split; [split; [discriminate|intros (y & d & ch & Q); exfalso; eapply NO; eauto]|]. split; [intros y d ch Q; exfalso; eapply NO; eauto|]. auto.
Qed.
End Props.

(** ** A case: elements C, H and O, decimal digits and plus or minus *)
Definition plain_chem (t : list Z) : pcls := chem_p (pset t [67; 72; 79]) (pset t dec_chars) (pset t [43; 45]).
(** the theorem applies *)
Theorem plain_chem_spec : forall t, exists El Di Si, es_P El = pset t [67; 72; 79] /\ es_P Di = pset t dec_chars /\ es_P Si = pset t [43; 45] /\
  forall st s e fl, chem_wf El Di Si st -> text_ok t s e ->
   exists st' r, p_match (plain_chem t) st s e fl = Ret (st', r) /\ chem_wf El Di Si st' /\
    (r = true <-> exists y d c, formula_at e fl El Di Si s y d c) /\
    (forall y d c, formula_at e fl El Di Si s y d c -> iv st' = (s, y) /\ vals st' = [b2z d; b2z c] /\ in_vis t s y e) /\
    (r = false -> iv st' = no_iv /\ vals st' = [0; 0]).
Proof.
  intros t. assert (X : forall l, Forall (fun c => c <> 0) l -> exists x, es_P x = pset t l /\ good t x /\ advances t (es_f x)).
  { intros l F. destruct (cu_set_spec t ex_low l false F) as (f & g & E & Sp). exists (ESpec (pset t l) (fun st => exists z, vals st = [z]) f g). split; auto. split; [exact E|]. intros s e fl x _ H. apply (proj1 (Sp s e fl)) in H. lia. }
  destruct (X [67; 72; 79]) as (El & E1 & G1 & A1). { repeat constructor; lia. } destruct (X dec_chars) as (Di & E2 & G2 & A2). { repeat constructor; lia. } destruct (X [43; 45]) as (Si & E3 & G3 & A3). { repeat constructor; lia. }
  exists El, Di, Si. split; auto. split; auto. split; auto. pose proof (formula_spec t El Di Si G1 G2 G3 A1 A2) as (_ & _ & M). unfold plain_chem. rewrite <- E1, <- E2, <- E3. exact M.
Qed.
(** "H2O", "OH-", "h2" *)
Example ex_chem1 : run_p (plain_chem [72; 50; 79; 0]) no_fl = Ret (true, (0, 3)%nat, [1; 0]). Proof. vm_compute. reflexivity. Qed.
Example ex_chem2 : run_p (plain_chem [79; 72; 45; 0]) no_fl = Ret (true, (0, 3)%nat, [0; 1]). Proof. vm_compute. reflexivity. Qed.
Example ex_chem3 : run_p (plain_chem [104; 50; 0]) (PFlags true false) = Ret (false, (1, 0)%nat, [0; 0]). Proof. vm_compute. reflexivity. Qed.
