(** Properties C274-C275: conversions are closed once, locales. *)
From Coq Require Import ZifyBool ZifyNat.
From Coq Require Ascii String.
From Verif Require Import Base MiscModel RfcModel PosixModel.
Import String.StringSyntax.

(** ** C274, refuted: every conversion that was opened belongs to exactly one encoder until it is closed, and none is used or closed
    after it was closed.  An encoder may be copied, and the copy has the same conversion. *)
Definition copies (p : enc_op) : bool := match p with ECopy _ _ | EAssign _ _ => true | _ => false end.
Definition one_owner (w : enc_world) : Prop :=
  (forall o h, eh_of w o = Some h -> is_open w h = true) /\
  (forall o o2 h, eh_of w o = Some h -> eh_of w o2 = Some h -> o = o2) /\
  (forall h, is_open w h = true -> exists o, eh_of w o = Some h).
Definition sane (w : enc_world) : Prop := Forall (fun h => (h < eh_next w)%nat) (eh_closed w).
Lemma open_iff : forall w h, is_open w h = true <-> (h < eh_next w)%nat /\ ~ In h (eh_closed w).
Proof. intros w h. unfold is_open. destruct (in_dec Nat.eq_dec h (eh_closed w)); cbn [negb]; rewrite ?andb_false_r, ?andb_true_r, ?Nat.ltb_lt; intuition congruence. Qed.
Lemma step_owner : forall w p, copies p = false -> sane w -> one_owner w -> exists w2 t, enc_step w p = Ret (w2, t) /\ sane w2 /\ one_owner w2 /\ (t = true <-> exists o, p = ENew o false /\ eh_of w o = None).
Proof.
  intros w p C Sa (A & B & L). destruct p as [o ok|o s|o s|o|o]; cbn [copies] in C; try discriminate; cbn [enc_step].
  - destruct (eh_of w o) as [h|] eqn:E.
    + exists w, false. split; auto. split; auto. split; [repeat split; assumption|]. split; [discriminate|]. intros (o' & X & Y). injection X as -> _. congruence.
    + destruct ok; [|exists w, true; split; auto; split; auto; split; [repeat split; assumption|]; split; eauto].
      eexists. eexists. split; [reflexivity|]. split. { unfold sane. cbn [eh_next eh_closed]. eapply Forall_impl; [|exact Sa]. cbn. lia. }
      split; [|split; [discriminate|intros (o' & X & _); discriminate]]. unfold one_owner. cbn [eh_of]. split; [|split].
      * intros x h H. apply open_iff. cbn [eh_next eh_closed]. unfold set_handle in H. destruct (Nat.eqb_spec x o).
        -- injection H as <-. split; [lia|]. intros I. unfold sane in Sa. rewrite Forall_forall in Sa. specialize (Sa _ I). lia.
        -- apply A in H. apply open_iff in H. destruct H. split; auto. 
      * intros x y h Hx Hy. unfold set_handle in Hx, Hy. destruct (Nat.eqb_spec x o), (Nat.eqb_spec y o); subst; auto.
        -- injection Hx as <-. apply A in Hy. apply open_iff in Hy. lia.
        -- injection Hy as <-. apply A in Hx. apply open_iff in Hx. lia.
        -- eapply B; eauto.
      * intros h H. apply open_iff in H. cbn [eh_next eh_closed] in H. destruct H as [H1 H2]. destruct (Nat.eq_dec h (eh_next w)) as [->|N].
        -- exists o. unfold set_handle. rewrite Nat.eqb_refl. reflexivity.
        -- destruct (L h) as (x & Hx). { apply open_iff. split; auto. lia. } exists x. unfold set_handle. destruct (Nat.eqb_spec x o); auto. subst. congruence.
  - destruct (eh_of w o) as [h|] eqn:E; [rewrite (A _ _ E)|]; exists w, false; (split; [reflexivity|]); (split; [assumption|]); (split; [repeat split; assumption|]); (split; [discriminate|intros (o' & X & _); discriminate]).
  - destruct (eh_of w o) as [h|] eqn:E.
    + rewrite (A _ _ E). eexists. eexists. split; [reflexivity|]. pose proof (A _ _ E) as Oh. apply open_iff in Oh. destruct Oh as [O1 O2]. split.
      { unfold sane. cbn [eh_next eh_closed]. constructor; auto. }
      split; [|split; [discriminate|intros (o' & X & _); discriminate]]. unfold one_owner. cbn [eh_of]. split; [|split].
      * intros x k H. unfold set_handle in H. destruct (Nat.eqb_spec x o); [discriminate|]. pose proof (A _ _ H) as K. apply open_iff in K. apply open_iff. cbn [eh_next eh_closed]. split; [tauto|]. intros [I|I]; [|tauto]. subst. apply n. eapply B; eauto.
      * intros x y k Hx Hy. unfold set_handle in Hx, Hy. destruct (Nat.eqb_spec x o), (Nat.eqb_spec y o); try discriminate. eapply B; eauto.
      * intros k H. apply open_iff in H. cbn [eh_next eh_closed] in H. destruct H as [H1 H2]. destruct (L k) as (x & Hx). { apply open_iff. split; auto. intros I. apply H2. right. auto. }
        exists x. unfold set_handle. destruct (Nat.eqb_spec x o); auto. subst. exfalso. apply H2. left. congruence.
    + exists w, false. split; auto. split; auto. split; [repeat split; assumption|]. split; [discriminate|]. intros (o' & X & _); discriminate.
Qed.
(** without copies it is so after every history *)
Theorem encoder_partial : forall l, Forall (fun p => copies p = false) l -> exists w, enc_run enc_start l = Ret w /\ one_owner w.
Proof.
  intros l F. assert (G : forall w, sane w -> one_owner w -> exists w2, enc_run w l = Ret w2 /\ one_owner w2).
  { induction F as [|p l C F IH]; intros w Sa Ow; cbn [enc_run]; [eauto|]. destruct (step_owner w p C Sa Ow) as (w2 & t & E & S2 & O2 & _). rewrite E. cbn [obind fst]. auto. }
  apply G; [constructor|]. split; [discriminate|]. split; [discriminate|]. intros h H. apply open_iff in H. cbn in H. lia.
Qed.
(** whoever copies or assigns an encoder and destroys both closes twice; and after the copy is gone the encoder cannot be used *)
Theorem encoder_refuted : forall l w, Forall (fun p => copies p = false) l -> enc_run enc_start l = Ret w -> forall o s h, eh_of w s = Some h -> 
  (eh_of w o = None -> enc_run w [ECopy o s; EDestroy o; EDestroy s] = UB /\ enc_run w [ECopy o s; EDestroy o; EConvert s] = UB) /\
  (forall k, eh_of w o = Some k -> o <> s -> enc_run w [EAssign o s; EDestroy s; EDestroy o] = UB /\
     exists w2, enc_step w (EAssign o s) = Ret (w2, false) /\ is_open w2 k = true /\ forall x, eh_of w2 x <> Some k).
Proof.
  intros l w F R o s h E. destruct (encoder_partial l F) as (w' & R2 & (A & B & L)). rewrite R in R2. injection R2 as <-. pose proof (A _ _ E) as Oh. pose proof Oh as Oh2. apply open_iff in Oh2. destruct Oh2 as [O1 O2]. split.
  - intros N. assert (D : o <> s) by congruence.
    assert (Cl : forall n f, is_open {| eh_next := n; eh_closed := h :: eh_closed w; eh_of := f |} h = false).
    { intros n f. match goal with |- ?b = false => destruct b eqn:X end; auto. apply (proj1 (open_iff _ _)) in X. cbn [eh_closed eh_next] in X. destruct X as [_ X]. exfalso. apply X. left. reflexivity. }
    assert (Op : forall f, is_open {| eh_next := eh_next w; eh_closed := eh_closed w; eh_of := f |} h = true) by (intros f; exact Oh).
    assert (So : (s =? o)%nat = false) by lia.
    split; cbn [enc_run enc_step]; rewrite N, E; cbn [obind fst eh_of enc_run enc_step]; unfold set_handle; rewrite Nat.eqb_refl, Op; cbn [obind fst eh_of eh_next eh_closed]; rewrite So, E, Cl; reflexivity.
  - intros k Ek D. split.
    + assert (Cl : forall n f, is_open {| eh_next := n; eh_closed := h :: eh_closed w; eh_of := f |} h = false).
      { intros n f. match goal with |- ?b = false => destruct b eqn:X end; auto. apply (proj1 (open_iff _ _)) in X. cbn [eh_closed eh_next] in X. destruct X as [_ X]. exfalso. apply X. left. reflexivity. }
      assert (Op : forall f, is_open {| eh_next := eh_next w; eh_closed := eh_closed w; eh_of := f |} h = true) by (intros f; exact Oh).
      assert (So : (s =? o)%nat = false) by lia. assert (Os : (o =? s)%nat = false) by lia.
      cbn [enc_run enc_step]; rewrite Ek, E; cbn [obind fst eh_of enc_run enc_step]; unfold set_handle; rewrite So, E, Op; cbn [obind fst eh_of eh_next eh_closed]; rewrite Os, Nat.eqb_refl, Cl; reflexivity.
    + cbn [enc_step]. rewrite Ek, E. eexists. split; [reflexivity|]. split; [exact (A _ _ Ek)|]. cbn [eh_of]. intros x X. unfold set_handle in X. destruct (Nat.eqb_spec x o).
      * apply D. apply (B o s k); congruence.
      * apply n. eapply B; eauto.
Qed.
Example encoder_ex : enc_run enc_start [ENew 0 true; ENew 1 false; EConvert 0; EDestroy 0] <> UB /\ enc_run enc_start [ENew 0 true; ECopy 1 0; EDestroy 1; EDestroy 0] = UB.
Proof. split; [discriminate|reflexivity]. Qed.

(** ** C275, refuted: create_locale(category, name) gives a locale that is that of the name in the category (all for LC_ALL) and the
    global one in the others, or null if there is no such locale *)
Definition locale_ok (known : list Z -> bool) (global : locale_obj) (category : Z) (name : list Z) (r : option locale_obj) : Prop :=
  match r with
  | Some l => known name = true /\ forall c, 0 <= c <= 12 -> c <> LC_ALL -> l c = if (category =? LC_ALL) || (category =? c) then name else global c
  | None => known name = false
  end.
(** as POSIX has it the call is undefined, always; also those for locale_C and locale_utf8, before main *)
Theorem create_locale_refuted : forall known category name, create_locale (newlocale_posix known) category name = UB.
Proof. reflexivity. Qed.
(** with glibc it is undefined but for the "C" locale in all categories, and that one is right *)
Theorem create_locale_glibc_refuted : forall known category name, 0 <= category <= 12 -> category <> LC_ALL \/ name <> chars "C" -> create_locale (newlocale_glibc known) category name = UB.
Proof.
  intros known category name R H. unfold create_locale, newlocale_glibc.
  assert (Cs : category = 0 \/ category = 1 \/ category = 2 \/ category = 3 \/ category = 4 \/ category = 5 \/ category = 6 \/ 7 <= category) by lia.
  destruct (list_eq_dec Z.eq_dec name (chars "C")) as [E|E].
  - assert (category <> 6) by (destruct H; [exact H|contradiction]). repeat destruct Cs as [->|Cs]; try reflexivity; try lia.
    assert (M : category = 7 \/ category = 8 \/ category = 9 \/ category = 10 \/ category = 11 \/ category = 12) by lia. repeat destruct M as [->|M]; try reflexivity. subst. reflexivity.
  - repeat destruct Cs as [->|Cs]; try reflexivity; try lia.
    assert (M : category = 7 \/ category = 8 \/ category = 9 \/ category = 10 \/ category = 11 \/ category = 12) by lia. repeat destruct M as [->|M]; try reflexivity. subst. reflexivity.
Qed.
Theorem locale_utf8_refuted : forall known, locale_utf8 (newlocale_glibc known) = UB.
Proof. intros known. apply create_locale_glibc_refuted; [unfold LC_ALL; lia|]. right. discriminate. Qed.
Theorem create_locale_partial : forall known global, known (chars "C") = true -> exists r, create_locale (newlocale_glibc known) LC_ALL (chars "C") = Ret r /\ r = Some c_locale /\ locale_ok known global LC_ALL (chars "C") r /\ locale_C (newlocale_glibc known) = Ret r.
Proof. intros known global K. exists (Some c_locale). split; [reflexivity|]. split; auto. split; [|reflexivity]. split; auto. Qed.
(** with null for the base, where it is all categories, it would be right *)
Theorem newlocale_null : forall known global name, exists r, newlocale_posix known LC_ALL_MASK name BaseNull = Ret r /\ locale_ok known global LC_ALL name r.
Proof.
  intros known global name. cbn [newlocale_posix]. eexists. split; [reflexivity|]. destruct (known name) eqn:K; [|exact K]. split; auto. intros c R N. unfold merged, LC_ALL in *.
  assert (M : c = 0 \/ c = 1 \/ c = 2 \/ c = 3 \/ c = 4 \/ c = 5 \/ c = 7 \/ c = 8 \/ c = 9 \/ c = 10 \/ c = 11 \/ c = 12) by lia. repeat destruct M as [->|M]; try reflexivity. subst. reflexivity.
Qed.

(** ** C276, refuted: exists says whether there is a file, folder or symbolic link of the name (that can be looked up) *)
(** what a name is behind its links, of which there are [n] *)
Inductive behind (fs : fsys) (reach : list Z -> bool) : list Z -> nat -> Z -> Prop :=
| behind_file : forall p m, reach p = true -> fs p = Some (File m) -> behind fs reach p 0 m
| behind_folder : forall p m, reach p = true -> fs p = Some (Folder m) -> behind fs reach p 0 m
| behind_link : forall p t n m, reach p = true -> fs p = Some (Link t) -> behind fs reach t n m -> behind fs reach p (S n) m.
Lemma stat_behind : forall k fs reach p m, posix_stat k fs reach p = Some m <-> exists n, (n <= k)%nat /\ behind fs reach p n m.
Proof.
  induction k as [|k IH]; intros fs reach p m; cbn [posix_stat]; destruct (reach p) eqn:R.
  - destruct (fs p) as [[a|a|t]|] eqn:E; split; intros H; try discriminate; try (injection H as ->; exists 0%nat; split; auto; econstructor; eauto; fail);
      destruct H as (n & L & B); inversion B; subst; try congruence; lia.
  - split; [discriminate|]. intros (n & L & B). inversion B; subst; congruence.
  - destruct (fs p) as [[a|a|t]|] eqn:E.
    + split; intros H; [injection H as ->; exists 0%nat; split; [lia|constructor; auto]|]. destruct H as (n & L & B). inversion B; subst; congruence.
    + split; intros H; [injection H as ->; exists 0%nat; split; [lia|constructor 2; auto]|]. destruct H as (n & L & B). inversion B; subst; congruence.
    + rewrite IH. split; intros (n & L & B).
      * exists (S n). split; [lia|]. econstructor; eauto.
      * inversion B; subst; try congruence. assert (t0 = t) by congruence. subst. exists n0. split; auto. lia.
    + split; [discriminate|]. intros (n & L & B). inversion B; subst; congruence.
  - split; [discriminate|]. intros (n & L & B). inversion B; subst; congruence.
Qed.
Theorem exists_refuted : forall fs reach p t, fs p = Some (Link t) -> fs t = None -> file_exists fs reach p = false.
Proof. intros fs reach p t E N. unfold file_exists. cbn [posix_stat]. rewrite E, N. destruct (reach p), (reach t); reflexivity. Qed.
(** it says so of what is behind the links, at most 40: of what is not a link it is right, and never does it say so of nothing *)
Theorem exists_partial : forall fs reach p,
  (file_exists fs reach p = true <-> exists n m, (n <= 40)%nat /\ behind fs reach p n m) /\
  (file_exists fs reach p = true -> fs p <> None) /\
  (reach p = true -> (forall t, fs p <> Some (Link t)) -> (file_exists fs reach p = true <-> fs p <> None)).
Proof.
  intros fs reach p. assert (A : file_exists fs reach p = true <-> exists n m, (n <= 40)%nat /\ behind fs reach p n m).
  { unfold file_exists. destruct (posix_stat 40 fs reach p) as [m|] eqn:E.
    - split; auto. intros _. apply stat_behind in E. destruct E as (n & L & B). eauto.
    - split; [discriminate|]. intros (n & m & L & B). assert (X : posix_stat 40 fs reach p = Some m) by (apply stat_behind; eauto). congruence. }
  split; [exact A|]. split.
  - intros H. apply A in H. destruct H as (n & m & _ & B). inversion B; subst; congruence.
  - intros R N. rewrite A. split; [intros (n & m & _ & B); inversion B; subst; congruence|]. intros H. destruct (fs p) as [[m|m|t]|] eqn:E; [| |destruct (N t); auto|congruence]; exists 0%nat, m; (split; [lia|]); [constructor 1|constructor 2]; auto.
Qed.
(** C277: readonly says that the file or folder behind the links may be written by nobody; of what is not there or cannot be looked up
    it does not say so *)
Theorem readonly_spec : forall fs reach p, file_readonly fs reach p = true <->
  exists n m, (n <= 40)%nat /\ behind fs reach p n m /\ Z.testbit m 7 = false /\ Z.testbit m 4 = false /\ Z.testbit m 1 = false.
Proof.
  assert (W : forall m, Z.land m 146 =? 0 = true <-> Z.testbit m 7 = false /\ Z.testbit m 4 = false /\ Z.testbit m 1 = false).
  { intros m. rewrite Z.eqb_eq. split.
    - intros H. assert (K : forall i, 0 <= i -> Z.testbit 146 i = true -> Z.testbit m i = false). { intros i Hi T. pose proof (Z.land_spec m 146 i) as X. rewrite H, Z.bits_0, T, andb_true_r in X. auto. }
      split; [|split]; apply K; (lia || reflexivity).
    - intros (A & B & C). apply Z.bits_inj'. intros i Hi. rewrite Z.land_spec, Z.bits_0. destruct (Z_lt_dec i 8).
      + assert (V : i = 0 \/ i = 1 \/ i = 2 \/ i = 3 \/ i = 4 \/ i = 5 \/ i = 6 \/ i = 7) by lia. repeat destruct V as [->|V]; rewrite ?A, ?B, ?C; try (subst; rewrite ?A); try reflexivity; apply andb_false_r.
      + rewrite (Z.bits_above_log2 146 i); [apply andb_false_r|lia|]. change (Z.log2 146) with 7. lia. }
  intros fs reach p. unfold file_readonly. destruct (posix_stat 40 fs reach p) as [m|] eqn:E.
  - rewrite W. split.
    + intros H. apply stat_behind in E. destruct E as (n & L & B). eauto 6.
    + intros (n & m' & L & B & H). assert (X : posix_stat 40 fs reach p = Some m') by (apply stat_behind; eauto). assert (m' = m) by congruence. subst. exact H.
  - split; [discriminate|]. intros (n & m' & L & B & H). assert (X : posix_stat 40 fs reach p = Some m') by (apply stat_behind; eauto). congruence.
Qed.
Example exists_ex : let fs := fun p => if list_eq_dec Z.eq_dec p [97] then Some (Link [98]) else if list_eq_dec Z.eq_dec p [98] then Some (File 292) else if list_eq_dec Z.eq_dec p [99] then Some (Link [99]) else None in
  file_exists fs (fun _ => true) [97] = true /\ file_readonly fs (fun _ => true) [97] = true /\ file_exists fs (fun _ => true) [99] = false /\ file_readonly fs (fun _ => false) [98] = false.
Proof. split; [|split; [|split]]; vm_compute; reflexivity. Qed.
