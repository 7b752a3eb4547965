(** Properties C223-C225: what phone numbers look like, plain parsers, and parsers without parentheses. *)
From Coq Require Import ZifyBool ZifyNat.
From Verif Require Import Base HashProofs StringModel StringSpec ParserModel ParserSpec ParserProps ParserEx ParserNumModel ParserNumProps ParserPeg ParserInt ParserTs ParserRefEx DateSpec TimeProps DateEx UrlSpec DnsProps UrlEx PhoneModel PhoneSpec PhoneProps.

Section Shape.
Context (txt : list Z) (e : nat) (fl : pflags) (D L R : espec) (Pl Se Sp : option espec).
Local Notation looks := (looks D L R Se Sp).
(** the pieces [l] fill the text from [x] to [z] *)
Fixpoint tiles (x : nat) (l : list item) (z : nat) : Prop :=
  match l with [] => x = z | i :: r => it_from i = x /\ looks (it_tok i) x e fl = Some (it_to i) /\ tiles (it_to i) r z end.
Definition count (t : tok) (l : list item) : nat := length (filter (fun i => (rank (it_tok i) =? rank t)%nat) l).
Lemma tiles_snoc : forall l x z t y, tiles x l z -> looks t z e fl = Some y -> tiles x (l ++ [Item t z y]) y.
Proof. induction l as [|i l IH]; intros x z t y H F; cbn [tiles app] in *; [subst; auto|]. destruct H as (H1 & H2 & H3). auto. Qed.
Lemma tiles_app : forall a b x z, tiles x (a ++ b) z -> exists y, tiles x a y /\ tiles y b z.
Proof. induction a as [|i a IH]; intros b x z H; cbn [tiles app] in *; [eauto|]. destruct H as (H1 & H2 & H3). destruct (IH _ _ _ H3) as (y & A & B). eauto. Qed.
Lemma count_snoc : forall t l i, count t (l ++ [i]) = (count t l + if (rank (it_tok i) =? rank t)%nat then 1 else 0)%nat.
Proof. intros. unfold count. rewrite filter_app, app_length. cbn [filter]. destruct (_ =? _)%nat; reflexivity. Qed.
Lemma count_has : forall t l, (count t l = 0)%nat <-> ~ has t l.
Proof.
  intros t l. unfold count, has. induction l as [|i l IH]; cbn [filter map In length]; [tauto|]. destruct (rank (it_tok i) =? rank t)%nat eqn:Q; cbn [length].
  - split; [lia|]. intros H. exfalso. apply H. left. apply Nat.eqb_eq in Q. destruct (it_tok i), t; cbn in Q; auto; discriminate.
  - rewrite IH. split; [intros H [X|X]; [subst t; rewrite Nat.eqb_refl in Q; discriminate|tauto]|tauto].
Qed.
Lemma has_snoc' : forall t l i, has t (l ++ [i]) <-> has t l \/ it_tok i = t. Proof. exact has_snoc. Qed.
(** every prefix: at most one pair of parentheses; a separator only behind a digit *)
Definition ordered (l : list item) : Prop := (count TLeft l <= 1)%nat /\ (count TRight l <= 1)%nat /\ (has TRight l -> has TLeft l).
Lemma pieces_shape : forall l z l', pieces e fl D L R Se Sp l z l' -> forall x, tiles x l z -> (forall a b, l = a ++ b -> ordered a) -> (exists z', tiles x l' z') /\ (forall a b, l' = a ++ b -> ordered a).
Proof.
  induction 1 as [l z N|l z t y l' N P IH]; intros x T O; [eauto|]. destruct N as (M & F & _). apply IH; [apply tiles_snoc; auto|]. intros a b E.
  destruct (rev b) as [|j r] eqn:Rb.
  - assert (b = []) by (rewrite <- (rev_involutive b), Rb; reflexivity). subst b. rewrite app_nil_r in E. subst a. destruct (O l [] ltac:(rewrite app_nil_r; auto)) as (O1 & O2 & O3). unfold ordered. rewrite !count_snoc, !has_snoc. cbn [it_tok].
    destruct t; cbn [rank Nat.eqb may] in *; try (split; [lia|split; [lia|intros [Q|Q]; [tauto|discriminate]]]).
    + apply count_has in M. split; [lia|]. split; [lia|]. tauto.
    + destruct M as [[M1 M2] _]. apply count_has in M2. split; [lia|]. split; [lia|]. tauto.
  - assert (Eb : b = rev r ++ [j]) by (rewrite <- (rev_involutive b), Rb; reflexivity). subst b. rewrite app_assoc in E. apply app_inj_tail in E. destruct E as [E _]. apply (O _ _ E).
Qed.
(** C224: a phone number ends with a digit or a right parenthesis and has a digit outside of the parentheses, of which there is at most one pair, which is closed; the value is
    the text of the pieces but separators and spaces *)
Theorem phone_shape : forall s y v, phone_at txt e fl D L R Pl Se Sp s y v -> exists x p l, plus_at txt e fl Pl s x p /\ tiles x l y /\ v = p ++ written txt l /\
  outer_digit l /\ (last_is TDigit l \/ last_is TRight l) /\ count TLeft l = count TRight l /\ (count TLeft l <= 1)%nat.
Proof.
  intros s y v (x & p & l & a & i & b & PA & Ps & OD & E & Su & Mx & -> & ->). destruct (pieces_shape _ _ _ Ps x eq_refl) as [(z & T) O].
  { intros a' b' E'. destruct a'; [|discriminate]. split; [cbn; lia|]. split; [cbn; lia|]. intros []. }
  exists x, p, (a ++ [i]). assert (E2 : l = (a ++ [i]) ++ b) by (rewrite <- app_assoc; auto). split; auto. split.
  { rewrite E2 in T. apply tiles_app in T. destruct T as (w & T & _). apply tiles_app in T as T'. destruct T' as (u & _ & T'). cbn [tiles] in T'. destruct T' as (_ & _ & <-). exact T. }
  split; auto. destruct (O _ _ E2) as (O1 & O2 & O3). split; [|split; [|split]].
  - destruct OD as (a' & j & b' & E' & Tj & Nj). rewrite E in E'. destruct (app_eq_app _ _ _ _ E') as (m & [[-> H]|[-> H]]).
    + destruct m as [|k m]; cbn in H; injection H as H1 H2; subst.
      * exists a', i, []. rewrite app_nil_r. auto.
      * exists a', k, (m ++ [i]). rewrite <- app_assoc. auto.
    + destruct m as [|k m]; cbn in H; injection H as H1 H2; subst.
      * exists a, j, []. rewrite app_nil_r in Nj. auto.
      * exfalso. apply (Mx m j b'); auto. left. auto.
  - rewrite !last_snoc. destruct Su as [[Su _]|Su]; auto.
  - assert (NI : ~ inside (a ++ [i])). { rewrite inside_snoc. destruct Su as [[S1 S2]|S1]; [|tauto]. unfold inside in S2. rewrite S1. intuition discriminate. }
    unfold inside in NI. assert (H1 := count_has TLeft (a ++ [i])). assert (H2 := count_has TRight (a ++ [i])).
    destruct (Nat.eq_dec (count TLeft (a ++ [i])) 0) as [Q|Q]; destruct (Nat.eq_dec (count TRight (a ++ [i])) 0) as [Q'|Q']; try lia.
    + exfalso. apply Q', H2. intros X. apply O3 in X. apply H1 in Q. tauto.
    + exfalso. apply Q, H1. intros X. apply NI. split; auto. apply H2. auto.
  - exact O1.
Qed.
Lemma slice_app : forall a b c, (a <= b <= c)%nat -> slice txt a b ++ slice txt b c = slice txt a c.
Proof.
  intros a b c H. unfold slice. rewrite <- (firstn_skipn (b - a) (firstn (c - a) (skipn a txt))). rewrite firstn_firstn. replace (Nat.min (b - a) (c - a)) with (b - a)%nat by lia. f_equal.
  rewrite skipn_firstn_comm, skipn_skipn'. f_equal; [lia|]. f_equal. lia.
Qed.
(** the value is the text without the characters of separators and spaces *)
Theorem phone_value : forall keep,
  (forall t x y, looks t x e fl = Some y -> (x <= y)%nat /\ forall c, In c (slice txt x y) -> keep c = match t with TSep | TSpace => false | _ => true end) ->
  (forall x y, o_f Pl x e fl = Some y -> (x <= y)%nat /\ forall c, In c (slice txt x y) -> keep c = true) ->
  forall s y v, phone_at txt e fl D L R Pl Se Sp s y v -> v = filter keep (slice txt s y).
Proof.
  intros keep H HP s y v P. destruct (phone_shape _ _ _ P) as (x & p & l & PA & T & -> & _).
  assert (ALL : forall w, (forall c, In c w -> keep c = true) -> filter keep w = w). { induction w as [|c w IH]; intros A; auto. cbn. rewrite (A c) by (left; auto). f_equal. apply IH. intros; apply A; right; auto. }
  assert (NIL : forall w, (forall c, In c w -> keep c = false) -> filter keep w = []). { induction w as [|c w IH]; intros A; auto. cbn. rewrite (A c) by (left; auto). apply IH. intros; apply A; right; auto. }
  assert (W : forall l x, tiles x l y -> (x <= y)%nat /\ written txt l = filter keep (slice txt x y)).
  { clear - H ALL NIL. induction l as [|i l IH]; intros x T; cbn [tiles] in T; [subst; split; auto; unfold slice; rewrite Nat.sub_diag; reflexivity|]. destruct T as (<- & F & T). destruct (IH _ T) as [L1 L2]. destruct (H _ _ _ F) as [L3 L4]. split; [lia|].
    unfold written. cbn [flat_map]. fold (written txt l). rewrite L2, <- (slice_app (it_from i) (it_to i) y) by lia. rewrite filter_app. f_equal. destruct (it_tok i); symmetry; auto. }
  destruct (W _ _ T) as [L1 L2]. unfold plus_at in PA. destruct (o_f Pl s e fl) as [x'|] eqn:F; destruct PA as [-> ->].
  - destruct (HP _ _ F) as [L3 L4]. rewrite L2, <- (slice_app s x' y) by lia. rewrite filter_app, (ALL (slice txt s x')); auto.
  - exact L2.
Qed.
End Shape.

(** ** Plain parsers *)
Definition plain_phone (t : list Z) : pcls := phone_p t (pset t dec_chars) (Some (cu t ex_low 43 false)) (Some (pset t [40; 91])) (Some (pset t [41; 93])) (Some (pset t [45; 46; 47])) (Some (cu t ex_low 32 false)).
Definition phone_keep (c : Z) : bool := existsb (Z.eqb c) [43; 40; 91; 41; 93] || ((48 <=? c) && (c <=? 57)).
Lemma ex_low_plain : forall c l (fl : pflags), Forall (fun k => ~ (97 <= k <= 122) /\ ~ (65 <= k <= 90)) l -> In ((if fl_ci fl then ex_low else fun c => c) c) (map (if fl_ci fl then ex_low else fun c => c) l) -> In c l.
Proof.
  intros c l fl F. destruct (fl_ci fl); [|rewrite map_id; auto]. intros H. apply in_map_iff in H. destruct H as (k & E & K). rewrite Forall_forall in F. pose proof (F k K) as G. unfold ex_low in E. destruct ((65 <=? k) && (k <=? 90)) eqn:A; [lia|]. destruct ((65 <=? c) && (c <=? 90)) eqn:B; [lia|]. subst c. auto.
Qed.
Definition unit_of (t : list Z) (l : list Z) (f : pfun) : Prop := forall s e fl x, f s e fl = Some x -> x = S s /\ exists c r, vis t s e = c :: r /\ In c l.
Lemma pset_unit : forall t l, Forall (fun c => c <> 0) l -> Forall (fun k => ~ (97 <= k <= 122) /\ ~ (65 <= k <= 90)) l -> exists x, es_P x = pset t l /\ good t x /\ advances t (es_f x) /\ unit_of t l (es_f x).
Proof.
  intros t l N F. destruct (cu_set_spec t ex_low l false N) as (f & g & El & Sp). exists (ESpec (pset t l) (fun st => exists z, vals st = [z]) f g). split; [reflexivity|]. split; [exact El|].
  assert (U : unit_of t l f). { intros s e fl x H. apply (proj1 (Sp s e fl)) in H. destruct H as (-> & c & r & V & H). split; auto. exists c, r. split; auto. apply (ex_low_plain c l fl F). apply H. auto. }
  split; auto. intros s e fl x _ H. apply U in H. lia.
Qed.
Lemma cu_unit : forall t c, ~ (97 <= c <= 122) -> ~ (65 <= c <= 90) -> unit_of t [c] (es_f (cu_spec_of t ex_low c)).
Proof.
  intros t c H1 H2 s e fl x. cbn [es_f cu_spec_of]. unfold one_fn. destruct (vis t s e) as [|d r]; [discriminate|]. destruct (fl_ci fl) eqn:Ci.
  - intros H. destruct (ex_low d =? ex_low c) eqn:Q; cbn in H; [|discriminate]. injection H as <-. split; auto. exists d, r. split; auto. left. unfold ex_low in Q. destruct ((65 <=? d) && (d <=? 90)) eqn:A, ((65 <=? c) && (c <=? 90)) eqn:B; lia.
  - intros H. destruct (d =? c) eqn:Q; cbn in H; [|discriminate]. injection H as <-. split; auto. exists d, r. split; auto. left. lia.
Qed.
Lemma unit_slice : forall t l f s e fl x, unit_of t l f -> f s e fl = Some x -> (s <= x)%nat /\ exists c, slice t s x = [c] /\ In c l.
Proof.
  intros t l f s e fl x U F. destruct (U _ _ _ _ F) as (-> & c & r & V & M). split; [lia|]. exists c. split; auto. unfold slice. replace (S s - s)%nat with 1%nat by lia. unfold vis in V. destruct (e - s)%nat; [discriminate|]. destruct (skipn s t) as [|d l']; [discriminate|]. cbn [zstr] in V. destruct (d =? 0); [discriminate|]. injection V as -> _. reflexivity.
Qed.
(** C224: digits, a plus sign, round and square parentheses, hyphens, periods and slashes as separators, blanks *)
Theorem plain_phone_spec : forall t, exists D Pl L R Se Sp wf f g, element t (plain_phone t) wf f g /\ es_P D = pset t dec_chars /\ es_P L = pset t [40; 91] /\ es_P R = pset t [41; 93] /\
  forall s e fl, text_ok t s e ->
    (forall y, f s e fl = Some y <-> exists v, phone_at t e fl D L R (Some Pl) (Some Se) (Some Sp) s y v) /\
    (forall y, f s e fl = Some y -> g s e fl = filter phone_keep (slice t s y) /\ exists c, In c (slice t s y) /\ 48 <= c <= 57).
Proof.
  intros t.
  destruct (pset_unit t dec_chars) as (D & ED & GD & AD & UD). { repeat constructor; lia. } { repeat constructor; lia. }
  destruct (pset_unit t [40; 91]) as (L & EL & GL & AL & UL). { repeat constructor; lia. } { repeat constructor; lia. }
  destruct (pset_unit t [41; 93]) as (R & ER & GR & AR & UR). { repeat constructor; lia. } { repeat constructor; lia. }
  destruct (pset_unit t [45; 46; 47]) as (Se & ESe & GSe & ASe & USe). { repeat constructor; lia. } { repeat constructor; lia. }
  destruct (cu_good t 32) as [GSp ASp]. destruct (cu_good t 43) as [GPl APl].
  pose proof (cu_unit t 32 ltac:(lia) ltac:(lia)) as USp. pose proof (cu_unit t 43 ltac:(lia) ltac:(lia)) as UPl.
  destruct (phone_element t D L R (Some (cu_spec_of t ex_low 43)) (Some Se) (Some (cu_spec_of t ex_low 32)) GD GL GR GSe GSp AD AL AR ASe ASp) as (f & g & El & Sp); auto.
  { intros s e fl H. destruct (es_f R s e fl) as [x|] eqn:F; [|congruence]. destruct (UR _ _ _ _ F) as (_ & c & r & V & M). cbn [o_f]. destruct (es_f (cu_spec_of t ex_low 32) s e (one_line fl)) as [x'|] eqn:F'; auto. destruct (USp _ _ _ _ F') as (_ & c' & r' & V' & M'). cbn [In] in *. assert (c' = c) by congruence. lia. }
  exists D, (cu_spec_of t ex_low 43), L, R, Se, (cu_spec_of t ex_low 32). cbn [o_P option_map] in El. rewrite ED, EL, ER, ESe in El. do 3 eexists. split; [exact El|]. split; auto. split; auto. split; auto. intros s e fl T. split; [intros y; apply Sp; auto|]. intros y F. apply Sp in F as F'; auto. destruct F' as (v & PA). destruct (Sp s e fl y T) as [_ Gv]. rewrite (Gv v PA).
  assert (LK : forall k x z, looks D L R (Some Se) (Some (cu_spec_of t ex_low 32)) k x e fl = Some z -> (x <= z)%nat /\ exists c, slice t x z = [c] /\ In c (match k with TDigit => dec_chars | TLeft => [40; 91] | TRight => [41; 93] | TSep => [45; 46; 47] | TSpace => [32] end)).
  { intros k x z Fx. destruct k; cbn [looks o_f] in Fx; eapply unit_slice; eauto. }
  split.
  - eapply phone_value; [| |exact PA].
    + intros k x z Fx. destruct (LK _ _ _ Fx) as (Lx & c & E & M). split; auto. rewrite E. intros d [<-|[]]. unfold phone_keep. destruct k; cbn [In dec_chars] in M; cbn [existsb]; lia.
    + intros x z Fx. cbn [o_f] in Fx. destruct (unit_slice _ _ _ _ _ _ _ UPl Fx) as (Lx & c & E & M). split; auto. rewrite E. intros d [<-|[]]. cbn [In] in M. unfold phone_keep. cbn [existsb]. lia.
  - destruct (phone_shape _ _ _ _ _ _ _ _ _ _ _ _ PA) as (x & p & l & Px & Ti & _ & (a & i & b & El2 & Ei & _) & _). subst l. apply tiles_app in Ti. destruct Ti as (u & Ta & Tb). cbn [tiles] in Tb. destruct Tb as (<- & Fi & Tb). rewrite Ei in Fi. destruct (LK _ _ _ Fi) as (Lx & c & E & M).
    assert (MONO : forall l x z, tiles e fl D L R (Some Se) (Some (cu_spec_of t ex_low 32)) x l z -> (x <= z)%nat). { induction l as [|j l IH]; intros x0 z H; cbn [tiles] in H; [lia|]. destruct H as (<- & Fj & H). apply LK in Fj. apply IH in H. lia. }
    exists c. pose proof (MONO _ _ _ Ta). pose proof (MONO _ _ _ Tb). assert (s <= x)%nat. { unfold plus_at in Px. cbn [o_f] in Px. destruct (es_f (cu_spec_of t ex_low 43) s e fl) as [x'|] eqn:Fp; destruct Px as [-> _]; auto. apply (unit_slice _ _ _ _ _ _ _ UPl Fp). }
    split; [|cbn [In dec_chars] in M; lia]. rewrite <- (slice_app t s (it_from i) y), <- (slice_app t (it_from i) (it_to i) y) by lia. rewrite E, !in_app_iff. cbn [In]. auto.
Qed.
Definition run_phone (l : list Z) : outcome (bool * (nat * nat) * list Z) := run_p (plain_phone l) no_fl.
(** "+1 (23) 4-5 -6": the match ends before " -"; the value is "+1(23)45" *)
Example ex_phone : run_phone [43; 49; 32; 40; 50; 51; 41; 32; 52; 45; 53; 32; 45; 54; 0] = Ret (true, (0, 11)%nat, [43; 49; 40; 50; 51; 41; 52; 53]).
Proof. vm_compute. reflexivity. Qed.
(** "1(2]3": the parentheses do not match, so only "1" *)
Example ex_phone2 : run_phone [49; 40; 50; 93; 51; 0] = Ret (true, (0, 1)%nat, [49]).
Proof. vm_compute. reflexivity. Qed.
(** "(12)": no digit outside of the parentheses *)
Example ex_phone3 : run_phone [40; 49; 50; 41; 0] = Ret (false, (1, 0)%nat, []).
Proof. vm_compute. reflexivity. Qed.

(** ** Parsers without parentheses *)
(** C225 as stated: the parsers of parentheses may be null, as those of the plus sign, separators and spaces. *)
Definition phone_null_claim : Prop := forall t D Pl Se Sp, good t D -> advances t (es_f D) -> o_good t Pl -> o_good t Se -> o_good t Sp ->
  forall s e fl, text_ok t s e -> p_match (phone_p t (es_P D) (o_P Pl) None None (o_P Se) (o_P Sp)) (p_init (phone_p t (es_P D) (o_P Pl) None None (o_P Se) (o_P Sp))) s e fl <> UB.
(** False: do_match calls invalidate of both without a test. *)
Theorem phone_null_refuted : ~ phone_null_claim.
Proof.
  intros H. destruct (cu_good [49; 0] 49) as [G A]. assert (T : text_ok [49; 0] 0 1). { split; [lia|]. split; [cbn; lia|]. left. cbn. lia. }
  apply (H [49; 0] (cu_spec_of [49; 0] ex_low 49) None None None G A I I I 0%nat 1%nat no_fl T). reflexivity.
Qed.
(** With either missing, no match succeeds or fails: every one is undefined. *)
Theorem phone_null_partial : forall t D Pl Lp Rp Se Sp, Lp = None \/ Rp = None -> forall st s e fl, p_match (phone_p t D Pl Lp Rp Se Sp) st s e fl = UB.
Proof. intros t D Pl Lp Rp Se Sp H st s e fl. unfold phone_p. cbn [p_match]. destruct (kids st) as [|a [|b [|c [|d [|f [|g [|h r]]]]]]]; auto. destruct H as [-> | ->]; [|destruct Lp]; reflexivity. Qed.
