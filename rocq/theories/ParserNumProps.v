(** Property C64: the integer parsers. *)
From Coq Require Import ZifyBool ZifyNat.
From Verif Require Import Base StringModel StringSpec StringProofs ParserModel ParserSpec ParserProps ParserNumModel.
Ltac Zify.zify_post_hook ::= Z.div_mod_to_equations.

(** ** Specification *)
(** Digit parsers: a digit is never empty. *)
Definition advances (txt : list Z) (f : pfun) : Prop := forall s e fl x, text_ok txt s e -> f s e fl = Some x -> (s < x)%nat.
(** [ds] are the digits one reads from [s] to [y]: each time the first digit parser that matches. *)
Fixpoint digits_read (fs : list pfun) (ds : list nat) (s y e : nat) (fl : pflags) : Prop :=
  match ds with
  | [] => s = y
  | d :: r => exists x, branch_fn fs s e fl = Some x /\ first_fn fs s e fl = d /\ digits_read fs r x y e fl
  end.
(** the number written with the digits [ds] *)
Definition of_digits (base : Z) (ds : list nat) : Z := fold_left (fun v d => v * base + Z.of_nat d) ds 0.

Section Props.
Context (txt : list Z).
Local Notation text_ok := (text_ok txt).
Local Notation vis := (vis txt).
Local Notation element := (element txt).
Local Notation good := (good txt).

(** A parser whose result is determined by text, bounds and flags. *)
Lemma element_of : forall (P : pcls) (wf : pst -> Prop) (R : nat -> nat -> pflags -> option (nat * list Z) -> Prop),
  wf (p_init P) ->
  (forall st s e fl, wf st -> text_ok s e -> exists st' r, p_match P st s e fl = Ret (st', match r with Some _ => true | None => false end) /\ wf st' /\ R s e fl r /\
     match r with Some (x, v) => iv st' = (s, x) /\ vals st' = v /\ (s <= x <= s + length (vis s e))%nat | None => iv st' = (1, 0)%nat end) ->
  (forall s e fl r1 r2, text_ok s e -> R s e fl r1 -> R s e fl r2 -> r1 = r2) ->
  (forall st, wf st -> wf (p_inval P st) /\ iv (p_inval P st) = (1, 0)%nat) ->
  exists f g, element P wf f g /\ forall s e fl, text_ok s e -> R s e fl (option_map (fun x => (x, g s e fl)) (f s e fl)).
Proof.
  intros P wf R Hi Hm Hu Hv.
  set (f := fun s e fl => match p_match P (p_init P) s e fl with Ret (st, true) => Some (i_end st) | _ => None end).
  set (g := fun s e fl => match p_match P (p_init P) s e fl with Ret (st, true) => vals st | _ => [] end).
  assert (K : forall s e fl r, text_ok s e -> R s e fl r -> r = option_map (fun x => (x, g s e fl)) (f s e fl)).
  { intros s e fl r H Rr. destruct (Hm _ s e fl Hi H) as (st & r' & E & _ & R' & C). rewrite (Hu s e fl r r' H Rr R'). unfold f, g. rewrite E. destruct r' as [[x v]|]; cbn [option_map]; auto.
    destruct C as (C1 & C2 & _). injection C1 as _ C1. rewrite C1, C2. reflexivity. }
  exists f, g. split; [split; auto|].
  - intros st s e fl W H. destruct (Hm st s e fl W H) as (st' & r & E & W' & R' & C). pose proof (K s e fl r H R') as Er. destruct (f s e fl) as [x|]; cbn [option_map] in Er; subst r; exists st'; cbn [found]; (split; [exact E|]; split; [exact W'|]); tauto.
  - intros s e fl x H E. destruct (Hm _ s e fl Hi H) as (st' & r & _ & _ & R' & C). pose proof (K s e fl r H R') as Er. rewrite E in Er. cbn [option_map] in Er. subst r. tauto.
  - intros s e fl H. destruct (Hm _ s e fl Hi H) as (st' & r & _ & _ & R' & C). rewrite <- (K s e fl r H R'). exact R'.
Qed.

(** ** integer *)
Lemma digit_loop_spec : forall es ks d x e fl, Forall good es -> kids_ok es ks -> text_ok x e ->
  exists ks', digit_loop (map es_P es) ks d x e fl = Ret (ks', option_map (fun y => (d + first_fn (map es_f es) x e fl, y)%nat) (branch_fn (map es_f es) x e fl)) /\ kids_ok es ks'.
Proof.
  induction es as [|p es IH]; intros ks d x e fl G K H; inversion K as [|? k ? kr W Kr]; subst; cbn [map digit_loop branch_fn first_fn].
  - eexists. split; [reflexivity|constructor].
  - inversion G as [|? ? Gp Ge]; subst. destruct (el_match _ _ _ _ _ Gp k x e fl W H) as (k' & E & W' & R). rewrite E. cbn [obind]. destruct (es_f p x e fl) as [y|] eqn:F; cbn [found option_map].
    + destruct R as [R _]. injection R as _ R. rewrite R. eexists. split; [rewrite Nat.add_0_r; reflexivity|]. constructor; auto.
    + destruct (IH kr (S d) x e fl Ge Kr H) as (kr' & E' & K'). rewrite E'. cbn [obind]. eexists. split; [|constructor; eauto]. do 2 f_equal. destruct (branch_fn _ _ _ _); cbn [option_map]; auto. do 2 f_equal. lia.
Qed.
Lemma branch_within : forall es s e fl x, Forall good es -> Forall (fun p => advances txt (es_f p)) es -> text_ok s e -> branch_fn (map es_f es) s e fl = Some x -> (s < x <= s + length (vis s e))%nat.
Proof.
  induction es as [|p es IH]; intros s e fl x G A H E; cbn [map branch_fn] in E; [discriminate|]. inversion G; inversion A; subst. destruct (es_f p s e fl) as [y|] eqn:F; [|eapply IH; eauto].
  injection E as <-. pose proof (el_within _ _ _ _ _ H2 s e fl y H F). match goal with h : advances _ _ |- _ => specialize (h s e fl y H F) end. lia.
Qed.
Lemma value_step : forall base v d, u64 (u64 v * base + d) = u64 (v * base + d).
Proof. intros. unfold u64. rewrite (Z.add_mod (v mod M64 * base)), Z.mul_mod_idemp_l, <- Z.add_mod by lia. reflexivity. Qed.
Lemma int_loop_spec : forall fuel base es ks x v e fl, Forall good es -> Forall (fun p => advances txt (es_f p)) es -> kids_ok es ks -> text_ok x e -> (length (vis x e) < fuel)%nat ->
  exists ks' y ds, int_loop txt fuel base (map es_P es) ks x (u64 v) e fl = Ret (ks', y, u64 (fold_left (fun v d => v * base + Z.of_nat d) ds v)) /\ kids_ok es ks' /\
    digits_read (map es_f es) ds x y e fl /\ branch_fn (map es_f es) y e fl = None /\ (x <= y <= x + length (vis x e))%nat /\ (ds = [] <-> y = x).
Proof.
  induction fuel as [|fuel IH]; intros base es ks x v e fl G A K H L; [lia|]. cbn [int_loop]. rewrite (peek_spec txt x e H). cbn [obind]. destruct (vis x e) as [|c r] eqn:V; cbn [hd_error].
  - exists ks, x, []. cbn [fold_left digits_read length]. split; auto. split; auto. split; auto. split; [|split; [lia|tauto]]. destruct (branch_fn (map es_f es) x e fl) as [y|] eqn:B; auto. apply branch_within in B; auto. rewrite V in B. cbn [length] in B. lia.
  - destruct (digit_loop_spec es ks 0 x e fl G K H) as (ks1 & E & K1). rewrite E. cbn [obind]. destruct (branch_fn (map es_f es) x e fl) as [y|] eqn:B; cbn [option_map].
    + pose proof (branch_within es x e fl y G A H B) as Wy. destruct (vis_to txt x e y H ltac:(lia)) as [Hy Vy]. rewrite value_step.
      destruct (IH base es ks1 y (v * base + Z.of_nat (0 + first_fn (map es_f es) x e fl)) e fl G A K1 Hy) as (ks' & z & ds & E' & K' & D & S_ & W & N). { rewrite Vy, skipn_length. rewrite V in *. lia. }
      rewrite Vy, skipn_length in W. rewrite E'. exists ks', z, (first_fn (map es_f es) x e fl :: ds). cbn [fold_left]. split; auto. split; auto. cbn [digits_read]. split; [eauto|]. split; auto. rewrite V in *. split; [lia|]. split; [discriminate|lia].
    + exists ks1, x, []. cbn [fold_left digits_read]. split; auto. split; auto. split; auto. split; auto. split; [lia|tauto].
Qed.
Lemma digits_det : forall fs e fl ds ds' s y y', digits_read fs ds s y e fl -> branch_fn fs y e fl = None -> digits_read fs ds' s y' e fl -> branch_fn fs y' e fl = None -> ds = ds' /\ y = y'.
Proof.
  induction ds as [|d ds IH]; intros [|d' ds'] s y y' D N D' N'; cbn [digits_read] in *.
  - subst; auto.
  - destruct D' as (x & B & _). congruence.
  - destruct D as (x & B & _). congruence.
  - destruct D as (x & B & F & D), D' as (x' & B' & F' & D'). assert (x = x') by congruence. subst x'. destruct (IH ds' x y y' D N D' N') as [-> ->]. split; congruence.
Qed.
Definition int_wf (es : list espec) (st : pst) : Prop := (exists z, vals st = [z]) /\ kids_ok es (kids st).
(** An integer: the longest run of digits, and the number they make, modulo 2^64. *)
Theorem integer_spec : forall base es, Forall good es -> Forall (fun p => advances txt (es_f p)) es ->
  exists f g, element (integer txt base (map es_P es)) (int_wf es) f g /\ advances txt f /\
  forall s e fl, text_ok s e ->
   match f s e fl with
   | Some y => exists ds, ds <> [] /\ digits_read (map es_f es) ds s y e fl /\ branch_fn (map es_f es) y e fl = None /\ g s e fl = [of_digits base ds mod M64]
   | None => branch_fn (map es_f es) s e fl = None
   end.
Proof.
  intros base es G A.
  set (R := fun s e fl (r : option (nat * list Z)) => match r with
     | Some (y, v) => exists ds, ds <> [] /\ digits_read (map es_f es) ds s y e fl /\ branch_fn (map es_f es) y e fl = None /\ v = [of_digits base ds mod M64]
     | None => branch_fn (map es_f es) s e fl = None end).
  destruct (element_of (integer txt base (map es_P es)) (int_wf es) R) as (f & g & El & Sp).
  - split; [eexists; reflexivity|]. cbn [integer p_init kids new_pst]. clear -G. induction G; cbn [map]; constructor; auto. apply (el_init _ _ _ _ _ H).
  - intros st s e fl [_ W] H. cbn [integer p_match].
    destruct (int_loop_spec (S (e - s)) base es (kids st) s 0 e fl G A W H) as (ks' & y & ds & E & K & D & N & Wi & Z). { pose proof (vis_end txt s e H). lia. }
    change (u64 0) with 0 in E. rewrite E. cbn [obind]. destruct (s <? y)%nat eqn:Q.
    + exists (Pst s y [of_digits base ds mod M64] ks'), (Some (y, [of_digits base ds mod M64])). split; auto. split; [split; [eexists; reflexivity|auto]|]. split; [|repeat split; auto; lia]. exists ds. repeat split; auto. intros ->. destruct Z as [Z _]. specialize (Z eq_refl). lia.
    + assert (y = s) by lia. subst y. eexists; exists None. split; [reflexivity|]. split; [split; [eexists; reflexivity|auto]|]. split; [exact N|reflexivity].
  - intros s e fl [[y v]|] [[y' v']|] H R1 R2; cbn in R1, R2; auto.
    + destruct R1 as (ds & _ & D & N & ->), R2 as (ds' & _ & D' & N' & ->). destruct (digits_det _ _ _ _ _ _ _ _ D N D' N') as [-> ->]. reflexivity.
    + destruct R1 as (ds & Z & D & _). destruct ds as [|d ds]; [congruence|]. cbn [digits_read] in D. destruct D as (x & B & _). congruence.
    + destruct R2 as (ds & Z & D & _). destruct ds as [|d ds]; [congruence|]. cbn [digits_read] in D. destruct D as (x & B & _). congruence.
  - intros st [W1 W2]. split; [split; [eexists; reflexivity|exact W2]|reflexivity].
  - exists f, g. split; auto. split.
    + intros s e fl x H E. pose proof (Sp s e fl H) as Q. rewrite E in Q. cbn in Q. destruct Q as (ds & Z & D & _). destruct ds as [|d ds]; [congruence|]. cbn [digits_read] in D. destruct D as (x' & B & _ & D).
      pose proof (branch_within es s e fl x' G A H B) as W. pose proof (vis_to txt s e x' H ltac:(lia)) as [H' _].
      assert (M : forall ds x y, text_ok x e -> digits_read (map es_f es) ds x y e fl -> (x <= y)%nat). { clear -G A. induction ds as [|d ds IH]; intros x y H D; cbn [digits_read] in D; [lia|]. destruct D as (z & B & _ & D). pose proof (branch_within es x e fl z G A H B) as W. pose proof (vis_to txt x e z H ltac:(lia)) as [H' _]. specialize (IH z y H' D). lia. }
      specialize (M ds x' x H' D). lia.
    + intros s e fl H. specialize (Sp s e fl H). destruct (f s e fl); exact Sp.
Qed.
(** When no digit is there, value is 0. *)
Theorem integer_fail_zero : forall base es st s e fl st', Forall good es -> Forall (fun p => advances txt (es_f p)) es -> int_wf es st -> text_ok s e ->
  p_match (integer txt base (map es_P es)) st s e fl = Ret (st', false) -> vals st' = [0].
Proof.
  intros base es st s e fl st' G A [_ W] H E. cbn [integer p_match] in E.
  destruct (int_loop_spec (S (e - s)) base es (kids st) s 0 e fl G A W H) as (ks' & y & ds & E' & K & D & N & Wi & Z). { pose proof (vis_end txt s e H). lia. }
  change (u64 0) with 0 in E'. rewrite E' in E. cbn [obind] in E. destruct (s <? y)%nat eqn:Q; [discriminate|]. injection E as <-. assert (y = s) by lia. destruct Z as [_ Z]. rewrite (Z H0). reflexivity.
Qed.
End Props.
