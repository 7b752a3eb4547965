(** IPv4 addresses (property C65). *)
From Coq Require Import ZifyBool ZifyNat.
From Verif Require Import Base StringModel StringSpec StringProofs ParserModel ParserSpec ParserProps ParserNumModel ParserNumProps ParserPeg Bits MathModel MathProps ParserIpModel ParserIpSpec.
Ltac Zify.zify_post_hook ::= Z.div_mod_to_equations.

(** ** arrays of components *)
Lemma set_at_length : forall A i (x : A) l, length (set_at i x l) = length l.
Proof. intros A i x l. revert i. induction l; destruct i; cbn [set_at length]; auto. Qed.
Lemma set_at_mid : forall A (a : list A) x y r i, i = length a -> set_at i x (a ++ y :: r) = a ++ x :: r.
Proof. intros A a x y r i ->. induction a; cbn [app length set_at]; congruence. Qed.

Section Ip.
Context (txt : list Z).
Local Notation text_ok := (text_ok txt).
Local Notation vis := (vis txt).
Local Notation good := (good txt).

Lemma parses_of : forall P (wf : pst -> Prop) n F,
  wf (p_init P) -> (forall st, wf st -> wf (p_inval P st) /\ iv (p_inval P st) = no_iv) ->
  (forall st s e fl, wf st -> text_ok s e -> exists st', p_match P st s e fl = Ret (st', found (fst (fst (F s e fl)))) /\ wf st' /\ vals st' = snd (fst (F s e fl)) /\ firstn n (map iv (kids st')) = snd (F s e fl) /\
     iv st' = ivo s (fst (fst (F s e fl))) /\ (forall x, fst (fst (F s e fl)) = Some x -> in_vis txt s x e)) ->
  parses txt P wf n F.
Proof.
  intros P wf n F Hi Hv Hm. split; [split; auto|].
  - intros st s e fl W H. destruct (Hm st s e fl W H) as (st' & E & W' & V & _ & I & _). exists st'. split; auto. split; auto. destruct (fst (fst (F s e fl))); auto.
  - intros s e fl x H E. destruct (Hm _ s e fl Hi H) as (st' & _ & _ & _ & _ & _ & X). apply X; auto.
  - intros st s e fl W H. destruct (Hm st s e fl W H) as (st' & E & _ & V & K & _). exists st'. auto.
Qed.

(** ** a group *)
Section Group.
Context (es : list espec) (base max : Z) (G : Forall good es) (A : Forall (fun p => advances txt (es_f p)) es).
Context (Hb : 1 <= base) (Hm : 0 <= max) (Hw : max * base + Z.of_nat (length es) < M64).
Local Notation fs := (map es_f es).
(** what the loop computes *)
Fixpoint cap_fn (fuel : nat) (x : nat) (v : Z) (empty : bool) (e : nat) (fl : pflags) : nat * Z * bool :=
  match fuel with
  | O => (x, v, empty)
  | S n => match branch_fn fs x e fl with
           | Some y => let v' := v * base + Z.of_nat (first_fn fs x e fl) in if v' <=? max then cap_fn n y v' false e fl else (x, v, empty)
           | None => (x, v, empty) end
  end.
Lemma first_lt : forall l s e fl x, branch_fn l s e fl = Some x -> (first_fn l s e fl < length l)%nat.
Proof. clear. induction l as [|f l IH]; intros s e fl x B; cbn [branch_fn first_fn length] in *; [discriminate|]. destruct (f s e fl); [lia|]. specialize (IH s e fl x B). lia. Qed.
Lemma cap_loop_fn : forall fuel ks x v b e fl, kids_ok es ks -> text_ok x e -> (length (vis x e) < fuel)%nat -> 0 <= v <= max ->
  exists ks', cap_loop txt fuel base max (map es_P es) ks x v b e fl = (let '(y, w, b') := cap_fn fuel x v b e fl in Ret (ks', y, w, b')) /\ kids_ok es ks' /\
    let '(y, w, b') := cap_fn fuel x v b e fl in in_vis txt x y e /\ text_ok y e.
Proof.
  induction fuel as [|fuel IH]; intros ks x v b e fl K H L Hv; [lia|]. cbn [cap_loop cap_fn]. rewrite (peek_spec txt x e H). cbn [obind]. destruct (vis x e) as [|c r] eqn:V; cbn [hd_error].
  - exists ks. destruct (branch_fn fs x e fl) as [y|] eqn:B. { apply (branch_within txt) in B; auto. rewrite V in B. cbn [length] in B. lia. } split; auto. split; auto. split; auto. split; lia.
  - destruct (digit_loop_spec txt es ks 0 x e fl G K H) as (ks1 & E & K1). rewrite E. cbn [obind]. destruct (branch_fn fs x e fl) as [y|] eqn:B; cbn [option_map].
    2:{ exists ks1. split; auto. split; auto. split; auto. split; lia. }
    pose proof (branch_within txt es x e fl y G A H B) as Wy. destruct (vis_to txt x e y H ltac:(lia)) as [Hy Vy]. cbn [Nat.add]. cbv zeta.
    pose proof (first_lt fs x e fl y B) as Fl. rewrite map_length in Fl.
    assert (u64 (v * base + Z.of_nat (first_fn fs x e fl)) = v * base + Z.of_nat (first_fn fs x e fl)) as ->. { unfold u64. apply Z.mod_small. nia. }
    destruct (_ <=? max) eqn:Le.
    + destruct (IH ks1 y (v * base + Z.of_nat (first_fn fs x e fl)) false e fl K1 Hy) as (ks' & E' & K' & W'). { rewrite Vy, skipn_length. rewrite V in *. cbn [length] in *. lia. } { split; [nia|lia]. }
      exists ks'. split; auto. split; auto. destruct (cap_fn fuel y _ false e fl) as [[z w] b']. destruct W' as [W' Hz]. split; auto. apply (in_trans txt x y); auto. split; lia.
    + exists ks1. split; auto. split; auto. split; auto. split; lia.
Qed.
Lemma of_digits_snoc : forall ds d, of_digits base (ds ++ [d]) = of_digits base ds * base + Z.of_nat d.
Proof. clear. intros. unfold of_digits. rewrite fold_left_app. reflexivity. Qed.
Lemma of_digits_nonneg : forall ds, 0 <= of_digits base ds.
Proof. clear -Hb. induction ds as [|d ds IH] using rev_ind; [cbn; lia|]. rewrite of_digits_snoc. nia. Qed.
(** soundness: from a state in which [ds0] has been read *)
Lemma cap_fn_sound : forall fuel x e fl ds0, text_ok x e -> (length (vis x e) < fuel)%nat ->
  let '(y, w, b') := cap_fn fuel x (of_digits base ds0) (match ds0 with [] => true | _ => false end) e fl in
  of_digits base ds0 <= max -> exists ds, digits_read fs ds x y e fl /\ w = of_digits base (ds0 ++ ds) /\ w <= max /\ b' = (match ds0 ++ ds with [] => true | _ => false end) /\
    forall z, branch_fn fs y e fl = Some z -> max < of_digits base ((ds0 ++ ds) ++ [first_fn fs y e fl]).
Proof.
  induction fuel as [|fuel IH]; intros x e fl ds0 H L; [lia|]. cbn [cap_fn]. destruct (branch_fn fs x e fl) as [y|] eqn:B.
  - pose proof (branch_within txt es x e fl y G A H B) as Wy. destruct (vis_to txt x e y H ltac:(lia)) as [Hy Vy]. cbv zeta. rewrite <- of_digits_snoc. destruct (_ <=? max) eqn:Le.
    + specialize (IH y e fl (ds0 ++ [first_fn fs x e fl]) Hy). replace (match ds0 ++ [first_fn fs x e fl] with [] => true | _ => false end) with false in IH by (destruct ds0; reflexivity).
      destruct (cap_fn fuel y _ false e fl) as [[z w] b']. rewrite Vy, skipn_length in IH. specialize (IH ltac:(lia) ltac:(lia)). destruct IH as (ds & D & Ew & Lw & Eb & N). intros _. exists (first_fn fs x e fl :: ds). assert (Ea : (ds0 ++ [first_fn fs x e fl]) ++ ds = ds0 ++ first_fn fs x e fl :: ds) by (rewrite <- app_assoc; reflexivity). rewrite Ea in Ew, Eb, N. split; [cbn [digits_read]; eauto|]. auto.
    + intros Hm0. exists []. rewrite app_nil_r. split; [reflexivity|]. split; auto. split; auto. split; auto. intros z Ez. lia.
  - intros Hm0. exists []. rewrite app_nil_r. split; [reflexivity|]. split; auto. split; auto. split; auto. intros z Ez. congruence.
Qed.
Definition grp (x e : nat) (fl : pflags) : option (nat * Z) := let '(y, w, b) := cap_fn (S (e - x)) x 0 true e fl in if b then None else Some (y, w).
Lemma fuel_ok : forall x e, text_ok x e -> (length (vis x e) < S (e - x))%nat.
Proof. intros x e H. pose proof (vis_end txt x e H). lia. Qed.
(** two readings within the maximum: the longer one stops only beyond it *)
Lemma group_det : forall x e fl y v y' v', group fs base max e fl x y v -> group fs base max e fl x y' v' -> y = y' /\ v = v'.
Proof.
  assert (X : forall e fl ds ds' k x y y', digits_read fs ds x y e fl -> digits_read fs ds' x y' e fl -> ds' = ds ++ k -> of_digits base ds' <= max -> (forall z, branch_fn fs y e fl = Some z -> max < of_digits base (ds ++ [first_fn fs y e fl])) -> ds = ds' /\ y = y').
  { intros e fl ds ds' k x y y' D D' Ek Hv N. destruct k as [|d k].
    - rewrite app_nil_r in Ek. subst ds'. split; auto. clear - D D'. revert x D D'. induction ds as [|d ds IH]; intros x D D'; cbn [digits_read] in *; [congruence|]. destruct D as (z & B & _ & D), D' as (z' & B' & _ & D'). assert (z = z') by congruence. subst z'. eauto.
    - exfalso. subst ds'. assert (exists z, branch_fn fs y e fl = Some z /\ first_fn fs y e fl = d) as (z & B & F). { clear - D D'. revert x D D'. induction ds as [|c ds IH]; intros x D D'; cbn [digits_read app] in *; [subst; destruct D' as (z & B & F & _); eauto|]. destruct D as (z & B & _ & D), D' as (z' & B' & _ & D'). assert (z = z') by congruence. subst z'. eauto. }
      specialize (N z B). rewrite F in N. assert (Mono : forall l l2, of_digits base l <= of_digits base (l ++ l2)). { clear -Hb. intros l l2. induction l2 as [|d l2 IH] using rev_ind; [rewrite app_nil_r; lia|]. rewrite app_assoc, of_digits_snoc. pose proof (of_digits_nonneg (l ++ l2)). nia. }
      pose proof (Mono (ds ++ [d]) k) as M1. rewrite <- app_assoc in M1. cbn [app] in M1. lia. }
  intros x e fl y v y' v' (ds & Z & D & -> & Lv & N) (ds' & Z' & D' & -> & Lv' & N').
  assert (C : (exists k, ds' = ds ++ k) \/ exists k, ds = ds' ++ k). { clear - D D'. revert ds' x D D'. induction ds as [|d ds IH]; intros ds' x D D'; [left; exists ds'; reflexivity|]. destruct ds' as [|d' ds']; [right; eexists; reflexivity|]. cbn [digits_read] in *. destruct D as (z & B & F & D), D' as (z' & B' & F' & D'). assert (z = z') by congruence. subst z'. destruct (IH ds' z D D') as [(k & ->)|(k & ->)]; [left|right]; exists k; cbn [app]; congruence. }
  destruct C as [(k & Ek)|(k & Ek)].
  - destruct (X e fl ds ds' k x y y' D D' Ek Lv' N) as [-> ->]. auto.
  - destruct (X e fl ds' ds k x y' y D' D Ek Lv N') as [-> ->]. auto.
Qed.
Lemma grp_spec : forall x e fl, text_ok x e -> match grp x e fl with Some (y, v) => group fs base max e fl x y v | None => branch_fn fs x e fl = None \/ (exists z, branch_fn fs x e fl = Some z) /\ max < Z.of_nat (first_fn fs x e fl) end.
Proof.
  intros x e fl H. unfold grp. pose proof (cap_fn_sound (S (e - x)) x e fl [] H (fuel_ok x e H)) as S_. change (of_digits base []) with 0 in S_. destruct (cap_fn (S (e - x)) x 0 true e fl) as [[y w] b]. destruct (S_ Hm) as (ds & D & Ew & Lw & Eb & N). cbn [app] in *. destruct ds as [|d ds]; rewrite Eb.
  - cbn [digits_read] in D. subst y. destruct (branch_fn fs x e fl) as [z|] eqn:B; auto. right. split; [eauto|exact (N z eq_refl)].
  - exists (d :: ds). split; [discriminate|]. auto.
Qed.
Context (Hd : Z.of_nat (length es) <= max + 1).
Lemma grp_iff : forall x e fl, text_ok x e -> (forall y v, grp x e fl = Some (y, v) <-> group fs base max e fl x y v) /\ (grp x e fl = None <-> branch_fn fs x e fl = None).
Proof.
  intros x e fl H. pose proof (grp_spec x e fl H) as S_. destruct (grp x e fl) as [[y v]|].
  - split.
    + intros y' v'. split; [intros Eq; injection Eq as <- <-; auto|]. intros S'. destruct (group_det x e fl y v y' v' S_ S') as [-> ->]. reflexivity.
    + split; [discriminate|]. intros B. destruct S_ as ([|d ds] & Z & D & _); [congruence|]. cbn [digits_read] in D. destruct D as (z & B' & _). congruence.
  - assert (B : branch_fn fs x e fl = None). { destruct S_ as [|[(z & B) L]]; auto. pose proof (first_lt fs x e fl z B) as Fl. rewrite map_length in Fl. lia. }
    split; [|tauto]. intros y v. split; [discriminate|]. intros ([|d ds] & Z & D & _); [congruence|]. cbn [digits_read] in D. destruct D as (z & B' & _). congruence.
Qed.
Lemma cap_loop_spec : forall ks x e fl, kids_ok es ks -> text_ok x e -> exists ks' y w b, cap_loop txt (S (e - x)) base max (map es_P es) ks x 0 true e fl = Ret (ks', y, w, b) /\ kids_ok es ks' /\
  match grp x e fl with Some (y', v) => y = y' /\ w = v /\ b = false /\ in_vis txt x y e /\ text_ok y e | None => b = true /\ y = x end.
Proof.
  intros ks x e fl K H. destruct (cap_loop_fn (S (e - x)) ks x 0 true e fl K H (fuel_ok x e H) ltac:(lia)) as (ks' & E & K' & W). pose proof (cap_fn_sound (S (e - x)) x e fl [] H (fuel_ok x e H)) as S_. change (of_digits base []) with 0 in S_. unfold grp. destruct (cap_fn (S (e - x)) x 0 true e fl) as [[y w] b]. exists ks', y, w, b. split; auto. split; auto. destruct W as [W1 W2]. destruct b; auto. split; auto.
  destruct (S_ Hm) as (ds & D & _ & _ & Eb & _). cbn [app] in Eb. destruct ds; [cbn in D; auto|discriminate].
Qed.
End Group.

(** ** four groups *)
Section Rows.
Context (es : list espec) (sp : espec) (base max : Z) (G : Forall good es) (A : Forall (fun p => advances txt (es_f p)) es) (Gs : good sp).
Context (Hb : 1 <= base) (Hm : 0 <= max) (Hw : max * base + Z.of_nat (length es) < M64) (Hd : Z.of_nat (length es) <= max + 1).
Local Notation fs := (map es_f es).
Local Notation grp := (grp es base max).
Lemma init_kids : kids_ok es (map p_init (map es_P es)).
Proof. clear -G. revert G. induction es as [|p l IH]; intros G; cbn [map]; [constructor|]. inversion G; subst. constructor; [apply (ini_p txt); auto|apply IH; auto]. Qed.
Lemma grp_ok : forall x e fl y v, text_ok x e -> grp x e fl = Some (y, v) -> text_ok y e /\ in_vis txt x y e /\ 0 <= v <= max.
Proof.
  intros x e fl y v H E. destruct (cap_loop_spec es base max G A Hb Hm Hw _ x e fl init_kids H) as (ks' & y' & w & b & _ & _ & C). rewrite E in C. destruct C as (-> & -> & _ & W & T). split; auto. split; auto.
  pose proof (grp_spec es base max G A Hm x e fl H) as S_. rewrite E in S_. destruct S_ as (ds & _ & _ & -> & L & _). split; auto. apply of_digits_nonneg; auto.
Qed.
Lemma sep_ok : forall x e fl y, text_ok x e -> es_f sp x e fl = Some y -> text_ok y e /\ in_vis txt x y e.
Proof. intros x e fl y H E. pose proof (el_within _ _ _ _ _ Gs x e fl y H E) as W. destruct (vis_to txt x e y H W) as [T _]. split; auto. Qed.
Fixpoint row_fn (n : nat) (first : bool) (x e : nat) (fl : pflags) : option (nat * list (nat * nat * Z)) :=
  match n with
  | O => Some (x, [])
  | S m => match (if first then Some x else es_f sp x e fl) with
           | None => None
           | Some x1 => match grp x1 e fl with
                        | None => None
                        | Some (y, v) => match row_fn m false y e fl with Some (z, gs) => Some (z, (x1, y, v) :: gs) | None => None end
                        end
           end
  end.
Lemma row_fn_iff : forall n x e fl y gs, text_ok x e ->
  (row_fn (S n) true x e fl = Some (y, gs) <-> length gs = S n /\ row fs (es_f sp) base max e fl gs x y) /\
  (row_fn (S n) false x e fl = Some (y, gs) <-> length gs = S n /\ exists x1, es_f sp x e fl = Some x1 /\ row fs (es_f sp) base max e fl gs x1 y).
Proof.
  assert (Main : forall n x e fl y gs, text_ok x e -> (forall x0 y0 gs0, text_ok x0 e -> row_fn n false x0 e fl = Some (y0, gs0) <-> length gs0 = n /\ (match gs0 with [] => x0 = y0 | _ => exists x1, es_f sp x0 e fl = Some x1 /\ row fs (es_f sp) base max e fl gs0 x1 y0 end)) ->
     row_fn (S n) true x e fl = Some (y, gs) <-> length gs = S n /\ row fs (es_f sp) base max e fl gs x y).
  { intros n x e fl y gs H IH. cbn [row_fn]. destruct (grp_iff es base max G A Hb Hm Hd x e fl H) as [GI GN]. split.
    - intros E. destruct (grp x e fl) as [[b v]|] eqn:Eg; [|discriminate]. destruct (row_fn n false b e fl) as [[z l]|] eqn:Er; [|discriminate]. injection E as -> <-. destruct (grp_ok x e fl b v H Eg) as (Hy & _). apply (IH b y l Hy) in Er as [L R]. cbn [length row]. split; [lia|]. split; auto. split; [apply GI; auto|]. destruct l; auto.
    - intros [L R]. destruct gs as [|[[a b] v] l]; [discriminate|]. cbn [length row] in *. destruct R as (-> & Gr & R). apply GI in Gr. rewrite Gr. destruct (grp_ok x e fl b v H Gr) as (Hy & _). assert (Er : row_fn n false b e fl = Some (y, l)). { apply IH; [exact Hy|]. split; [lia|]. destruct l; exact R. } rewrite Er. reflexivity. }
  assert (All : forall n x e fl y gs, text_ok x e -> row_fn n false x e fl = Some (y, gs) <-> length gs = n /\ (match gs with [] => x = y | _ => exists x1, es_f sp x e fl = Some x1 /\ row fs (es_f sp) base max e fl gs x1 y end)).
  { induction n as [|n IH]; intros x e fl y gs H.
    - cbn [row_fn]. split; [intros Eq; injection Eq as -> <-; auto|]. intros [L R]. destruct gs; [subst; auto|discriminate].
    - change (row_fn (S n) false x e fl) with (match es_f sp x e fl with None => None | Some x1 => row_fn (S n) true x1 e fl end). destruct (es_f sp x e fl) as [x1|] eqn:Es.
      + destruct (sep_ok x e fl x1 H Es) as [H1 _]. rewrite (Main n x1 e fl y gs H1). 2:{ intros x0 y0 gs0 H0. apply IH; auto. } split; intros [L R]; (split; auto); destruct gs; try discriminate; [exists x1; auto|destruct R as (x2 & E2 & R); congruence].
      + split; [discriminate|]. intros [L R]. destruct gs; [discriminate|]. destruct R as (x2 & E2 & _). congruence. }
  intros n x e fl y gs H. split; [apply Main; auto|]. rewrite All by auto. split; intros [L R]; (split; auto); destruct gs; try discriminate; auto.
Qed.
Lemma row_fn_ok : forall n first x e fl y gs, text_ok x e -> row_fn n first x e fl = Some (y, gs) -> text_ok y e /\ in_vis txt x y e /\ length gs = n /\ Forall (fun g => 0 <= g_val g <= max) gs.
Proof.
  induction n as [|n IH]; intros first x e fl y gs H E; cbn [row_fn] in E.
  - injection E as <- <-. split; auto. split; [split; lia|]. split; auto.
  - assert (X : exists x1, (if first then Some x else es_f sp x e fl) = Some x1 /\ text_ok x1 e /\ in_vis txt x x1 e). { destruct first; [exists x; split; auto; split; auto; split; lia|]. destruct (es_f sp x e fl) as [x1|] eqn:Es; [|discriminate]. exists x1. split; auto. apply (sep_ok x e fl); auto. }
    destruct X as (x1 & Ex & H1 & W1). rewrite Ex in E. destruct (grp x1 e fl) as [[b v]|] eqn:Eg; [|discriminate]. destruct (grp_ok x1 e fl b v H1 Eg) as (H2 & W2 & V2). destruct (row_fn n false b e fl) as [[z l]|] eqn:Er; [|discriminate]. injection E as -> <-. destruct (IH false b e fl y l H2 Er) as (H3 & W3 & L3 & F3).
    split; auto. split; [apply (in_trans txt x x1); auto; apply (in_trans txt x1 b); auto|]. cbn [length]. split; [lia|]. constructor; auto.
Qed.
End Rows.
Definition comps (gs : list (nat * nat * Z)) : list pst := map (fun g => component (fst (fst g)) (snd (fst g))) gs.
Lemma comps_iv : forall gs, map iv (comps gs) = map g_iv gs.
Proof. intros. unfold comps. rewrite map_map. apply map_ext. intros [[a b] v]. reflexivity. Qed.
Definition add4 (v w : Z) : Z := Z.lor (u32 (Z.shiftl v 8)) (u8 w).
Section Ip4.
Context (es : list espec) (sp : espec) (G : Forall good es) (A : Forall (fun p => advances txt (es_f p)) es) (Gs : good sp) (L10 : length es = 10%nat).
Local Notation row4 := (row_fn es sp 10 255).
Lemma bounds4 : 1 <= 10 /\ 0 <= 255 /\ 255 * 10 + Z.of_nat (length es) < M64 /\ Z.of_nat (length es) <= 255 + 1.
Proof. rewrite L10. lia. Qed.
Lemma ip4_loop_spec : forall n i done rest kp ks x v e fl, kids_ok es ks -> es_wf sp kp -> text_ok x e -> length done = i -> length rest = n ->
  exists cs kp' ks', ip4_loop txt n i (es_P sp) (map es_P es) (done ++ rest) kp ks x v e fl = Ret (cs, kp', ks', match row4 n (i =? 0)%nat x e fl with Some (y, gs) => Some (y, fold_left add4 (map g_val gs) v) | None => None end) /\
    es_wf sp kp' /\ kids_ok es ks' /\ match row4 n (i =? 0)%nat x e fl with Some (y, gs) => cs = done ++ comps gs | None => True end.
Proof.
  destruct bounds4 as (B1 & B2 & B3 & B4).
  induction n as [|n IH]; intros i done rest kp ks x v e fl K W H Ld Lr; cbn [ip4_loop row_fn].
  - exists (done ++ rest), kp, ks. destruct rest; [|discriminate]. cbn [map fold_left comps]. auto.
  - destruct rest as [|c0 rest]; [discriminate|]. cbn [length] in Lr.
    assert (Part : forall kp1 x1, es_wf sp kp1 -> text_ok x1 e -> exists cs kp' ks',
      (let* (ks', y, w, empty) := cap_loop txt (S (e - x1)) 10 255 (map es_P es) ks x1 0 true e fl in
       if empty then Ret (done ++ c0 :: rest, kp1, ks', None) else ip4_loop txt n (S i) (es_P sp) (map es_P es) (set_at i (component x1 y) (done ++ c0 :: rest)) kp1 ks' y (Z.lor (u32 (Z.shiftl v 8)) (u8 w)) e fl)
      = Ret (cs, kp', ks', match match grp es 10 255 x1 e fl with None => None | Some (y, v0) => match row4 n false y e fl with Some (z, gs) => Some (z, (x1, y, v0) :: gs) | None => None end end with Some (y, gs) => Some (y, fold_left add4 (map g_val gs) v) | None => None end) /\
      es_wf sp kp' /\ kids_ok es ks' /\ match match grp es 10 255 x1 e fl with None => None | Some (y, v0) => match row4 n false y e fl with Some (z, gs) => Some (z, (x1, y, v0) :: gs) | None => None end end with Some (y, gs) => cs = done ++ comps gs | None => True end).
    { intros kp1 x1 W1 H1. destruct (cap_loop_spec es 10 255 G A B1 B2 B3 ks x1 e fl K H1) as (ks' & y & w & b & E & K' & C). rewrite E. cbn [obind]. destruct (grp es 10 255 x1 e fl) as [[y' v']|].
      - destruct C as (-> & -> & -> & _ & Hy). rewrite set_at_mid by auto. replace (done ++ component x1 y' :: rest) with ((done ++ [component x1 y']) ++ rest) by (rewrite <- app_assoc; reflexivity).
        destruct (IH (S i) (done ++ [component x1 y']) rest kp1 ks' y' (Z.lor (u32 (Z.shiftl v 8)) (u8 v')) e fl K' W1 Hy) as (cs & kp' & ks2 & E2 & W2 & K2 & C2); [rewrite app_length; cbn [length]; lia|lia|]. change (S i =? 0)%nat with false in *. exists cs, kp', ks2. rewrite E2. destruct (row4 n false y' e fl) as [[z gs]|]; auto. split; auto. split; auto. split; auto. rewrite C2, <- app_assoc. reflexivity.
      - destruct C as [-> _]. do 3 eexists. split; [reflexivity|]. auto. }
    destruct (i =? 0)%nat; [apply Part; auto|].
    destruct (ran_p txt sp kp x e fl Gs W H) as (kp' & -> & W' & R). cbn [obind]. destruct (es_f sp x e fl) as [x1|]; cbn [found].
    + destruct R as (_ & -> & H1 & _). apply Part; auto.
    + do 3 eexists. split; [reflexivity|]. auto.
Qed.
Lemma add4_value : forall v w, 0 <= w <= 255 -> add4 v w = (v * 256 + w) mod M32.
Proof.
  intros v w Hw. unfold add4, u32, u8. rewrite Z.shiftl_mul_pow2 by lia. change (2 ^ 8) with 256. rewrite (Z.mod_small w) by lia. rewrite (Z.mul_comm v 256). change M32 with (256 * 16777216). rewrite Zmult_mod_distr_l. rewrite Z.mul_comm.
  assert (X : forall a, Z.lor (a * 256) w = a * 256 + w) by (intros a; change 256 with (2 ^ 8); apply lor_add; lia).
  rewrite X. set (k := v / 16777216). assert (v = 16777216 * k + v mod 16777216) by (unfold k; lia). lia.
Qed.
Lemma ip4_bytes : forall gs, length gs = 4%nat -> Forall (fun g => 0 <= g_val g <= 255) gs -> le_bytes 4 (byteswap32 (fold_left add4 (map g_val gs) 0)) = map g_val gs.
Proof.
  intros gs L F. destruct gs as [|[[? ?] a] [|[[? ?] b] [|[[? ?] c] [|[[? ?] d] [|? ?]]]]]; try discriminate. inversion F as [|? ? Fa F1]; subst. inversion F1 as [|? ? Fb F2]; subst. inversion F2 as [|? ? Fc F3]; subst. inversion F3 as [|? ? Fd _]; subst. cbn [g_val snd map fold_left] in *. clear F F1 F2 F3 L.
  rewrite !add4_value by lia.
  match goal with |- context [byteswap32 ?t] => assert (E : t = ((a * 256 + b) * 256 + c) * 256 + d) by lia; rewrite E end. clear E.
  destruct (byteswap_reverses (((a * 256 + b) * 256 + c) * 256 + d)) as (_ & X & _). rewrite X by lia. cbn [le_bytes rev app]. repeat (f_equal; try lia).
Qed.
(** The IPv4 parser: matches from [s] to [y] exactly when four groups with three separators lie there; the value's bytes in
    memory (network order) are the numbers of the groups; the components are their intervals.  Otherwise all is cleared. *)
Definition ip4_wf (st : pst) : Prop := exists cs kp ks, kids st = cs ++ kp :: ks /\ length cs = 4%nat /\ es_wf sp kp /\ kids_ok es ks.
Theorem ipv4_spec : exists F, parses txt (ipv4_address txt (map es_P es) (es_P sp)) ip4_wf 4 F /\
  forall s e fl, text_ok s e ->
   (forall y gs, ipv4_at (map es_f es) (es_f sp) 10 255 e fl gs s y -> exists v, F s e fl = (Some y, [v], map g_iv gs) /\ le_bytes 4 v = map g_val gs) /\
   ((forall y gs, ~ ipv4_at (map es_f es) (es_f sp) 10 255 e fl gs s y) -> F s e fl = (None, [0], repeat no_iv 4)).
Proof.
  destruct bounds4 as (B1 & B2 & B3 & B4).
  set (F := fun s e fl => match row4 4 true s e fl with Some (y, gs) => (Some y, [byteswap32 (fold_left add4 (map g_val gs) 0)], map g_iv gs) | None => (None, [0], repeat no_iv 4) end).
  exists F. split.
  - apply parses_of.
    + exists (repeat no_component 4), (p_init (es_P sp)), (map p_init (map es_P es)). split; [reflexivity|]. split; auto. split; [apply (el_init _ _ _ _ _ Gs)|apply init_kids; auto].
    + intros st (cs & kp & ks & E & L & W & K). split; [|reflexivity]. exists (repeat no_component 4), kp, ks. cbn [ipv4_address p_inval kids]. rewrite E, skipn_app, skipn_all2, L by lia. auto.
    + intros st s e fl (cs & kp & ks & E & L & W & K) H. cbn [ipv4_address p_match]. rewrite E, skipn_app, skipn_all2, L, firstn_app, L, firstn_all2 by lia. cbn [Nat.sub skipn firstn app]. rewrite app_nil_r.
      destruct (ip4_loop_spec 4 0 [] cs kp ks s 0 e fl K W H eq_refl L) as (cs' & kp' & ks' & E' & W' & K' & C'). cbn [app] in E'. rewrite E'. cbn [obind]. unfold F. change (0 =? 0)%nat with true in *. destruct (row4 4 true s e fl) as [[y gs]|] eqn:R; cbn [fst snd found ivo].
      * destruct (row_fn_ok es sp 10 255 G A Gs B1 B2 B3 4 true s e fl y gs H R) as (_ & Wy & Lg & _). cbn [app] in C'. subst cs'. eexists. split; [reflexivity|]. assert (Lc : length (comps gs) = 4%nat) by (unfold comps; rewrite map_length; auto). split; [exists (comps gs), kp', ks'; auto|]. split; auto. split; [|split; auto; intros x Ex; injection Ex as <-; auto]. clear - Lg. destruct gs as [|[[? ?] ?] [|[[? ?] ?] [|[[? ?] ?] [|[[? ?] ?] [|? ?]]]]]; try discriminate Lg. reflexivity.
      * eexists. split; [reflexivity|]. split; [exists (repeat no_component 4), kp', ks'; auto|]. split; auto. split; auto. split; auto. discriminate.
  - intros s e fl H. pose proof (fun y gs => proj1 (row_fn_iff es sp 10 255 G A Gs B1 B2 B3 B4 3 s e fl y gs H)) as I. split.
    + intros y gs D. apply I in D. unfold F. rewrite D. eexists. split; [reflexivity|]. destruct (row_fn_ok es sp 10 255 G A Gs B1 B2 B3 4 true s e fl y gs H D) as (_ & _ & Lg & Fg). apply ip4_bytes; auto.
    + intros N. unfold F. destruct (row4 4 true s e fl) as [[y gs]|] eqn:R; auto. exfalso. apply (N y gs). apply I. reflexivity.
Qed.
End Ip4.
End Ip.
