(** Property C64, thousand separators: basic_integer10ts. *)
From Coq Require Import ZifyBool ZifyNat.
From Verif Require Import Base StringModel StringSpec StringProofs ParserModel ParserSpec ParserProps ParserNumModel ParserNumProps ParserInt.
Ltac Zify.zify_post_hook ::= Z.div_mod_to_equations.

Section Ts.
Context (txt : list Z) (D S_ : pcls) (wd ws : pst -> Prop) (fd fs : pfun) (gd gs : nat -> nat -> pflags -> list Z).
Context (HD : element txt D wd fd gd) (HS : element txt S_ ws fs gs) (Had : advances txt fd).
Local Notation text_ok := (text_ok txt).
Local Notation vis := (vis txt).
(** the value of the digits at a place, and which separator is there *)
Definition num_at (s e : nat) (fl : pflags) : Z := nth 0 (gd s e fl) 0.
Definition sep_at (s e : nat) (fl : pflags) : Z := nth 0 (gs s e fl) 0.
Context (Hnum : forall s e fl x, text_ok s e -> fd s e fl = Some x -> 0 <= num_at s e fl < M64).
(** a separator, the same as [hit] unless that is -1, and exactly three digits *)
Definition group (hit : Z) (s p q e : nat) (fl : pflags) : Prop :=
  fs s e fl = Some p /\ (hit = -1 \/ hit = sep_at s e fl) /\ fd p e fl = Some q /\ q = (p + 3)%nat.
(** such groups one after another, with the values [vs]; [h'] is the separator after the last *)
Fixpoint groups (hit : Z) (vs : list Z) (s y : nat) (h' : Z) (e : nat) (fl : pflags) : Prop :=
  match vs with
  | [] => s = y /\ h' = hit
  | v :: r => exists p q, group hit s p q e fl /\ v = num_at p e fl /\ groups (sep_at s e fl) r q y h' e fl
  end.
Lemma isize_iv : forall k s x, iv k = (s, x) -> (s <= x)%nat -> isize k = (x - s)%nat.
Proof. intros k s x H L. injection H as H1 H2. unfold isize. rewrite H1, H2. replace (s <=? x)%nat with true by lia. reflexivity. Qed.
Lemma ts_loop_spec : forall fuel kd ks x v cnt has hit e fl, wd kd -> ws ks -> text_ok x e -> (length (vis x e) < fuel)%nat ->
  exists kd' ks' y vs h', ts_loop fuel D S_ kd ks x (u64 v) (u64 cnt) has hit e fl =
      Ret (kd', ks', y, [u64 (fold_left (fun v w => v * 1000 + w) vs v); u64 (cnt + 3 * Z.of_nat (length vs)); match vs with [] => has | _ => 1 end]) /\
    wd kd' /\ ws ks' /\ groups hit vs x y h' e fl /\ (~ exists p q, group h' y p q e fl) /\ (x <= y <= x + length (vis x e))%nat.
Proof.
  induction fuel as [|fuel IH]; intros kd ks x v cnt has hit e fl Wd Ws H L; [lia|]. cbn [ts_loop].
  destruct (el_match _ _ _ _ _ HS ks x e fl Ws H) as (ks1 & Es & Ws1 & Rs). rewrite Es. cbn [obind].
  assert (Stop : forall kd' ks', wd kd' -> ws ks' -> (~ exists p q, group hit x p q e fl) -> exists kd'0 ks'0 y vs h',
    Ret (kd', ks', x, [u64 v; u64 cnt; has]) = Ret (kd'0, ks'0, y, [u64 (fold_left (fun v w => v * 1000 + w) vs v); u64 (cnt + 3 * Z.of_nat (length vs)); match vs with [] => has | _ => 1 end]) /\
    wd kd'0 /\ ws ks'0 /\ groups hit vs x y h' e fl /\ (~ exists p q, group h' y p q e fl) /\ (x <= y <= x + length (vis x e))%nat).
  { intros kd' ks' W1 W2 N. exists kd', ks', x, [], hit. cbn [fold_left length groups]. replace (cnt + 3 * Z.of_nat 0) with cnt by lia. repeat split; auto; lia. }
  destruct (fs x e fl) as [p|] eqn:Fs; cbn [found negb]. 2:{ apply Stop; auto. intros (p & q & G1 & _). congruence. }
  destruct Rs as [Rs Vs]. assert (Ep : i_end ks1 = p) by (injection Rs as _ Rs; exact Rs). unfold the_val at 1. rewrite Vs. fold (sep_at x e fl).
  destruct ((hit =? -1) || (hit =? sep_at x e fl)) eqn:Q; cbn [negb]. 2:{ apply Stop; auto. intros (p' & q & _ & G2 & _). lia. }
  rewrite Ep. pose proof (el_within _ _ _ _ _ HS x e fl p H Fs) as Wp. destruct (vis_to txt x e p H Wp) as [Hp Vp].
  destruct (el_match _ _ _ _ _ HD kd p e fl Wd Hp) as (kd1 & Ed & Wd1 & Rd). rewrite Ed. cbn [obind]. destruct (fd p e fl) as [q|] eqn:Fd; cbn [found negb orb]. 2:{ apply Stop; auto. intros (p' & q & G1 & _ & G3 & _). congruence. }
  destruct Rd as [Rd Vd]. pose proof (el_within _ _ _ _ _ HD p e fl q Hp Fd) as Wq. rewrite (isize_iv kd1 p q Rd) by lia. destruct (q - p =? 3)%nat eqn:Q3; cbn [negb].
  2:{ apply Stop; auto. intros (p' & q' & G1 & _ & G3 & G4). assert (p' = p) by congruence. subst p'. assert (q' = q) by congruence. lia. }
  assert (Eq : i_end kd1 = q) by (injection Rd as _ Rd; exact Rd). rewrite Eq. unfold the_val. rewrite Vd, Vs. fold (num_at p e fl) (sep_at x e fl). pose proof (Hnum p e fl q Hp Fd) as Hn.
  destruct (vis_to txt p e q Hp Wq) as [Hq Vq]. rewrite value_step. replace (u64 (u64 cnt + 3)) with (u64 (cnt + 3)) by (unfold u64; rewrite Zplus_mod_idemp_l; reflexivity).
  destruct (IH kd1 ks1 q (v * 1000 + num_at p e fl) (cnt + 3) 1 (sep_at x e fl) e fl Wd1 Ws1 Hq) as (kd' & ks' & y & vs & h' & E & W1 & W2 & G & N & Wy). { rewrite Vq, skipn_length, Vp, skipn_length. rewrite Vp, skipn_length in Wq. lia. }
  rewrite E. exists kd', ks', y, (num_at p e fl :: vs), h'. cbn [fold_left length groups]. split.
  { replace (cnt + 3 + 3 * Z.of_nat (length vs)) with (cnt + 3 * Z.of_nat (S (length vs))) by lia. destruct vs; reflexivity. }
  split; auto. split; auto. split; [|split; auto].
  - exists p, q. split; auto. split; auto. split; [lia|]. split; auto. lia.
  - rewrite Vq, skipn_length, Vp, skipn_length in Wy. rewrite Vp, skipn_length in Wq. lia.
Qed.
Lemma groups_det : forall e fl vs vs' hit s y y' h h', groups hit vs s y h e fl -> (~ exists p q, group h y p q e fl) -> groups hit vs' s y' h' e fl -> (~ exists p q, group h' y' p q e fl) -> vs = vs' /\ y = y'.
Proof.
  induction vs as [|v vs IH]; intros [|v' vs'] hit s y y' h h' G N G' N'; cbn [groups] in *.
  - destruct G, G'. subst. auto.
  - destruct G as [-> ->]. destruct G' as (p & q & G' & _). exfalso. apply N. eauto.
  - destruct G' as [-> ->]. destruct G as (p & q & G & _). exfalso. apply N'. eauto.
  - destruct G as (p & q & (G1 & G2 & G3 & G4) & -> & G), G' as (p' & q' & (G1' & G2' & G3' & G4') & -> & G'). assert (p' = p) by congruence. subst p'. subst q q'.
    destruct (IH vs' _ _ y y' h h' G N G' N') as [-> ->]. auto.
Qed.
Lemma groups_len : forall e fl vs hit s y h, text_ok s e -> groups hit vs s y h e fl -> (s + 3 * length vs <= y)%nat.
Proof.
  induction vs as [|v vs IH]; intros hit s y h H G; cbn [groups length] in *; [lia|]. destruct G as (p & q & (G1 & _ & G3 & G4) & _ & G).
  pose proof (el_within _ _ _ _ _ HS s e fl p H G1) as W1. destruct (vis_to txt s e p H W1) as [Hp _]. pose proof (el_within _ _ _ _ _ HD p e fl q Hp G3) as W2. destruct (vis_to txt p e q Hp W2) as [Hq _]. specialize (IH _ q y h Hq G). lia.
Qed.
Definition ts_wf (st : pst) : Prop := (exists a b c, vals st = [a; b; c]) /\ exists kd ks, kids st = [kd; ks] /\ wd kd /\ ws ks.
(** An integer with optional thousand separators: a run of digits; when it has at most three, as many further groups (the same
    separator and exactly three digits) as there are.  value, digit_count and has_separators tell about all of it. *)
Theorem integer10ts_spec : Z.of_nat (length txt) < M64 -> exists f g, element txt (integer10ts D S_) ts_wf f g /\ forall s e fl, text_ok s e ->
  match f s e fl with
  | Some y => exists x vs, fd s e fl = Some x /\
      ((x <= s + 3)%nat /\ (exists h, groups (-1) vs x y h e fl /\ ~ exists p q, group h y p q e fl) \/ (x > s + 3)%nat /\ vs = [] /\ y = x) /\
      g s e fl = [fold_left (fun v w => v * 1000 + w) vs (num_at s e fl) mod M64; Z.of_nat (x - s + 3 * length vs); if (length vs =? 0)%nat then 0 else 1]
  | None => fd s e fl = None
  end.
Proof.
  intros Hlen.
  set (R2 := fun s e fl (r : option (nat * list Z)) => match r with
    | Some (y, l) => exists x vs, fd s e fl = Some x /\
      ((x <= s + 3)%nat /\ (exists h, groups (-1) vs x y h e fl /\ ~ exists p q, group h y p q e fl) \/ (x > s + 3)%nat /\ vs = [] /\ y = x) /\
      l = [fold_left (fun v w => v * 1000 + w) vs (num_at s e fl) mod M64; Z.of_nat (x - s + 3 * length vs); if (length vs =? 0)%nat then 0 else 1]
    | None => fd s e fl = None end).
  destruct (element_of txt (integer10ts D S_) ts_wf R2) as (f & g & El & Sp).
  - split; [do 3 eexists; reflexivity|]. do 2 eexists. split; [reflexivity|]. split; [apply (el_init _ _ _ _ _ HD)|apply (el_init _ _ _ _ _ HS)].
  - intros st s e fl [(a & b & c & Ev) (kd & ks & Ek & Wd & Ws)] H. cbn [integer10ts p_match]. rewrite Ek.
    destruct (el_match _ _ _ _ _ HD kd s e fl Wd H) as (kd1 & Ed & Wd1 & Rd). rewrite Ed. cbn [obind]. destruct (fd s e fl) as [x|] eqn:Fd; cbn [found negb].
    + destruct Rd as [Rd Vd]. pose proof (el_within _ _ _ _ _ HD s e fl x H Fd) as Wx. rewrite (isize_iv kd1 s x Rd) by lia. assert (Ex : i_end kd1 = x) by (injection Rd as _ Rd; exact Rd). rewrite Ex.
      unfold the_val. rewrite Vd. fold (num_at s e fl). pose proof (Hnum s e fl x H Fd) as Hn. destruct (vis_to txt s e x H Wx) as [Hx Vx]. destruct (x - s <=? 3)%nat eqn:Q.
      * destruct (ts_loop_spec (S (e - s)) kd1 ks x (num_at s e fl) (Z.of_nat (x - s)) 0 (-1) e fl Wd1 Ws Hx) as (kd' & ks' & y & vs & h' & E & W1 & W2 & G & N & Wy). { rewrite Vx, skipn_length. pose proof (vis_end txt s e H). lia. }
        rewrite u64_small in E by lia. rewrite (u64_small (Z.of_nat (x - s))) in E by lia. rewrite E. cbn [obind].
        eexists. exists (Some (y, [u64 (fold_left (fun v w => v * 1000 + w) vs (num_at s e fl)); u64 (Z.of_nat (x - s) + 3 * Z.of_nat (length vs)); match vs with [] => 0 | _ => 1 end])). split; [reflexivity|].
        split; [split; [do 3 eexists; reflexivity|do 2 eexists; split; [reflexivity|auto]]|]. split; [|rewrite Vx, skipn_length in Wy; repeat split; auto; lia].
        exists x, vs. split; auto. split; [left; split; [lia|eauto]|]. pose proof (groups_len _ _ _ _ _ _ _ Hx G) as Lg. rewrite (u64_small (Z.of_nat (x - s) + _)) by (rewrite Vx, skipn_length in Wy; pose proof (vis_end txt s e H); lia). unfold u64. f_equal. f_equal; [lia|destruct vs; reflexivity].
      * eexists. exists (Some (x, [num_at s e fl; Z.of_nat (x - s); 0])). split; [reflexivity|]. split; [split; [do 3 eexists; reflexivity|do 2 eexists; split; [reflexivity|auto]]|]. split; [|repeat split; auto; lia].
        exists x, []. split; auto. split; [right; split; [lia|auto]|]. cbn [fold_left length Nat.eqb]. rewrite Z.mod_small by lia. f_equal. f_equal. lia.
    + eexists. exists None. split; [reflexivity|]. split; [split; [do 3 eexists; reflexivity|do 2 eexists; split; [reflexivity|auto]]|]. split; [exact Fd|reflexivity].
  - intros s e fl [[y l]|] [[y' l']|] H R1 R1'; cbn in R1, R1'; auto; [|destruct R1 as (? & ? & ? & _); congruence|destruct R1' as (? & ? & ? & _); congruence].
    destruct R1 as (x & vs & F & C & ->), R1' as (x' & vs' & F' & C' & ->). assert (x' = x) by congruence. subst x'.
    assert (vs = vs' /\ y = y') as [-> ->]; [|reflexivity]. destruct C as [(C1 & h & G & N)|(C1 & -> & ->)], C' as [(C1' & h' & G' & N')|(C1' & -> & ->)]; try lia; auto. apply (groups_det _ _ _ _ _ _ _ _ _ _ G N G' N').
  - intros st [(a & b & c & Ev) W]. split; [split; [do 3 eexists; reflexivity|exact W]|reflexivity].
  - exists f, g. split; auto. intros s e fl H. specialize (Sp s e fl H). destruct (f s e fl) as [y|]; exact Sp.
Qed.
End Ts.

(** ** Over plain characters *)
Lemma fold_mod : forall vs v, fold_left (fun v w => v * 1000 + w) vs (v mod M64) mod M64 = fold_left (fun v w => v * 1000 + w) vs v mod M64.
Proof.
  induction vs as [|w vs IH]; intros v; cbn [fold_left]; [apply Z.mod_mod; lia|]. rewrite <- (IH (v mod M64 * 1000 + w)), <- (IH (v * 1000 + w)). f_equal. f_equal. apply (value_step 1000 v w).
Qed.
Lemma numeral_app : forall b a d, numeral_value b (a ++ d) = numeral_value b a * b ^ Z.of_nat (length d) + numeral_value b d.
Proof.
  intros b a d. unfold numeral_value. rewrite fold_left_app. generalize (fold_left (fun v c => v * b + digit_value c) a 0). intros z.
  assert (G : forall d z, fold_left (fun v c => v * b + digit_value c) d z = z * b ^ Z.of_nat (length d) + fold_left (fun v c => v * b + digit_value c) d 0).
  { clear. induction d as [|c d IH]; intros z; cbn [fold_left length]; [rewrite Z.pow_0_r; lia|]. rewrite (IH (z * b + _)), (IH (0 * b + _)). rewrite Nat2Z.inj_succ, Z.pow_succ_r by lia. lia. }
  apply G.
Qed.
Lemma groups_numeral : forall ds v, Forall (fun d => length d = 3%nat) ds ->
  fold_left (fun v w => v * 1000 + w) (map (numeral_value 10) ds) (numeral_value 10 v) = numeral_value 10 (v ++ concat ds).
Proof.
  induction ds as [|d ds IH]; intros v H; cbn [map fold_left concat]; [rewrite app_nil_r; reflexivity|]. inversion H; subst. replace (numeral_value 10 v * 1000 + numeral_value 10 d) with (numeral_value 10 (v ++ d)) by (rewrite numeral_app, H2; change (10 ^ Z.of_nat 3) with 1000; lia).
  rewrite IH by auto. rewrite <- app_assoc. reflexivity.
Qed.
Lemma take_while_app : forall p l, exists r, l = take_while p l ++ r /\ (forall c t, r = c :: t -> p c = false).
Proof.
  intros p. induction l as [|c l (r & E & N)]; cbn [take_while]; [exists []; split; auto; discriminate|]. destruct (p c) eqn:Q.
  - exists r. split; auto. cbn [app]. congruence.
  - exists (c :: l). split; auto. intros c' t X. injection X as <- _. exact Q.
Qed.
Lemma take_while_exact : forall p d r, Forall (fun c => p c = true) d -> (forall c t, r = c :: t -> p c = false) -> take_while p (d ++ r) = d.
Proof.
  intros p d r H N. induction H as [|c d Hc Hd IH]; cbn [app take_while]; [|rewrite Hc, IH; reflexivity]. destruct r as [|c r]; cbn [take_while]; auto. rewrite (N c r eq_refl). reflexivity.
Qed.
(** A group in a text: a separator and a run of exactly three digits. *)
Definition sep_group (seps : list Z) (c : Z) (d t rest : list Z) : Prop :=
  t = c :: d ++ rest /\ In c seps /\ length d = 3%nat /\ Forall (fun x => is_dec x = true) d /\ forall x r, rest = x :: r -> is_dec x = false.

Theorem integer10ts_value : forall txt tolow seps, Forall (fun c => c <> 0) seps -> Z.of_nat (length txt) < M64 ->
  exists wf f g, element txt (integer10ts (integer10 txt (digit_cus txt tolow dec_chars)) (cu_set txt tolow seps false)) wf f g /\
  forall s e fl, text_ok txt s e -> fl_ci fl = false ->
   match f s e fl with
   | Some y => exists d0 ds c rest,
       vis txt s e = d0 ++ flat_map (fun d => c :: d) ds ++ rest /\ y = (s + length (d0 ++ flat_map (fun d => c :: d) ds))%nat /\
       d0 <> [] /\ Forall (fun x => is_dec x = true) (d0 ++ concat ds) /\ Forall (fun d => length d = 3%nat) ds /\
       (ds <> [] -> (length d0 <= 3)%nat /\ In c seps) /\
       (* it cannot go on *)
       (forall x r, rest = x :: r -> is_dec x = false) /\
       ((length d0 <= 3)%nat -> forall c' d r, sep_group seps c' d rest r -> ds <> [] /\ c' <> c) /\
       g s e fl = [numeral_value 10 (d0 ++ concat ds) mod M64; Z.of_nat (length (d0 ++ concat ds)); if (length ds =? 0)%nat then 0 else 1]
   | None => take_while is_dec (vis txt s e) = []
   end.
Proof.
  intros txt tolow seps Hseps Hlen. destruct (integer10_value txt tolow) as (wd & fd & gd & HD & Ad & Rd & Sd). destruct (cu_set_spec txt tolow seps false Hseps) as (fs & gs & HS & Ss).
  assert (Hfd : forall s e fl x, text_ok txt s e -> fl_ci fl = false -> fd s e fl = Some x -> exists d r, vis txt s e = d ++ r /\ d <> [] /\ x = (s + length d)%nat /\ Forall (fun x => is_dec x = true) d /\ (forall x t, r = x :: t -> is_dec x = false) /\ num_at gd s e fl = numeral_value 10 d mod M64).
  { intros s e fl x H Hc F. destruct (Sd s e fl H Hc) as [S1 S2]. destruct (take_while_app is_dec (vis txt s e)) as (r & E & N). pose proof (take_while_all is_dec (vis txt s e)) as A. rewrite F in S1. unfold num_at.
    destruct (take_while is_dec (vis txt s e)) as [|c d] eqn:T; [discriminate|]. injection S1 as ->. exists (c :: d), r. split; auto. split; [discriminate|]. split; auto. split; auto. split; auto. rewrite S2 by discriminate. reflexivity. }
  assert (Hnum : forall s e fl x, text_ok txt s e -> fd s e fl = Some x -> 0 <= num_at gd s e fl < M64).
  { intros s e fl x H F. destruct (Rd s e fl x H F) as (v & E & B). unfold num_at. rewrite E. exact B. }
  assert (Hfdx : forall s e fl d r, text_ok txt s e -> fl_ci fl = false -> vis txt s e = d ++ r -> d <> [] -> Forall (fun x => is_dec x = true) d -> (forall x t, r = x :: t -> is_dec x = false) -> fd s e fl = Some (s + length d)%nat).
  { intros s e fl d r H Hc V Nd Fa Nr. destruct (Sd s e fl H Hc) as [S1 _]. rewrite V, take_while_exact in S1 by auto. rewrite S1. destruct d; [congruence|reflexivity]. }
  (* a separator in the text *)
  assert (Hfs : forall s e fl x, text_ok txt s e -> fl_ci fl = false -> fs s e fl = Some x -> exists c r k, vis txt s e = c :: r /\ In c seps /\ x = S s /\ sep_at gs s e fl = Z.of_nat k /\ nth_error seps k = Some c).
  { intros s e fl x H Hc F. destruct (Ss s e fl) as [S1 S2]. rewrite Hc in S1, S2. pose proof F as F'. apply S1 in F'. destruct F' as (-> & c & r & V & I). rewrite map_id in I. destruct (S2 c r (S s) V F) as (k & E & [L _]). unfold unit_at in L. rewrite map_id in L.
    exists c, r, k. split; auto. split; [apply I; auto|]. split; auto. split; auto. unfold sep_at. rewrite E. reflexivity. }
  assert (Hfsx : forall s e fl c r, vis txt s e = c :: r -> fl_ci fl = false -> In c seps -> fs s e fl = Some (S s) /\ exists k, sep_at gs s e fl = Z.of_nat k /\ least_pos (unit_at (fun c => c) seps c) (Some k)).
  { intros s e fl c r V Hc I. destruct (Ss s e fl) as [S1 S2]. rewrite Hc in S1, S2. assert (F : fs s e fl = Some (S s)). { apply S1. split; auto. exists c, r. split; auto. rewrite map_id. tauto. } split; auto. destruct (S2 c r _ V F) as (k & E & L). exists k. unfold sep_at. rewrite E. auto. }
  assert (Pos : forall c k k', least_pos (unit_at (fun c => c) seps c) (Some k) -> least_pos (unit_at (fun c => c) seps c) (Some k') -> k = k').
  { intros c k k' [A B] [A' B']. destruct (Nat.lt_trichotomy k k') as [L|[L|L]]; auto; [destruct (B' k L A)|destruct (B k' L A')]. }
  destruct (integer10ts_spec txt _ _ wd _ fd fs gd gs HD HS Hnum Hlen) as (f & g & El & Sp). eexists. exists f, g. split; [exact El|]. intros s e fl H Hc. specialize (Sp s e fl H). destruct (f s e fl) as [y|].
  2:{ destruct (Sd s e fl H Hc) as [S1 _]. rewrite Sp in S1. destruct (take_while is_dec (vis txt s e)); [reflexivity|discriminate]. }
  destruct Sp as (x & vs & F & C & Eg). destruct (Hfd s e fl x H Hc F) as (d0 & r0 & V0 & N0 & -> & A0 & R0 & Nm0).
  assert (Hx : text_ok txt (s + length d0) e /\ vis txt (s + length d0) e = r0). { destruct (vis_skip txt (length d0) s e H) as [Hx Vx]; [rewrite V0, app_length; lia|]. split; auto. rewrite Vx, V0. rewrite skipn_app, Nat.sub_diag, skipn_all. reflexivity. } destruct Hx as [Hx Vx].
  (* the groups as text *)
  assert (Grp : forall vs hit s y h, text_ok txt s e -> (forall x r, vis txt s e = x :: r -> is_dec x = false) -> groups fd fs gd gs hit vs s y h e fl ->
     exists ds rest, vis txt s e = ds ++ rest /\ y = (s + length ds)%nat /\ text_ok txt y e /\ vis txt y e = rest /\ (forall x r, rest = x :: r -> is_dec x = false) /\
     exists cds, ds = flat_map (fun p => fst p :: snd p) cds /\ Forall (fun p => In (fst p) seps /\ length (snd p) = 3%nat /\ Forall (fun x => is_dec x = true) (snd p)) cds /\ vs = map (fun p => numeral_value 10 (snd p)) cds /\
       (cds = [] /\ h = hit \/ cds <> [] /\ exists k c, h = Z.of_nat k /\ least_pos (unit_at (fun c => c) seps c) (Some k) /\ (forall p, In p cds -> fst p = c) /\ (hit = -1 \/ hit = h))).
  { clear s y vs d0 r0 H F C Eg V0 N0 A0 R0 Nm0 Hx Vx. induction vs as [|v vs IH]; intros hit s y h H Hr G; cbn [groups] in G.
    - destruct G as [<- ->]. exists [], (vis txt s e). split; auto. split; [cbn [length]; lia|]. split; auto. split; auto. split; auto. exists []. repeat split; auto.
    - destruct G as (p & q & (G1 & G2 & G3 & G4) & -> & G). destruct (Hfs s e fl p H Hc G1) as (c & r & k & V & I & -> & Ek & Nk). destruct (vis_cons txt s e c r H V) as (_ & H' & V' & _).
      destruct (Hfsx s e fl c r V Hc I) as (_ & k' & Ek' & Lk). assert (k' = k) by lia. subst k'.
      destruct (Hfd (S s) e fl q H' Hc G3) as (d & r' & Vd & Nd & Eq & Fd & Nr & Em). assert (Ld : length d = 3%nat) by lia.
      assert (Hq : text_ok txt q e /\ vis txt q e = r'). { destruct (vis_skip txt (length d) (S s) e H') as [Hq Vq]; [rewrite Vd, app_length; lia|]. subst q. rewrite Eq. split; auto. rewrite Vq, Vd. rewrite skipn_app, Nat.sub_diag, skipn_all. reflexivity. } destruct Hq as [Hq Vq].
      destruct (IH (sep_at gs s e fl) q y h Hq ltac:(rewrite Vq; exact Nr) G) as (ds & rest & E1 & E2 & E3 & E4 & E5 & cds & E6 & E7 & E8 & E9).
      exists (c :: d ++ ds), rest. split. { rewrite V, <- V', Vd, <- Vq, E1. cbn [app]. rewrite <- app_assoc. reflexivity. } split. { cbn [length]. rewrite app_length. lia. } split; auto. split; auto. split; auto. exists ((c, d) :: cds).
      split. { cbn [flat_map fst snd app]. rewrite E6. reflexivity. } split. { constructor; auto. } split. { cbn [map snd]. rewrite E8. f_equal. rewrite Em, Z.mod_small; auto.
        assert (B : 0 <= numeral_value 10 d < 1000). { clear -Ld Fd. destruct d as [|a [|b [|c [|]]]]; try discriminate. inversion Fd as [|? ? F1 F']; subst. inversion F' as [|? ? F2 F'']; subst. inversion F'' as [|? ? F3 _]; subst. unfold is_dec in *. unfold numeral_value. cbn [fold_left]. unfold digit_value. rewrite F1, F2, F3. lia. }
        lia. }
      right. split; [discriminate|]. destruct E9 as [[-> ->]|(Nc & k2 & c2 & -> & L2 & All & Eh)].
      + exists k, c. split; auto. split; auto. split; [intros p [<-|[]]; reflexivity|]. exact G2.
      + rewrite Ek in Eh. assert (k2 = k) by lia. subst k2. assert (c2 = c). { destruct L2 as [L2 _], Lk as [Lk _]. unfold unit_at in *. rewrite map_id in *. congruence. } subst c2.
        exists k, c. split; auto. split; auto. split; [intros p [<-|Ip]; [reflexivity|auto]|]. rewrite <- Ek. exact G2. }
  destruct C as [(C1 & h & G & N)|(C1 & -> & ->)].
  - destruct (Grp vs (-1) _ y h Hx ltac:(rewrite Vx; exact R0) G) as (ds & rest & E1 & E2 & Hy & E4 & E5 & cds & -> & E7 & -> & E9).
    assert (Ec : exists c, (forall p, In p cds -> fst p = c) /\ c = match cds with [] => 0 | p :: _ => fst p end). { exists (match cds with [] => 0 | p :: _ => fst p end). split; auto. destruct E9 as [[-> _]|(_ & k & c' & _ & _ & All & _)]; [intros p []|]. destruct cds as [|p0 cds]; [intros p []|]. intros p Ip. rewrite (All p Ip), (All p0 (or_introl eq_refl)). reflexivity. } destruct Ec as (c & Same & Dc).
    assert (Em : flat_map (fun p => fst p :: snd p) cds = flat_map (fun d => c :: d) (map snd cds)). { clear -Same. induction cds as [|p cds IH]; cbn [flat_map map]; auto. rewrite (Same p (or_introl eq_refl)), IH by (intros; apply Same; right; auto). reflexivity. }
    rewrite Em in *. exists d0, (map snd cds), c, rest. split; [rewrite V0, <- Vx, E1; reflexivity|]. split; [rewrite app_length; lia|]. split; auto.
    assert (L3 : Forall (fun d => length d = 3%nat) (map snd cds)). { clear -E7. induction E7; cbn [map]; constructor; tauto. }
    split. { apply Forall_app. split; auto. clear -E7. induction E7; cbn [map concat]; [constructor|]. apply Forall_app. split; [tauto|auto]. } split; auto.
    split. { intros Nc. split; [lia|]. destruct cds as [|p cds]; [exfalso; apply Nc; reflexivity|]. rewrite Dc. inversion E7; tauto. } split; auto. split.
    + intros _ c' d r (Er & I & Ld & Fd & Nr). rewrite Er in E4. destruct (vis_cons txt y e c' (d ++ r) Hy E4) as (_ & Hy' & Vy' & _).
      destruct (Hfsx y e fl c' _ E4 Hc I) as (Fs & k & Ek & Lk). assert (Fdd : fd (S y) e fl = Some (S y + length d)%nat). { apply (Hfdx (S y) e fl d r); auto. destruct d; discriminate. }
      destruct E9 as [[-> ->]|(Nc & k2 & c2 & -> & L2 & All & _)].
      * exfalso. apply N. exists (S y), (S y + 3)%nat. rewrite Ld in Fdd. split; auto.
      * split; [destruct cds; [congruence|discriminate]|]. intros ->. apply N. exists (S y), (S y + 3)%nat. rewrite Ld in Fdd. split; auto. split; auto. right. rewrite Ek.
        assert (c2 = c). { destruct cds as [|p cds]; [congruence|]. rewrite <- (All p (or_introl eq_refl)). apply Same. left. reflexivity. } subst c2. rewrite (Pos c k k2 Lk L2). reflexivity.
    + rewrite Eg, Nm0, fold_mod. rewrite <- (map_map snd (numeral_value 10)), groups_numeral by exact L3. rewrite !map_length, app_length. do 2 f_equal. f_equal.
      assert (Lc : length (concat (map snd cds)) = (3 * length cds)%nat). { clear -E7. induction E7; cbn [map concat length]; auto. rewrite app_length, IHE7. destruct H as (_ & -> & _). lia. } lia.
  - exists d0, [], 0, r0. cbn [flat_map concat map]. rewrite !app_nil_r. split; auto. split; auto. split; auto. split; auto. split; auto. split; [congruence|]. split; auto. split; [lia|]. rewrite Eg, Nm0, fold_mod. cbn [fold_left length Nat.eqb]. do 2 f_equal. f_equal. lia.
Qed.
