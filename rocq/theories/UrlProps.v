(** Properties C217 and C218: URLs and e-mail addresses. *)
From Coq Require Import ZifyBool ZifyNat.
From Verif Require Import Base StringModel StringSpec StringProofs ParserModel ParserSpec ParserProps ParserNumModel ParserNumProps ParserPeg DateSpec TimeProps UrlModel UrlSpec DnsProps.

Lemma uname_eqb_spec : forall a b, reflect (a = b) (uname_eqb a b).
Proof. intros a b; destruct a, b; cbn; constructor; congruence. Qed.
Lemma ret_inj : forall A (a b : A), Ret a = Ret b -> a = b.
Proof. intros A a b H. congruence. Qed.
Lemma uname_dec : forall a b : uname, {a = b} + {a <> b}.
Proof. decide equality. Qed.
Lemma upd_same : forall A n (x : A) k, upd n x k n = x.
Proof. intros A n x k. unfold upd. destruct (uname_eqb_spec n n); congruence. Qed.
Lemma upd_other : forall A n m (x : A) k, m <> n -> upd n x k m = k m.
Proof. intros A n m x k H. unfold upd. destruct (uname_eqb_spec m n); congruence. Qed.

Section Props.
Context (txt : list Z).
Local Notation text_ok := (text_ok txt).
Local Notation in_vis := (in_vis txt).
Context (E : uname -> espec) (V : list uname) (GE : forall n, In n V -> good txt (E n)).
Local Notation P := (fun n => es_P (E n)).
Definition kwf (k : ukids) : Prop := forall n, In n V -> es_wf (E n) (k n).
Section At.
Context (e : nat) (fl : pflags).
Local Notation at_ := (at_ e fl E).
Local Notation all_at := (all_at e fl E).
(** the member [n] tells [w] *)
Definition rd (k : ukids) (n : uname) (w : span) : Prop := member e fl (Some (E n)) (k n) w.
Definition same (l : list uname) (k k' : ukids) : Prop := forall m, ~ In m l -> k' m = k m.
Lemma same_rd : forall l k k' n w, same l k k' -> ~ In n l -> rd k n w -> rd k' n w.
Proof. intros l k k' n w Sa N R. unfold rd. rewrite (Sa n N). exact R. Qed.

Lemma um_ok : forall n k x, kwf k -> In n V -> text_ok x e -> exists k', um P n k x e fl = Ret (k', found (at_ n x)) /\ kwf k' /\ same [n] k k' /\
  match at_ n x with Some y => rd k' n (Some (x, y)) /\ i_end (k' n) = y /\ text_ok y e /\ in_vis x y e | None => rd k' n None end.
Proof.
  intros n k x W I T. unfold um. destruct (ranv_p txt (E n) (k n) x e fl (GE n I) (W n I) T) as (s' & -> & W' & R). cbn [obind o_f o_wf] in *. unfold UrlSpec.at_.
  eexists. split; [reflexivity|]. split; [|split].
  - intros m Im. destruct (uname_dec m n) as [->|N]; [rewrite upd_same|rewrite upd_other]; auto.
  - intros m N. apply upd_other. intros ->. apply N. left. auto.
  - unfold rd. rewrite upd_same. destruct (es_f (E n) x e fl) as [y|]; [|exact R]. destruct R as (M & A & _ & B & C). auto.
Qed.
Lemma uinv_ok : forall l k, kwf k -> incl l V -> kwf (uinv P l k) /\ same l k (uinv P l k) /\ forall n, In n l -> rd (uinv P l k) n None.
Proof.
  unfold uinv. induction l as [|a l IH]; intros k W I; cbn [fold_left].
  { split; auto. split; [intros m _; auto|intros n []]. }
  destruct (inv_p txt (E a) (k a) (GE a (I a (or_introl eq_refl))) (W a (I a (or_introl eq_refl)))) as [Wa Ia].
  destruct (IH (upd a (p_inval (es_P (E a)) (k a)) k)) as (W' & Sa & R).
  - intros m Im. destruct (uname_dec m a) as [->|N]; [rewrite upd_same|rewrite upd_other]; auto.
  - intros m Im. apply I. right. auto.
  - split; auto. split.
    + intros m N. rewrite (Sa m); [apply upd_other|]; intros H; apply N; [left|right]; auto.
    + intros n [<-|H]; auto. destruct (in_dec uname_dec a l) as [H|H]; auto. unfold rd. rewrite (Sa a H), upd_same. exact Ia.
Qed.
(** what the members of a sequence tell *)
Fixpoint reads (l : list uname) (x : nat) (k : ukids) : Prop :=
  match l with [] => True | n :: r => match at_ n x with Some y => (~ In n r -> rd k n (Some (x, y))) /\ reads r y k | None => True end end.
Lemma um_seq_ok : forall l k x, kwf k -> incl l V -> text_ok x e -> exists k', um_seq P l k x e fl = Ret (k', all_at l x) /\ kwf k' /\ same l k k' /\
  forall y, all_at l x = Some y -> text_ok y e /\ in_vis x y e /\ reads l x k'.
Proof.
  unfold UrlSpec.all_at. induction l as [|n l IH]; intros k x W I T; cbn [um_seq map seq_fn].
  { exists k. split; auto. split; auto. split; [intros m _; auto|]. intros y H. injection H as <-. split; auto. split; [unfold ParserPeg.in_vis; lia|exact Logic.I]. }
  destruct (um_ok n k x W (I n (or_introl eq_refl)) T) as (k1 & -> & W1 & S1 & R1). cbn [obind reads]. unfold UrlSpec.at_ in R1 |- *. destruct (es_f (E n) x e fl) as [y|] eqn:F; cbn [found].
  - destruct R1 as (M & -> & Ty & Iy). destruct (IH k1 y W1) as (k2 & -> & W2 & S2 & R2); auto. { intros m Im. apply I. right. auto. }
    exists k2. split; auto. split; auto. split. { intros m N. rewrite (S2 m), (S1 m); auto; intros H; apply N; [destruct H as [<-|[]]; left|right]; auto. }
    intros z Hz. destruct (R2 z Hz) as (Tz & Iz & Rz). split; auto. split; [apply (in_trans txt x y); auto|]. split; [|exact Rz]. intros N. apply (same_rd l k1 k2); auto.
  - exists k1. split; auto. split; auto. split. { intros m N. apply S1. intros H. apply N. destruct H as [<-|[]]. left. auto. } discriminate.
Qed.
Lemma valid_some : forall k n x y, rd k n (Some (x, y)) -> (x <= y)%nat -> is_valid (k n) = true.
Proof. intros k n x y (_ & I & _) L. unfold is_valid. unfold iv in I. injection I as -> ->. apply Nat.leb_le. auto. Qed.
Lemma valid_none : forall k n, rd k n None -> is_valid (k n) = false.
Proof. intros k n I. unfold rd, member, iv, no_iv in I. unfold is_valid. injection I as -> ->. reflexivity. Qed.

(** ** The stages *)
Ltac inc := intros ? HI; cbn [In scheme_mark] in HI; repeat (destruct HI as [HI|HI]); subst; auto; try contradiction.
Ltac notin := let H := fresh in intros H; cbn [In scheme_mark] in H; repeat (destruct H as [H|H]; [discriminate H|]); contradiction.

Lemma all_first : forall n r s x, all_at (n :: r) s = Some x -> exists a, at_ n s = Some a.
Proof. intros n r s x. unfold UrlSpec.all_at, UrlSpec.at_. cbn [map seq_fn]. destruct (es_f (E n) s e fl); intros; [eauto|discriminate]. Qed.
Lemma reads_first : forall n r s x k, all_at (n :: r) s = Some x -> ~ In n r -> reads (n :: r) s k -> exists a, at_ n s = Some a /\ rd k n (Some (s, a)).
Proof. intros n r s x k H N R. destruct (all_first n r s x H) as (a & Ea). exists a. split; auto. cbn [reads] in R. rewrite Ea in R. apply R. auto. Qed.

Definition schemes : list uname := [Http; Ftp; Mailto; File].
Definition scheme_span (sc : option uname) (s : nat) (n : uname) : span :=
  match sc with Some m => if uname_eqb n m then match at_ n s with Some x => Some (s, x) | None => None end else None | None => None end.
Lemma scheme_ok : forall k s, incl [Http; Ftp; Mailto; File; Colon; Slash] V -> kwf k -> text_ok s e ->
  exists k' sc x, u_scheme P k s e fl = Ret (k', x) /\ kwf k' /\ scheme_at e fl E s sc x /\ text_ok x e /\ in_vis s x e /\ forall n, In n schemes -> rd k' n (scheme_span sc s n).
Proof.
  intros k s I W T. unfold u_scheme. unfold incl in I. cbn [In] in I.
  assert (FIN : forall m k k0 x, In m schemes -> kwf k -> same (scheme_mark m) k0 k -> all_at (scheme_mark m) s = Some x -> reads (scheme_mark m) s k ->
     forall l, (forall n, In n schemes -> n = m \/ In n l) -> ~ In m l -> incl l V -> kwf (uinv P l k) /\ forall n, In n schemes -> rd (uinv P l k) n (scheme_span (Some m) s n)).
  { clear k W. intros m k k0 x Im W _ A R l Il N IV. destruct (uinv_ok l k W IV) as (W' & S' & R'). split; auto. intros n In_. unfold scheme_span. destruct (uname_eqb_spec n m) as [->|Ne].
    - assert (X : exists r, scheme_mark m = m :: r /\ ~ In m r) by (clear - Im; cbn [In schemes] in Im; repeat (destruct Im as [<-|Im]; [eexists; split; [reflexivity|notin]|]); contradiction).
      destruct X as (r & Er & Nr). rewrite Er in A, R. destruct (reads_first m r s x k A Nr R) as (a & -> & Ra). apply (same_rd l k); auto.
    - apply R'. destruct (Il n In_); auto. contradiction. }
  destruct (um_seq_ok (scheme_mark Http) k s W) as (k1 & E1 & W1 & S1 & R1); [inc; auto 10|auto|]. cbn [scheme_mark] in E1. rewrite E1. cbn [obind]. clear E1. fold (scheme_mark Http).
  destruct (all_at (scheme_mark Http) s) as [x|] eqn:A1.
  { destruct (R1 x eq_refl) as (Tx & Ix & Rx). destruct (FIN Http k1 k x) with (l := [Ftp; Mailto; File]) as [W' R']; auto; [left; auto|intros n Hn; cbn in Hn |- *; intuition auto|notin|inc; auto 10|].
    exists (uinv P [Ftp; Mailto; File] k1), (Some Http), x. split; auto. split; auto. split; [constructor; auto|]. auto. }
  destruct (um_seq_ok (scheme_mark Ftp) k1 s W1) as (k2 & E2 & W2 & S2 & R2); [inc; auto 10|auto|]. cbn [scheme_mark] in E2. rewrite E2. cbn [obind]. clear E2. fold (scheme_mark Ftp).
  destruct (all_at (scheme_mark Ftp) s) as [x|] eqn:A2.
  { destruct (R2 x eq_refl) as (Tx & Ix & Rx). destruct (FIN Ftp k2 k1 x) with (l := [Http; Mailto; File]) as [W' R']; auto; [right; left; auto|intros n Hn; cbn in Hn |- *; intuition auto|notin|inc; auto 10|].
    exists (uinv P [Http; Mailto; File] k2), (Some Ftp), x. split; auto. split; auto. split; [constructor; auto|]. auto. }
  destruct (um_seq_ok (scheme_mark Mailto) k2 s W2) as (k3 & E3 & W3 & S3 & R3); [inc; auto 10|auto|]. cbn [scheme_mark] in E3. rewrite E3. cbn [obind]. clear E3. fold (scheme_mark Mailto).
  destruct (all_at (scheme_mark Mailto) s) as [x|] eqn:A3.
  { destruct (R3 x eq_refl) as (Tx & Ix & Rx). destruct (FIN Mailto k3 k2 x) with (l := [Http; Ftp; File]) as [W' R']; auto; [right; right; left; auto|intros n Hn; cbn in Hn |- *; intuition auto|notin|inc; auto 10|].
    exists (uinv P [Http; Ftp; File] k3), (Some Mailto), x. split; auto. split; auto. split; [constructor; auto|]. auto. }
  destruct (um_seq_ok (scheme_mark File) k3 s W3) as (k4 & E4 & W4 & S4 & R4); [inc; auto 10|auto|]. cbn [scheme_mark] in E4. rewrite E4. cbn [obind]. clear E4. fold (scheme_mark File).
  destruct (all_at (scheme_mark File) s) as [x|] eqn:A4.
  { destruct (R4 x eq_refl) as (Tx & Ix & Rx). destruct (FIN File k4 k3 x) with (l := [Http; Ftp; Mailto]) as [W' R']; auto; [right; right; right; left; auto|intros n Hn; cbn in Hn |- *; intuition auto|notin|inc; auto 10|].
    exists (uinv P [Http; Ftp; Mailto] k4), (Some File), x. split; auto. split; auto. split; [constructor; auto|]. auto. }
  destruct (uinv_ok [Http; Ftp; Mailto; File] k4 W4) as (W' & S' & R'); [inc; auto 10|]. exists (uinv P [Http; Ftp; Mailto; File] k4), None, s. split; auto. split; auto. split; [constructor; auto|]. split; auto. split; [unfold ParserPeg.in_vis; lia|]. intros n Hn. apply R'. exact Hn.
Qed.

Lemma auth_ok : forall (ftp : bool) k x, incl [User; Pass; Colon; At] V -> kwf k -> text_ok x e ->
  exists k' y us ps, u_auth P ftp k x e fl = Ret (k', y) /\ kwf k' /\ same [User; Pass; Colon; At] k k' /\ auth_at e fl E ftp x y us ps /\ text_ok y e /\ in_vis x y e /\ rd k' User us /\ rd k' Pass ps.
Proof.
  intros ftp k x I W T. unfold u_auth. unfold incl in I. cbn [In] in I. assert (Ixx : in_vis x x e) by (unfold ParserPeg.in_vis; lia).
  destruct (um_ok User k x W) as (k1 & -> & W1 & S1 & R1); auto. cbn [obind]. destruct (at_ User x) as [a|] eqn:EU; cbn [found].
  2:{ destruct (uinv_ok [User; Pass] k1 W1) as (W' & S' & R'); [inc; auto 10|]. do 4 eexists. split; [reflexivity|]. split; auto. split.
      { intros m N. rewrite (S' m), (S1 m); auto; intros H; apply N; cbn [In] in *; intuition auto. }
      split; [apply ANone; [intros a b c y (H & _)|intros a y (H & _)]; congruence|]. split; auto. split; auto. split; apply R'; cbn; auto. }
  destruct R1 as (M1 & -> & Ta & Ia). cbv zeta.
  destruct (um_seq_ok [Colon; Pass; At] k1 a W1) as (k2 & -> & W2 & S2 & R2); [inc; auto 10|auto|]. cbn [obind].
  destruct (all_at [Colon; Pass; At] a) as [y|] eqn:A2.
  { destruct (R2 y eq_refl) as (Ty & Iy & Ry). revert A2 Ry. unfold UrlSpec.all_at. cbn [map seq_fn reads]. unfold UrlSpec.at_ in *.
    destruct (es_f (E Colon) a e fl) as [b|] eqn:EC; [|discriminate]. destruct (es_f (E Pass) b e fl) as [c|] eqn:EP; [|discriminate]. destruct (es_f (E At) c e fl) as [y'|] eqn:EA; [|discriminate]. intros H Ry. injection H as ->.
    destruct Ry as (_ & RP & _). do 4 eexists. split; [reflexivity|]. split; auto. split. { intros m N. rewrite (S2 m), (S1 m); auto; intros H; apply N; cbn [In] in *; intuition auto. }
    split; [eapply AUserPass; unfold user_pass_at, UrlSpec.at_; eauto|]. split; auto. split; [apply (in_trans txt x a); auto|]. split; [|apply RP; notin]. apply (same_rd [Colon; Pass; At] k1); auto. notin. }
  assert (NUP : forall a b c y, ~ user_pass_at e fl E x a b c y).
  { intros a' b c y (H1 & H2 & H3 & H4). assert (a' = a) by congruence. subst a'. revert A2. unfold UrlSpec.all_at. cbn [map seq_fn]. unfold UrlSpec.at_ in *. rewrite H2, H3, H4. discriminate. }
  assert (Tz : text_ok (if ftp then x else a) e) by (destruct ftp; auto).
  assert (MU : forall k', same [At] k2 k' -> rd k' User (Some (x, a))). { intros k' Sa. apply (same_rd [At] k2); auto; [notin|]. apply (same_rd [Colon; Pass; At] k1); auto. notin. }
  assert (I2 : forall y, in_vis (if ftp then x else a) y e -> in_vis x y e). { intros y H. destruct ftp; auto. apply (in_trans txt x a); auto. }
  destruct (um_ok At k2 (if ftp then x else a) W2) as (k3 & -> & W3 & S3 & R3); [auto 10|auto|]. cbn [obind]. destruct (at_ At (if ftp then x else a)) as [y|] eqn:EA; cbn [found].
  - destruct R3 as (M3 & E3 & Ty & Iy). destruct (uinv_ok [Pass] k3 W3) as (W' & S' & R'); [inc; auto 10|]. do 4 eexists. split; [reflexivity|]. split; auto. split. { intros m N. rewrite (S' m), (S3 m), (S2 m), (S1 m); auto; intros H; apply N; cbn [In] in *; intuition auto. }
    rewrite E3. split; [apply AUser; [exact NUP|split; eauto]|]. split; auto. split; auto. split; [apply (same_rd [Pass] k3); auto; notin|]. apply R'. cbn; auto.
  - destruct (uinv_ok [User; Pass] k3 W3) as (W' & S' & R'); [inc; auto 10|]. do 4 eexists. split; [reflexivity|]. split; auto. split. { intros m N. rewrite (S' m), (S3 m), (S2 m), (S1 m); auto; intros H; apply N; cbn [In] in *; intuition auto. }
    split; [apply ANone; [exact NUP|intros a' y (H1 & H2)]|]. { assert (a' = a) by congruence. subst a'. congruence. } split; auto. split; auto. split; apply R'; cbn; auto.
Qed.

Lemma host_ok : forall (br : bool) k x, incl [Ip4; Ip6; Dns; Lbr; Rbr] V -> kwf k -> text_ok x e ->
  exists k' o, u_host P (if br then mail_host else plain_host) k x e fl = Ret (k', o) /\ kwf k' /\ same [Ip4; Ip6; Dns; Lbr; Rbr] k k' /\
   match o with Some y => exists i4 i6 dn, host_at e fl E br x y i4 i6 dn /\ text_ok y e /\ in_vis x y e /\ rd k' Ip4 i4 /\ rd k' Ip6 i6 /\ rd k' Dns dn | None => no_host e fl E br x end.
Proof.
  intros br k x I W T. unfold u_host. unfold incl in I. cbn [In] in I.
  assert (A1 : exists k1 o, um_seq P (if br then mail_host else plain_host) k x e fl = Ret (k1, o) /\ kwf k1 /\ same [Lbr; Ip4; Rbr] k k1 /\
     match o with Some y => text_ok y e /\ in_vis x y e /\ exists i, ip4_at e fl E br x y i /\ rd k1 Ip4 (Some i) | None => forall y i, ~ ip4_at e fl E br x y i end).
  { destruct br.
    - destruct (um_seq_ok mail_host k x W) as (k1 & -> & W1 & S1 & R1); [unfold mail_host; inc; auto 10|auto|]. do 2 eexists. split; [reflexivity|]. split; auto. split; auto. revert R1. unfold mail_host. unfold UrlSpec.all_at. cbn [map seq_fn reads]. unfold UrlSpec.at_.
      destruct (es_f (E Lbr) x e fl) as [a|] eqn:F1; [destruct (es_f (E Ip4) a e fl) as [b|] eqn:F2; [destruct (es_f (E Rbr) b e fl) as [y|] eqn:F3|]|]; intros R1.
      2-4: intros y' i H; inversion H; subst; unfold UrlSpec.at_ in *; congruence.
      destruct (R1 y eq_refl) as (Ty & Iy & _ & R2 & _). split; auto. split; auto. exists (a, b). split; [eapply Ip4Br; eauto|]. apply R2. notin.
    - destruct (um_seq_ok plain_host k x W) as (k1 & -> & W1 & S1 & R1); [unfold plain_host; inc; auto 10|auto|]. do 2 eexists. split; [reflexivity|]. split; auto. split. { intros m N. apply S1. cbn in N |- *. intuition auto. } revert R1. unfold plain_host. unfold UrlSpec.all_at. cbn [map seq_fn reads]. unfold UrlSpec.at_.
      destruct (es_f (E Ip4) x e fl) as [y|] eqn:F1; intros R1.
      2: intros y' i H; inversion H; subst; unfold UrlSpec.at_ in *; congruence.
      destruct (R1 y eq_refl) as (Ty & Iy & R2 & _). split; auto. split; auto. exists (x, y). split; [eapply Ip4Bare; eauto|]. apply R2. notin. }
  destruct A1 as (k1 & o1 & -> & W1 & S1 & R1). cbn [obind]. destruct o1 as [y|].
  { destruct R1 as (Ty & Iy & i & Hi & Ri). destruct (uinv_ok [Ip6; Dns] k1 W1) as (W' & S' & R'); [inc; auto 10|]. do 2 eexists. split; [reflexivity|]. split; auto. split. { intros m N. rewrite (S' m), (S1 m); auto; intros H; apply N; cbn [In] in *; intuition auto. }
    exists (Some i), None, None. split; [constructor; auto|]. split; auto. split; auto. split; [apply (same_rd [Ip6; Dns] k1); auto; notin|]. split; apply R'; cbn; auto. }
  destruct (um_seq_ok [Lbr; Ip6; Rbr] k1 x W1) as (k2 & -> & W2 & S2 & R2); [inc; auto 10|auto|]. cbn [obind]. revert R2. unfold UrlSpec.all_at. cbn [map seq_fn reads]. unfold UrlSpec.at_.
  assert (NEXT : (forall a b y, ~ ip6_at e fl E x a b y) -> exists k' o,
    (let* (k3, o) := um_seq P [Dns] k2 x e fl in match o with Some y => Ret (uinv P [Ip4; Ip6] k3, Some y) | None => Ret (k3, None) end) = Ret (k', o) /\ kwf k' /\ same [Ip4; Ip6; Dns; Lbr; Rbr] k k' /\
    match o with Some y => exists i4 i6 dn, host_at e fl E br x y i4 i6 dn /\ text_ok y e /\ in_vis x y e /\ rd k' Ip4 i4 /\ rd k' Ip6 i6 /\ rd k' Dns dn | None => no_host e fl E br x end).
  { intros N6. destruct (um_seq_ok [Dns] k2 x W2) as (k3 & -> & W3 & S3 & R3); [inc; auto 10|auto|]. cbn [obind]. revert R3. unfold UrlSpec.all_at. cbn [map seq_fn reads]. unfold UrlSpec.at_. destruct (es_f (E Dns) x e fl) as [y|] eqn:F; intros R3.
    - destruct (R3 y eq_refl) as (Ty & Iy & R4 & _). destruct (uinv_ok [Ip4; Ip6] k3 W3) as (W' & S' & R'); [inc; auto 10|]. do 2 eexists. split; [reflexivity|]. split; auto. split. { intros m N. rewrite (S' m), (S3 m), (S2 m), (S1 m); auto; intros H; apply N; cbn [In] in *; intuition auto. }
      exists None, None, (Some (x, y)). split; [apply HName; auto|]. split; auto. split; auto. split; [apply R'; cbn; auto|]. split; [apply R'; cbn; auto|]. apply (same_rd [Ip4; Ip6] k3); [auto|notin|]. apply R4. notin.
    - do 2 eexists. split; [reflexivity|]. split; auto. split. { intros m N. rewrite (S3 m), (S2 m), (S1 m); auto; intros H; apply N; cbn [In] in *; intuition auto. } split; auto. }
  destruct (es_f (E Lbr) x e fl) as [a|] eqn:F1; [destruct (es_f (E Ip6) a e fl) as [b|] eqn:F2; [destruct (es_f (E Rbr) b e fl) as [y|] eqn:F3|]|]; intros R2.
  2-4: apply NEXT; intros a' b' y' (H1 & H2 & H3); unfold UrlSpec.at_ in *; congruence.
  clear NEXT. destruct (R2 y eq_refl) as (Ty & Iy & _ & R3 & _). destruct (uinv_ok [Ip4; Dns] k2 W2) as (W' & S' & R'); [inc; auto 10|]. do 2 eexists. split; [reflexivity|]. split; auto. split. { intros m N. rewrite (S' m), (S2 m), (S1 m); auto; intros H; apply N; cbn [In] in *; intuition auto. }
  exists None, (Some (a, b)), None. split; [apply H6; auto; repeat split; auto|]. split; auto. split; auto. split; [apply R'; cbn; auto|]. split; [apply (same_rd [Ip4; Dns] k2); [auto|notin|apply R3; notin]|apply R'; cbn; auto].
Qed.

Lemma path_ok : forall k x, incl [Path] V -> kwf k -> text_ok x e ->
  exists k', um P Path k x e fl = Ret (k', found (at_ Path x)) /\ kwf k' /\ same [Path] k k' /\
   let y := if found (at_ Path x) then i_end (k' Path) else x in exists pa, opt_path_at e fl E x y pa /\ text_ok y e /\ in_vis x y e /\ rd k' Path pa.
Proof.
  intros k x I W T. destruct (um_ok Path k x W) as (k1 & -> & W1 & S1 & R1); [apply I; left; auto|auto|]. exists k1. split; auto. split; auto. split; auto. destruct (at_ Path x) as [y|] eqn:F; cbn [found] in *; cbv zeta.
  - destruct R1 as (M & -> & Ty & Iy). exists (Some (x, y)). split; [constructor; auto|]. auto.
  - exists None. split; [constructor; auto|]. split; auto. split; auto. unfold ParserPeg.in_vis; lia.
Qed.
Lemma tail_ok : forall k x, incl [Colon; Port; Path] V -> kwf k -> text_ok x e ->
  exists k' y po pa p, u_tail P k x e fl = Ret (k', y) /\ kwf k' /\ same [Colon; Port; Path] k k' /\ opt_port_at e fl E x p po /\ opt_path_at e fl E p y pa /\ text_ok y e /\ in_vis x y e /\ rd k' Port po /\ rd k' Path pa.
Proof.
  intros k x I W T. unfold u_tail. unfold incl in I. cbn [In] in I.
  assert (A : exists k1 p po, (let* (k1, o) := um_seq P [Colon; Port] k x e fl in Ret (match o with Some y => (k1, y) | None => (uinv P [Port] k1, x) end)) = Ret (k1, p) /\ kwf k1 /\ same [Colon; Port] k k1 /\
     opt_port_at e fl E x p po /\ text_ok p e /\ in_vis x p e /\ rd k1 Port po).
  { destruct (um_seq_ok [Colon; Port] k x W) as (k1 & -> & W1 & S1 & R1); [inc; auto 10|auto|]. cbn [obind]. revert R1. unfold UrlSpec.all_at. cbn [map seq_fn reads]. unfold UrlSpec.at_.
    destruct (uinv_ok [Port] k1 W1) as (W' & S' & R'); [inc; auto 10|].
    destruct (es_f (E Colon) x e fl) as [a|] eqn:F1; [destruct (es_f (E Port) a e fl) as [y|] eqn:F2|]; intros R1.
    - destruct (R1 y eq_refl) as (Ty & Iy & _ & R2 & _). exists k1, y, (Some (a, y)). split; auto. split; auto. split; auto. split; [constructor; split; auto|]. split; [auto|]. split; [auto|]. apply R2. notin.
    - exists (uinv P [Port] k1), x, None. split; auto. split; auto. split. { intros m N. rewrite (S' m), (S1 m); auto; intros H; apply N; cbn [In] in *; intuition auto. }
      split; [constructor; intros a' y (H1 & H2); unfold UrlSpec.at_ in *; congruence|]. split; auto. split; [unfold ParserPeg.in_vis; lia|]. apply R'. cbn; auto.
    - exists (uinv P [Port] k1), x, None. split; auto. split; auto. split. { intros m N. rewrite (S' m), (S1 m); auto; intros H; apply N; cbn [In] in *; intuition auto. }
      split; [constructor; intros a' y (H1 & H2); unfold UrlSpec.at_ in *; congruence|]. split; auto. split; [unfold ParserPeg.in_vis; lia|]. apply R'. cbn; auto. }
  destruct A as (k1 & p & po & Eq & W1 & S1 & Po & Tp & Ip & Rp). destruct (um_seq P [Colon; Port] k x e fl) as [[k0 o]| |]; cbn [obind] in Eq; try discriminate. cbn [obind]. apply ret_inj in Eq. rewrite Eq.
  destruct (path_ok k1 p) as (k2 & -> & W2 & S2 & pa & Pa & Ty & Iy & Rpa); [inc; auto 10|auto|auto|]. cbn [obind]. do 5 eexists. split; [reflexivity|]. split; auto. split. { intros m N. rewrite (S2 m), (S1 m); auto; intros H; apply N; cbn [In] in *; intuition auto. }
  split; [exact Po|]. split; [exact Pa|]. split; auto. split; [apply (in_trans txt x p); auto|]. split; auto. apply (same_rd [Path] k1); auto. notin.
Qed.
Lemma mail_ok : forall k x, incl [User; At; Ip4; Ip6; Dns; Lbr; Rbr] V -> kwf k -> text_ok x e ->
  exists k' o, u_mail P k x e fl = Ret (k', o) /\ kwf k' /\ same [User; At; Ip4; Ip6; Dns; Lbr; Rbr] k k' /\
   match o with
   | Some y => exists u a i4 i6 dn, at_ User x = Some u /\ at_ At u = Some a /\ host_at e fl E true a y i4 i6 dn /\ text_ok y e /\ in_vis x y e /\ rd k' User (Some (x, u)) /\ rd k' Ip4 i4 /\ rd k' Ip6 i6 /\ rd k' Dns dn
   | None => forall u a, at_ User x = Some u -> at_ At u = Some a -> no_host e fl E true a
   end.
Proof.
  intros k x I W T. unfold u_mail. unfold incl in I. cbn [In] in I.
  destruct (um_seq_ok [User; At] k x W) as (k1 & -> & W1 & S1 & R1); [inc; auto 10|auto|]. cbn [obind]. revert R1. unfold UrlSpec.all_at. cbn [map seq_fn reads]. unfold UrlSpec.at_.
  assert (SA : same [User; At; Ip4; Ip6; Dns; Lbr; Rbr] k k1). { intros m N. rewrite (S1 m); auto; intros H; apply N; cbn [In] in *; intuition auto. }
  destruct (es_f (E User) x e fl) as [u|] eqn:F1; [destruct (es_f (E At) u e fl) as [a|] eqn:F2|]; intros R1.
  2,3: do 2 eexists; split; [reflexivity|]; split; [auto|]; split; [auto|]; intros; congruence.
  destruct (R1 a eq_refl) as (Ta & Ia & R2 & _). destruct (host_ok true k1 a) as (k2 & o & -> & W2 & S2 & H); [inc; auto 10|auto|auto|]. do 2 eexists. split; [reflexivity|]. split; auto. split. { intros m N. rewrite (S2 m), (S1 m); auto; intros HH; apply N; cbn [In] in *; intuition auto. }
  destruct o as [y|].
  - destruct H as (i4 & i6 & dn & Ho & Ty & Iy & Ri). exists u, a, i4, i6, dn. split; auto. split; auto. split; auto. split; auto. split; [apply (in_trans txt x a); auto|]. split; auto. apply (same_rd [Ip4; Ip6; Dns; Lbr; Rbr] k1); [auto|notin|]. apply R2. notin.
  - intros u' a' H1 H2. assert (u' = u) by congruence. subst. assert (a' = a) by congruence. subst. auto.
Qed.

(** ** The readings are unique *)
Lemma scheme_unique : forall s sc x sc' x', scheme_at e fl E s sc x -> scheme_at e fl E s sc' x' -> sc = sc' /\ x = x'.
Proof. intros s sc x sc' x' H H'. inversion H; inversion H'; subst; split; congruence. Qed.
Lemma auth_unique : forall ftp s y u p y' u' p', auth_at e fl E ftp s y u p -> auth_at e fl E ftp s y' u' p' -> y = y' /\ u = u' /\ p = p'.
Proof.
  intros ftp s y u p y' u' p' H H'. inversion H; inversion H'; subst; try (exfalso; match goal with N : forall a b c y, ~ user_pass_at _ _ _ _ a b c y, K : user_pass_at _ _ _ _ _ _ _ _ |- _ => exact (N _ _ _ _ K) | N : forall a y, ~ user_at _ _ _ _ _ a y, K : user_at _ _ _ _ _ _ _ |- _ => exact (N _ _ K) end); auto.
  - unfold user_pass_at in *. repeat match goal with K : _ /\ _ |- _ => destruct K end.
    repeat match goal with A : UrlSpec.at_ e fl E ?n ?x = Some ?u, B : UrlSpec.at_ e fl E ?n ?x = Some ?v |- _ => assert (v = u) by congruence; subst v; clear B end. auto.
  - unfold user_at in *. repeat match goal with K : _ /\ _ |- _ => destruct K end.
    repeat match goal with A : UrlSpec.at_ e fl E ?n ?x = Some ?u, B : UrlSpec.at_ e fl E ?n ?x = Some ?v |- _ => assert (v = u) by congruence; subst v; clear B end. auto.
Qed.
Lemma ip4_unique : forall br s y i y' i', ip4_at e fl E br s y i -> ip4_at e fl E br s y' i' -> y = y' /\ i = i'.
Proof.
  intros br s y i y' i' H H'. inversion H; inversion H'; subst; try discriminate;
    repeat match goal with A : UrlSpec.at_ e fl E ?n ?x = Some ?u, B : UrlSpec.at_ e fl E ?n ?x = Some ?v |- _ => assert (v = u) by congruence; subst v; clear B end; auto.
Qed.
Lemma host_unique : forall br s y a b c y' a' b' c', host_at e fl E br s y a b c -> host_at e fl E br s y' a' b' c' -> y = y' /\ a = a' /\ b = b' /\ c = c'.
Proof.
  intros br s y a b c y' a' b' c' H H'. inversion H; inversion H'; subst; try (exfalso; match goal with N : forall y i, ~ ip4_at _ _ _ _ _ y i, K : ip4_at _ _ _ _ _ _ _ |- _ => exact (N _ _ K) | N : forall a b y, ~ ip6_at _ _ _ _ a b y, K : ip6_at _ _ _ _ _ _ _ |- _ => exact (N _ _ _ K) end).
  - match goal with A : ip4_at _ _ _ _ _ y _, B : ip4_at _ _ _ _ _ y' _ |- _ => destruct (ip4_unique _ _ _ _ _ _ A B) as [-> ->] end. auto.
  - unfold ip6_at in *. repeat match goal with K : _ /\ _ |- _ => destruct K end.
    repeat match goal with A : UrlSpec.at_ e fl E ?n ?x = Some ?u, B : UrlSpec.at_ e fl E ?n ?x = Some ?v |- _ => assert (v = u) by congruence; subst v; clear B end. auto.
  - repeat match goal with A : UrlSpec.at_ e fl E ?n ?x = Some ?u, B : UrlSpec.at_ e fl E ?n ?x = Some ?v |- _ => assert (v = u) by congruence; subst v; clear B end. auto.
Qed.
Lemma host_none : forall br s y a b c, host_at e fl E br s y a b c -> no_host e fl E br s -> False.
Proof. intros br s y a b c H (N4 & N6 & Nd). inversion H; subst; [eapply N4|eapply N6|]; eauto. congruence. Qed.
Lemma port_unique : forall s y p y' p', opt_port_at e fl E s y p -> opt_port_at e fl E s y' p' -> y = y' /\ p = p'.
Proof.
  intros s y p y' p' H H'. inversion H; inversion H'; subst; try (exfalso; match goal with N : forall a y, ~ port_at _ _ _ _ a y, K : port_at _ _ _ _ _ _ |- _ => exact (N _ _ K) end); auto.
  unfold port_at in *. repeat match goal with K : _ /\ _ |- _ => destruct K end.
  repeat match goal with A : UrlSpec.at_ e fl E ?n ?x = Some ?u, B : UrlSpec.at_ e fl E ?n ?x = Some ?v |- _ => assert (v = u) by congruence; subst v; clear B end. auto.
Qed.
Lemma opath_unique : forall s y p y' p', opt_path_at e fl E s y p -> opt_path_at e fl E s y' p' -> y = y' /\ p = p'.
Proof. intros s y p y' p' H H'. inversion H; inversion H'; subst; split; congruence. Qed.
Lemma may_unique : forall au ftp s y u p y' u' p', may_auth_at e fl E au ftp s y u p -> may_auth_at e fl E au ftp s y' u' p' -> y = y' /\ u = u' /\ p = p'.
Proof. intros [] ftp s y u p y' u' p' H H'; cbn in H, H'; [eapply auth_unique; eauto|]. destruct H as (-> & -> & ->), H' as (-> & -> & ->). auto. Qed.
Theorem url_unique : forall s y u y' u', url_at e fl E s y u -> url_at e fl E s y' u' -> y = y' /\ u = u'.
Proof.
  intros s y u y' u' H H'.
  inversion H as [x1 a1 h1 p1 y1 us1 ps1 i41 i61 dn1 po1 pa1 S1 A1 O1 Q1 T1|x1 w1 a1 y1 i41 i61 dn1 S1 A1 B1 O1|x1 y1 pa1 S1 T1|sc1 x1 a1 h1 p1 y1 us1 ps1 i41 i61 dn1 po1 pa1 K1 S1 A1 O1 Q1 T1];
  inversion H' as [x2 a2 h2 p2 y2 us2 ps2 i42 i62 dn2 po2 pa2 S2 A2 O2 Q2 T2|x2 w2 a2 y2 i42 i62 dn2 S2 A2 B2 O2|x2 y2 pa2 S2 T2|sc2 x2 a2 h2 p2 y2 us2 ps2 i42 i62 dn2 po2 pa2 K2 S2 A2 O2 Q2 T2]; subst;
  destruct (scheme_unique _ _ _ _ _ S1 S2) as [Es Ex]; try discriminate; try (exfalso; intuition congruence); subst.
  - destruct (auth_unique _ _ _ _ _ _ _ _ A1 A2) as (-> & -> & ->). destruct (host_unique _ _ _ _ _ _ _ _ _ _ O1 O2) as (-> & -> & -> & ->). destruct (port_unique _ _ _ _ _ Q1 Q2) as (-> & ->). destruct (opath_unique _ _ _ _ _ T1 T2) as (-> & ->). auto.
  - assert (w2 = w1) by congruence. subst. assert (a2 = a1) by congruence. subst. destruct (host_unique _ _ _ _ _ _ _ _ _ _ O1 O2) as (-> & -> & -> & ->). auto.
  - destruct (opath_unique _ _ _ _ _ T1 T2) as (-> & ->). auto.
  - destruct (may_unique _ _ _ _ _ _ _ _ _ A1 A2) as (-> & -> & ->). destruct (host_unique _ _ _ _ _ _ _ _ _ _ O1 O2) as (-> & -> & -> & ->). destruct (port_unique _ _ _ _ _ Q1 Q2) as (-> & ->). destruct (opath_unique _ _ _ _ _ T1 T2) as (-> & ->). auto.
Qed.

(** ** All of it *)
Lemma site_ok : forall (au ftp : bool) k x, incl [User; Pass; Ip4; Ip6; Dns; Port; Path; Colon; At; Lbr; Rbr] V -> kwf k -> text_ok x e ->
  exists k' o, u_site P au ftp k x e fl = Ret (k', o) /\ kwf k' /\ same [User; Pass; Ip4; Ip6; Dns; Port; Path; Colon; At; Lbr; Rbr] k k' /\ exists a us ps, may_auth_at e fl E au ftp x a us ps /\
   match o with
   | Some y => exists i4 i6 dn h p po pa, host_at e fl E false a h i4 i6 dn /\ opt_port_at e fl E h p po /\ opt_path_at e fl E p y pa /\ text_ok y e /\ in_vis x y e /\
       rd k' User us /\ rd k' Pass ps /\ rd k' Ip4 i4 /\ rd k' Ip6 i6 /\ rd k' Dns dn /\ rd k' Port po /\ rd k' Path pa
   | None => no_host e fl E false a
   end.
Proof.
  intros au ftp k x I W T. unfold u_site. unfold incl in I. cbn [In] in I.
  assert (A : exists k1 a us ps, (if au then u_auth P ftp k x e fl else Ret (uinv P [User; Pass] k, x)) = Ret (k1, a) /\ kwf k1 /\ same [User; Pass; Colon; At] k k1 /\ may_auth_at e fl E au ftp x a us ps /\ text_ok a e /\ in_vis x a e /\ rd k1 User us /\ rd k1 Pass ps).
  { destruct au.
    - destruct (auth_ok ftp k x) as (k1 & a & us & ps & -> & H); [inc; auto 15|auto|auto|]. exists k1, a, us, ps. auto.
    - destruct (uinv_ok [User; Pass] k W) as (W' & S' & R'); [inc; auto 10|]. exists (uinv P [User; Pass] k), x, None, None. split; auto. split; auto. split. { intros m N. apply S'. intros H; apply N; cbn [In] in *; intuition auto. }
      split; [split; auto|]. split; auto. split; [unfold ParserPeg.in_vis; lia|]. split; apply R'; cbn; auto. }
  destruct A as (k1 & a & us & ps & -> & W1 & S1 & A & Ta & Ia & R1 & R2). cbn [obind].
  destruct (host_ok false k1 a) as (k2 & o & E2 & W2 & S2 & H); [inc; auto 15|auto|auto|]. rewrite E2. cbn [obind]. clear E2. destruct o as [h|].
  - destruct H as (i4 & i6 & dn & Ho & Th & Ih & R3 & R4 & R5). destruct (tail_ok k2 h) as (k3 & y & po & pa & p & -> & W3 & S3 & Po & Pa & Ty & Iy & R6 & R7); [inc; auto 15|auto|auto|]. cbn [obind].
    do 2 eexists. split; [reflexivity|]. split; auto. split. { intros m N. rewrite (S3 m), (S2 m), (S1 m); auto; intros K; apply N; cbn [In] in *; intuition auto. }
    exists a, us, ps. split; auto. exists i4, i6, dn, h, p, po, pa. split; auto. split; auto. split; auto. split; auto. split. { apply (in_trans txt x a); auto. apply (in_trans txt a h); auto. }
    assert (X : forall n w, ~ In n [Colon; Port; Path] -> rd k2 n w -> rd k3 n w) by (intros; eapply same_rd; eauto).
    assert (X2 : forall n w, ~ In n [Ip4; Ip6; Dns; Lbr; Rbr] -> rd k1 n w -> rd k2 n w) by (intros; eapply same_rd; eauto).
    split; [apply X; [notin|apply X2; [notin|auto]]|]. split; [apply X; [notin|apply X2; [notin|auto]]|]. split; [apply X; [notin|auto]|]. split; [apply X; [notin|auto]|]. split; [apply X; [notin|auto]|]. auto.
  - do 2 eexists. split; [reflexivity|]. split; auto. split. { intros m N. rewrite (S2 m), (S1 m); auto; intros K; apply N; cbn [In] in *; intuition auto. } exists a, us, ps. auto.
Qed.
Lemma match_ok : forall k s, incl url_names V -> kwf k -> text_ok s e ->
  exists k' o, u_match P k s e fl = Ret (k', o) /\ kwf k' /\
   match o with Some y => exists u, url_at e fl E s y u /\ in_vis s y e /\ forall n, In n url_public -> rd k' n (ui_get e fl E u s n) | None => forall y u, ~ url_at e fl E s y u end.
Proof.
  intros k s I W T. unfold u_match. unfold incl, url_names in I. cbn [In] in I.
  destruct (scheme_ok k s) as (k1 & sc & x & -> & W1 & Sc & Tx & Ix & R1); [inc; auto 20|auto|auto|]. cbn [obind].
  assert (VA : forall n, In n schemes -> is_valid (k1 n) = match sc with Some m => uname_eqb n m | None => false end).
  { intros n Hn. specialize (R1 n Hn). unfold scheme_span in R1. destruct sc as [m|]; [|apply (valid_none _ _ R1)]. destruct (uname_eqb_spec n m) as [Q|Ne]; [|apply (valid_none _ _ R1)]. subst m.
    assert (X : exists r y, all_at (n :: r) s = Some y) by (clear - Sc; inversion Sc; subst; cbn [scheme_mark] in *; eauto). destruct X as (r & y & X). destruct (all_first _ _ _ _ X) as (a & Ea). rewrite Ea in R1. apply (valid_some _ _ _ _ R1).
    assert (GV : In n V) by (cbn [schemes In] in Hn; repeat (destruct Hn as [<-|Hn]; [auto 20|]); contradiction). apply (el_within _ _ _ _ _ (GE n GV) s e fl a T Ea). }
  rewrite (VA Ftp), (VA Mailto), (VA File), (VA Http); try (cbn; auto; fail). clear VA.
  assert (SITE : forall au ftp, exists k' o, u_site P au ftp k1 x e fl = Ret (k', o) /\ kwf k' /\ (forall n, In n schemes -> rd k' n (scheme_span sc s n)) /\ exists a us ps, may_auth_at e fl E au ftp x a us ps /\
   match o with
   | Some y => exists i4 i6 dn h p po pa, host_at e fl E false a h i4 i6 dn /\ opt_port_at e fl E h p po /\ opt_path_at e fl E p y pa /\ text_ok y e /\ in_vis s y e /\
       rd k' User us /\ rd k' Pass ps /\ rd k' Ip4 i4 /\ rd k' Ip6 i6 /\ rd k' Dns dn /\ rd k' Port po /\ rd k' Path pa
   | None => no_host e fl E false a
   end).
  { intros au ftp. destruct (site_ok au ftp k1 x) as (k2 & o & E2 & W2 & S2 & a & us & ps & A & H); [inc; auto 20|auto|auto|]. exists k2, o. split; auto. split; auto. split.
    { intros n Hn. eapply same_rd; eauto. clear - Hn. cbn [schemes In] in Hn. repeat (destruct Hn as [<-|Hn]; [notin|]). contradiction. }
    exists a, us, ps. split; auto. destruct o as [y|]; auto. destruct H as (i4 & i6 & dn & h & p & po & pa & H1 & H2 & H3 & H4 & H5 & H6). exists i4, i6, dn, h, p, po, pa. split; auto. split; auto. split; auto. split; auto. split; auto. apply (in_trans txt s x); auto. }
  assert (GET : forall k' u sc, ui_scheme u = sc -> (forall n, In n schemes -> rd k' n (scheme_span sc s n)) -> rd k' User (ui_user u) -> rd k' Pass (ui_pass u) -> rd k' Ip4 (ui_ip4 u) -> rd k' Ip6 (ui_ip6 u) -> rd k' Dns (ui_dns u) -> rd k' Port (ui_port u) -> rd k' Path (ui_path u) ->
     forall n, In n url_public -> rd k' n (ui_get e fl E u s n)).
  { clear. intros k' u sc <- Rs H1 H2 H3 H4 H5 H6 H7 n Hn. cbn [url_public In] in Hn.
    repeat (destruct Hn as [<-|Hn]; [cbn [ui_get]; first [assumption | apply Rs; cbn; auto]|]). contradiction. }
  assert (Hs : sc = Some Ftp \/ sc = Some Mailto \/ sc = Some File \/ sc = Some Http \/ sc = None) by (clear - Sc; inversion Sc; auto).
  destruct Hs as [->|[->|[->|Hs]]].
  - cbn [uname_eqb]. destruct (SITE true true) as (k2 & o & -> & W2 & Rs & a & us & ps & A & H). do 2 eexists. split; [reflexivity|]. split; auto. cbn [may_auth_at] in A. destruct o as [y|].
    + destruct H as (i4 & i6 & dn & h & p & po & pa & Ho & Po & Pa & _ & Iy & U1 & U2 & U3 & U4 & U5 & U6 & U7). exists (UrlIs (Some Ftp) us ps i4 i6 dn po pa). split; [eapply UFtp; eauto|]. split; auto. eapply GET; eauto; reflexivity.
    + intros y u K. inversion K; subst; match goal with S2 : scheme_at _ _ _ s _ _ |- _ => destruct (scheme_unique _ _ _ _ _ Sc S2) as [Es Ex] end; try discriminate; try (exfalso; intuition congruence). subst.
      match goal with A2 : auth_at _ _ _ _ _ _ _ _ |- _ => destruct (auth_unique _ _ _ _ _ _ _ _ A A2) as (-> & _) end. eapply host_none; eauto.
  - cbn [uname_eqb]. destruct (mail_ok k1 x) as (k2 & o & -> & W2 & S2 & H); [inc; auto 20|auto|auto|]. cbn [obind]. destruct o as [y|].
    + destruct H as (w & a & i4 & i6 & dn & Eu & Ea & Ho & Ty & Iy & U1 & U3 & U4 & U5). destruct (uinv_ok [Pass; Port; Path] k2 W2) as (W' & S' & R'); [inc; auto 20|]. do 2 eexists. split; [reflexivity|]. split; auto.
      assert (X : forall n w, ~ In n [Pass; Port; Path] -> rd k2 n w -> rd (uinv P [Pass; Port; Path] k2) n w) by (intros; eapply same_rd; eauto).
      exists (UrlIs (Some Mailto) (Some (x, w)) None i4 i6 dn None None). split; [eapply UMailto; eauto|]. split; [apply (in_trans txt s x); auto|].
      eapply GET; [reflexivity| | | | | | | |]; cbn [ui_scheme ui_user ui_pass ui_ip4 ui_ip6 ui_dns ui_port ui_path].
      * intros n Hn. apply X; [clear - Hn; cbn [schemes In] in Hn; repeat (destruct Hn as [<-|Hn]; [notin|]); contradiction|]. eapply same_rd; eauto. clear - Hn. cbn [schemes In] in Hn. repeat (destruct Hn as [<-|Hn]; [notin|]). contradiction.
      * apply X; auto. notin.
      * apply R'. cbn; auto.
      * apply X; auto. notin.
      * apply X; auto. notin.
      * apply X; auto. notin.
      * apply R'. cbn; auto.
      * apply R'. cbn; auto.
    + do 2 eexists. split; [reflexivity|]. split; auto. intros y u K. inversion K; subst; match goal with S2 : scheme_at _ _ _ s _ _ |- _ => destruct (scheme_unique _ _ _ _ _ Sc S2) as [Es Ex] end; try discriminate; try (exfalso; intuition congruence). subst. eapply host_none; eauto.
  - cbn [uname_eqb]. destruct (path_ok k1 x) as (k2 & -> & W2 & S2 & pa & Pa & Ty & Iy & Rp); [inc; auto 20|auto|auto|]. cbn [obind]. destruct (uinv_ok [User; Pass; Ip4; Ip6; Dns; Port] k2 W2) as (W' & S' & R'); [inc; auto 20|].
    do 2 eexists. split; [reflexivity|]. split; auto. exists (UrlIs (Some File) None None None None None None pa). split; [eapply UFile; eauto|]. split; [apply (in_trans txt s x); auto|].
    eapply GET; [reflexivity| | | | | | | |]; cbn [ui_scheme ui_user ui_pass ui_ip4 ui_ip6 ui_dns ui_port ui_path]; try (apply R'; cbn; auto 10; fail).
    + intros n Hn. eapply same_rd; [exact S'| |eapply same_rd; [exact S2| |eauto]]; clear - Hn; cbn [schemes In] in Hn; repeat (destruct Hn as [<-|Hn]; [notin|]); contradiction.
    + eapply same_rd; [exact S'|notin|auto].
  - assert (Eq : match sc with Some m => uname_eqb Ftp m | None => false end = false /\ match sc with Some m => uname_eqb Mailto m | None => false end = false /\ match sc with Some m => uname_eqb File m | None => false end = false /\ match sc with Some m => uname_eqb Http m | None => false end = is_http sc) by (destruct Hs as [->| ->]; auto).
    destruct Eq as (-> & -> & -> & ->). destruct (SITE (is_http sc) false) as (k2 & o & -> & W2 & Rs & a & us & ps & A & H). do 2 eexists. split; [reflexivity|]. split; auto. destruct o as [y|].
    + destruct H as (i4 & i6 & dn & h & p & po & pa & Ho & Po & Pa & _ & Iy & U1 & U2 & U3 & U4 & U5 & U6 & U7). exists (UrlIs sc us ps i4 i6 dn po pa). split; [eapply UHttp; eauto|]. split; auto. eapply GET; eauto; reflexivity.
    + intros y u K. inversion K; subst; match goal with S2 : scheme_at _ _ _ s _ _ |- _ => destruct (scheme_unique _ _ _ _ _ Sc S2) as [Es Ex] end; subst; try (exfalso; intuition congruence).
      match goal with A2 : may_auth_at _ _ _ _ _ _ _ _ _ |- _ => destruct (may_unique _ _ _ _ _ _ _ _ _ A A2) as (-> & _) end. eapply host_none; eauto.
Qed.
End At.
End Props.

(** the state of the member [n] *)
Definition url_member (n : uname) (st : pst) : pst := assign url_names (kids st) n.
Definition email_member (n : uname) (st : pst) : pst := assign email_names (kids st) n.
Definition url_wf (E : uname -> espec) (st : pst) : Prop := vals st = [] /\ exists k, kids st = map k url_names /\ kwf E url_names k.
Definition email_wf (E : uname -> espec) (st : pst) : Prop := vals st = [] /\ exists k, kids st = map k email_names /\ kwf E email_names k.
Lemma assign_url : forall k n, assign url_names (map k url_names) n = k n.
Proof. intros k n. destruct n; reflexivity. Qed.
Lemma assign_email : forall k n, In n email_names -> assign email_names (map k email_names) n = k n.
Proof. intros k n H. cbn [email_names In] in H. repeat (destruct H as [<-|H]; [reflexivity|]). contradiction. Qed.
Lemma url_public_in : incl url_public url_names.
Proof. intros n H. cbn [url_public url_names In] in *. intuition auto. Qed.

(** C217 *)
Theorem url_spec : forall txt E, (forall n, good txt (E n)) ->
  let P := url_p (fun n => es_P (E n)) in
  url_wf E (p_init P) /\
  (forall st, url_wf E st -> url_wf E (p_inval P st) /\ iv (p_inval P st) = no_iv /\ forall n, In n url_public -> iv (url_member n (p_inval P st)) = no_iv) /\
  forall st s e fl, url_wf E st -> text_ok txt s e ->
   exists st' r, p_match P st s e fl = Ret (st', r) /\ url_wf E st' /\
    (r = true <-> exists y u, url_at e fl E s y u) /\
    (forall y u, url_at e fl E s y u -> iv st' = (s, y) /\ in_vis txt s y e /\ forall n, In n url_public -> member e fl (Some (E n)) (url_member n st') (ui_get e fl E u s n)) /\
    (r = false -> iv st' = no_iv /\ forall n, In n url_public -> iv (url_member n st') = no_iv).
Proof.
  intros txt E G P. assert (GV : forall n, In n url_names -> good txt (E n)) by auto. split; [|split].
  - split; [reflexivity|]. exists (fun n => p_init (es_P (E n))). split; [reflexivity|]. intros n Hn. apply (ini_p txt). auto.
  - intros st (Vv & k & K & W). assert (W' : kwf E url_names (assign url_names (kids st))) by (intros n Hn; rewrite K, assign_url; auto).
    destruct (uinv_ok txt E url_names GV 0 (PFlags false false) url_public _ W' url_public_in) as (W2 & _ & R2). split; [split; [reflexivity|]; eexists; split; [reflexivity|exact W2]|]. split; [reflexivity|].
    intros n Hn. unfold url_member, P, url_p. cbn [p_inval kids]. rewrite assign_url. apply (R2 n Hn).
  - intros st s e fl (Vv & k & K & W) T. assert (W' : kwf E url_names (assign url_names (kids st))) by (intros n Hn; rewrite K, assign_url; auto).
    unfold P, url_p. cbn [p_match]. assert (L : length (kids st) = 16%nat) by (rewrite K, map_length; reflexivity). rewrite L. cbn [Nat.eqb negb].
    destruct (match_ok txt E url_names GV e fl _ s (incl_refl _) W' T) as (k2 & o & -> & W2 & H). cbn [obind]. destruct o as [y|].
    + destruct H as (u & U & I & R). do 2 eexists. split; [reflexivity|]. split; [split; [reflexivity|]; eexists; split; [reflexivity|exact W2]|]. split; [split; eauto|]. split; [|discriminate].
      intros y' u' U'. destruct (url_unique E e fl _ _ _ _ _ U U') as [<- <-]. split; [reflexivity|]. split; auto. intros n Hn. unfold url_member. cbn [kids]. rewrite assign_url. apply (R n Hn).
    + destruct (uinv_ok txt E url_names GV e fl url_public _ W2 url_public_in) as (W3 & _ & R3). do 2 eexists. split; [reflexivity|]. split; [split; [reflexivity|]; eexists; split; [reflexivity|exact W3]|]. split; [split; [discriminate|intros (y & u & U); exfalso; eapply H; eauto]|].
      split; [intros y u U; exfalso; eapply H; eauto|]. intros _. split; [reflexivity|]. intros n Hn. unfold url_member. cbn [kids]. rewrite assign_url. apply (R3 n Hn).
Qed.

Definition email_public : list uname := [User; Ip4; Ip6; Dns].
Definition email_get (us i4 i6 dn : span) (n : uname) : span := match n with User => us | Ip4 => i4 | Ip6 => i6 | Dns => dn | _ => None end.
Lemma email_public_in : incl email_public email_names.
Proof. intros n H. cbn [email_public email_names In] in *. intuition auto. Qed.
Theorem email_unique : forall e fl E s y a b c d y' a' b' c' d', email_at e fl E s y a b c d -> email_at e fl E s y' a' b' c' d' -> y = y' /\ a = a' /\ b = b' /\ c = c' /\ d = d'.
Proof.
  intros e fl E s y a b c d y' a' b' c' d' H H'. inversion H as [u1 a1 y1 i41 i61 dn1 A1 B1 O1]; inversion H' as [u2 a2 y2 i42 i62 dn2 A2 B2 O2]; subst. assert (u2 = u1) by congruence. subst. assert (a2 = a1) by congruence. subst.
  destruct (host_unique _ _ _ _ _ _ _ _ _ _ _ _ _ O1 O2) as (-> & -> & -> & ->). auto.
Qed.
(** C218 *)
Theorem email_spec : forall txt E, (forall n, In n email_names -> good txt (E n)) ->
  let P := email_p (fun n => es_P (E n)) in
  email_wf E (p_init P) /\
  (forall st, email_wf E st -> email_wf E (p_inval P st) /\ iv (p_inval P st) = no_iv /\ forall n, In n email_public -> iv (email_member n (p_inval P st)) = no_iv) /\
  forall st s e fl, email_wf E st -> text_ok txt s e ->
   exists st' r, p_match P st s e fl = Ret (st', r) /\ email_wf E st' /\
    (r = true <-> exists y us i4 i6 dn, email_at e fl E s y us i4 i6 dn) /\
    (forall y us i4 i6 dn, email_at e fl E s y us i4 i6 dn -> iv st' = (s, y) /\ in_vis txt s y e /\ forall n, In n email_public -> member e fl (Some (E n)) (email_member n st') (email_get us i4 i6 dn n)) /\
    (r = false -> iv st' = no_iv /\ forall n, In n email_public -> iv (email_member n st') = no_iv).
Proof.
  intros txt E GV P. split; [|split].
  - split; [reflexivity|]. exists (fun n => p_init (es_P (E n))). split; [reflexivity|]. intros n Hn. apply (ini_p txt). auto.
  - intros st (Vv & k & K & W). assert (W' : kwf E email_names (assign email_names (kids st))) by (intros n Hn; rewrite K, assign_email; auto).
    destruct (uinv_ok txt E email_names GV 0 (PFlags false false) email_public _ W' email_public_in) as (W2 & _ & R2). split; [split; [reflexivity|]; eexists; split; [reflexivity|exact W2]|]. split; [reflexivity|].
    intros n Hn. unfold email_member, P, email_p. cbn [p_inval kids]. rewrite assign_email by (apply email_public_in; auto). apply (R2 n Hn).
  - intros st s e fl (Vv & k & K & W) T. assert (W' : kwf E email_names (assign email_names (kids st))) by (intros n Hn; rewrite K, assign_email; auto).
    unfold P, email_p. cbn [p_match]. assert (L : length (kids st) = 7%nat) by (rewrite K, map_length; reflexivity). rewrite L. cbn [Nat.eqb negb].
    destruct (mail_ok txt E email_names GV e fl (assign email_names (kids st)) s) as (k2 & o & -> & W2 & _ & H); [intros n Hn; cbn [email_names In] in *; intuition auto|auto|auto|]. cbn [obind]. destruct o as [y|].
    + destruct H as (u & a & i4 & i6 & dn & Eu & Ea & Ho & _ & I & U1 & U2 & U3 & U4). assert (U : email_at e fl E s y (Some (s, u)) i4 i6 dn) by (econstructor; eauto).
      do 2 eexists. split; [reflexivity|]. split; [split; [reflexivity|]; eexists; split; [reflexivity|exact W2]|]. split; [split; eauto 10|]. split; [|discriminate].
      intros y' us' i4' i6' dn' U'. destruct (email_unique _ _ _ _ _ _ _ _ _ _ _ _ _ _ U U') as (<- & <- & <- & <- & <-). split; [reflexivity|]. split; auto. intros n Hn. unfold email_member. cbn [kids]. rewrite assign_email by (apply email_public_in; auto).
      cbn [email_public In] in Hn. repeat (destruct Hn as [<-|Hn]; [cbn [email_get]; assumption|]). contradiction.
    + assert (NU : forall y us i4 i6 dn, ~ email_at e fl E s y us i4 i6 dn). { intros y us i4 i6 dn U. inversion U; subst. eapply host_none; eauto. }
      destruct (uinv_ok txt E email_names GV e fl email_public _ W2 email_public_in) as (W3 & _ & R3). do 2 eexists. split; [reflexivity|]. split; [split; [reflexivity|]; eexists; split; [reflexivity|exact W3]|]. split; [split; [discriminate|intros (y & us & i4 & i6 & dn & U); exfalso; eapply NU; eauto]|].
      split; [intros y us i4 i6 dn U; exfalso; eapply NU; eauto|]. intros _. split; [reflexivity|]. intros n Hn. unfold email_member. cbn [kids]. rewrite assign_email by (apply email_public_in; auto). apply (R3 n Hn).
Qed.
