(** The composite numeral parsers (property C111): each recognises a grammar of ordered choices over the parsers it holds. *)
From Coq Require Import ZifyBool ZifyNat.
From Verif Require Import Base StringModel StringSpec StringProofs ParserModel ParserSpec ParserProps ParserNumModel ParserNumProps.
Ltac Zify.zify_post_hook ::= Z.div_mod_to_equations.

(** ** Grammar vocabulary.  [seq_fn] one after another, [branch_fn] the first that matches (ParserSpec), and: *)
(** optional *)
Definition opt_fn (f : pfun) : pfun := fun s e fl => match f s e fl with Some x => Some x | None => Some s end.
(** as often as it matches; [star_is] says so without fuel *)
Fixpoint star_n (n : nat) (f : pfun) (s e : nat) (fl : pflags) : nat :=
  match n with O => s | S k => match f s e fl with Some x => star_n k f x e fl | None => s end end.
Definition star_fn (f : pfun) : pfun := fun s e fl => Some (star_n (S (e - s)) f s e fl).
Definition star_is (f : pfun) (s y e : nat) (fl : pflags) : Prop := (exists n, reps f n s y e fl) /\ f y e fl = None.
(** [f], provided [g] matches behind it (which is not part of the match) *)
Definition before_fn (f g : pfun) : pfun := fun s e fl => match f s e fl with Some x => match g x e fl with Some _ => Some x | None => None end | None => None end.
(** without match_multiline *)
Definition no_ml (f : pfun) : pfun := fun s e fl => f s e (one_line fl).
Definition no_iv : nat * nat := (1, 0)%nat.
Definition ivo (s : nat) (o : option nat) : nat * nat := match o with Some x => (s, x) | None => no_iv end.
(** the intervals of a sequence's elements *)
Fixpoint seq_ivs (fs : list pfun) (s e : nat) (fl : pflags) : list (nat * nat) :=
  match fs with [] => [] | f :: r => match f s e fl with Some x => (s, x) :: seq_ivs r x e fl | None => [] end end.
(** held parsers that may be null *)
Definition o_P (o : option espec) : option pcls := option_map es_P o.
Definition o_f (o : option espec) : pfun := match o with Some p => es_f p | None => fun _ _ _ => None end.
Definition o_wf (o : option espec) (k : pst) : Prop := match o with Some p => es_wf p k | None => iv k = no_iv end.
Definition o_good (txt : list Z) (o : option espec) : Prop := match o with Some p => good txt p | None => True end.
(** a sign: the first of the three that matches, or nothing *)
Definition sign_fn (o1 o2 o3 : option espec) : pfun := opt_fn (branch_fn [o_f o1; o_f o2; o_f o3]).
(** ... and the intervals of the three after it: that one's, the others invalid *)
Definition sign_ivs (o1 o2 o3 : option espec) (s e : nat) (fl : pflags) : list (nat * nat) :=
  match o_f o1 s e fl with
  | Some x => [(s, x); no_iv; no_iv]
  | None => match o_f o2 s e fl with Some x => [no_iv; (s, x); no_iv] | None => [no_iv; no_iv; ivo s (o_f o3 s e fl)] end
  end.
(** A parser recognises [f], and after a match the intervals of the first of its held parsers are [parts]. *)
Definition composite (txt : list Z) (P : pcls) (wf : pst -> Prop) (f : pfun) (n : nat) (parts : nat -> nat -> pflags -> list (nat * nat)) : Prop :=
  element txt P wf f no_vals /\
  forall st s e fl, wf st -> text_ok txt s e -> exists st', p_match P st s e fl = Ret (st', found (f s e fl)) /\ firstn n (map iv (kids st')) = parts s e fl.

Section Peg.
Context (txt : list Z).
Local Notation text_ok := (text_ok txt).
Local Notation vis := (vis txt).
Local Notation good := (good txt).
Local Notation o_good := (o_good txt).
Definition in_vis (s x e : nat) : Prop := (s <= x <= s + length (vis s e))%nat.
(** what a match is, for use *)
Definition ran (wf : pst -> Prop) (s e : nat) (r : outcome (pst * bool)) (o : option nat) : Prop :=
  exists k', r = Ret (k', found o) /\ wf k' /\ match o with Some x => iv k' = (s, x) /\ i_end k' = x /\ text_ok x e /\ in_vis s x e | None => iv k' = no_iv end.
Lemma ran_p : forall p k s e fl, good p -> es_wf p k -> text_ok s e -> ran (es_wf p) s e (p_match (es_P p) k s e fl) (es_f p s e fl).
Proof.
  intros p k s e fl G W H. destruct (el_match _ _ _ _ _ G k s e fl W H) as (k' & E & W' & R). exists k'. split; auto. split; auto. destruct (es_f p s e fl) as [x|] eqn:F; auto. destruct R as [R _]. pose proof (el_within _ _ _ _ _ G s e fl x H F) as Wi.
  split; auto. split; [injection R; auto|]. split; auto. apply (vis_to txt s e x H Wi).
Qed.
Lemma ran_o : forall o k s e fl, o_good o -> o_wf o k -> text_ok s e -> ran (o_wf o) s e (op_match (o_P o) k s e fl) (o_f o s e fl).
Proof. intros [p|] k s e fl G W H; [apply ran_p; auto|]. exists k. repeat split; auto. Qed.
Lemma inv_p : forall p k, good p -> es_wf p k -> es_wf p (p_inval (es_P p) k) /\ iv (p_inval (es_P p) k) = no_iv.
Proof. intros p k G W. apply (el_inval _ _ _ _ _ G k W). Qed.
Lemma inv_o : forall o k, o_good o -> o_wf o k -> o_wf o (op_inval (o_P o) k) /\ iv (op_inval (o_P o) k) = no_iv.
Proof. intros [p|] k G W; [apply inv_p; auto|]. split; exact W. Qed.
Lemma ini_p : forall p, good p -> es_wf p (p_init (es_P p)).
Proof. intros p G. apply (el_init _ _ _ _ _ G). Qed.
Lemma ini_o : forall o, o_good o -> o_wf o (op_init (o_P o)).
Proof. intros [p|] G; [apply ini_p; auto|reflexivity]. Qed.
Lemma in_trans : forall s x y e, text_ok s e -> in_vis s x e -> in_vis x y e -> in_vis s y e.
Proof. intros s x y e H A B. apply (vis_trans txt s e x y); auto. Qed.
(** enough to show about a composite *)
Lemma composite_of : forall P (wf : pst -> Prop) (f : pfun) n parts,
  wf (p_init P) -> (forall st, wf st -> wf (p_inval P st) /\ iv (p_inval P st) = no_iv) ->
  (forall st s e fl, wf st -> text_ok s e -> exists st', p_match P st s e fl = Ret (st', found (f s e fl)) /\ wf st' /\ vals st' = [] /\ iv st' = ivo s (f s e fl) /\
     (forall x, f s e fl = Some x -> in_vis s x e) /\ firstn n (map iv (kids st')) = parts s e fl) ->
  composite txt P wf f n parts.
Proof.
  intros P wf f n parts Hi Hv Hm. split.
  - split; auto.
    + intros st s e fl W H. destruct (Hm st s e fl W H) as (st' & E & W' & V & I & Wi & _). exists st'. split; auto. split; auto. destruct (f s e fl); auto.
    + intros s e fl x H E. destruct (Hm _ s e fl Hi H) as (_ & _ & _ & _ & _ & Wi & _). apply Wi; auto.
  - intros st s e fl W H. destruct (Hm st s e fl W H) as (st' & E & _ & _ & _ & _ & P'). eauto.
Qed.
(** a sign in front *)
Lemma sign_spec : forall o1 o2 o3 k1 k2 k3 s e fl, o_good o1 -> o_good o2 -> o_good o3 -> o_wf o1 k1 -> o_wf o2 k2 -> o_wf o3 k3 -> text_ok s e ->
  exists k1' k2' k3' x, sign_step (o_P o1) (o_P o2) (o_P o3) k1 k2 k3 s e fl = Ret (k1', k2', k3', x) /\ o_wf o1 k1' /\ o_wf o2 k2' /\ o_wf o3 k3' /\
    sign_fn o1 o2 o3 s e fl = Some x /\ [iv k1'; iv k2'; iv k3'] = sign_ivs o1 o2 o3 s e fl /\ text_ok x e /\ in_vis s x e.
Proof.
  intros o1 o2 o3 k1 k2 k3 s e fl G1 G2 G3 W1 W2 W3 H. unfold sign_step, sign_step_by, sign_fn, opt_fn, sign_ivs. cbn [branch_fn].
  destruct (ran_o o1 k1 s e fl G1 W1 H) as (k1' & -> & W1' & R1). cbn [obind]. destruct (inv_o o1 k1' G1 W1') as [V1 I1]. destruct (inv_o o2 k2 G2 W2) as [V2 I2]. destruct (inv_o o3 k3 G3 W3) as [V3 I3].
  destruct (o_f o1 s e fl) as [x|]; cbn [found].
  { destruct R1 as (R1 & -> & R3 & R4). do 4 eexists. split; [reflexivity|]. rewrite R1, I2, I3. tauto. }
  destruct (ran_o o2 k2 s e fl G2 W2 H) as (k2' & -> & W2' & R2). cbn [obind]. destruct (inv_o o2 k2' G2 W2') as [V2' I2']. destruct (o_f o2 s e fl) as [x|]; cbn [found].
  { destruct R2 as (R2 & -> & R3 & R4). do 4 eexists. split; [reflexivity|]. rewrite R2, I1, I3. tauto. }
  destruct (ran_o o3 k3 s e fl G3 W3 H) as (k3' & -> & W3' & R3). cbn [obind]. destruct (inv_o o3 k3' G3 W3') as [V3' I3']. destruct (o_f o3 s e fl) as [x|]; cbn [found ivo].
  { destruct R3 as (R3 & -> & R5 & R4). do 4 eexists. split; [reflexivity|]. rewrite R3, I1, I2'. tauto. }
  do 4 eexists. split; [reflexivity|]. rewrite I1, I2', I3'. split; auto. split; auto. split; auto. split; auto. split; auto. split; auto. split; lia.
Qed.
(** spaces *)
Lemma star_spec : forall f s e fl, (forall x y, text_ok x e -> f x e fl = Some y -> (x < y)%nat /\ in_vis x y e) -> text_ok s e -> exists y, star_fn f s e fl = Some y /\ star_is f s y e fl /\ in_vis s y e.
Proof.
  intros f s e fl A H. unfold star_fn, star_is. eexists. split; [reflexivity|].
  assert (M : forall n s, text_ok s e -> (length (vis s e) < n)%nat -> ((exists m, reps f m s (star_n n f s e fl) e fl) /\ f (star_n n f s e fl) e fl = None) /\ in_vis s (star_n n f s e fl) e).
  { clear s H. induction n as [|n IH]; intros s H L; [lia|]. cbn [star_n]. destruct (f s e fl) as [x|] eqn:F.
    - destruct (A s x H F) as [A1 A2]. destruct (vis_to txt s e x H A2) as [Hx Vx]. destruct (IH x Hx) as [[(m & R) N] Wi]. { rewrite Vx, skipn_length. unfold in_vis in A2. lia. }
      split; [split; auto|apply (in_trans s x); auto]. exists (S m). cbn [reps]. exists x. repeat split; auto. lia.
    - split; [split; auto; exists 0%nat; reflexivity|]. split; lia. }
  apply M; auto. pose proof (vis_end txt s e H). lia.
Qed.
Theorem star_unique : forall f s e fl y y', star_is f s y e fl -> star_is f s y' e fl -> y = y'.
Proof.
  intros f s e fl y y' [(n & R) N] [(n' & R') N']. revert n' s R R'. induction n as [|n IH]; intros [|n'] s R R'; cbn [reps] in *; subst; auto.
  - destruct R' as (x & F & _). congruence.
  - destruct R as (x & F & _). congruence.
  - destruct R as (x & F & _ & R), R' as (x' & F' & _ & R'). assert (x' = x) by congruence. subst x'. eapply IH; eauto.
Qed.
Lemma skip_spec : forall p fuel k s e fl, good p -> advances txt (es_f p) -> es_wf p k -> text_ok s e -> (length (vis s e) < fuel)%nat ->
  exists k' y, skip_space fuel (es_P p) k s e fl = Ret (k', y) /\ es_wf p k' /\ star_fn (es_f p) s e fl = Some y /\ text_ok y e /\ in_vis s y e.
Proof.
  intros p fuel k s e fl G A W H L.
  assert (A' : forall x y, text_ok x e -> es_f p x e fl = Some y -> (x < y)%nat /\ in_vis x y e). { intros x y Hx F. split; [apply (A x e fl y Hx F)|apply (el_within _ _ _ _ _ G x e fl y Hx F)]. }
  assert (M : forall fuel k s, es_wf p k -> text_ok s e -> (length (vis s e) < fuel)%nat -> exists k' y, skip_space fuel (es_P p) k s e fl = Ret (k', y) /\ es_wf p k' /\ star_is (es_f p) s y e fl /\ text_ok y e /\ in_vis s y e).
  { clear fuel k s W H L. induction fuel as [|fuel IH]; intros k s W H L; [lia|]. cbn [skip_space]. destruct (ran_p p k s e fl G W H) as (k' & -> & W' & R). cbn [obind]. destruct (es_f p s e fl) as [x|] eqn:F; cbn [found].
    - destruct R as (_ & -> & Hx & Wx). destruct (A' s x H F) as [A1 A2]. destruct (IH k' x W' Hx) as (k2 & y & E & W2 & [(n & R) N] & Hy & Wy). { destruct (vis_to txt s e x H A2) as [_ Vx]. rewrite Vx, skipn_length. unfold in_vis in A2. lia. }
      exists k2, y. split; auto. split; auto. split; [|split; auto; apply (in_trans s x); auto]. split; auto. exists (S n). cbn [reps]. exists x. repeat split; auto. lia.
    - exists k', s. split; auto. split; auto. split; [split; auto; exists 0%nat; reflexivity|]. split; auto. split; lia. }
  destruct (M fuel k s W H L) as (k' & y & E & W' & St & Hy & Wy). destruct (star_spec (es_f p) s e fl A' H) as (y' & E' & St' & _). assert (y' = y) by (eapply star_unique; eauto). subst y'. exists k', y. auto.
Qed.

(** ** fraction *)
Definition wf3 (n l d : espec) (st : pst) : Prop := vals st = [] /\ exists a b c, kids st = [a; b; c] /\ es_wf n a /\ es_wf l b /\ es_wf d c.
Ltac done_with := do 4 eexists.
Theorem fraction_spec : forall n l d, good n -> good l -> good d ->
  let f := seq_fn [es_f n; es_f l; es_f d] in
  composite txt (fraction (es_P n) (es_P l) (es_P d)) (wf3 n l d) f 3
    (fun s e fl => match f s e fl with Some _ => seq_ivs [es_f n; es_f l; es_f d] s e fl | None => [no_iv; no_iv; no_iv] end).
Proof.
  intros n l d Gn Gl Gd f. apply composite_of.
  - split; [reflexivity|]. do 3 eexists. split; [reflexivity|]. split; [|split]; apply ini_p; auto.
  - intros st (V & a & b & c & E & Wa & Wb & Wc). cbn [fraction p_inval]. rewrite E. split; [|reflexivity]. split; [reflexivity|]. do 3 eexists. split; [reflexivity|]. split; [|split]; apply inv_p; auto.
  - intros st s e fl (V & a & b & c & E & Wa & Wb & Wc) H. cbn [fraction p_match]. rewrite E. unfold f. cbn [seq_fn seq_ivs]. clear f.
    destruct (ran_p n a s e fl Gn Wa H) as (a' & -> & Wa' & Ra). cbn [obind]. destruct (inv_p n a' Gn Wa') as [Va Ia]. destruct (inv_p l b Gl Wb) as [Vb Ib]. destruct (inv_p d c Gd Wc) as [Vc Ic].
    destruct (es_f n s e fl) as [x|]; cbn [found negb].
    2:{ eexists. split; [reflexivity|]. cbn [vals kids map firstn ivo]. rewrite Ia, Ib, Ic. split; [split; [reflexivity|]; do 3 eexists; split; [reflexivity|]; auto|]. repeat split; auto; discriminate. }
    destruct Ra as (Ra & -> & Hx & Wx). destruct (ran_p l b x e fl Gl Wb Hx) as (b' & -> & Wb' & Rb). cbn [obind]. destruct (inv_p l b' Gl Wb') as [Vb' Ib']. destruct (es_f l x e fl) as [y|]; cbn [found negb].
    2:{ eexists. split; [reflexivity|]. cbn [vals kids map firstn ivo]. rewrite Ia, Ib', Ic. split; [split; [reflexivity|]; do 3 eexists; split; [reflexivity|]; auto|]. repeat split; auto; discriminate. }
    destruct Rb as (Rb & -> & Hy & Wy). destruct (ran_p d c y e fl Gd Wc Hy) as (c' & -> & Wc' & Rc). cbn [obind]. destruct (inv_p d c' Gd Wc') as [Vc' Ic']. destruct (es_f d y e fl) as [z|]; cbn [found negb].
    2:{ eexists. split; [reflexivity|]. cbn [vals kids map firstn ivo]. rewrite Ia, Ib', Ic'. split; [split; [reflexivity|]; do 3 eexists; split; [reflexivity|]; auto|]. repeat split; auto; discriminate. }
    destruct Rc as (Rc & -> & Hz & Wz). eexists. split; [reflexivity|]. cbn [vals kids map firstn ivo]. rewrite Ra, Rb, Rc. split; [split; [reflexivity|]; do 3 eexists; split; [reflexivity|]; auto|].
    split; auto. split; auto. split; auto. intros z' Ez. injection Ez as <-. apply (in_trans s x); auto. apply (in_trans x y); auto.
Qed.

(** ** score: the three parts with spaces between them, which never contain a line break *)
Definition wf4 (a b c d : espec) (st : pst) : Prop := vals st = [] /\ exists ka kb kc kd, kids st = [ka; kb; kc; kd] /\ es_wf a ka /\ es_wf b kb /\ es_wf c kc /\ es_wf d kd.
Theorem score_spec : forall h p g sp, good h -> good p -> good g -> good sp -> advances txt (es_f sp) ->
  let fs := [es_f h; no_ml (star_fn (es_f sp)); es_f p; no_ml (star_fn (es_f sp)); es_f g] in
  composite txt (score (es_P h) (es_P p) (es_P g) (es_P sp)) (wf4 h p g sp) (seq_fn fs) 3
    (fun s e fl => match seq_fn fs s e fl with Some _ => let l := seq_ivs fs s e fl in [nth 0 l no_iv; nth 2 l no_iv; nth 4 l no_iv] | None => [no_iv; no_iv; no_iv] end).
Proof.
  intros h p g sp Gh Gp Gg Gs As fs. apply composite_of.
  - split; [reflexivity|]. do 4 eexists. split; [reflexivity|]. split; [|split; [|split]]; apply ini_p; auto.
  - intros st (V & a & b & c & k & E & Wa & Wb & Wc & Wk). cbn [score p_inval]. rewrite E. split; [|reflexivity]. split; [reflexivity|]. do 4 eexists. split; [reflexivity|]. split; [|split; [|split]]; auto; apply inv_p; auto.
  - intros st s e fl (V & a & b & c & k & E & Wa & Wb & Wc & Wk) H. cbn [score p_match]. rewrite E. unfold fs. cbn [seq_fn seq_ivs]. clear fs.
    destruct (ran_p h a s e fl Gh Wa H) as (a' & -> & Wa' & Ra). cbn [obind]. destruct (inv_p h a' Gh Wa') as [Va Ia]. destruct (inv_p p b Gp Wb) as [Vb Ib]. destruct (inv_p g c Gg Wc) as [Vc Ic].
    destruct (es_f h s e fl) as [x|]; cbn [found negb].
    2:{ eexists. split; [reflexivity|]. cbn [vals kids map firstn ivo]. rewrite Ia, Ib, Ic. split; [split; [reflexivity|]; do 4 eexists; split; [reflexivity|]; auto|]. repeat split; auto; discriminate. }
    destruct Ra as (Ra & -> & Hx & Wx). unfold no_ml.
    destruct (skip_spec sp (S (e - s)) k x e (one_line fl) Gs As Wk Hx) as (k1 & x1 & -> & Wk1 & S1 & Hx1 & Wx1). { destruct (vis_to txt s e x H Wx) as [_ ->]. rewrite skipn_length. pose proof (vis_end txt s e H). lia. }
    rewrite S1. cbn [obind]. destruct (ran_p p b x1 e fl Gp Wb Hx1) as (b' & -> & Wb' & Rb). cbn [obind]. destruct (inv_p p b' Gp Wb') as [Vb' Ib']. destruct (es_f p x1 e fl) as [y|]; cbn [found negb].
    2:{ eexists. split; [reflexivity|]. cbn [vals kids map firstn ivo]. rewrite Ia, Ib', Ic. split; [split; [reflexivity|]; do 4 eexists; split; [reflexivity|]; auto|]. repeat split; auto; discriminate. }
    destruct Rb as (Rb & -> & Hy & Wy). assert (Wsy : in_vis s y e) by (apply (in_trans s x); auto; apply (in_trans x x1); auto).
    destruct (skip_spec sp (S (e - s)) k1 y e (one_line fl) Gs As Wk1 Hy) as (k2 & y1 & -> & Wk2 & S2 & Hy1 & Wy1). { destruct (vis_to txt s e y H Wsy) as [_ ->]. rewrite skipn_length. pose proof (vis_end txt s e H). lia. }
    rewrite S2. cbn [obind]. destruct (ran_p g c y1 e fl Gg Wc Hy1) as (c' & -> & Wc' & Rc). cbn [obind]. destruct (inv_p g c' Gg Wc') as [Vc' Ic']. destruct (es_f g y1 e fl) as [z|]; cbn [found negb].
    2:{ eexists. split; [reflexivity|]. cbn [vals kids map firstn ivo]. rewrite Ia, Ib', Ic'. split; [split; [reflexivity|]; do 4 eexists; split; [reflexivity|]; auto|]. repeat split; auto; discriminate. }
    destruct Rc as (Rc & -> & Hz & Wz). eexists. split; [reflexivity|]. cbn [vals kids map firstn ivo nth]. rewrite Ra, Rb, Rc. split; [split; [reflexivity|]; do 4 eexists; split; [reflexivity|]; auto|].
    split; auto. split; auto. split; auto. intros z' Ez. injection Ez as <-. apply (in_trans s y); auto. apply (in_trans y y1); auto.
Qed.

(** ** signed numeral: an optional sign, and the number *)
Definition wf_signed (o1 o2 o3 : option espec) (n : espec) (st : pst) : Prop :=
  vals st = [] /\ exists a b c d, kids st = [a; b; c; d] /\ o_wf o1 a /\ o_wf o2 b /\ o_wf o3 c /\ es_wf n d.
Theorem signed_numeral_spec : forall o1 o2 o3 n, o_good o1 -> o_good o2 -> o_good o3 -> good n ->
  let f := seq_fn [sign_fn o1 o2 o3; es_f n] in
  composite txt (signed_numeral (o_P o1) (o_P o2) (o_P o3) (es_P n)) (wf_signed o1 o2 o3 n) f 4
    (fun s e fl => match sign_fn o1 o2 o3 s e fl, f s e fl with Some x, Some y => sign_ivs o1 o2 o3 s e fl ++ [(x, y)] | _, _ => [no_iv; no_iv; no_iv; no_iv] end).
Proof.
  intros o1 o2 o3 n G1 G2 G3 Gn f. apply composite_of.
  - split; [reflexivity|]. do 4 eexists. split; [reflexivity|]. split; [|split; [|split]]; try apply ini_o; auto. apply ini_p; auto.
  - intros st (V & a & b & c & k & E & Wa & Wb & Wc & Wk). cbn [signed_numeral p_inval]. rewrite E. split; [|reflexivity]. split; [reflexivity|]. do 4 eexists. split; [reflexivity|]. split; [|split; [|split]]; try apply inv_o; auto; apply inv_p; auto.
  - intros st s e fl (V & a & b & c & k & E & Wa & Wb & Wc & Wk) H. cbn [signed_numeral p_match]. rewrite E. unfold f. cbn [seq_fn]. clear f.
    destruct (sign_spec o1 o2 o3 a b c s e fl G1 G2 G3 Wa Wb Wc H) as (a' & b' & c' & x & -> & Wa' & Wb' & Wc' & Es & Ei & Hx & Wx). cbn [obind]. rewrite Es.
    destruct (ran_p n k x e fl Gn Wk Hx) as (k' & -> & Wk' & Rk). cbn [obind]. destruct (es_f n x e fl) as [y|]; cbn [found].
    + destruct Rk as (Rk & -> & Hy & Wy). eexists. split; [reflexivity|]. cbn [vals kids map firstn ivo]. rewrite Rk. split; [split; [reflexivity|]; do 4 eexists; split; [reflexivity|]; auto|]. split; auto. split; auto. split; [|rewrite <- Ei; reflexivity].
      intros z Ez. injection Ez as <-. apply (in_trans s x); auto.
    + destruct (inv_o o1 a' G1 Wa') as [Va Ia]. destruct (inv_o o2 b' G2 Wb') as [Vb Ib]. destruct (inv_o o3 c' G3 Wc') as [Vc Ic]. destruct (inv_p n k' Gn Wk') as [Vk Ik].
      eexists. split; [reflexivity|]. cbn [vals kids map firstn ivo]. rewrite Ia, Ib, Ic, Ik. split; [split; [reflexivity|]; do 4 eexists; split; [reflexivity|]; auto|]. repeat split; auto; discriminate.
Qed.
End Peg.
