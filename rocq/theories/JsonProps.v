(** JSON strings: C132 (the parser recognises RFC 8259 strings and decodes them), C133 (UTF-8). *)
From Coq Require Import ZifyBool ZifyNat.
From Verif Require Import Base StringModel StringSpec StringProofs ParserModel ParserSpec ParserProps ParserNumModel ParserNumProps ParserInt JsonModel JsonSpec.
Ltac Zify.zify_post_hook ::= Z.div_mod_to_equations.

Lemma inits_ok : forall txt es, Forall (good txt) es -> kids_ok es (map p_init (map es_P es)).
Proof. intros txt es G. unfold kids_ok. induction G as [|p es G Gs IH]; cbn [map]; constructor; auto. apply (el_init _ _ _ _ _ G). Qed.

Section Generic.
Context (txt : list Z) (narrow : bool) (cast : Z -> Z) (Q C E U H : espec) (Es : list espec).
Local Notation text_ok := (text_ok txt).
Local Notation vis := (vis txt).
Context (GQ : good txt Q) (GC : good txt C) (GE : good txt E) (GU : good txt U) (GH : good txt H) (GEs : Forall (good txt) Es).
Context (AC : advances txt (es_f C)) (AE : advances txt (es_f E)).
Local Notation fQ := (es_f Q). Local Notation fC := (es_f C). Local Notation fE := (es_f E). Local Notation fU := (es_f U). Local Notation fH := (es_f H).
Local Notation fEs := (map es_f Es).

(** one unit of the string as the held parsers see it *)
Definition jplain_at (s e : nat) (fl : pflags) : option (list Z * nat) :=
  match fC s e fl with Some y => Some (firstn (y - s) (skipn s txt), y) | None => None end.
Definition junicode_at (x e : nat) (fl : pflags) : option (list Z * nat) :=
  match fU x e fl with
  | Some z => match fH z (Nat.min (z + 4) e) (PFlags true (fl_ml fl)) with
              | Some y => if (y - z =? 4)%nat then Some (json_code narrow cast (nth 0 (es_g H z (Nat.min (z + 4) e) (PFlags true (fl_ml fl))) 0), y) else None
              | None => None
              end
  | None => None
  end.
Definition junit_at (s e : nat) (fl : pflags) : option (list Z * nat) :=
  match fE s e fl with
  | None => jplain_at s e fl
  | Some x =>
      match branch_fn fEs x e fl with
      | Some y => Some ([nth (first_fn fEs x e fl) escaped_chars 0], y)
      | None => match junicode_at x e fl with
                | Some r => Some r
                | None => match fE x e fl with Some y => Some ([92], y) | None => jplain_at s e fl end
                end
      end
  end.
Inductive jrest (e : nat) (fl : pflags) : nat -> list Z -> nat -> Prop :=
| jr_end : forall s y, fQ s e fl = Some y -> jrest e fl s [] y
| jr_unit : forall s u x v y, fQ s e fl = None -> junit_at s e fl = Some (u, x) -> jrest e fl x v y -> jrest e fl s (u ++ v) y.
Lemma jrest_det : forall e fl s v y, jrest e fl s v y -> forall v' y', jrest e fl s v' y' -> v = v' /\ y = y'.
Proof.
  intros e fl s v y J. induction J as [s y F|s u x v y F N J IH]; intros v' y' J'; inversion J' as [? ? F'|? u' x' v2 ? F' N' J2]; subst; try congruence.
  - split; congruence. - rewrite N in N'. injection N' as <- <-. destruct (IH _ _ J2) as [-> ->]. auto.
Qed.
Lemma text_min : forall z e, text_ok z e -> text_ok z (Nat.min (z + 4) e) /\ vis z (Nat.min (z + 4) e) = firstn 4 (vis z e).
Proof.
  intros z e (A & B & R). split. { split; [lia|]. split; auto. destruct R; [left; lia|right; auto]. }
  unfold ParserSpec.vis. replace (Nat.min (z + 4) e - z)%nat with (Nat.min (e - z) 4) by lia. apply zstr_min.
Qed.
Lemma es_within : forall es s e fl x, Forall (good txt) es -> text_ok s e -> branch_fn (map es_f es) s e fl = Some x -> (s <= x <= s + length (vis s e))%nat.
Proof.
  induction es as [|p es IH]; intros s e fl x G T K; cbn [map branch_fn] in K; [discriminate|]. inversion G as [|? ? G1 G2]; subst. destruct (es_f p s e fl) as [y|] eqn:F; [|eapply IH; eauto].
  injection K as <-. apply (el_within _ _ _ _ _ G1 s e fl y T F).
Qed.
Lemma junit_within : forall s e fl u x, text_ok s e -> junit_at s e fl = Some (u, x) -> (s < x <= s + length (vis s e))%nat.
Proof.
  intros s e fl u x T K. assert (P : jplain_at s e fl = Some (u, x) -> (s < x <= s + length (vis s e))%nat).
  { unfold jplain_at. destruct (fC s e fl) as [y|] eqn:F; [|discriminate]. intros K'. injection K' as _ <-. pose proof (el_within _ _ _ _ _ GC s e fl y T F). pose proof (AC s e fl y T F). lia. }
  unfold junit_at in K. destruct (fE s e fl) as [z|] eqn:F; auto. pose proof (el_within _ _ _ _ _ GE s e fl z T F) as W. pose proof (AE s e fl z T F) as W2. destruct (vis_to txt s e z T W) as [T2 V2].
  assert (L2 : length (vis z e) = (length (vis s e) - (z - s))%nat) by (rewrite V2, skipn_length; auto).
  destruct (branch_fn fEs z e fl) as [y|] eqn:B. { injection K as _ <-. apply es_within in B; auto. lia. }
  destruct (junicode_at z e fl) as [[u' y]|] eqn:J.
  - injection K as -> ->. unfold junicode_at in J. destruct (fU z e fl) as [w|] eqn:Fu; [|discriminate]. pose proof (el_within _ _ _ _ _ GU z e fl w T2 Fu) as W3. destruct (vis_to txt z e w T2 W3) as [T3 V3].
    assert (L3 : length (vis w e) = (length (vis z e) - (w - z))%nat) by (rewrite V3, skipn_length; auto). destruct (text_min w e T3) as [T4 V4].
    destruct (fH w _ _) as [y'|] eqn:Fh; [|discriminate]. pose proof (el_within _ _ _ _ _ GH _ _ _ _ T4 Fh) as W4. rewrite V4, firstn_length in W4. destruct (y' - w =? 4)%nat; [|discriminate]. injection J as _ <-. lia.
  - destruct (fE z e fl) as [y|] eqn:F2; auto. injection K as _ <-. pose proof (el_within _ _ _ _ _ GE z e fl y T2 F2). lia.
Qed.
Definition kids_wf (ks : list pst) : Prop := exists kq kc ke ku kh kes, ks = kq :: kc :: ke :: ku :: kh :: kes /\ es_wf Q kq /\ es_wf C kc /\ es_wf E ke /\ es_wf U ku /\ es_wf H kh /\ kids_ok Es kes.
Lemma iv_end : forall k a b, iv k = (a, b) -> i_start k = a /\ i_end k = b.
Proof. intros k a b K. injection K as <- <-. auto. Qed.
Lemma escape_spec : forall ke ku kh kes s x e fl, es_wf E ke -> es_wf U ku -> es_wf H kh -> kids_ok Es kes -> text_ok s e -> fE s e fl = Some x -> i_end ke = x ->
  exists ke' ku' kh' kes' r, json_escape narrow cast (es_P E) (es_P U) (es_P H) (map es_P Es) ke ku kh kes e fl = Ret (ke', ku', kh', kes', r) /\
    es_wf E ke' /\ es_wf U ku' /\ es_wf H kh' /\ kids_ok Es kes' /\ junit_at s e fl = match r with Some p => Some p | None => jplain_at s e fl end.
Proof.
  intros ke ku kh kes s x e fl We Wu Wh Wes T F Ex. destruct (vis_to txt s e x T (el_within _ _ _ _ _ GE s e fl x T F)) as [T2 _].
  unfold json_escape, junit_at. rewrite F, Ex. destruct (digit_loop_spec txt Es kes 0 x e fl GEs Wes T2) as (kes' & D & Wes'). rewrite D. cbn [obind].
  destruct (branch_fn fEs x e fl) as [y|] eqn:B; cbn [option_map]. { exists ke, ku, kh, kes'. eexists. split; [reflexivity|]. cbn [Nat.add]. auto 6. }
  destruct (el_match _ _ _ _ _ GU ku x e fl Wu T2) as (ku' & Eu & Wu' & Ru). rewrite Eu. cbn [obind]. unfold junicode_at.
  assert (F2 : forall kh', es_wf H kh' -> forall ku', es_wf U ku' -> exists ke1 ku1 kh1 kes1 r, (let* (ke, b) := p_match (es_P E) ke x e fl in Ret (ke, ku', kh', kes', if b then Some ([92], i_end ke) else None)) = Ret (ke1, ku1, kh1, kes1, r) /\
      es_wf E ke1 /\ es_wf U ku1 /\ es_wf H kh1 /\ kids_ok Es kes1 /\ (match fE x e fl with Some y => Some ([92], y) | None => jplain_at s e fl end) = match r with Some p => Some p | None => jplain_at s e fl end).
  { clear ku Wu ku' Eu Wu' Ru. intros kh' Wh' ku' Wu'. destruct (el_match _ _ _ _ _ GE ke x e fl We T2) as (ke' & Ee & We' & Re). rewrite Ee. cbn [obind]. exists ke', ku', kh', kes'. eexists. split; [reflexivity|]. do 4 (split; auto).
    destruct (fE x e fl) as [y|]; cbn [found]; auto. destruct Re as [Re _]. apply iv_end in Re as [_ ->]. auto. }
  destruct (fU x e fl) as [z|] eqn:Fu; cbn [found].
  - destruct Ru as [Ru _]. apply iv_end in Ru as [_ Ru]. rewrite Ru. destruct (vis_to txt x e z T2 (el_within _ _ _ _ _ GU x e fl z T2 Fu)) as [T3 _]. destruct (text_min z e T3) as [T4 V4].
    destruct (el_match _ _ _ _ _ GH kh z (Nat.min (z + 4) e) (PFlags true (fl_ml fl)) Wh T4) as (kh' & Eh & Wh' & Rh). rewrite Eh. cbn [obind]. destruct (fH z _ _) as [y|] eqn:Fh; cbn [found andb].
    + destruct Rh as [Rh1 Rh2]. apply iv_end in Rh1 as [R1 R2]. pose proof (el_within _ _ _ _ _ GH _ _ _ _ T4 Fh) as W4. unfold isize. rewrite R1, R2. replace (z <=? y)%nat with true by lia. destruct (y - z =? 4)%nat eqn:E4.
      * exists ke, ku', kh', kes'. eexists. split; [reflexivity|]. unfold the_val. rewrite Rh2. auto 6. * apply F2; auto.
    + apply F2; auto.
  - cbn [obind andb]. apply F2; auto.
Qed.
Lemma json_loop_spec : forall fuel kq kc ke ku kh kes x value e fl, kids_wf (kq :: kc :: ke :: ku :: kh :: kes) -> text_ok x e -> (length (vis x e) < fuel)%nat ->
  exists ks r, json_loop txt narrow cast fuel (es_P Q) (es_P C) (es_P E) (es_P U) (es_P H) (map es_P Es) kq kc ke ku kh kes x value e fl = Ret (ks, r) /\ kids_wf ks /\
    match r with Some (y, w) => (x <= y <= x + length (vis x e))%nat /\ exists v, w = value ++ v /\ jrest e fl x v y | None => forall v y, ~ jrest e fl x v y end.
Proof.
  induction fuel; intros kq kc ke ku kh kes x value e fl (kq0 & kc0 & ke0 & ku0 & kh0 & kes0 & K & Wq & Wc & We & Wu & Wh & Wes) T L; [lia|]. injection K as <- <- <- <- <- <-. cbn [json_loop].
  destruct (el_match _ _ _ _ _ GQ kq x e fl Wq T) as (kq' & Eq & Wq' & Rq). rewrite Eq. cbn [obind]. destruct (fQ x e fl) as [y|] eqn:Fq; cbn [found].
  { eexists. eexists. split; [reflexivity|]. split; [do 6 eexists; split; [reflexivity|auto 7]|]. destruct Rq as [Rq _]. apply iv_end in Rq as [_ ->]. split; [apply (el_within _ _ _ _ _ GQ x e fl y T Fq)|].
    exists []. rewrite app_nil_r. split; auto. constructor. auto. }
  clear Rq Eq Wq kq. destruct (el_match _ _ _ _ _ GE ke x e fl We T) as (ke' & Ee & We' & Re). rewrite Ee. cbn [obind].
  assert (N : exists ke1 ku1 kh1 kes1 r, (if found (fE x e fl) then json_escape narrow cast (es_P E) (es_P U) (es_P H) (map es_P Es) ke' ku kh kes e fl else Ret (ke', ku, kh, kes, None)) = Ret (ke1, ku1, kh1, kes1, r) /\
     es_wf E ke1 /\ es_wf U ku1 /\ es_wf H kh1 /\ kids_ok Es kes1 /\ junit_at x e fl = match r with Some p => Some p | None => jplain_at x e fl end).
  { destruct (fE x e fl) as [z|] eqn:F; cbn [found].
    - destruct Re as [Re _]. apply iv_end in Re as [_ Re]. eapply escape_spec; eauto.
    - exists ke', ku, kh, kes, None. split; auto. do 4 (split; auto). unfold junit_at. rewrite F. auto. }
  destruct N as (ke1 & ku1 & kh1 & kes1 & r & N & We1 & Wu1 & Wh1 & Wes1 & J). rewrite N. cbn [obind].
  assert (Step : forall kc u y value', es_wf C kc -> value' = value ++ u -> junit_at x e fl = Some (u, y) -> exists ks r, json_loop txt narrow cast fuel (es_P Q) (es_P C) (es_P E) (es_P U) (es_P H) (map es_P Es) kq' kc ke1 ku1 kh1 kes1 y value' e fl = Ret (ks, r) /\ kids_wf ks /\
      match r with Some (y, w) => (x <= y <= x + length (vis x e))%nat /\ exists v, w = value ++ v /\ jrest e fl x v y | None => forall v y, ~ jrest e fl x v y end).
  { clear kc Wc. intros kc u y value' Wc -> Ju. pose proof (junit_within x e fl u y T Ju) as W. destruct (vis_to txt x e y T ltac:(lia)) as [T2 V2].
    destruct (IHfuel kq' kc ke1 ku1 kh1 kes1 y (value ++ u) e fl) as (ks & r' & El & Wk & M); auto. { do 6 eexists. split; [reflexivity|auto 7]. } { rewrite V2, skipn_length. lia. }
    exists ks, r'. split; auto. split; auto. destruct r' as [[y' w]|].
    - destruct M as (M1 & v & -> & M2). rewrite V2, skipn_length in M1. split; [lia|]. exists (u ++ v). rewrite app_assoc. split; auto. econstructor; eauto.
    - intros v y' K. inversion K as [? ? F'|? u' x' v2 ? F' N' J2]; subst; [congruence|]. rewrite Ju in N'. injection N' as <- <-. eapply M; eauto. }
  destruct r as [[u y]|]; [apply (Step kc u y); auto|].
  destruct (el_match _ _ _ _ _ GC kc x e fl Wc T) as (kc' & Ec & Wc' & Rc). rewrite Ec. cbn [obind]. unfold jplain_at in J. destruct (fC x e fl) as [y|] eqn:Fc; cbn [found].
  - destruct Rc as [Rc _]. apply iv_end in Rc as [R1 R2]. unfold isize. rewrite R1, R2. pose proof (el_within _ _ _ _ _ GC x e fl y T Fc). replace (x <=? y)%nat with true by lia. eapply Step; eauto.
  - eexists. exists None. split; [reflexivity|]. split; [do 6 eexists; split; [reflexivity|auto 7]|]. intros v y K. inversion K; subst; congruence.
Qed.
Theorem json_generic : exists f g, element txt (json_string txt narrow cast (es_P Q) (es_P C) (es_P E) (es_P U) (es_P H) (map es_P Es)) (fun st => kids_wf (kids st)) f g /\
  forall s e fl, text_ok s e -> match f s e fl with Some y => exists x, fQ s e fl = Some x /\ jrest e fl x (g s e fl) y | None => forall x v y, fQ s e fl = Some x -> ~ jrest e fl x v y end.
Proof.
  set (R := fun s e fl (r : option (nat * list Z)) => match r with Some (y, v) => exists x, fQ s e fl = Some x /\ jrest e fl x v y | None => forall x v y, fQ s e fl = Some x -> ~ jrest e fl x v y end).
  destruct (element_of txt (json_string txt narrow cast (es_P Q) (es_P C) (es_P E) (es_P U) (es_P H) (map es_P Es)) (fun st => kids_wf (kids st)) R) as (f & g & El & Sp).
  - cbn [json_string p_init new_pst kids]. do 6 eexists. split; [reflexivity|]. split; [apply (el_init _ _ _ _ _ GQ)|]. split; [apply (el_init _ _ _ _ _ GC)|]. split; [apply (el_init _ _ _ _ _ GE)|]. split; [apply (el_init _ _ _ _ _ GU)|]. split; [apply (el_init _ _ _ _ _ GH)|]. apply (inits_ok txt). exact GEs.
  - intros st s e fl (kq & kc & ke & ku & kh & kes & Ek & Wq & Wc & We & Wu & Wh & Wes) T. cbn [json_string p_match]. rewrite Ek.
    destruct (el_match _ _ _ _ _ GQ kq s e fl Wq T) as (kq' & Eq & Wq' & Rq). rewrite Eq. cbn [obind]. destruct (fQ s e fl) as [x|] eqn:Fq; cbn [found].
    + destruct Rq as [Rq _]. apply iv_end in Rq as [_ ->]. pose proof (el_within _ _ _ _ _ GQ s e fl x T Fq) as W. destruct (vis_to txt s e x T W) as [T2 V2].
      destruct (json_loop_spec (S (e - s)) kq' kc ke ku kh kes x [] e fl) as (ks & r & L & Wk & M); auto. { do 6 eexists. split; [reflexivity|auto 7]. } { pose proof (vis_end txt x e T2). lia. }
      rewrite L. cbn [obind]. destruct r as [[y w]|].
      * destruct M as (M1 & v & -> & M2). cbn [app] in *. exists (Pst s y v ks), (Some (y, v)). split; auto. split; auto. split; [exists x; auto|]. split; auto. split; auto. rewrite V2, skipn_length in M1. lia.
      * exists (Pst 1 0 [] ks), None. split; auto. split; auto. split; auto. unfold R. intros x' v y K. rewrite Fq in K. injection K as <-. auto.
    + eexists. exists None. split; [reflexivity|]. split; [do 6 eexists; split; [reflexivity|auto 7]|]. split; auto. unfold R. congruence.
  - intros s e fl r1 r2 T R1 R2. destruct r1 as [[y1 v1]|], r2 as [[y2 v2]|]; cbn in R1, R2; auto.
    + destruct R1 as (x1 & F1 & J1), R2 as (x2 & F2 & J2). assert (x1 = x2) by congruence. subst x2. destruct (jrest_det _ _ _ _ _ J1 _ _ J2) as [-> ->]. auto.
    + destruct R1 as (x1 & F1 & J1). exfalso. eapply R2; eauto. + destruct R2 as (x1 & F1 & J1). exfalso. eapply R1; eauto.
  - intros st W. cbn. auto.
  - exists f, g. split; auto. intros s e fl T. specialize (Sp s e fl T). unfold R in Sp. destruct (f s e fl); cbn [option_map] in Sp; auto.
Qed.
End Generic.
Print Assumptions json_generic.
