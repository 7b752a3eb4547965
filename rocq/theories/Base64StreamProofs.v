(** base64_writer and base64_reader. *)
From Verif Require Import Base Bits Base64Model Base64Spec Base64Proofs.
From Coq Require Import ZifyBool ZifyNat.
Ltac Zify.zify_post_hook ::= Z.div_mod_to_equations.

Definition open_sink (l : list Z) : sink := mksink l None true.
Definition lines_lf (L : list (list Z)) : list Z := concat (map (fun x => x ++ [lf]) L).

Definition LI (mb : Z) (out : list Z) (blk : Z) (text : list Z) : Prop :=
  exists L last, out = lines_lf L ++ last /\ concat L ++ last = text /\
    Forall (fun x => Z.of_nat (length x) = 4 * mb) L /\ Z.of_nat (length last) = 4 * blk /\
    0 <= blk <= mb /\ (blk = 0 -> L = []).

Lemma LI_break : forall mb out blk text b, LI mb out blk text -> 1 <= mb -> length b = 4%nat ->
  if blk + 1 >? mb then LI mb ((out ++ [lf]) ++ b) 1 (text ++ b) else LI mb (out ++ b) (blk + 1) (text ++ b).
Proof.
  intros mb out blk text b (L & last & E1 & E2 & F & Hl & Hb & Hz) Hmb Lb. destruct (blk + 1 >? mb) eqn:E.
  - exists (L ++ [last]), b. repeat split; try lia.
    + unfold lines_lf. rewrite map_app, concat_app. cbn [map concat]. rewrite app_nil_r, E1. unfold lines_lf. rewrite <- !app_assoc. reflexivity.
    + rewrite concat_app. cbn [concat]. rewrite app_nil_r, E2. reflexivity.
    + apply Forall_app. split; auto. constructor; auto. lia.
  - exists L, (last ++ b). repeat split; try lia; auto.
    + rewrite E1, <- app_assoc. reflexivity.
    + rewrite app_assoc, E2. reflexivity.
    + rewrite app_length. lia.
Qed.

Definition WI (mb : Z) (w : writer) (d : list Z) : Prop :=
  exists out blk, wsink w = open_sink out /\ wmax w = mb /\ wblk w = blk /\
    (if mb =? M64 - 1 then out = rfc4648 d else LI mb out blk (rfc4648 d)) /\ 0 <= blk <= mb.

Definition wpend (w : writer) : list Z := pending (wenc w).

Lemma writer_break_emit : forall mb w d b d' e, 1 <= mb < M64 -> WI mb w d -> full3 d ->
  length b = 4%nat -> rfc4648 (d ++ d') = rfc4648 d ++ b ->
  WI mb (writer_emit (writer_break w) b e) (d ++ d') /\ wenc (writer_break w) = wenc w.
Proof.
  intros mb w d b d' e Hmb (out & blk & Es & Em & Eb & HL & Hb) F Lb E. unfold writer_break, writer_emit.
  rewrite Em, Eb, Es. destruct (mb =? M64 - 1) eqn:EM.
  - assert (u64 (blk + 1) <= mb) by (pose proof (u64_range (blk + 1)); lia).
    destruct (u64 (blk + 1) >? mb) eqn:EG; [lia|]. cbn. split; auto. exists (out ++ b), (u64 (blk + 1)). rewrite EM.
    repeat split; auto; try (pose proof (u64_range (blk + 1)); lia). rewrite E, HL. reflexivity.
  - rewrite u64_small by lia. pose proof (LI_break _ _ _ _ b HL ltac:(lia) Lb) as K. destruct (blk + 1 >? mb) eqn:EG; cbn; split; auto.
    + exists ((out ++ [lf]) ++ b), 1. rewrite EM, E. repeat split; auto; lia.
    + exists (out ++ b), (blk + 1). rewrite EM, E. repeat split; auto; lia.
Qed.

Lemma enc_block_len : forall s, length (enc_block s) = 4%nat.
Proof. reflexivity. Qed.
Lemma enc_flush_len : forall s n, length (enc_flush s n) = 4%nat.
Proof. intros. unfold enc_flush. dif; reflexivity. Qed.

Lemma WI_enc : forall mb w d e, WI mb w d -> WI mb (mkwriter e (wmax w) (wblk w) (wsink w)) d.
Proof. intros mb w d e (out & blk & H). exists out, blk. exact H. Qed.

Lemma WI_sok : forall mb w d, WI mb w d -> sok (wsink w) = true.
Proof. intros mb w d (out & blk & E & _). rewrite E. reflexivity. Qed.

Lemma writer_loop_spec : forall data mb w d len i, 1 <= mb < M64 -> WI mb w d -> full3 d -> ewf (wenc w) -> bytes data ->
  exists w' d', writer_loop w len i data = (w', len, true) /\ WI mb w' d' /\ full3 d' /\ ewf (wenc w') /\
    enum (wenc w') < 3 /\ d ++ wpend w ++ data = d' ++ wpend w'.
Proof.
  induction data as [|x r IH]; intros mb w d len i Hmb HW F Hw Hd; cbn [writer_loop].
  - destruct (enum (wenc w) >=? 3) eqn:E.
    + assert (E3 : enum (wenc w) = 3) by (destruct Hw; lia).
      assert (Hp : wpend w = [e0 (wenc w); e1 (wenc w); e2 (wenc w)]) by (unfold wpend, pending; rewrite E3; reflexivity).
      destruct Hw as [_ Hb]. fold (wpend w) in Hb. rewrite Hp in Hb. binv.
      destruct (writer_break_emit mb w d (enc_block (wenc w)) (wpend w) (wenc w) Hmb HW F (enc_block_len _)) as [HW' Ee].
      { rewrite rfc_app by auto. rewrite Hp. rewrite enc_block_quad by auto. cbn [rfc4648]. rewrite app_nil_r. reflexivity. }
      cbn zeta. rewrite Ee. rewrite (WI_sok _ _ _ HW').
      eexists. exists (d ++ wpend w). split; [reflexivity|]. split; [apply WI_enc; exact HW'|].
      split; [apply full3_app; auto; rewrite Hp; repeat constructor|]. cbn [wenc]. split; [apply ewf_clear|].
      split; [cbn; lia|]. rewrite app_nil_r. match goal with |- _ = _ ++ wpend ?W => change (wpend W) with (@nil Z) end. rewrite app_nil_r. reflexivity.
    + exists w, d. rewrite app_nil_r. split; [reflexivity|]. split; [exact HW|]. split; [exact F|]. split; [exact Hw|]. split; [lia|reflexivity].
  - inversion Hd; subst. destruct (enum (wenc w) >=? 3) eqn:E.
    + assert (E3 : enum (wenc w) = 3) by (destruct Hw; lia).
      assert (Hp : wpend w = [e0 (wenc w); e1 (wenc w); e2 (wenc w)]) by (unfold wpend, pending; rewrite E3; reflexivity).
      destruct Hw as [_ Hb]. fold (wpend w) in Hb. rewrite Hp in Hb. inversion Hb as [|? ? B1 Hb']; subst. inversion Hb' as [|? ? B2 Hb'']; subst. inversion Hb'' as [|? ? B3 Hb''']; subst.
      destruct (writer_break_emit mb w d (enc_block (wenc w)) (wpend w) (wenc w) Hmb HW F (enc_block_len _)) as [HW' Ee].
      { rewrite rfc_app by auto. rewrite Hp. rewrite enc_block_quad by auto. cbn [rfc4648]. rewrite app_nil_r. reflexivity. }
      cbn zeta. rewrite Ee. rewrite (WI_sok _ _ _ HW').
      match goal with |- context[writer_loop ?W len ?I r] => destruct (IH mb W (d ++ wpend w) len I Hmb) as (w' & d' & K) end; [apply (WI_enc _ _ _ _ HW')| | |assumption|].
      * apply full3_app; auto. rewrite Hp. repeat constructor.
      * cbn [wenc writer_emit]. apply ewf_put; auto. apply ewf_clear. cbn; lia.
      * exists w', d'. destruct K as (K1 & K2 & K3 & K4 & K5 & K6). split; [exact K1|]. repeat (split; [assumption|]).
        rewrite <- K6. unfold wpend at 3. cbn [wenc writer_emit]. rewrite pending_put by (try apply ewf_clear; cbn; lia).
        change (pending (enc_clear (wenc w))) with (@nil Z). rewrite <- app_assoc. reflexivity.
    + match goal with |- context[writer_loop ?W len ?I r] => destruct (IH mb W d len I Hmb) as (w' & d' & K) end; [apply (WI_enc _ _ _ _ HW)|exact F| |assumption|].
      * cbn [wenc]. apply ewf_put; auto. lia.
      * exists w', d'. destruct K as (K1 & K2 & K3 & K4 & K5 & K6). split; [exact K1|]. repeat (split; [assumption|]).
        rewrite <- K6. unfold wpend at 2. cbn [wenc]. rewrite pending_put by (auto; lia). rewrite <- app_assoc. reflexivity.
Qed.

Lemma WI_new : forall mb, 1 <= mb < M64 -> WI mb (writer_new (open_sink []) mb) [].
Proof.
  intros mb Hmb. exists [], 0. cbn. split; [auto|]. split; [auto|]. split; [auto|]. split; [|lia].
  destruct (mb =? M64 - 1); auto. exists [], []. cbn. repeat split; auto; lia.
Qed.

Lemma writer_close_spec : forall mb w d, 1 <= mb < M64 -> WI mb w d -> full3 d -> ewf (wenc w) -> enum (wenc w) < 3 ->
  WI mb (writer_close w) (d ++ wpend w).
Proof.
  intros mb w d Hmb HW F Hw Hn. unfold writer_close. destruct (Z.eqb_spec (enum (wenc w)) 0) as [E|E].
  - unfold wpend, pending. rewrite E. cbn [Z.to_nat firstn]. rewrite app_nil_r. exact HW.
  - pose proof (enc_flush_rfc (wenc w) Hw ltac:(destruct Hw; lia)) as K.
    destruct (writer_break_emit mb w d (enc_flush (wenc w) (enum (wenc w))) (wpend w) (wenc w) Hmb HW F (enc_flush_len _ _)) as [HW' Ee].
    + rewrite rfc_app by auto. f_equal. symmetry. exact K.
    + cbn zeta. rewrite Ee. exact HW'.
Qed.

Lemma join_lines_snoc : forall L last, join_lines (L ++ [last]) = lines_lf L ++ last.
Proof.
  induction L as [|x L IH]; intros last; [reflexivity|].
  cbn [app]. unfold lines_lf. cbn [map concat]. fold (lines_lf L). rewrite <- app_assoc, <- app_assoc. cbn [app]. rewrite <- IH.
  destruct (L ++ [last]) as [|y M] eqn:E; [destruct L; discriminate E|reflexivity].
Qed.
Lemma full_lines_snoc : forall n L last, Forall (fun x => Z.of_nat (length x) = n) L ->
  0 < Z.of_nat (length last) <= n -> full_lines n (L ++ [last]).
Proof.
  induction L as [|x L IH]; intros last F Hl; [exact Hl|].
  inversion F; subst. cbn [app]. specialize (IH last H2 Hl). cbn [full_lines].
  destruct (L ++ [last]) as [|y M] eqn:E; [destruct L; discriminate E|]. split; auto.
Qed.

(** Reader *)
Lemma read_block_spec : forall src s, 0 <= dnum s <= 4 ->
  let V := dpending s ++ vals src in
  exists d src' full, read_block s src = (d, src', full) /\ (length src' <= length src)%nat /\
    ((full = true /\ dnum d = 4 /\ dpending d = firstn 4 V /\ vals src' = skipn 4 V /\ (4 <= length V)%nat /\
       (dnum s < 4 -> (length src' < length src)%nat)) \/
     (full = false /\ dnum d < 4 /\ 0 <= dnum d /\ dpending d = V /\ src' = [] /\ (length V < 4)%nat)).
Proof.
  induction src as [|x r IH]; intros s Hn V; cbn [read_block].
  - assert (L : length (dpending s) = Z.to_nat (dnum s)) by (unfold dpending; rewrite firstn_length; cbn; lia).
    destruct (Z.ltb_spec (dnum s) 4).
    + exists s, [], false. split; [reflexivity|]. split; [auto|]. right. unfold V. cbn [vals filter map]. rewrite app_nil_r. repeat split; auto; lia.
    + exists s, [], true. split; [reflexivity|]. split; [auto|]. left. unfold V. cbn [vals filter map]. rewrite app_nil_r.
      repeat split; auto; try lia.
      * rewrite firstn_all2 by lia. reflexivity.
      * rewrite skipn_all2 by lia. reflexivity.
  - assert (L : length (dpending s) = Z.to_nat (dnum s)) by (unfold dpending; rewrite firstn_length; cbn; lia).
    destruct (Z.ltb_spec (dnum s) 4).
    + pose proof (dec_at_skip x) as K. unfold V, vals. cbn [filter]. destruct (is_b64 x) eqn:Ex; cbn [negb] in K.
      * destruct (dpending_put s (dec_at x) ltac:(lia) K) as [P1 P2].
        destruct (IH (dec_put s (dec_at x)) ltac:(lia)) as (d & src' & full & E & Hl & C).
        exists d, src', full. split; [exact E|]. split; [cbn; lia|]. cbn [map]. rewrite P1, <- app_assoc in C. cbn [app] in C. fold (vals r).
        destruct C as [(C1 & C2 & C3 & C4 & C5 & C6)|C]; [left|right]; auto. repeat split; auto. intros _. cbn [length]. lia.
      * destruct (dpending_junk s (dec_at x) ltac:(lia) K) as [P1 P2].
        destruct (IH (dec_put s (dec_at x)) ltac:(lia)) as (d & src' & full & E & Hl & C).
        exists d, src', full. split; [exact E|]. split; [cbn; lia|]. rewrite P1 in C. fold (vals r).
        destruct C as [(C1 & C2 & C3 & C4 & C5 & C6)|C]; [left|right]; auto. repeat split; auto. intros _. cbn [length]. lia.
    + exists s, (x :: r), true. split; [reflexivity|]. split; [auto|]. left. unfold V.
      repeat split; auto; try lia.
      * rewrite firstn_app. rewrite firstn_all2 by lia. replace (4 - length (dpending s))%nat with O by lia. cbn. rewrite app_nil_r. reflexivity.
      * rewrite skipn_app. rewrite skipn_all2 by lia. replace (4 - length (dpending s))%nat with O by lia. reflexivity.
      * rewrite app_length. lia.
Qed.

Definition rrest (r : reader) : list Z := dpending (rdec r) ++ vals (rsrc r).
Definition RI (r : reader) (rem : list Z) : Prop :=
  0 <= dnum (rdec r) < 4 /\ exists o, dec_vals (rrest r) = (o, false, []) /\ rem = rtemp r ++ o.

Lemma four : forall (V : list Z), (4 <= length V)%nat -> exists a b c d r, V = a :: b :: c :: d :: r.
Proof. intros [|a [|b [|c [|d r]]]] H; cbn in H; try lia. exists a, b, c, d, r. reflexivity. Qed.

Lemma reader_loop_spec : forall fuel r rem n got, RI r rem -> 0 <= n -> (length (rsrc r) < fuel)%nat ->
  exists r' ok, reader_loop fuel r n got = Some (r', got ++ firstn (Z.to_nat n) rem, ok) /\
    RI r' (skipn (Z.to_nat n) rem) /\ ok = (n <=? Z.of_nat (length rem)).
Proof.
  induction fuel as [|fuel IH]; intros r rem n got [Hn (o & D & Er)] H0 Hf; [lia|]. cbn [reader_loop].
  destruct (Z.of_nat (length (rtemp r)) >=? n) eqn:E.
  - eexists _, _. split; [|split].
    + rewrite Er, firstn_app. replace (Z.to_nat n - length (rtemp r))%nat with O by lia. cbn [firstn]. rewrite app_nil_r. reflexivity.
    + split; [exact Hn|]. exists o. split; [exact D|]. cbn [rtemp]. rewrite Er, skipn_app.
      replace (Z.to_nat n - length (rtemp r))%nat with O by lia. reflexivity.
    + rewrite Er, app_length. lia.
  - destruct (read_block_spec (rsrc r) (rdec r) ltac:(lia)) as (d & src' & full & Eb & Hl & C). rewrite Eb. fold (rrest r) in C.
    destruct C as [(-> & C2 & C3 & C4 & C5 & C6)|(-> & C2 & C3 & C4 & C5 & C6)].
    + destruct (four _ C5) as (a & b & c & e & R & EV). rewrite EV in *. cbn [firstn skipn] in C3, C4.
      assert (Ed : dec_block d = dec_block (mkdec a b c e 4)).
      { rewrite dpending4 in C3 by auto. inversion C3. apply dec_block_ext. }
      cbn [dec_vals] in D. rewrite <- Ed in D.
      destruct (Z.of_nat (length (dec_block d)) <? 3) eqn:E3; [discriminate D|]. cbn [andb].
      destruct (dec_vals R) as [[o' f'] rest'] eqn:ER. assert (Do : o = dec_block d ++ o') by congruence. assert (Df : f' = false /\ rest' = []) by (split; congruence). destruct Df; subst o f' rest'. clear D.
      specialize (C6 ltac:(lia)).
      destruct (IH (mkreader (dec_clear d) (dec_block d) src') (dec_block d ++ o') (n - Z.of_nat (length (rtemp r))) (got ++ rtemp r)) as (r' & ok & K1 & K2 & K3).
      * split; [cbn; lia|]. exists o'. split; [|reflexivity]. unfold rrest. cbn [rdec rsrc].
        change (dpending (dec_clear d)) with (@nil Z). rewrite C4. exact ER.
      * lia.
      * cbn [rsrc]. lia.
      * exists r', ok. rewrite K1. split; [|split].
        -- rewrite Er, (firstn_app _ (rtemp r)), (firstn_all2 (rtemp r)), <- app_assoc by lia.
           replace (Z.to_nat n - length (rtemp r))%nat with (Z.to_nat (n - Z.of_nat (length (rtemp r)))) by lia. reflexivity.
        -- rewrite Er, skipn_app, (skipn_all2 (rtemp r)) by lia. cbn [app]. replace (Z.to_nat n - length (rtemp r))%nat with (Z.to_nat (n - Z.of_nat (length (rtemp r)))) by lia. exact K2.
        -- rewrite K3, Er, !app_length. apply Bool.eq_true_iff_eq. rewrite !Z.leb_le. lia.
    + assert (Dn : rrest r = [] /\ o = []).
      { destruct (rrest r) as [|? [|? [|? [|? ?]]]]; cbn in C6; try lia; cbn in D; inversion D; auto. }
      destruct Dn as [Dr ->]. rewrite app_nil_r in Er. subst src'. eexists _, _. split; [|split].
      * rewrite Er, firstn_all2 by lia. reflexivity.
      * split; [cbn; lia|]. exists []. unfold rrest. cbn [rdec rsrc rtemp vals filter map]. rewrite app_nil_r, C4, Dr. split; auto.
        rewrite Er, skipn_all2 by lia. reflexivity.
      * rewrite Er. lia.
Qed.
