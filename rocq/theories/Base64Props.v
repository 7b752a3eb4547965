(** Final theorems about include/stdex/base64.hpp: properties C08-C12. *)
From Verif Require Import Base Base64Model Base64Spec Base64Proofs Base64StreamProofs.
From Coq Require Import ZifyBool ZifyNat.
Ltac Zify.zify_post_hook ::= Z.div_mod_to_equations.

(** An encoding session: all chunks with is_last = false, then the final chunk with is_last = true. *)
Fixpoint enc_session (s : enc) (out : list Z) (chunks : list (list Z)) (final : list Z) : enc * list Z :=
  match chunks with
  | [] => enc_encode s out final true
  | c :: r => let '(s, out) := enc_encode s out c false in enc_session s out r final
  end.

Lemma session_spec : forall chunks s out final, ewf s -> Forall bytes chunks -> bytes final ->
  let r := enc_session s out chunks final in
  ewf (fst r) /\ enum (fst r) = 0 /\ snd r = out ++ rfc4648 (pending s ++ concat chunks ++ final).
Proof.
  induction chunks as [|c r IH]; intros s out final Hw Hc Hf; cbn [enc_session concat app].
  - destruct (enc_encode_spec s out final true Hw Hf) as (A & B & C & D). destruct (D eq_refl). auto.
  - inversion Hc; subst. destruct (enc_encode_spec s out c false Hw H1) as (A & B & C & D).
    destruct (enc_encode s out c false) as [s' out']. cbn [fst snd] in *. destruct (C eq_refl) as (d & E & F & Eo).
    destruct (IH s' out' final A H2 Hf) as (A' & B' & C'). split; [auto|]. split; [auto|]. cbn zeta. rewrite C', Eo.
    rewrite <- !app_assoc. f_equal. rewrite (app_assoc (pending s)), E, <- app_assoc. rewrite (rfc_app d) by exact F. reflexivity.
Qed.

(** C08.  Whatever the chunking, a session appends exactly the RFC 4648 text of the data, and
    leaves the encoder ready: a second session does so again. *)
Theorem base64_encode_rfc4648 : forall (out : list Z) (chunks chunks2 : list (list Z)) (final final2 : list Z),
  Forall bytes chunks -> bytes final -> Forall bytes chunks2 -> bytes final2 ->
  let '(s, out1) := enc_session enc_new out chunks final in
  let '(_, out2) := enc_session s out1 chunks2 final2 in
  out1 = out ++ rfc4648 (concat chunks ++ final) /\ out2 = out1 ++ rfc4648 (concat chunks2 ++ final2).
Proof.
  intros out chunks chunks2 final final2 H1 H2 H3 H4.
  assert (W : ewf enc_new) by (split; cbn; [lia|constructor]).
  destruct (session_spec chunks enc_new out final W H1 H2) as (A & B & C).
  destruct (enc_session enc_new out chunks final) as [s out1]. cbn [fst snd] in *.
  destruct (session_spec chunks2 s out1 final2 A H3 H4) as (A' & B' & C').
  destruct (enc_session s out1 chunks2 final2) as [s2 out2]. cbn [fst snd] in *.
  split; [exact C|]. rewrite C'. unfold pending. rewrite B. reflexivity.
Qed.
Example base64_encode_ex :
  snd (enc_session enc_new [] [[77]; [97; 110; 77]; []] [97]) = [84;87;70;117; 84;87;69;61]. (* "TWFuTWE=" *)
Proof. reflexivity. Qed.

(** A decoding session over chunks of text: the bytes returned and whether is_last was set by
    some call; decoding stops there. *)
Fixpoint dec_session (s : dec) (chunks : list (list Z)) (out : list Z) : list Z * bool :=
  match chunks with
  | [] => (out, false)
  | c :: r => let '(s, out, last) := dec_decode s out c in if last then (out, true) else dec_session s r out
  end.

Lemma dec_session_spec : forall chunks s out, 0 <= dnum s < 4 -> Forall (fun c => ~ In 0 c) chunks ->
  let '(o, f, _) := dec_vals (dpending s ++ vals (concat chunks)) in
  dec_session s chunks out = (out ++ o, f).
Proof.
  induction chunks as [|c r IH]; intros s out Hn Hc; cbn [dec_session concat].
  - cbn [vals filter map]. rewrite app_nil_r.
    assert (L : length (dpending s) = Z.to_nat (dnum s)) by (unfold dpending; rewrite firstn_length; cbn; lia).
    destruct (dpending s) as [|? [|? [|? [|? ?]]]]; cbn [dec_vals]; try (rewrite app_nil_r; reflexivity). cbn in L. lia.
  - inversion Hc; subst. unfold dec_decode. rewrite trim_nul_id by auto.
    pose proof (dec_loop_spec c s out ltac:(lia)) as K. destruct (dec_loop s c out) as [[s' out'] last].
    pose proof (dec_vals_app _ (dpending s ++ vals c) (vals (concat r)) (le_n _)) as A.
    destruct (dec_vals (dpending s ++ vals c)) as [[o f] rest]. destruct K as (K1 & K2 & K3 & K4). subst last out' rest.
    rewrite vals_app, app_assoc. destruct f.
    + rewrite A. reflexivity.
    + specialize (IH s' (out ++ o) K3 H2). destruct (dec_vals (dpending s' ++ vals (concat r))) as [[o' f'] rest'].
      rewrite A, IH, <- app_assoc. reflexivity.
Qed.

(** C09.  Text that, ignoring characters outside the alphabet, is the base64 text of data decodes
    to data in every chunking; is_last is reported exactly when the text is padded. *)
Theorem base64_decode_inverts : forall (data : list Z) (chunks : list (list Z)),
  bytes data -> ~ In 0 (concat chunks) ->
  filter is_b64 (concat chunks) = rfc4648 data ->
  dec_session dec_new chunks [] = (data, negb (Nat.eqb (length data mod 3) 0)).
Proof.
  intros data chunks Hb H0 E.
  assert (H0' : Forall (fun c => ~ In 0 c) chunks).
  { apply Forall_forall. intros c Hc F. apply H0. apply in_concat. exists c. auto. }
  pose proof (dec_session_spec chunks dec_new [] ltac:(cbn; lia) H0') as K.
  change (dpending dec_new) with (@nil Z) in K. cbn [app] in K. unfold vals in K. rewrite E in K.
  rewrite (dec_vals_rfc _ data (le_n _) Hb) in K. exact K.
Qed.
(** In particular for the text the encoder produced. *)
Theorem base64_round_trip : forall (chunks : list (list Z)) (final : list Z) (tchunks : list (list Z)),
  Forall bytes chunks -> bytes final ->
  concat tchunks = snd (enc_session enc_new [] chunks final) ->
  fst (dec_session dec_new tchunks []) = concat chunks ++ final.
Proof.
  intros chunks final tchunks H1 H2 E.
  assert (W : ewf enc_new) by (split; cbn; [lia|constructor]).
  destruct (session_spec chunks enc_new [] final W H1 H2) as (A & B & C). cbn [app] in C.
  change (pending enc_new) with (@nil Z) in C. cbn [app] in C.
  assert (Hb : bytes (concat chunks ++ final)).
  { apply Forall_app. split; auto. apply Forall_concat. exact H1. }
  pose proof (rfc_is_b64 _ _ (le_n _) Hb) as Hf. rewrite <- C in Hf. rewrite <- E in Hf. rewrite forallb_forall in Hf.
  rewrite (base64_decode_inverts (concat chunks ++ final)); auto.
  - intros F. apply Hf in F. discriminate F.
  - rewrite <- C, <- E. clear - Hf. induction (concat tchunks) as [|x r IH]; auto. cbn. rewrite Hf by (left; auto). f_equal.
    apply IH. intros y Hy. apply Hf. right. auto.
Qed.
Example base64_decode_ex : (* "TW\nFu" "T WE=" *)
  dec_session dec_new [[84;87;10;70;117]; [84]; [32;87;69;61]] [] = ([77;97;110;77;97], true).
Proof. reflexivity. Qed.

(** States of encoder and decoder that occur. *)
Inductive enc_reach : enc -> Prop :=
| er_new : enc_reach enc_new
| er_encode : forall s out data last, enc_reach s -> bytes data -> enc_reach (fst (enc_encode s out data last))
| er_clear : forall s, enc_reach s -> enc_reach (enc_clear s).
Inductive dec_reach : dec -> Prop :=
| dr_new : dec_reach dec_new
| dr_decode : forall s out data, dec_reach s -> dec_reach (fst (fst (dec_decode s out data)))
| dr_clear : forall s, dec_reach s -> dec_reach (dec_clear s).

Lemma enc_reach_wf : forall s, enc_reach s -> ewf s /\ enum s < 3.
Proof.
  induction 1.
  - split; [split; cbn; [lia|constructor]|cbn; lia].
  - destruct IHenc_reach. destruct (enc_encode_spec s out data last) as (A & B & _); auto.
  - split; [apply ewf_clear|cbn; lia].
Qed.
Lemma dec_reach_wf : forall s, dec_reach s -> 0 <= dnum s < 4.
Proof.
  induction 1; [cbn; lia| |cbn; lia]. unfold dec_decode.
  pose proof (dec_loop_spec (trim_nul data) s out ltac:(lia)) as K.
  destruct (dec_loop s (trim_nul data) out) as [[s' out'] last]. destruct (dec_vals _) as [[o f] rest]. apply K.
Qed.

(** C10.  The size estimates bound what the call appends; for the final chunk enc_size is exact. *)
Theorem base64_enc_size_bound : forall (s : enc) (out data : list Z) (last : bool),
  enc_reach s -> bytes data -> Z.of_nat (length data) < 2 ^ 62 ->
  let out' := snd (enc_encode s out data last) in
  Z.of_nat (length out') <= Z.of_nat (length out) + enc_size s (Z.of_nat (length data)) /\
  (last = true -> Z.of_nat (length out') = Z.of_nat (length out) + enc_size s (Z.of_nat (length data))).
Proof.
  intros s out data last Hr Hd Hl out'. change (2 ^ 62) with 4611686018427387904 in Hl.
  destruct (enc_reach_wf s Hr) as [Hw Hn3]. pose proof (pending_len s Hw) as PL. assert (Hn : 0 <= enum s < 3) by (destruct Hw; lia).
  unfold enc_size. rewrite !u64_small by (rewrite ?u64_small by lia; lia).
  destruct (enc_encode_spec s out data last Hw Hd) as (A & B & C & D). unfold out'.
  destruct last.
  - destruct (D eq_refl) as [_ ->]. rewrite app_length, Nat2Z.inj_add, (rfc_len _ _ (le_n _)), app_length. split; intros; lia.
  - destruct (C eq_refl) as (d & E & F & ->). split; [|discriminate].
    rewrite app_length, Nat2Z.inj_add, (rfc_len _ _ (le_n _)).
    assert (L : Z.of_nat (length d) <= enum s + Z.of_nat (length data)).
    { apply (f_equal (@length Z)) in E. rewrite !app_length in E. lia. }
    lia.
Qed.
Theorem base64_dec_size_bound : forall (s : dec) (out data : list Z),
  dec_reach s -> Z.of_nat (length data) < 2 ^ 62 ->
  let out' := snd (fst (dec_decode s out data)) in
  Z.of_nat (length out') <= Z.of_nat (length out) + dec_size s (Z.of_nat (length data)).
Proof.
  intros s out data Hr Hl out'. change (2 ^ 62) with 4611686018427387904 in Hl.
  pose proof (dec_reach_wf s Hr) as Hn. unfold out', dec_decode.
  pose proof (dec_loop_spec (trim_nul data) s out ltac:(lia)) as K.
  destruct (dec_loop s (trim_nul data) out) as [[s' o'] last]. cbn [fst snd].
  pose proof (dec_vals_len _ (dpending s ++ vals (trim_nul data)) (le_n _)) as B.
  destruct (dec_vals (dpending s ++ vals (trim_nul data))) as [[o f] rest]. cbn [fst] in B. destruct K as (-> & _ & _ & _).
  pose proof (vals_len (trim_nul data)). pose proof (trim_len data).
  assert (LP : length (dpending s) = Z.to_nat (dnum s)) by (unfold dpending; rewrite firstn_length; cbn; lia).
  unfold dec_size. rewrite !u64_small by (rewrite ?u64_small by lia; lia).
  rewrite app_length in *. lia.
Qed.
Example base64_size_ex : exists s, enc_reach s /\ enum s = 2 /\ enc_size s 2 = 8.
Proof. exists (fst (enc_encode enc_new [] [1;2;3;4;5] false)). split; [apply er_encode; [constructor|repeat constructor; lia]|split; reflexivity]. Qed.

(** Writing the chunks to a base64_writer over a sink that accepts everything, then destroying it. *)
Fixpoint writer_run (w : writer) (chunks : list (list Z)) : writer * list (Z * bool) :=
  match chunks with
  | [] => (writer_close w, [])
  | c :: r => let '(w, n, ok) := writer_write w c in let '(w, l) := writer_run w r in (w, (n, ok) :: l)
  end.

Lemma writer_run_spec : forall chunks mb w d, 1 <= mb < M64 -> WI mb w d -> full3 d -> ewf (wenc w) -> enum (wenc w) < 3 ->
  Forall bytes chunks ->
  WI mb (fst (writer_run w chunks)) (d ++ wpend w ++ concat chunks) /\
  snd (writer_run w chunks) = map (fun c => (Z.of_nat (length c), true)) chunks.
Proof.
  induction chunks as [|c r IH]; intros mb w d Hmb HW F Hw Hn Hc; cbn [writer_run concat map].
  - rewrite app_nil_r. split; [apply writer_close_spec; auto|reflexivity].
  - inversion Hc; subst. unfold writer_write.
    destruct (writer_loop_spec c mb w d (Z.of_nat (length c)) 0 Hmb HW F Hw H1) as (w' & d' & E & HW' & F' & Hw' & Hn' & Ed).
    rewrite E. destruct (IH mb w' d' Hmb HW' F' Hw' Hn' H2) as [A B]. destruct (writer_run w' r) as [w'' l]. cbn [fst snd] in *.
    split; [|f_equal; exact B]. rewrite (app_assoc (wpend w)), (app_assoc d), Ed, <- app_assoc. exact A.
Qed.

(** C11.  Every write is accepted in full; afterwards the sink holds the base64 text of everything
    written, broken by line feeds into lines of exactly max_blocks blocks (the last may be shorter). *)
Theorem base64_writer_text : forall (mb : Z) (chunks : list (list Z)),
  1 <= mb < 2 ^ 64 - 1 -> Forall bytes chunks ->
  let '(w, results) := writer_run (writer_new (open_sink []) mb) chunks in
  results = map (fun c => (Z.of_nat (length c), true)) chunks /\
  exists lines, sout (wsink w) = join_lines lines /\ concat lines = rfc4648 (concat chunks) /\ full_lines (4 * mb) lines.
Proof.
  intros mb chunks Hmb Hc. change (2 ^ 64 - 1) with 18446744073709551615 in Hmb.
  assert (W : ewf enc_new) by (split; cbn; [lia|constructor]).
  destruct (writer_run_spec chunks mb (writer_new (open_sink []) mb) [] ltac:(lia) (WI_new mb ltac:(lia)) full3_nil W ltac:(cbn; lia) Hc) as [A B].
  destruct (writer_run (writer_new (open_sink []) mb) chunks) as [w l]. cbn [fst snd] in *. split; [exact B|].
  destruct A as (out & blk & Es & Em & Eb & HL & Hb). change (wpend _) with (@nil Z) in HL. cbn [app] in HL.
  destruct (mb =? M64 - 1) eqn:EM; [lia|]. destruct HL as (L & last & E1 & E2 & F & Hl & Hb2 & Hz).
  rewrite Es. cbn [sout open_sink]. destruct (Z.eq_dec blk 0) as [->|Hne].
  - rewrite (Hz eq_refl) in *. destruct last; [|cbn in Hl; lia]. exists []. rewrite E1, <- E2. repeat split; reflexivity.
  - exists (L ++ [last]). rewrite join_lines_snoc. split; [exact E1|]. split.
    + rewrite concat_app. cbn [concat]. rewrite app_nil_r. exact E2.
    + apply full_lines_snoc; auto. lia.
Qed.
(** SIZE_MAX means no line breaks. *)
Theorem base64_writer_no_breaks : forall (chunks : list (list Z)),
  Forall bytes chunks ->
  sout (wsink (fst (writer_run (writer_new (open_sink []) (2 ^ 64 - 1)) chunks))) = rfc4648 (concat chunks).
Proof.
  intros chunks Hc. change (2 ^ 64 - 1) with 18446744073709551615.
  assert (W : ewf enc_new) by (split; cbn; [lia|constructor]).
  destruct (writer_run_spec chunks 18446744073709551615 (writer_new (open_sink []) 18446744073709551615) [] ltac:(lia) (WI_new 18446744073709551615 ltac:(lia)) full3_nil W ltac:(cbn; lia) Hc) as [A B].
  destruct A as (out & blk & Es & Em & Eb & HL & Hb). change (wpend _) with (@nil Z) in HL. cbn [app] in HL.
  replace (18446744073709551615 =? M64 - 1) with true in HL by reflexivity. rewrite Es. exact HL.
Qed.
(** Decoding the sink's content gives the data back. *)
Theorem base64_writer_decodes : forall (mb : Z) (chunks : list (list Z)),
  1 <= mb < 2 ^ 64 - 1 -> Forall bytes chunks ->
  fst (dec_session dec_new [sout (wsink (fst (writer_run (writer_new (open_sink []) mb) chunks)))] []) = concat chunks.
Proof.
  intros mb chunks Hmb Hc. pose proof (base64_writer_text mb chunks Hmb Hc) as K.
  destruct (writer_run (writer_new (open_sink []) mb) chunks) as [w l]. destruct K as [_ (lines & E1 & E2 & _)]. cbn [fst].
  assert (Hb : bytes (concat chunks)) by (apply Forall_concat; exact Hc).
  pose proof (rfc_is_b64 _ _ (le_n _) Hb) as Hf. rewrite <- E2 in Hf. rewrite forallb_forall in Hf.
  assert (G : filter is_b64 (join_lines lines) = concat lines /\ ~ In 0 (join_lines lines)).
  { clear - Hf. assert (Id : forall x : list Z, (forall c, In c x -> is_b64 c = true) -> filter is_b64 x = x /\ ~ In 0 x).
    { induction x as [|a x IH]; intros H; [split; auto|]. destruct IH as [I1 I2]; [intros; apply H; right; auto|].
      cbn. rewrite (H a) by (left; auto). split; [f_equal; auto|]. intros [->|F]; [specialize (H 0 (or_introl eq_refl)); discriminate H|auto]. }
    induction lines as [|x r IH]; [split; auto|]. cbn [concat] in Hf.
    destruct (Id x) as [Ix In0]; [intros; apply Hf; apply in_or_app; auto|].
    destruct IH as [I1 I2]; [intros; apply Hf; apply in_or_app; auto|].
    destruct r as [|y r]; [cbn; rewrite app_nil_r; auto|].
    change (join_lines (x :: y :: r)) with (x ++ lf :: join_lines (y :: r)). split.
    - rewrite filter_app. cbn [filter]. change (is_b64 lf) with false. cbv iota. rewrite Ix, I1. reflexivity.
    - intros F. apply in_app_or in F. destruct F as [F|[F|F]]; [auto|discriminate F|auto]. }
  destruct G as [G1 G2]. rewrite E1. rewrite (base64_decode_inverts (concat chunks)); auto; cbn [concat]; rewrite app_nil_r; auto.
  rewrite G1. exact E2.
Qed.
Example base64_writer_ex :
  sout (wsink (fst (writer_run (writer_new (open_sink []) 1) [[77;97]; [110;77;97]]))) = [84;87;70;117; 10; 84;87;69;61].
Proof. reflexivity. Qed.

(** When the sink fails, write reports length minus the number of bytes taken rather than the
    number taken.  Of 10 bytes: with a sink that stored the first two blocks (6 bytes of data) the
    answer is 1; with a sink that stored nothing the answer is 7. *)
Theorem base64_writer_failed_count_refuted :
  let data := [1;2;3;4;5;6;7;8;9;10] in
  let '(w1, n1, ok1) := writer_write (writer_new (mksink [] (Some 2%nat) true) 19) data in
  let '(w2, n2, ok2) := writer_write (writer_new (mksink [] (Some 0%nat) true) 19) data in
  ok1 = false /\ sout (wsink w1) = rfc4648 [1;2;3;4;5;6] /\ n1 = 1 /\
  ok2 = false /\ sout (wsink w2) = [] /\ n2 = 7.
Proof. vm_compute. repeat split. Qed.

(** Reading a sequence of sizes. *)
Fixpoint reader_run (r : reader) (sizes : list Z) : option (list (list Z)) :=
  match sizes with
  | [] => Some []
  | n :: t => match reader_read r n with
              | Some (r', d, _) => option_map (cons d) (reader_run r' t)
              | None => None
              end
  end.

(** C12 is violated: the base64 text of one byte, read with a buffer of three bytes, gives nothing. *)
Theorem base64_reader_refuted : exists data sizes,
  bytes data /\ Forall (fun n => 0 <= n) sizes /\
  option_map (@concat Z) (reader_run (reader_new (rfc4648 data)) sizes) <> Some data /\
  (Z.of_nat (length data) <= hd 0 sizes).
Proof.
  exists [65], [3; 3; 3]. repeat split; try (repeat constructor; unfold byte; lia); vm_compute; discriminate.
Qed.

(** C12, what holds: when the data length is a multiple of three, reads of any sizes return the
    data in order, in full. *)
Theorem base64_reader_partial : forall (data text : list Z) (sizes : list Z),
  bytes data -> (length data mod 3 = 0)%nat -> filter is_b64 text = rfc4648 data ->
  Forall (fun n => 0 <= n) sizes ->
  exists out, reader_run (reader_new text) sizes = Some out /\
    concat out = firstn (Z.to_nat (fold_right Z.add 0 sizes)) data.
Proof.
  intros data text sizes Hb Hm E Hs.
  assert (I : RI (reader_new text) data).
  { split; [cbn; lia|]. exists data. split; [|reflexivity]. unfold rrest. cbn [rdec rsrc reader_new]. change (dpending dec_new) with (@nil Z).
    cbn [app]. unfold vals. rewrite E, (dec_vals_rfc _ data (le_n _) Hb), Hm. reflexivity. }
  clear E Hb Hm. revert I Hs. generalize (reader_new text) as r. revert data.
  induction sizes as [|n t IH]; intros data r I Hs; cbn [reader_run fold_right].
  - exists []. split; reflexivity.
  - inversion Hs; subst.
    assert (0 <= fold_right Z.add 0 t) by (clear - H2; induction H2; cbn; lia).
    destruct (reader_loop_spec (S (S (length (rsrc r)))) r data n [] I H1 ltac:(lia)) as (r' & ok & K1 & K2 & K3).
    unfold reader_read. rewrite K1. destruct (IH _ r' K2 H2) as (out & -> & E). exists (firstn (Z.to_nat n) data :: out).
    split; [reflexivity|]. cbn [concat]. rewrite E. rewrite Z2Nat.inj_add by lia.
    rewrite <- (firstn_skipn (Z.to_nat n) data) at 3. rewrite firstn_app.
    destruct (Nat.le_gt_cases (Z.to_nat n) (length data)) as [L|L].
    + rewrite firstn_length. replace (Init.Nat.min (Z.to_nat n) (length data)) with (Z.to_nat n) by lia.
      rewrite (firstn_all2 (firstn (Z.to_nat n) data)) by (rewrite firstn_length; lia).
      do 2 f_equal. lia.
    + rewrite (skipn_all2 data) by lia. rewrite !firstn_nil, !app_nil_r.
      rewrite (firstn_all2 (n := Z.to_nat n) data) by lia. rewrite firstn_all2 by lia. reflexivity.
Qed.
Example base64_reader_ex :
  reader_run (reader_new (rfc4648 [1;2;3;4;5;6])) [1; 4; 3] = Some [[1]; [2;3;4;5]; [6]].
Proof. reflexivity. Qed.

Print Assumptions base64_encode_rfc4648.
Print Assumptions base64_decode_inverts.
Print Assumptions base64_round_trip.
Print Assumptions base64_enc_size_bound.
Print Assumptions base64_dec_size_bound.
Print Assumptions base64_writer_text.
Print Assumptions base64_writer_no_breaks.
Print Assumptions base64_writer_decodes.
Print Assumptions base64_writer_failed_count_refuted.
Print Assumptions base64_reader_refuted.
Print Assumptions base64_reader_partial.
