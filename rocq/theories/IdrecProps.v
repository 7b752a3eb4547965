(** Property C61: idrec records. *)
From Coq Require Import ZifyBool ZifyNat.
From Verif Require Import Base StreamModel StreamSpec StreamProps ConvModel MemFileModel FileConvModel FileConvSpec FileConvProps IdrecModel IdrecSpec.
Ltac Zify.zify_post_hook ::= Z.div_mod_to_equations.

Lemma array_settable : settable_file array_file (fun s st => (fst s, st)) (fun s => fst (fst s)).
Proof. split; [apply array_plain|]. intros [[d p] st0] st. auto. Qed.

(** ** storing *)
Lemma store_mid : forall a r b, store_at (a ++ r) (length a) b = a ++ b ++ skipn (length b) r.
Proof.
  intros a r [|x b]; [reflexivity|]. unfold store_at. rewrite firstn_app, Nat.sub_diag, firstn_all, firstn_O, app_nil_r.
  rewrite app_length. replace (length a - (length a + length r))%nat with 0%nat by lia. cbn [repeat app]. f_equal. change (x :: b ++ ?z) with ((x :: b) ++ z). f_equal.
  rewrite skipn_app. rewrite (skipn_all2 a) by lia. cbn [app]. f_equal. lia.
Qed.
Lemma skip_here : forall (a r : list Z), skipn (length a) (a ++ r) = r.
Proof. intros. rewrite skipn_app, Nat.sub_diag, skipn_all. reflexivity. Qed.
Lemma first_here : forall (a r : list Z), firstn (length a) (a ++ r) = a.
Proof. intros. rewrite firstn_app, Nat.sub_diag, firstn_all, firstn_O, app_nil_r. reflexivity. Qed.

Lemma first_more : forall m k (x : list Z), firstn m x ++ firstn k (skipn (length (firstn m x)) x) = firstn (length (firstn m x) + k) x.
Proof.
  intros m k x. pose proof (firstn_skipn m x) as E. set (y := firstn m x) in *. set (z := skipn m x) in *. clearbody y z. subst x.
  rewrite skip_here, firstn_app. replace (length y + k - length y)%nat with k by lia. rewrite (firstn_all2 y) by lia. reflexivity.
Qed.

(** ** padding *)
Lemma padding_nat : forall align n, (0 < align)%nat -> padding (Z.of_nat align) (Z.of_nat n) = Z.of_nat ((align - n mod align) mod align)%nat.
Proof. intros. unfold padding. rewrite <- Nat2Z.inj_mod, <- Nat2Z.inj_sub, <- Nat2Z.inj_mod; auto. pose proof (Nat.mod_upper_bound n align). lia. Qed.
Lemma pad_unique : forall align n k, (0 < align)%nat -> (k < align)%nat -> ((n + k) mod align = 0)%nat -> ((align - n mod align) mod align)%nat = k.
Proof.
  intros align n k H0 Hk Hm. pose proof (Nat.mod_upper_bound n align). rewrite <- Nat.add_mod_idemp_l in Hm by lia.
  remember (n mod align)%nat as r. destruct (Nat.eq_dec r 0) as [->|Hr].
  - rewrite Nat.sub_0_r, Nat.mod_same by lia. cbn [Nat.add] in Hm. rewrite Nat.mod_small in Hm by lia. lia.
  - rewrite Nat.mod_small by lia. apply Nat.mod_divides in Hm; [|lia]. destruct Hm as [c Hc]. assert (c = 1)%nat by nia. subst c. lia.
Qed.
(** The padding is the least amount that makes the size a multiple of the alignment. *)
Theorem padding_least : forall align size, 0 < align -> 0 <= size ->
  0 <= padding align size < align /\ (size + padding align size) mod align = 0 /\
  (forall k, 0 <= k -> (size + k) mod align = 0 -> padding align size <= k).
Proof.
  intros align size Ha Hs. unfold padding. set (r := size mod align). assert (Hr : 0 <= r < align) by (apply Z.mod_pos_bound; lia).
  assert (Hc : (align - r) mod align = if r =? 0 then 0 else align - r).
  { destruct (r =? 0) eqn:E. replace r with 0 by lia. rewrite Z.sub_0_r. apply Z.mod_same; lia. apply Z.mod_small; lia. }
  rewrite Hc. clear Hc. assert (Hd : size = align * (size / align) + r) by (apply Z.div_mod; lia). clearbody r. set (q := size / align) in *. clearbody q.
  split; [destruct (r =? 0) eqn:E; lia|]. split.
  - destruct (r =? 0) eqn:E. replace (size + 0) with (q * align) by nia. apply Z.mod_mul; lia. replace (size + (align - r)) with ((q + 1) * align) by nia. apply Z.mod_mul; lia.
  - intros k Hk Hm. destruct (r =? 0) eqn:E; [lia|]. apply Z.mod_divide in Hm; [|lia]. destruct Hm as [c Hm]. subst size. assert (K : align * (c - q) = r + k) by nia. clear Hm. assert (1 <= c - q) by nia. nia.
Qed.

Section Props.
Context {S : Type} (F : fdev S) (fset : S -> sstate -> S) (content : S -> list Z) (HF : settable_file F fset content).
Context (wi ws align : nat) (Hwi : (0 < wi)%nat) (Hws : (0 < ws)%nat) (Hwi2 : Z.of_nat wi < M64) (Hws2 : Z.of_nat ws < M64) (Hal : (0 < align)%nat).
Let FD := file_dev F fset.
Let al := Z.of_nat align.

Definition here (d : list Z) (k : Z) (s : S) : Prop := content s = d /\ Z.of_nat (f_tell F s) + Z.of_nat (length (skipn (f_tell F s) d)) = k.
Definition left_of (s : S) : list Z := skipn (f_tell F s) (content s).
Lemma here_source : forall d k, source FD (here d k) left_of.
Proof.
  intros d k. split.
  - intros s n s' b [H1 H2] E. cbn [FD file_dev d_read d_state] in *. destruct (pf_read F content (sf_plain _ _ _ HF) s n s' b E) as (Eb & Ec & Et & Es).
    unfold left_of. rewrite Ec, Et, H1 in *. assert (L : skipn (f_tell F s) d = b ++ skipn (f_tell F s + length b) d).
    { rewrite <- skipn_add. rewrite Eb at 1. rewrite Eb at 1. rewrite firstn_length. destruct (Nat.min_spec n (length (skipn (f_tell F s) d))) as [[? ->]|[? ->]].
      symmetry. apply firstn_skipn. rewrite skipn_all, app_nil_r, firstn_all2; auto. }
    split. { split; auto. rewrite Et. rewrite L in H2. rewrite app_length in H2. lia. }
    split; auto. assert (Lb : (length b <= n)%nat) by (rewrite Eb; apply firstn_le_length). split; auto. rewrite Es. destruct (0 <? n)%nat eqn:E0; cbn [andb]; [|intros; lia]. destruct (length b =? 0)%nat eqn:E1; [|intros _ ->; cbn in E1; lia].
    destruct b as [|x b]; [|cbn in E1; lia]. split; [lia|]. split; auto. destruct (skipn (f_tell F s) d); auto. destruct n; [lia|]. cbn [firstn] in Eb. discriminate.
  - intros s st [H1 H2]. destruct (sf_set _ _ _ HF s st) as (Ec & Et & Es). unfold left_of, here. cbn [FD file_dev d_set d_state]. rewrite Ec, Et, Es. auto.
Qed.
Lemma here_nf : forall d k, never_fails FD (here d k).
Proof.
  intros d k s n _. cbn [FD file_dev d_read d_state]. destruct (f_read F s n) as [s' b] eqn:E. destruct (pf_read F content (sf_plain _ _ _ HF) s n s' b E) as (_ & _ & _ & Es).
  cbn [fst]. rewrite Es. destruct (_ && _); discriminate.
Qed.

(** reading a value anywhere in the file *)
Lemma rd : forall s w, f_state F s = StOk -> (0 < w)%nat -> Z.of_nat w < M64 -> exists s' v, read_data FD s w [] = Ret (s', v) /\ content s' = content s /\
  if (f_tell F s + w <=? length (content s))%nat
  then f_state F s' = StOk /\ f_tell F s' = (f_tell F s + w)%nat /\ v = le_value (firstn w (skipn (f_tell F s) (content s)))
  else f_state F s' = StEof /\ f_tell F s' = Nat.max (f_tell F s) (length (content s)).
Proof.
  intros s w Hs H0 Hw. set (d := content s). set (p := f_tell F s). set (k := Z.of_nat p + Z.of_nat (length (skipn p d))).
  assert (I : here d k s) by (split; reflexivity). assert (Lf : left_of s = skipn p d) by reflexivity. assert (Ll : length (skipn p d) = (length d - p)%nat) by apply skipn_length.
  destruct (p + w <=? length d)%nat eqn:E.
  - unfold read_data, d_ok. cbn [FD file_dev d_state]. rewrite Hs. cbn [is_ok negb].
    destruct (read_array_full FD (here d k) left_of (here_source d k) (here_nf d k) s w 1 I) as (s' & n & Er & I' & L' & St' & En & _); [lia|].
    fold FD. rewrite Er. cbn [obind]. rewrite Lf in *. rewrite Nat.mul_1_r in *. rewrite En by lia. cbn [Nat.eqb].
    exists s'. eexists. split; [reflexivity|]. destruct I' as [C' T']. split; auto. replace (length (skipn p d) <? w)%nat with false in St' by lia.
    split; [exact St'|]. split.
    + unfold left_of in L'. rewrite C' in L'. rewrite L' in T'. rewrite skipn_length, Ll in T'. subst k. lia.
    + f_equal. rewrite app_nil_r || idtac. assert (W : length (firstn w (skipn p d)) = w) by (rewrite firstn_length; lia). rewrite firstn_app, W, Nat.sub_diag, firstn_O, app_nil_r. apply firstn_all2. lia.
  - destruct (read_data_short FD (here d k) left_of (here_source d k) (here_nf d k) s w [] I) as (s' & v & Er & St' & L' & I'); auto; [rewrite Lf; lia|].
    exists s', v. destruct I' as [C' T']. split; auto. split; auto. split; [exact St'|]. unfold left_of in L'. rewrite C' in L'. rewrite L' in T'. cbn [length] in T'. subst k. rewrite Ll in T'. lia.
Qed.
Lemma rd_at : forall s w pre v post, f_state F s = StOk -> (0 < w)%nat -> Z.of_nat w < M64 -> 0 <= v < 256 ^ Z.of_nat w ->
  content s = pre ++ le_bytes w v ++ post -> f_tell F s = length pre ->
  exists s', read_data FD s w [] = Ret (s', v) /\ content s' = content s /\ f_state F s' = StOk /\ f_tell F s' = (length pre + w)%nat.
Proof.
  intros s w pre v post Hs H0 Hw Hv Hc Ht. destruct (rd s w Hs H0 Hw) as (s' & v' & Er & C' & H). rewrite Ht, Hc in H.
  replace (length pre + w <=? length (pre ++ le_bytes w v ++ post))%nat with true in H by (rewrite !app_length, le_bytes_length; lia).
  destruct H as (St & T & V). exists s'. rewrite skip_here in V. replace w with (length (le_bytes w v)) in V at 1 by apply le_bytes_length. rewrite first_here, le_value_bytes in V by auto. subst v'. auto.
Qed.

(** writing a value *)
Lemma wr_at : forall s b pre post, content s = pre ++ post -> f_tell F s = length pre -> exists s', f_write F s b = (s', length b) /\
  content s' = pre ++ b ++ skipn (length b) post /\ f_tell F s' = (length pre + length b)%nat /\ f_state F s' = StOk.
Proof.
  intros s b pre post Hc Ht. destruct (f_write F s b) as [s' k] eqn:E. destruct (pf_write F content (sf_plain _ _ _ HF) s b s' k E) as (C & -> & T & St).
  exists s'. rewrite Hc, Ht, store_mid in C. rewrite Ht in T. auto.
Qed.
Lemma wd_at : forall s w v pre post, f_state F s = StOk -> content s = pre ++ post -> f_tell F s = length pre -> exists s', write_data FD s w v = Ret s' /\
  content s' = pre ++ le_bytes w v ++ skipn w post /\ f_tell F s' = (length pre + w)%nat /\ f_state F s' = StOk.
Proof.
  intros s w v pre post Hs Hc Ht. destruct (wr_at s (le_bytes w v) pre post Hc Ht) as (s' & E & C & T & St). rewrite le_bytes_length in *.
  exists s'. unfold write_data, d_ok. cbn [FD file_dev d_state d_write]. rewrite Hs. cbn [is_ok negb]. rewrite E. auto.
Qed.

(** ** Writing *)
(** open stores the identifier and an empty size at the position, and tells the position. *)
Theorem open_spec : forall s id pre post, f_state F s = StOk -> content s = pre ++ post -> f_tell F s = length pre ->
  exists s', open F fset wi ws s id = Ret (s', length pre) /\ f_state F s' = StOk /\
    content s' = pre ++ le_bytes wi id ++ le_bytes ws 0 ++ skipn (wi + ws) post /\ f_tell F s' = (length pre + wi + ws)%nat.
Proof.
  intros s id pre post Hs Hc Ht. unfold open. fold FD. destruct (wd_at s wi id pre post Hs Hc Ht) as (s1 & E1 & C1 & T1 & S1). rewrite E1. cbn [obind].
  rewrite app_assoc in C1. destruct (wd_at s1 ws 0 _ _ S1 C1) as (s2 & E2 & C2 & T2 & S2). { rewrite app_length, le_bytes_length. auto. }
  rewrite E2. cbn [obind]. rewrite Ht. exists s2. split; auto. split; auto. rewrite C2, T2, skipn_add, app_length, le_bytes_length, <- !app_assoc. auto.
Qed.
(** close, after any data of a length that fits the size field were put behind the header: the size field holds the length
    of the data, zeros pad them, the position is behind the padding; nothing else is changed. *)
Theorem close_spec : forall s pre id junk data post, f_state F s = StOk ->
  length id = wi -> length junk = ws -> Z.of_nat (length data) < 256 ^ Z.of_nat ws -> Z.of_nat align < M64 ->
  content s = pre ++ id ++ junk ++ data ++ post -> f_tell F s = (length pre + wi + ws + length data)%nat ->
  exists s' pad, close F fset wi ws al s (length pre) = Ret (s', Some (f_tell F s')) /\ f_state F s' = StOk /\
    content s' = pre ++ id ++ le_bytes ws (Z.of_nat (length data)) ++ data ++ repeat 0 pad ++ skipn pad post /\
    f_tell F s' = (length pre + wi + ws + length data + pad)%nat /\ (pad < align)%nat /\ ((length data + pad) mod align = 0)%nat.
Proof.
  intros s pre id junk data post Hs Hid Hj Hd Ha Hc Ht. unfold close. rewrite Ht.
  assert (Hsz : tsize ws (Z.of_nat (length pre + wi + ws + length data) - Z.of_nat (length pre) - Z.of_nat wi - Z.of_nat ws) = Z.of_nat (length data)).
  { unfold tsize. replace (_ - _ - _ - _) with (Z.of_nat (length data)) by lia. apply Z.mod_small. lia. }
  rewrite Hsz. subst al. rewrite padding_nat by lia. set (pad := ((align - length data mod align) mod align)%nat).
  assert (Hp : (pad < align)%nat) by (apply Nat.mod_upper_bound; lia).
  assert (Hm : ((length data + pad) mod align = 0)%nat).
  { destruct (padding_least (Z.of_nat align) (Z.of_nat (length data))) as (_ & M & _); [lia|lia|]. rewrite padding_nat in M by lia. fold pad in M. rewrite <- Nat2Z.inj_add, <- Nat2Z.inj_mod in M. lia. }
  assert (Hx : exists s1, (if negb (Z.of_nat pad =? 0) then
      let* (s1, _) := write_array FD s (repeat 0 (Z.to_nat (Z.of_nat pad))) 1 (Z.to_nat (Z.of_nat pad)) in
      Ret (s1, (length pre + wi + ws + length data + Z.to_nat (Z.of_nat pad))%nat)
     else Ret (s, (length pre + wi + ws + length data)%nat)) = Ret (s1, (length pre + wi + ws + length data + pad)%nat) /\
     f_state F s1 = StOk /\ content s1 = pre ++ id ++ junk ++ data ++ repeat 0 pad ++ skipn pad post).
  { rewrite Nat2Z.id. destruct (Z.of_nat pad =? 0) eqn:E; cbn [negb].
    - replace pad with 0%nat by lia. rewrite Nat.add_0_r. exists s. cbn [repeat skipn app]. auto.
    - unfold write_array. replace (M64 <=? Z.of_nat 1 * Z.of_nat pad) with false by lia. rewrite Nat.mul_1_l. rewrite firstn_all2 by (rewrite repeat_length; lia).
      rewrite (app_assoc junk), (app_assoc id), (app_assoc pre) in Hc.
      destruct (wr_at s (repeat 0 pad) _ post Hc) as (s1 & E1 & C1 & T1 & S1). { rewrite !app_length. lia. }
      cbn [FD file_dev d_write]. rewrite E1. cbn [obind]. exists s1. split; auto. split; auto. rewrite C1, repeat_length, <- !app_assoc. reflexivity. }
  destruct Hx as (s1 & E1 & S1 & C1). fold FD. rewrite E1. cbn [obind]. rewrite S1. cbn [is_ok negb].
  destruct (pf_seek F content (sf_plain _ _ _ HF) s1 (length pre + wi)) as (C2 & T2 & S2). rewrite C1 in C2. rewrite app_assoc in C2.
  destruct (wd_at _ ws (Z.of_nat (length data)) _ _ S2 C2) as (s3 & E3 & C3 & T3 & S3). { rewrite app_length. lia. }
  rewrite E3. cbn [obind]. destruct (pf_seek F content (sf_plain _ _ _ HF) s3 (length pre + wi + ws + length data + pad)) as (C4 & T4 & S4).
  eexists. exists pad. rewrite T4. split; [reflexivity|]. split; auto. rewrite C4, C3, <- Hj, skip_here, <- !app_assoc. auto.
Qed.

(** ** Reading *)
Lemma chunk_size : forall c, chunk_ok wi ws align c -> tsize ws (Z.of_nat (length (c_data c)) + padding al (Z.of_nat (length (c_data c)))) = Z.of_nat (length (c_data c) + length (c_pad c)).
Proof.
  intros c (_ & H1 & H2 & H3). subst al. rewrite padding_nat, (pad_unique align (length (c_data c)) (length (c_pad c))) by auto. rewrite <- Nat2Z.inj_add. apply Z.mod_small. lia.
Qed.
(** ignore, behind the identifier of a record, goes to the end of the record. *)
Theorem ignore_spec : forall s c pre post, f_state F s = StOk -> chunk_ok wi ws align c -> content s = pre ++ chunk_bytes wi ws c ++ post -> f_tell F s = (length pre + wi)%nat ->
  exists s', ignore F fset ws al s = Ret (s', true) /\ content s' = content s /\ f_state F s' = StOk /\ f_tell F s' = (length pre + length (chunk_bytes wi ws c))%nat.
Proof.
  intros s c pre post Hs Hc Hco Ht. unfold ignore. fold FD. unfold chunk_bytes in Hco. rewrite <- !app_assoc in Hco. rewrite app_assoc in Hco.
  destruct (rd_at s ws _ (Z.of_nat (length (c_data c))) _ Hs Hws Hws2 ltac:(destruct Hc as (_ & _ & _ & ?); lia) Hco) as (s1 & E1 & C1 & S1 & T1). { rewrite app_length, le_bytes_length. auto. }
  rewrite E1. cbn [obind]. rewrite S1. cbn [is_ok negb]. rewrite chunk_size by auto. unfold skip_file. rewrite Nat2Z.id.
  destruct (pf_seek F content (sf_plain _ _ _ HF) s1 (f_tell F s1 + (length (c_data c) + length (c_pad c)))) as (C2 & T2 & S2).
  eexists. rewrite S2. split; [reflexivity|]. split; [congruence|]. split; auto. rewrite T2, T1. unfold chunk_bytes. rewrite !app_length, !le_bytes_length. lia.
Qed.

Lemma below_lt : forall s limit, (match limit with None => True | Some e => (f_tell F s < e)%nat end) -> below F limit s = true.
Proof. intros s [e|] H; auto. unfold below. lia. Qed.
Lemma chunk_len : forall c, (wi + ws <= length (chunk_bytes wi ws c))%nat.
Proof. intros. unfold chunk_bytes. rewrite !app_length, !le_bytes_length. lia. Qed.

(** find, from the start of a record: it stops behind the identifier of the first record that has the wanted one, when
    that record starts below the limit. *)
Theorem find_first : forall l s id c l2 pre post limit, f_state F s = StOk ->
  Forall (chunk_ok wi ws align) (l ++ c :: l2) -> Forall (fun x => c_id x <> id) l -> c_id c = id ->
  content s = pre ++ chunks wi ws (l ++ c :: l2) ++ post -> f_tell F s = length pre ->
  match limit with None => True | Some e => (length pre + length (chunks wi ws l) < e)%nat end ->
  exists fuel s', find F fset wi ws al fuel s id limit = Ret (s', true) /\ content s' = content s /\ f_state F s' = StOk /\
    f_tell F s' = (length pre + length (chunks wi ws l) + wi)%nat.
Proof.
  induction l as [|x l IH]; intros s id c l2 pre post limit Hs Hok Hno Hid Hc Ht Hlim; unfold chunks in *; cbn [app flat_map] in *.
  - exists 1%nat. inversion Hok as [|? ? K1 K2]; subst. cbn [find]. rewrite below_lt by (destruct limit; auto; cbn [length] in Hlim; lia). fold FD.
    rewrite <- !app_assoc in Hc. unfold chunk_bytes in Hc. rewrite <- !app_assoc in Hc. destruct (rd_at s wi pre (c_id c) _ Hs Hwi Hwi2 ltac:(apply K1) Hc Ht) as (s1 & E1 & C1 & S1 & T1).
    rewrite E1. cbn [obind]. rewrite S1. cbn [is_ok negb]. rewrite Z.eqb_refl. exists s1. split; auto. split; auto. split; auto. cbn [length]. lia.
  - inversion Hok as [|? ? K1 K2]; subst. inversion Hno as [|? ? N1 N2]; subst.
    rewrite <- app_assoc in Hc. pose proof Hc as Hc'. unfold chunk_bytes in Hc'. rewrite <- !app_assoc in Hc'.
    destruct (rd_at s wi pre (c_id x) _ Hs Hwi Hwi2 ltac:(apply K1) Hc' Ht) as (s1 & E1 & C1 & S1 & T1). rewrite Hc in C1.
    destruct (ignore_spec s1 x pre _ S1 K1 C1 T1) as (s2 & E2 & C2 & S2 & T2).
    rewrite C1, app_assoc in C2. rewrite <- app_length in T2.
    destruct (IH s2 (c_id c) c l2 _ post limit S2 K2 N2 eq_refl C2 T2) as (fuel & s3 & E3 & C3 & S3 & T3).
    { destruct limit; auto. rewrite !app_length in *. lia. }
    exists (Datatypes.S fuel), s3. cbn [find]. rewrite below_lt. 2:{ destruct limit; auto. rewrite app_length in Hlim. pose proof (chunk_len x). lia. }
    fold FD. rewrite E1. cbn [obind]. rewrite S1. cbn [is_ok negb]. replace (c_id x =? c_id c) with false by lia. fold FD in E2. rewrite E2. cbn [obind]. split; auto.
    split; [rewrite C3, C2, Hc, <- app_assoc; reflexivity|]. split; auto. rewrite T3, !app_length. lia.
Qed.
(** find, when no record below the limit has the identifier: false, whatever is behind the limit. *)
Theorem find_none_below : forall l s id pre post, f_state F s = StOk -> Forall (chunk_ok wi ws align) l -> Forall (fun x => c_id x <> id) l ->
  content s = pre ++ chunks wi ws l ++ post -> f_tell F s = length pre ->
  exists fuel s', find F fset wi ws al fuel s id (Some (length pre + length (chunks wi ws l))%nat) = Ret (s', false) /\ content s' = content s /\ f_state F s' = StOk /\
    f_tell F s' = (length pre + length (chunks wi ws l))%nat.
Proof.
  induction l as [|x l IH]; intros s id pre post Hs Hok Hno Hc Ht; unfold chunks in *; cbn [app flat_map] in *.
  - exists 1%nat, s. cbn [find below length]. replace (f_tell F s <? length pre + 0)%nat with false by lia. rewrite Ht. repeat (split; [auto; lia|]). lia.
  - inversion Hok as [|? ? K1 K2]; subst. inversion Hno as [|? ? N1 N2]; subst.
    rewrite <- app_assoc in Hc. pose proof Hc as Hc'. unfold chunk_bytes in Hc'. rewrite <- !app_assoc in Hc'.
    destruct (rd_at s wi pre (c_id x) _ Hs Hwi Hwi2 ltac:(apply K1) Hc' Ht) as (s1 & E1 & C1 & S1 & T1). rewrite Hc in C1.
    destruct (ignore_spec s1 x pre _ S1 K1 C1 T1) as (s2 & E2 & C2 & S2 & T2).
    rewrite C1, app_assoc in C2. rewrite <- app_length in T2.
    destruct (IH s2 id _ post S2 K2 N2 C2 T2) as (fuel & s3 & E3 & C3 & S3 & T3).
    rewrite !app_length in E3, T3. rewrite !app_length. rewrite <- Nat.add_assoc in E3, T3.
    exists (Datatypes.S fuel), s3. cbn [find]. rewrite below_lt. 2:{ pose proof (chunk_len x). lia. }
    fold FD. rewrite E1. cbn [obind]. rewrite S1. cbn [is_ok negb]. replace (c_id x =? id) with false by lia. fold FD in E2. rewrite E2. cbn [obind]. split; auto.
    split; [rewrite C3, C2, Hc, <- app_assoc; reflexivity|]. auto.
Qed.
(** find, without a limit, in a file that ends with its records *)
Theorem find_none_end : forall l s id pre, f_state F s = StOk -> Forall (chunk_ok wi ws align) l -> Forall (fun x => c_id x <> id) l ->
  content s = pre ++ chunks wi ws l -> f_tell F s = length pre ->
  exists fuel s', find F fset wi ws al fuel s id None = Ret (s', false) /\ content s' = content s /\ f_state F s' = StEof /\ f_tell F s' = length (content s).
Proof.
  induction l as [|x l IH]; intros s id pre Hs Hok Hno Hc Ht; unfold chunks in *; cbn [app flat_map] in *.
  - exists 1%nat. cbn [find below]. fold FD. destruct (rd s wi Hs Hwi Hwi2) as (s1 & v & E1 & C1 & H1). rewrite app_nil_r in Hc.
    replace (f_tell F s + wi <=? length (content s))%nat with false in H1 by (rewrite Hc; lia). destruct H1 as [S1 T1]. rewrite E1. cbn [obind]. rewrite S1. cbn [is_ok negb].
    exists s1. split; auto. split; auto. split; auto. rewrite T1, Hc, Ht. lia.
  - inversion Hok as [|? ? K1 K2]; subst. inversion Hno as [|? ? N1 N2]; subst.
    pose proof Hc as Hc'. unfold chunk_bytes in Hc'. rewrite <- !app_assoc in Hc'.
    destruct (rd_at s wi pre (c_id x) _ Hs Hwi Hwi2 ltac:(apply K1) Hc' Ht) as (s1 & E1 & C1 & S1 & T1). rewrite Hc in C1.
    destruct (ignore_spec s1 x pre _ S1 K1 C1 T1) as (s2 & E2 & C2 & S2 & T2).
    rewrite C1, app_assoc in C2. rewrite <- app_length in T2.
    destruct (IH s2 id _ S2 K2 N2 C2 T2) as (fuel & s3 & E3 & C3 & S3 & T3).
    exists (Datatypes.S fuel), s3. cbn [find below].
    fold FD. rewrite E1. cbn [obind]. rewrite S1. cbn [is_ok negb]. replace (c_id x =? id) with false by lia. fold FD in E2. rewrite E2. cbn [obind]. split; auto.
    assert (content s2 = content s) by (rewrite C2, Hc, <- app_assoc; reflexivity). split; [congruence|]. split; auto. congruence.
Qed.

(** find stops on every file, whatever bytes are in it; it changes no content, and tells true only behind the identifier,
    read from below the limit. *)
Lemma find_total_fuel : forall fuel s id limit, f_state F s = StOk -> (length (content s) + 1 < fuel + f_tell F s)%nat -> (0 < fuel)%nat ->
  exists s' b, find F fset wi ws al fuel s id limit = Ret (s', b) /\ content s' = content s /\
   (b = true -> exists q, f_tell F s' = (q + wi)%nat /\ (q + wi <= length (content s))%nat /\ le_value (firstn wi (skipn q (content s))) = id /\
      match limit with None => True | Some e => (q < e)%nat end).
Proof.
  induction fuel as [|fuel IH]; intros s id limit Hs Hf H0; [lia|]. cbn [find]. destruct (below F limit s) eqn:B.
  2:{ exists s, false. repeat (split; auto). discriminate. }
  fold FD. destruct (rd s wi Hs Hwi Hwi2) as (s1 & v & E1 & C1 & H1). rewrite E1. cbn [obind].
  destruct (f_tell F s + wi <=? length (content s))%nat eqn:L.
  2:{ destruct H1 as [S1 _]. rewrite S1. cbn [is_ok negb]. exists s1, false. split; auto. split; auto. discriminate. }
  destruct H1 as (S1 & T1 & V1). rewrite S1. cbn [is_ok negb]. destruct (v =? id) eqn:Ev.
  { exists s1, true. split; auto. split; auto. intros _. exists (f_tell F s). split; auto. split; [lia|]. split; [lia|]. destruct limit; auto. cbn [below] in B. lia. }
  unfold ignore. fold FD. destruct (rd s1 ws S1 Hws Hws2) as (s2 & sz & E2 & C2 & H2). rewrite E2. cbn [obind].
  destruct (f_tell F s1 + ws <=? length (content s1))%nat eqn:L2.
  - destruct H2 as (S2 & T2 & _). rewrite S2. cbn [is_ok negb obind]. unfold skip_file. set (am := tsize ws (sz + padding al sz)).
    destruct (pf_seek F content (sf_plain _ _ _ HF) s2 (f_tell F s2 + Z.to_nat am)) as (C3 & T3 & S3).
    destruct (IH (f_seek F s2 (f_tell F s2 + Z.to_nat am)) id limit S3) as (s4 & b & E4 & C4 & H4). { rewrite C3, C2, C1, T3, T2, T1. lia. } { lia. }
    exists s4, b. split; auto. rewrite C3, C2, C1 in *. auto.
  - destruct H2 as (S2 & T2). rewrite S2. cbn [is_ok negb obind]. destruct fuel as [|fuel]; [lia|]. clear IH.
    cbn [find]. destruct (below F limit s2); [|exists s2, false; split; auto; split; [congruence|discriminate]].
    fold FD. rewrite read_data_skip by (cbn [FD file_dev d_state]; congruence). cbn [obind]. rewrite S2. cbn [is_ok negb]. exists s2, false. split; auto. split; [congruence|discriminate].
Qed.
Theorem find_total : forall s id limit, f_state F s = StOk ->
  exists fuel s' b, find F fset wi ws al fuel s id limit = Ret (s', b) /\ content s' = content s /\
   (b = true -> exists q, f_tell F s' = (q + wi)%nat /\ (q + wi <= length (content s))%nat /\ le_value (firstn wi (skipn q (content s))) = id /\
      match limit with None => True | Some e => (q < e)%nat end).
Proof. intros s id limit Hs. exists (length (content s) + 2)%nat. apply find_total_fuel; auto; lia. Qed.

(** read_id: the identifier at the position, unless the position has reached the limit or fewer bytes are left. *)
Theorem read_id_spec : forall s limit, f_state F s = StOk -> exists s' v b, read_id F fset wi s limit = Ret (s', v, b) /\ content s' = content s /\
  (b = true <-> (f_tell F s + wi <= length (content s))%nat /\ match limit with None => True | Some e => (f_tell F s < e)%nat end) /\
  (b = true -> v = le_value (firstn wi (skipn (f_tell F s) (content s))) /\ f_tell F s' = (f_tell F s + wi)%nat).
Proof.
  intros s limit Hs. unfold read_id. destruct (below F limit s) eqn:B.
  - fold FD. destruct (rd s wi Hs Hwi Hwi2) as (s1 & v & E1 & C1 & H1). rewrite E1. cbn [obind]. exists s1, v, (is_ok (f_state F s1)). split; auto. split; auto.
    assert (match limit with None => True | Some e => (f_tell F s < e)%nat end) by (destruct limit; auto; cbn [below] in B; lia).
    destruct (_ <=? _)%nat eqn:L.
    + destruct H1 as (S1 & T1 & V1). rewrite S1. cbn [is_ok]. split; auto. split; auto. intros _. split; auto. lia.
    + destruct H1 as (S1 & T1). rewrite S1. cbn [is_ok]. split; [|discriminate]. split; [discriminate|]. intros [? _]. lia.
  - exists s, 0, false. split; auto. split; auto. split; [|discriminate]. split; [discriminate|]. intros [_ H]. destruct limit; [cbn [below] in B; lia|discriminate].
Qed.

(** ** The whole record *)
(** operator<<: whatever operator<< of the data appends, the record is complete *)
Theorem write_record_spec : forall s id user data, f_state F s = StOk -> f_tell F s = length (content s) ->
  0 <= id < 256 ^ Z.of_nat wi -> Z.of_nat (length data) + Z.of_nat align <= 256 ^ Z.of_nat ws -> Z.of_nat align < M64 ->
  (forall s1, f_state F s1 = StOk -> f_tell F s1 = length (content s1) ->
     content (user s1) = content s1 ++ data /\ f_state F (user s1) = StOk /\ f_tell F (user s1) = length (content (user s1))) ->
  exists s' pad, write_record F fset wi ws al s id user = Ret s' /\ f_state F s' = StOk /\
    content s' = content s ++ chunk_bytes wi ws (Chunk id data (repeat 0 pad)) /\ chunk_ok wi ws align (Chunk id data (repeat 0 pad)) /\
    f_tell F s' = length (content s').
Proof.
  intros s id user data Hs Ht Hid Hd Ha Hu. unfold write_record.
  destruct (open_spec s id (content s) [] Hs) as (s1 & E1 & S1 & C1 & T1); [rewrite app_nil_r; auto|auto|]. rewrite E1. cbn [obind]. rewrite S1. cbn [is_ok negb].
  rewrite skipn_nil, app_nil_r in C1. destruct (Hu s1 S1) as (C2 & S2 & T2). { rewrite T1, C1, !app_length, !le_bytes_length. lia. }
  rewrite C1 in C2. assert (L : f_tell F (user s1) = (length (content s) + wi + ws + length data)%nat) by (rewrite T2, C2, !app_length, !le_bytes_length; lia).
  destruct (close_spec (user s1) (content s) (le_bytes wi id) (le_bytes ws 0) data [] S2) as (s3 & pad & E3 & S3 & C3 & T3 & P1 & P2); auto using le_bytes_length; [lia| |].
  { rewrite C2, app_nil_r, <- !app_assoc. reflexivity. }
  rewrite E3. cbn [obind]. exists s3, pad. rewrite skipn_nil, app_nil_r in C3. split; auto. split; auto. split; [exact C3|]. split.
  - unfold chunk_ok. cbn [c_id c_data c_pad]. rewrite repeat_length. repeat (split; auto). lia.
  - rewrite T3, C3, !app_length, !le_bytes_length, repeat_length. lia.
Qed.

Lemma limited_spec : forall ns c d q lim, content (lm_src c) = d -> f_tell F (lm_src c) = q -> lm_read c = Z.of_nat lim -> Z.of_nat lim < fsize_max -> lm_st c <> StFail ->
  exists c' k, limited_reads F fset c ns = (c', firstn k (skipn q d)) /\ (k <= lim)%nat /\ content (lm_src c') = d /\ lm_st c' <> StFail.
Proof.
  induction ns as [|n ns IH]; intros c d q lim Hc Ht Hl Hm Hs; cbn [limited_reads].
  - exists c, 0%nat. rewrite firstn_O. split; auto. split; [lia|]. auto.
  - assert (R : exists c1 m, limiter_read FD c n = (c1, firstn m (skipn q d)) /\ (m <= lim)%nat /\ content (lm_src c1) = d /\ f_tell F (lm_src c1) = (q + length (firstn m (skipn q d)))%nat /\
                lm_read c1 = Z.of_nat (lim - length (firstn m (skipn q d))) /\ lm_st c1 <> StFail).
    { assert (G : forall m, (m <= lim)%nat -> exists s', conv_read FD (lm_src c) m = (s', f_state F s', firstn m (skipn q d)) /\ content s' = d /\ f_tell F s' = (q + length (firstn m (skipn q d)))%nat /\ f_state F s' <> StFail).
      { intros m Hmm. unfold conv_read. cbn [FD file_dev d_read d_state]. destruct (f_read F (lm_src c) m) as [s' b] eqn:E.
        destruct (pf_read F content (sf_plain _ _ _ HF) _ _ _ _ E) as (-> & C' & T' & St'). rewrite Hc, Ht in *. exists s'. split; auto. split; auto. split; auto. rewrite St'. destruct (_ && _); discriminate. }
      unfold limiter_read. rewrite Hl. replace (Z.of_nat lim =? fsize_max) with false by lia. destruct (Z.of_nat n <=? Z.of_nat lim) eqn:E1.
      - destruct (G n ltac:(lia)) as (s' & E & C' & T' & St'). rewrite E. eexists. exists n. split; [reflexivity|]. cbn [lm_src lm_read lm_st]. split; [lia|]. split; auto. split; auto. split; auto.
        rewrite Nat2Z.inj_sub; auto. pose proof (firstn_le_length n (skipn q d)). lia.
      - destruct (negb (Z.of_nat n =? 0) && (Z.of_nat lim =? 0)) eqn:E2.
        + eexists. exists 0%nat. split; [reflexivity|]. cbn [lm_src lm_read lm_st firstn length]. split; [lia|]. split; auto. split; [lia|]. split; [lia|]. discriminate.
        + rewrite Nat2Z.id. destruct (G lim ltac:(lia)) as (s' & E & C' & T' & St'). rewrite E. eexists. exists lim. split; [reflexivity|]. cbn [lm_src lm_read lm_st]. split; [lia|]. split; auto. split; auto. split; auto.
          pose proof (firstn_le_length lim (skipn q d)). lia. }
    destruct R as (c1 & m & E1 & Hmm & C1 & T1 & R1 & S1). fold FD. rewrite E1. set (b := firstn m (skipn q d)) in *.
    assert (Hb : (length b <= m)%nat) by apply firstn_le_length.
    destruct (IH c1 d (q + length b)%nat (lim - length b)%nat C1 T1 R1) as (c2 & k & E2 & Hk & C2 & S2); auto. { pose proof (firstn_le_length m (skipn q d)). lia. }
    fold FD in E2. rewrite E2. exists c2, (length b + k)%nat. split.
    + f_equal. rewrite <- skipn_add. apply first_more.
    + split; [lia|]. auto.
Qed.
(** operator>> of a record, behind the identifier: however the data are read, what is read is a prefix of the record's data,
    and the position is then that of the next record. *)
Theorem read_record_spec : forall s c pre post ns, f_state F s = StOk -> chunk_ok wi ws align c -> Z.of_nat (length (c_data c)) < fsize_max ->
  content s = pre ++ chunk_bytes wi ws c ++ post -> f_tell F s = (length pre + wi)%nat ->
  exists s' k, read_record F fset ws al s ns = Ret (s', firstn k (c_data c)) /\ content s' = content s /\ f_state F s' = StOk /\
    f_tell F s' = (length pre + length (chunk_bytes wi ws c))%nat.
Proof.
  intros s c pre post ns Hs Hc Hm Hco Ht. unfold read_record. fold FD. pose proof Hco as Hco'. unfold chunk_bytes in Hco'. rewrite <- !app_assoc in Hco'. rewrite app_assoc in Hco'.
  destruct (rd_at s ws _ (Z.of_nat (length (c_data c))) _ Hs Hws Hws2 ltac:(destruct Hc as (_ & _ & _ & ?); lia) Hco') as (s1 & E1 & C1 & S1 & T1). { rewrite app_length, le_bytes_length. auto. }
  rewrite E1. cbn [obind]. rewrite S1. cbn [is_ok negb].
  destruct (limited_spec ns (limiter_new FD s1 (Z.of_nat (length (c_data c))) 0) (content s) (f_tell F s1) (length (c_data c)) C1 eq_refl eq_refl Hm) as (c' & k & E2 & Hk & C2 & S2).
  { unfold limiter_new. cbn [lm_st]. cbn [FD file_dev d_state]. rewrite S1. discriminate. }
  fold FD in E2. rewrite E2. rewrite chunk_size by auto. rewrite Nat2Z.id.
  assert (D : firstn k (skipn (f_tell F s1) (content s)) = firstn k (c_data c)).
  { rewrite T1, app_length, le_bytes_length, Hco'. rewrite <- app_assoc, app_assoc, (app_assoc (pre ++ _)).
    replace (length pre + wi + ws)%nat with (length ((pre ++ le_bytes wi (c_id c)) ++ le_bytes ws (Z.of_nat (length (c_data c))))) by (rewrite !app_length, !le_bytes_length; lia).
    rewrite skip_here, firstn_app. replace (k - length (c_data c))%nat with 0%nat by lia. rewrite firstn_O, app_nil_r. reflexivity. }
  rewrite D. destruct (pf_seek F content (sf_plain _ _ _ HF) (lm_src c') (f_tell F s1 + (length (c_data c) + length (c_pad c)))) as (C3 & T3 & S3).
  destruct (lm_st c') eqn:Q; [| |congruence]; (eexists; exists k; split; [reflexivity|]; split; [congruence|]; split; auto; rewrite T3, T1; unfold chunk_bytes; rewrite !app_length, !le_bytes_length; lia).
Qed.
End Props.

(** ** What fails: data and padding that together cannot be counted in the size field.  A record of 255 bytes of data, size
    of one byte, alignment 2: close writes it, but ignore (and find, operator>>) skip nothing of it. *)
Theorem ignore_wraps_refuted : exists data s1 s2 e,
  (* the record is written... *)
  Z.of_nat (length data) < 256 ^ 1 /\
  write_record array_file (fun s st => (fst s, st)) 1 1 2 ([], 0%nat, StOk) 65 (fun s => fst (f_write array_file s data)) = Ret s1 /\
  fst (fst s1) = 65 :: 255 :: data ++ [0] /\
  (* ...and skipped from behind its identifier: the position is that of the data *)
  ignore array_file (fun s st => (fst s, st)) 1 2 (f_seek array_file s1 1) = Ret (s2, true) /\ f_tell array_file s2 = 2%nat /\ e = 258%nat /\ length (fst (fst s1)) = e.
Proof. exists (repeat 7 255). eexists. eexists. exists 258%nat. repeat (split; [vm_compute; reflexivity|]). vm_compute. reflexivity. Qed.

(** ** Examples *)
Definition ex_set (s : list Z * nat * sstate) (st : sstate) : list Z * nat * sstate := (fst s, st).
Definition ex_user (b : list Z) (s : list Z * nat * sstate) := fst (f_write array_file s b).
(** the assumption of write_record_spec about the writer of the data is met *)
Example ex_user_ok : forall b s1, f_state array_file s1 = StOk -> f_tell array_file s1 = length (fst (fst s1)) ->
  fst (fst (ex_user b s1)) = fst (fst s1) ++ b /\ f_state array_file (ex_user b s1) = StOk /\ f_tell array_file (ex_user b s1) = length (fst (fst (ex_user b s1))).
Proof.
  intros b [[d p] st] _ E. cbn in E. subst p. unfold ex_user. cbn [array_file f_write f_tell f_state fst].
  assert (Q : store_at d (length d) b = d ++ b). { pose proof (store_mid d [] b) as K. rewrite app_nil_r, skipn_nil, app_nil_r in K. exact K. }
  rewrite Q. split; auto. split; auto. rewrite app_length. lia.
Qed.
Example ex_two_records : exists s1 s2, write_record array_file ex_set 2 1 4 ([9], 1%nat, StOk) 258 (ex_user [1; 2; 3; 4; 5]) = Ret s1 /\
  write_record array_file ex_set 2 1 4 s1 3 (ex_user [6]) = Ret s2 /\
  fst (fst s2) = 9 :: [2; 1; 5; 1; 2; 3; 4; 5; 0; 0; 0] ++ [3; 0; 1; 6; 0; 0; 0] /\
  find array_file ex_set 2 1 4 5 (f_seek array_file s2 1) 3 None = Ret ((fst (fst s2), 14%nat, StOk), true) /\
  find array_file ex_set 2 1 4 5 (f_seek array_file s2 1) 3 (Some 12%nat) = Ret ((fst (fst s2), 12%nat, StOk), false) /\
  read_record array_file ex_set 1 4 (f_seek array_file s2 3) [2%nat; 100%nat; 1%nat] = Ret ((fst (fst s2), 12%nat, StOk), [1; 2; 3; 4; 5]).
Proof. eexists. eexists. repeat (split; [vm_compute; reflexivity|]). vm_compute. reflexivity. Qed.
Example ex_chunk_ok : Forall (chunk_ok 2 1 4) [Chunk 258 [1; 2; 3; 4; 5] [0; 0; 0]; Chunk 3 [6] [0; 0; 0]].
Proof. repeat constructor; cbn; lia. Qed.

Print Assumptions close_spec.
Print Assumptions find_first.
Print Assumptions find_total.
Print Assumptions read_record_spec.
Print Assumptions write_record_spec.
Print Assumptions ignore_wraps_refuted.
