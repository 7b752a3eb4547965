(** zlib_writer and zlib_reader (C121-C123), stream_hasher (C124). *)
From Verif Require Import Base StreamModel StreamSpec ConvModel ZlibModel ZlibSpec.
From Verif Require HashModel HashSpec HashProps.
From Coq Require Import ZifyBool ZifyNat.

Lemma uint_min_le : forall n, (uint_min n <= n)%nat /\ (0 < n -> 0 < uint_min n)%nat.
Proof. intros n. unfold uint_min. destruct (Z.of_nat n <=? 4294967295) eqn:E; [split; auto|]. assert (P : 0 < 4294967295) by reflexivity. revert E P. generalize 4294967295. intros M E P. lia. Qed.
Lemma skipn_add : forall A (l : list A) a b, skipn (a + b) l = skipn b (skipn a l).
Proof. intros A l a. revert l. induction a; intros l b; auto. destruct l; [rewrite !skipn_nil; auto|]. apply IHa. Qed.
Lemma firstn_add : forall A (l : list A) a b, firstn (a + b) l = firstn a l ++ firstn b (skipn a l).
Proof. intros A l a. revert l. induction a; intros l b; auto. destruct l; [cbn; rewrite firstn_nil; auto|]. cbn. f_equal. apply IHa. Qed.
Lemma session_app : forall Zs step fl (z z1 z2 : Zs) i1 e1 i2 e2, session step fl z i1 e1 z1 -> session step fl z1 i2 e2 z2 -> session step fl z (i1 ++ i2) (e1 ++ e2) z2.
Proof. intros Zs step fl z z1 z2 i1 e1 i2 e2 H. induction H; intros H2; auto. rewrite <- !app_assoc. econstructor; eauto. Qed.

Section Writer.
Context {S Zs : Type} (D : dev S) (Inv : S -> Prop) (out : S -> list Z) (step : Zs -> list Z -> nat -> bool -> Zs * nat * list Z * Z) (finished : Zs -> Prop) (bs : nat).
Context (SK : sink D Inv out) (DF : deflater step finished) (Hbs : (0 < bs)%nat).

Lemma ok_state : forall s, d_ok D s = true -> d_state D s = StOk.
Proof. intros s. unfold d_ok. destruct (d_state D s); auto; discriminate. Qed.
Lemma write_ok : forall s o, Inv s -> d_ok D (fst (d_write D s o)) = true -> Inv (fst (d_write D s o)) /\ out (fst (d_write D s o)) = out s ++ o.
Proof.
  intros s o I K. destruct (d_write D s o) as [s' k] eqn:E. cbn [fst] in *. destruct (snk_write _ _ _ SK s o s' k I E) as (I' & _ & O & W). split; auto.
  rewrite O, (W (ok_state _ K)), firstn_all. auto.
Qed.
Lemma write_inv : forall s o, Inv s -> Inv (fst (d_write D s o)).
Proof. intros s o I. destruct (d_write D s o) as [s' k] eqn:E. apply (snk_write _ _ _ SK s o s' k I E). Qed.
Lemma deflate_loop_spec : forall fuel z s inp z' s' ok, Inv s -> deflate_loop D step bs fuel z s inp = Ret (z', s', ok) ->
  Inv s' /\ (ok = true -> exists e, out s' = out s ++ e /\ session step false z inp e z') /\ (ok = false -> d_ok D s' = false).
Proof.
  induction fuel; intros z s inp z' s' ok I H; [discriminate|]. cbn [deflate_loop] in H.
  destruct (step z inp bs false) as [[[z1 used] o] code] eqn:E. destruct (code <? 0) eqn:Ec; [discriminate|].
  destruct (DF z inp bs false z1 used o code Hbs E ltac:(lia)) as (Hu & Ho & Hr).
  set (s1 := match o with [] => s | _ => fst (d_write D s o) end) in *.
  assert (I1 : Inv s1) by (unfold s1; destruct o; auto; apply write_inv; auto).
  destruct (match o with [] => false | _ => negb (d_ok D s1) end) eqn:Eo.
  { injection H as <- <- <-. split; auto. split; [discriminate|]. intros _. destruct o; [discriminate|]. destruct (d_ok D s1); auto; discriminate. }
  assert (O1 : out s1 = out s ++ o).
  { unfold s1 in *. destruct o; [rewrite app_nil_r; auto|]. apply write_ok; auto. destruct (d_ok D _); auto; discriminate. }
  destruct (length o =? bs)%nat eqn:El.
  - apply IHfuel in H; auto. destruct H as (I' & W & N). split; auto. split; auto. intros K. destruct (W K) as (e & O2 & Ss).
    exists (o ++ e). split. { rewrite O2, O1, <- app_assoc. auto. }
    rewrite <- (firstn_skipn used inp) at 1. econstructor; [exact E|lia|auto].
  - injection H as <- <- <-. split; auto. split; [|discriminate]. intros _. exists o. split; auto.
    assert (used = length inp) by (apply Hr; lia). subst used. rewrite <- (app_nil_r inp), <- (app_nil_r o). rewrite <- (firstn_all inp) at 1.
    econstructor; [exact E|lia|constructor].
Qed.
Lemma zwrite_loop_spec : forall fuel z s data k0 z' s' st k, Inv s -> zwrite_loop D step bs fuel z s data k0 = Ret (z', s', st, k) ->
  Inv s' /\ (k0 <= k <= k0 + length data)%nat /\
  (st = StOk -> k = (k0 + length data)%nat /\ exists e, out s' = out s ++ e /\ session step false z data e z') /\ (st <> StOk -> (k < k0 + length data)%nat).
Proof.
  induction fuel; intros z s data k0 z' s' st k I H; [discriminate|]. cbn [zwrite_loop] in H. destruct data as [|x data].
  { injection H as <- <- <- <-. cbn [length]. split; auto. split; [lia|]. split; [|congruence]. intros _. split; [lia|]. exists []. rewrite app_nil_r. split; auto. constructor. }
  set (dat := x :: data) in *. assert (Hd : (0 < length dat)%nat) by (cbn; lia). clearbody dat. destruct (uint_min_le (length dat)) as [U1 U2]. specialize (U2 Hd).
  set (n := uint_min (length dat)) in *.
  destruct (deflate_loop D step bs _ z s (firstn n dat)) as [[[z1 s1] ok]| |] eqn:E; cbn [obind] in H; try discriminate.
  apply deflate_loop_spec in E; auto. destruct E as (I1 & W & N). destruct ok.
  - destruct (W eq_refl) as (e1 & O1 & S1). apply IHfuel in H; auto. destruct H as (I' & R & W2 & N2). rewrite skipn_length in *. split; auto. split; [lia|]. split; [|intros K; specialize (N2 K); lia].
    intros K. destruct (W2 K) as (Ek & e2 & O2 & S2). split; [lia|]. exists (e1 ++ e2). split. { rewrite O2, O1, <- app_assoc. auto. }
    rewrite <- (firstn_skipn n dat). eapply session_app; eauto.
  - injection H as <- <- <- <-. specialize (N eq_refl). split; auto. split; [lia|]. split; [|lia]. intros K. unfold d_ok in N. rewrite K in N. discriminate.
Qed.
Lemma zfinish_spec : forall fuel z s z' s', Inv s -> zfinish D step bs fuel z s = Ret (z', s') ->
  Inv s' /\ finished z' /\ exists e, out s' = out s ++ e /\ session step true z [] e z'.
Proof.
  induction fuel; intros z s z' s' I H; [discriminate|]. cbn [zfinish] in H.
  destruct (step z [] bs true) as [[[z1 used] o] code] eqn:E. destruct (code <? 0) eqn:Ec; [discriminate|].
  destruct (DF z [] bs true z1 used o code Hbs E ltac:(lia)) as (Hu & Ho & Hr).
  destruct (d_ok D (fst (d_write D s o))) eqn:Ek; cbn [negb] in H; [|discriminate]. destruct (write_ok s o I Ek) as [I1 O1].
  destruct (length o =? bs)%nat eqn:El.
  - apply IHfuel in H; auto. destruct H as (I' & F & e & O & Ss). split; auto. split; auto. exists (o ++ e). split. { rewrite O, O1, <- app_assoc. auto. }
    replace (@nil Z) with (firstn used (@nil Z) ++ []) by (rewrite firstn_nil; auto). econstructor; [exact E|lia|auto].
  - injection H as <- <-. split; auto. destruct (Hr ltac:(lia)) as [_ F]. split; [apply F; auto|]. exists o. split; auto.
    replace (@nil Z) with (firstn used (@nil Z) ++ []) at 1 by (rewrite firstn_nil; auto). rewrite <- (app_nil_r o). econstructor; [exact E|lia|constructor].
Qed.
(** a program that writes pieces of data and stops when one is not taken *)
Fixpoint zwrites (fuel : nat) (z : Zs) (s : S) (pieces : list (list Z)) : outcome (Zs * S) :=
  match pieces with
  | [] => Ret (z, s)
  | p :: r => let* (z', s', st, k) := zwrite D step bs fuel z s p in if is_ok st then zwrites fuel z' s' r else Throw
  end.
End Writer.

(** ** C121: what zlib_writer sends to the stream is the compressed data *)
(** one call: all is taken, or the number returned and the state tell *)
Theorem zlib_write_spec : forall S Zs (D : dev S) Inv out (step : Zs -> _) finished bs, sink D Inv out -> deflater step finished -> (0 < bs)%nat ->
  forall fuel z s data z' s' st k, Inv s -> zwrite D step bs fuel z s data = Ret (z', s', st, k) ->
  Inv s' /\ (st = StOk -> k = length data /\ exists e, out s' = out s ++ e /\ session step false z data e z') /\ (st <> StOk -> (k < length data)%nat).
Proof. intros S Zs D Inv out step finished bs SK DF Hb fuel z s data z' s' st k I H. eapply zwrite_loop_spec in H; eauto. destruct H as (I' & R & W & N). repeat split; auto; apply W; auto. Qed.
(** the whole life of a writer *)
Theorem zlib_writer_stream : forall S Zs (D : dev S) Inv out (step : Zs -> _) finished bs, sink D Inv out -> deflater step finished -> (0 < bs)%nat ->
  forall fuel fuel2 z0 s pieces z1 s1 z2 s2, Inv s -> zwrites D step bs fuel z0 s pieces = Ret (z1, s1) -> zfinish D step bs fuel2 z1 s1 = Ret (z2, s2) ->
  exists e, out s2 = out s ++ e /\ compresses step finished z0 (concat pieces) e.
Proof.
  intros S Zs D Inv out step finished bs SK DF Hb fuel fuel2 z0 s pieces z1 s1 z2 s2 I H F.
  assert (W : Inv s1 /\ exists e, out s1 = out s ++ e /\ session step false z0 (concat pieces) e z1).
  { clear F. revert z0 s I H. induction pieces as [|p r IH]; intros z0 s I H.
    { injection H as <- <-. split; auto. exists []. rewrite app_nil_r. split; auto. constructor. }
    cbn [zwrites] in H. destruct (zwrite D step bs fuel z0 s p) as [[[[z' s'] st] k]| |] eqn:E; cbn [obind] in H; try discriminate.
    destruct st; cbn [is_ok] in H; try discriminate. eapply zlib_write_spec in E; eauto. destruct E as (I' & W & _). destruct (W eq_refl) as (_ & e1 & O1 & S1).
    destruct (IH z' s' I' H) as (I2 & e2 & O2 & S2). split; auto. exists (e1 ++ e2). split. { rewrite O2, O1, <- app_assoc. auto. } cbn [concat]. eapply session_app; eauto. }
  destruct W as (I1 & e1 & O1 & S1). eapply zfinish_spec in F; eauto. destruct F as (_ & Fin & e2 & O2 & S2).
  exists (e1 ++ e2). split. { rewrite O2, O1, <- app_assoc. auto. } exists z1, z2, e1, e2. auto.
Qed.

(** ** C122: what zlib_reader returns is the decompressed data *)
Section Reader.
Context {S Zs : Type} (D : dev S) (Inv : S -> Prop) (left : S -> list Z) (step : Zs -> list Z -> nat -> bool -> Zs * nat * list Z * Z) (bs : nat).
Context (SR : source D Inv left) (NF : never_fails D Inv) (Hbs : (0 < bs)%nat).
Context (z0 : Zs) (e junk d : list Z) (IN : inflates step z0 e junk d).

(** a reader over the stream e ++ junk that has returned [o] so far: [inb] is what is left of its block *)
Definition reading (z : Zs) (s : S) (inb o : list Z) : Prop :=
  Inv s /\ exists k, reach step z0 (e ++ junk) z k o /\ (k <= length e)%nat /\ skipn k (e ++ junk) = inb ++ left s /\ exists r, d = o ++ r.
(* the block is refilled *)
Lemma refill : forall z s inb o s' inb', reading z s inb o -> match inb with [] => d_read D s bs | _ => (s, inb) end = (s', inb') ->
  reading z s' inb' o /\ (inb' = [] -> left s' = []).
Proof.
  intros z s inb o s' inb' (I & k & Re & Lk & Ek & P) H. destruct inb as [|x inb].
  - destruct (src_read _ _ _ SR s bs s' inb' I H) as (I' & L & Ln & St). split.
    + split; auto. exists k. rewrite Ek. cbn [app]. rewrite L. auto.
    + intros ->. specialize (NF s bs I). rewrite H in NF. cbn [fst] in NF. destruct (d_state D s'); [exfalso; apply St; auto|destruct St as (_ & _ & L0); rewrite L0 in L; destruct (left s'); auto; discriminate|congruence].
  - injection H as <- <-. split; [|discriminate]. split; auto. exists k. auto.
Qed.
Lemma skipn_len : forall k, (k <= length e)%nat -> skipn k (e ++ junk) = skipn k e ++ junk.
Proof. intros k L. rewrite skipn_app. replace (k - length e)%nat with 0%nat by lia. auto. Qed.
(* one call of inflate within the stream *)
Lemma inflate_step : forall z s inb o room, reading z s inb o -> inb <> [] -> (0 < room)%nat -> forall z' used x code, step z inb room false = (z', used, x, code) ->
  (exists k, (k < length e)%nat /\ reach step z0 (e ++ junk) z k o /\ 0 <= code /\ reading z' s (skipn used inb) (o ++ x) /\ (length x <= room)%nat /\ (used <= length inb)%nat /\ (0 < used \/ 0 < length x)%nat) \/
  (o = d /\ z' = z /\ used = 0%nat /\ x = [] /\ code = 1 /\ junk <> []).
Proof.
  intros z s inb o room (I & k & Re & Lk & Ek & r & P) N R z' used x code E.
  destruct (Nat.eq_dec k (length e)) as [->|Nk].
  - right. assert (o = d) by (apply (inf_end _ _ _ _ _ IN _ _ Re)). rewrite skipn_app, skipn_all, Nat.sub_diag in Ek. cbn [app skipn] in Ek.
    rewrite (inf_done _ _ _ _ _ IN z o inb (left s) room Re Ek N R) in E. injection E as <- <- <- <-. repeat split; auto. rewrite Ek. destruct inb; [congruence|discriminate].
  - left. exists k. destruct (inf_step _ _ _ _ _ IN z k o inb (left s) room z' used x code Re ltac:(lia) Ek N R E) as (C & U & Ku & X & Pr & r' & P').
    repeat split; auto; try lia. exists (k + used)%nat. split. { econstructor; eauto. } split; auto. split; [|eauto].
    rewrite skipn_add, Ek, skipn_app. replace (used - length inb)%nat with 0%nat by lia. auto.
Qed.
Definition todo (inb : list Z) (s : S) (o : list Z) : nat := (length inb + length (left s) + (length d - length o))%nat.
Lemma inflate_loop_spec : junk = [] -> forall m z s inb o room fuel, (todo inb s o <= m)%nat -> (m < fuel)%nat -> reading z s inb o -> (0 < room)%nat ->
  exists z' s' inb' x stop, inflate_loop D step bs fuel z s inb room = Ret (z', s', inb', x, stop) /\ reading z' s' inb' (o ++ x) /\ (length x <= room)%nat /\
    (todo inb' s' (o ++ x) <= m)%nat /\ (if stop then o ++ x = d else length x = room).
Proof.
  intros J. induction m; intros z s inb o room fuel Hm Hf R Hr; (destruct fuel; [lia|]); cbn [inflate_loop].
  1, 2: destruct (match inb with [] => d_read D s bs | _ => (s, inb) end) as [s1 inb1] eqn:Er; destruct (refill _ _ _ _ _ _ R Er) as [R1 E1].
  1, 2: assert (T1 : todo inb1 s1 o = todo inb s o) by (unfold todo; destruct inb as [|y inb]; [destruct R as (I & _); destruct (src_read _ _ _ SR s bs s1 inb1 I Er) as (_ & L & _); rewrite L, app_length; cbn; lia|injection Er as <- <-; auto]).
  1, 2: destruct inb1 as [|y inb1].
  1, 3: exists z, s1, [], [], true; split; auto; rewrite app_nil_r; split; auto; split; [cbn; lia|]; split; [lia|];
        destruct R1 as (I1 & k & Re & Lk & Ek & P); rewrite (E1 eq_refl) in Ek; cbn [app] in Ek;
        apply (f_equal (@length Z)) in Ek; rewrite skipn_length, app_length, J in Ek; cbn [length] in Ek; assert (k = length e) by lia; subst k;
        apply (inf_end _ _ _ _ _ IN z o); auto.
  - exfalso. unfold todo in *. cbn [length] in *. lia.
  - set (inb2 := y :: inb1) in *. destruct (step z inb2 room false) as [[[z' used] x] code] eqn:Es.
    destruct (inflate_step _ _ _ _ room R1 ltac:(discriminate) Hr _ _ _ _ Es) as [(k & Lk & Re & C & R2 & X & U & Pr)|(_ & _ & _ & _ & _ & Nj)]; [|congruence].
    replace (code <? 0) with false by lia. assert (T2 : (todo (skipn used inb2) s1 (o ++ x) < todo inb2 s1 o)%nat).
    { unfold todo. rewrite skipn_length, app_length. destruct R2 as (_ & _ & _ & _ & _ & r & P). apply (f_equal (@length Z)) in P. rewrite !app_length in P. lia. }
    destruct (room - length x =? 0)%nat eqn:Erm.
    + exists z', s1, (skipn used inb2), x, false. split; auto. split; auto. split; auto. split; [|lia]. lia.
    + destruct (IHm z' s1 (skipn used inb2) (o ++ x) (room - length x)%nat fuel) as (z3 & s3 & inb3 & x3 & stop & E3 & R3 & X3 & T3 & St); auto; try lia.
      rewrite E3. cbn [obind]. exists z3, s3, inb3, (x ++ x3), stop. split; auto. rewrite app_assoc. split; auto. rewrite app_length. split; [lia|]. split; [lia|]. destruct stop; auto. lia.
Qed.
Lemma zread_loop_spec : junk = [] -> forall n z s inb o acc m fuel, (todo inb s (o ++ acc) <= m)%nat -> (m + n < fuel)%nat -> reading z s inb (o ++ acc) ->
  exists z' s' inb' st b, zread_loop D step bs fuel z s inb n acc = Ret (z', s', inb', st, acc ++ b) /\ reading z' s' inb' (o ++ acc ++ b) /\ (length b <= n)%nat /\
    ((length b < n)%nat -> o ++ acc ++ b = d) /\ (acc ++ b <> [] -> st = StOk) /\ (acc ++ b = [] -> n <> 0%nat -> st = d_state D s').
Proof.
  intros J. induction n as [n IHn] using lt_wf_ind. intros z s inb o acc m fuel Hm Hf R. destruct fuel; [lia|]. cbn [zread_loop]. destruct (n =? 0)%nat eqn:E0.
  { exists z, s, inb, StOk, []. rewrite app_nil_r. split; auto. split; auto. split; [cbn; lia|]. split; [cbn; lia|]. split; auto. lia. }
  destruct (uint_min_le n) as [U1 U2]. set (c := uint_min n) in *. specialize (U2 ltac:(lia)).
  destruct (inflate_loop_spec J m z s inb (o ++ acc) c (Datatypes.S fuel) Hm ltac:(lia) R U2) as (z' & s' & inb' & x & stop & E & R' & X & T & St).
  rewrite E. cbn [obind]. rewrite <- app_assoc in *. destruct stop.
  - eexists z', s', inb', _, x. split; [reflexivity|]. split; auto. split; [lia|]. split; auto. destruct (acc ++ x); split; congruence.
  - destruct (IHn (n - c)%nat ltac:(lia) z' s' inb' o (acc ++ x) m fuel) as (z3 & s3 & inb3 & st & b & E3 & R3 & B3 & St3 & Q1 & Q2); auto; try lia.
    exists z3, s3, inb3, st, (x ++ b). rewrite app_assoc. split; [rewrite E3; auto|]. rewrite <- !app_assoc in *. split; auto. rewrite app_length. split; [lia|]. split; [intros L; apply St3; lia|]. split; auto. intros A. apply app_eq_nil in A as [_ A]. destruct x; [cbn in St; lia|discriminate].
Qed.
End Reader.

Theorem zlib_reader_new : forall S Zs (Inv : S -> Prop) left (step : Zs -> _) z0 e junk d s, Inv s -> left s = e ++ junk -> inflates step z0 e junk d ->
  reading Inv left step z0 e junk d z0 s [] [].
Proof. intros S Zs Inv left step z0 e junk d s I L IN. split; auto. exists 0%nat. split; [constructor|]. split; [lia|]. split; [rewrite L; auto|]. exists d. auto. Qed.
(** any read returns, with the next bytes of the data; a short read is the end *)
Theorem zlib_read_spec : forall S Zs (D : dev S) Inv left (step : Zs -> _) bs, source D Inv left -> never_fails D Inv -> (0 < bs)%nat ->
  forall z0 e d, inflates step z0 e [] d -> forall z s inb o n, reading Inv left step z0 e [] d z s inb o ->
  exists fuel0, forall fuel, (fuel0 <= fuel)%nat -> exists z' s' inb' st b, zread D step bs fuel z s inb n = Ret (z', s', inb', st, b) /\
    reading Inv left step z0 e [] d z' s' inb' (o ++ b) /\ (length b <= n)%nat /\ (exists r, d = (o ++ b) ++ r) /\ ((length b < n)%nat -> o ++ b = d) /\
    (b <> [] -> st = StOk) /\ (b = [] -> n <> 0%nat -> st = d_state D s').
Proof.
  intros S Zs D Inv left step bs SR NF Hb z0 e d IN z s inb o n R. exists (Datatypes.S (todo left d inb s o + n)). intros fuel Hf.
  destruct (zread_loop_spec D Inv left step bs SR NF Hb z0 e [] d IN eq_refl n z s inb o [] (todo left d inb s o) fuel) as (z' & s' & inb' & st & b & E & R' & B & St & Q1 & Q2).
  - rewrite app_nil_r. auto. - lia. - rewrite app_nil_r. auto.
  - exists z', s', inb', st, b. cbn [app] in *. split; auto. split; auto. split; auto. split; auto. destruct R' as (_ & _ & _ & _ & _ & P). auto.
Qed.
(** a writer's stream read back is the data: one read of at least as many bytes *)
Theorem zlib_round_trip : forall S Zs (D : dev S) Inv left (step : Zs -> _) bs, source D Inv left -> never_fails D Inv -> (0 < bs)%nat ->
  forall z0 e d s n, inflates step z0 e [] d -> Inv s -> left s = e -> (length d < n)%nat ->
  exists fuel0, forall fuel, (fuel0 <= fuel)%nat -> exists z' s' inb' st, zread D step bs fuel z0 s [] n = Ret (z', s', inb', st, d).
Proof.
  intros S Zs D Inv left step bs SR NF Hb z0 e d s n IN I L Ln.
  destruct (zlib_read_spec S Zs D Inv left step bs SR NF Hb z0 e d IN z0 s [] [] n) as (f0 & K). { apply zlib_reader_new; auto. rewrite app_nil_r. auto. }
  exists f0. intros fuel Hf. destruct (K fuel Hf) as (z' & s' & inb' & st & b & E & R & B & (r & P) & St & _). exists z', s', inb', st.
  cbn [app] in *. assert (b = d). { apply St. apply (f_equal (@length Z)) in P. rewrite app_length in P. lia. } subst b. auto.
Qed.

(** ** C123: data behind the compressed stream *)
Theorem zlib_reader_trailing_refuted : forall S Zs (D : dev S) Inv left (step : Zs -> _) bs, source D Inv left -> never_fails D Inv -> (0 < bs)%nat ->
  forall z0 e junk d, junk <> [] -> inflates step z0 e junk d -> forall z s inb o n, reading Inv left step z0 e junk d z s inb o ->
  (length d < length o + n)%nat -> Z.of_nat n <= 4294967295 -> forall fuel, zread D step bs fuel z s inb n = UB.
Proof.
  intros S Zs D Inv left step bs SR NF Hb z0 e junk d NJ IN z s inb o n R Ln Un fuel. unfold zread.
  assert (G : forall fuel z s inb o room, reading Inv left step z0 e junk d z s inb o -> (length d < length o + room)%nat -> inflate_loop D step bs fuel z s inb room = UB).
  { clear - SR NF Hb NJ IN. induction fuel; intros z s inb o room R L; auto. cbn [inflate_loop].
    destruct (match inb with [] => d_read D s bs | _ => (s, inb) end) as [s1 inb1] eqn:Er. destruct (refill D Inv left step bs SR NF Hb z0 e junk d _ _ _ _ _ _ R Er) as [R1 E1].
    destruct inb1 as [|y inb1].
    { exfalso. destruct R1 as (I1 & k & Re & Lk & Ek & P). rewrite (E1 eq_refl) in Ek. cbn [app] in Ek. rewrite skipn_app in Ek. replace (k - length e)%nat with 0%nat in Ek by lia. cbn [skipn] in Ek. apply app_eq_nil in Ek as [_ Ek]. congruence. }
    assert (Hr : (0 < room)%nat). { destruct R as (_ & _ & _ & _ & _ & r & P). apply (f_equal (@length Z)) in P. rewrite app_length in P. lia. }
    set (inb2 := y :: inb1) in *. destruct (step z inb2 room false) as [[[z' used] x] code] eqn:Es.
    destruct (inflate_step Inv left step bs Hb z0 e junk d IN _ _ _ _ room R1 ltac:(discriminate) Hr _ _ _ _ Es) as [(k & Lk & Re & C & R2 & X & U & Pr)|(Eo & -> & -> & -> & -> & _)].
    - replace (code <? 0) with false by lia. assert (Q : (length d < length (o ++ x) + (room - length x))%nat) by (rewrite app_length; lia).
      pose proof R2 as (_ & _ & _ & _ & _ & r & P). apply (f_equal (@length Z)) in P. rewrite !app_length in P. rewrite app_length in Q.
      replace (room - length x =? 0)%nat with false by lia. rewrite (IHfuel _ _ _ (o ++ x)); auto. rewrite app_length. lia.
    - ceq. cbn [length skipn]. rewrite Nat.sub_0_r. replace (room =? 0)%nat with false by lia. rewrite (IHfuel _ _ _ o); auto. }
  destruct fuel; auto. cbn [zread_loop].
  assert (n <> 0%nat). { destruct R as (_ & _ & _ & _ & _ & r & P). apply (f_equal (@length Z)) in P. rewrite app_length in P. lia. }
  replace (n =? 0)%nat with false by lia. unfold uint_min. replace (Z.of_nat n <=? 4294967295) with true by lia. rewrite (G _ _ _ _ o); auto.
Qed.

(** *** The promises can be kept *)
Lemma toy_deflater : deflater toy_deflate (fun z => z = true).
Proof.
  intros z inp room finish z' used o code Hr E C. unfold toy_deflate in E. destruct (finish && negb z && (Nat.min (length inp) room <? room)%nat) eqn:B; injection E as <- <- <- <-.
  - assert (Nat.min (length inp) room = length inp) by lia. rewrite H. rewrite firstn_all, app_length. cbn [length]. repeat split; auto; lia.
  - rewrite firstn_length. split; [lia|]. split; [lia|]. intros L. split; [lia|]. intros ->. destruct z; auto. exfalso. cbn [andb negb] in B. lia.
Qed.
Lemma upto_zero_spec : forall d n tail, Forall (fun c => c <> 0) d -> upto_zero n (d ++ 0 :: tail) = (Nat.min n (length d), (length d <=? n)%nat).
Proof.
  induction d as [|c d IH]; intros n tail F. { destruct n; reflexivity. }
  inversion F; subst. destruct n; cbn [app upto_zero length Nat.min]; replace (c =? 0) with false by lia; auto. rewrite IH; auto.
Qed.
Lemma upto_prefix : forall inp n, Forall (fun c => c <> 0) inp -> upto_zero n inp = (Nat.min n (length inp), false).
Proof. induction inp as [|c d IH]; intros n F; [destruct n; auto|]. inversion F; subst. destruct n; cbn [upto_zero length Nat.min]; replace (c =? 0) with false by lia; auto. rewrite IH; auto. Qed.
Lemma toy_reach : forall d junk z k o, Forall (fun c => c <> 0) d -> reach toy_inflate false ((d ++ [0]) ++ junk) z k o ->
  (z = false /\ o = firstn k d /\ (k <= length d)%nat) \/ (z = true /\ o = d /\ k = length (d ++ [0])).
Proof.
  intros d junk z k o F H. induction H as [|z k o inp rest room z' used x code H IH E N R Hs C]. { left. repeat split; auto; lia. }
  destruct IH as [(-> & -> & L)|(-> & -> & ->)].
  2: { cbn in Hs. injection Hs as <- <- <- <-. right. rewrite app_nil_r, Nat.add_0_r. auto. }
  rewrite <- app_assoc in E. cbn [app] in E. rewrite skipn_app in E. replace (k - length d)%nat with 0%nat in E by lia. cbn [skipn] in E.
  assert (Fk : Forall (fun c => c <> 0) (skipn k d)) by (rewrite <- (firstn_skipn k d) in F; apply Forall_app in F; tauto).
  assert (Lk : length (skipn k d) = (length d - k)%nat) by (apply skipn_length).
  unfold toy_inflate in Hs. destruct (Nat.le_gt_cases (length inp) (length (skipn k d))) as [Le|Gt].
  - assert (Ei : inp = firstn (length inp) (skipn k d)). { apply (f_equal (firstn (length inp))) in E. rewrite !firstn_app in E. replace (length inp - length (skipn k d))%nat with 0%nat in E by lia. rewrite Nat.sub_diag, firstn_all in E. cbn [firstn] in E. rewrite !app_nil_r in E. auto. }
    rewrite upto_prefix in Hs. 2: { rewrite Ei. rewrite <- (firstn_skipn (length inp) (skipn k d)) in Fk. apply Forall_app in Fk. tauto. }
    injection Hs as <- <- <- <-. left. split; auto. split; [|lia]. rewrite firstn_add. f_equal. transitivity (firstn (Nat.min room (length inp)) (firstn (length inp) (skipn k d))); [rewrite <- Ei; auto|]. rewrite firstn_firstn. f_equal. lia.
  - assert (Ei : inp = skipn k d ++ 0 :: firstn (length inp - length (skipn k d) - 1) junk).
    { apply (f_equal (firstn (length inp))) in E. rewrite !firstn_app in E. rewrite (firstn_all2 (skipn k d)) in E by lia. rewrite Nat.sub_diag, firstn_all in E. cbn [firstn] in E. rewrite app_nil_r in E.
      etransitivity; [symmetry; exact E|]. f_equal. destruct (length inp - length (skipn k d))%nat as [|q] eqn:Eq; [lia|]. cbn [firstn]. f_equal. f_equal. lia. }
    rewrite Ei in Hs. rewrite upto_zero_spec in Hs by auto. destruct (length (skipn k d) <=? room)%nat eqn:Er; injection Hs as <- <- <- <-.
    + right. split; auto. replace (Nat.min room (length (skipn k d))) with (length (skipn k d)) by lia. rewrite firstn_app, firstn_all, Nat.sub_diag. cbn [firstn]. rewrite app_nil_r, firstn_skipn. split; auto. rewrite app_length. cbn [length]. lia.
    + left. split; auto. replace (Nat.min room (length (skipn k d))) with room by lia. split; [|lia]. rewrite firstn_app. replace (room - length (skipn k d))%nat with 0%nat by lia. cbn [firstn]. rewrite app_nil_r.
      rewrite firstn_add. auto.
Qed.
Theorem toy_inflates : forall d junk, Forall (fun c => c <> 0) d -> inflates toy_inflate false (d ++ [0]) junk d.
Proof.
  intros d junk F. split.
  - intros z k o inp rest room z' used x code H L E N R Hs. pose proof (toy_reach d junk z k o F H) as [(-> & -> & Lk)|(-> & -> & ->)]; [|lia].
    assert (C : 0 <= code). { unfold toy_inflate in Hs. destruct (upto_zero room inp) as [q b]. destruct b; injection Hs as <- <- <- <-; lia. }
    assert (H2 := re_step _ _ _ _ _ _ _ _ _ _ _ _ _ H E N R Hs C). apply (toy_reach d junk) in H2; auto.
    assert (Bd : (used <= length inp)%nat /\ (length x <= room)%nat /\ (0 < used)%nat).
    { unfold toy_inflate in Hs. assert (Q : forall l n, (fst (upto_zero n l) <= n)%nat /\ (if snd (upto_zero n l) then fst (upto_zero n l) < length l else fst (upto_zero n l) <= length l)%nat /\ (l <> [] -> (0 < n)%nat -> (0 < fst (upto_zero n l))%nat \/ snd (upto_zero n l) = true)).
      { induction l as [|a l IH]; intros n; [destruct n; cbn; repeat split; auto; try lia; tauto|]. destruct n; cbn [upto_zero fst snd length]; [destruct (a =? 0); repeat split; cbn; auto; lia|].
        destruct (a =? 0) eqn:Ea; [cbn; repeat split; auto; lia|]. destruct (IH n) as (Q1 & Q2 & _). destruct (upto_zero n l) as [q b]. cbn [fst snd] in *. destruct b; repeat split; lia. }
      destruct (Q inp room) as (Q1 & Q2 & Q3). destruct (upto_zero room inp) as [q b]. cbn [fst snd] in *. specialize (Q3 N R). destruct b; injection Hs as <- <- <- <-; rewrite firstn_length; [lia|destruct Q3; [lia|discriminate]]. }
    split; auto. split; [tauto|]. rewrite app_length in *. cbn [length] in *. destruct H2 as [(_ & Ho & Lu)|(_ & Ho & Ku)].
    + split; [lia|]. split; [tauto|]. split; [lia|]. exists (skipn (k + used) d). rewrite Ho, firstn_skipn. auto.
    + split; [lia|]. split; [tauto|]. split; [lia|]. exists []. rewrite Ho, app_nil_r. auto.
  - intros z o H. apply toy_reach in H; auto. destruct H as [(_ & _ & L)|(_ & -> & _)]; auto. rewrite app_length in L. cbn in L. lia.
  - intros z o inp rest room H E N R. apply toy_reach in H; auto. destruct H as [(_ & _ & L)|(-> & _ & _)]; auto. rewrite app_length in L. cbn in L. lia.
Qed.
Example zlib_ex : exists z1 s1 z2,
  zwrites array_dev toy_deflate 2 9 false ([], StOk) [[1; 2; 3]; []; [4; 5]] = Ret (z1, s1) /\
  zfinish array_dev toy_deflate 2 9 z1 s1 = Ret (z2, ([1; 2; 3; 4; 5; 0], StOk)) /\
  exists z3 s3 b st, zread array_dev toy_inflate 2 20 false ([1; 2; 3; 4; 5; 0], StOk) [] 9 = Ret (z3, s3, b, st, [1; 2; 3; 4; 5]).
Proof. do 3 eexists. split; [vm_compute; reflexivity|]. split; [vm_compute; reflexivity|]. do 4 eexists. vm_compute. reflexivity. Qed.

(** ** C124: stream_hasher passes everything through and hashes exactly what went through *)
Section Direct.
Context {S : Type} (D : dev S).
Fixpoint direct_calls (s : S) (l : list call) : S * list (list Z) :=
  match l with
  | [] => (s, [])
  | CRead n :: r => let '(s', b) := d_read D s n in let '(s2, t) := direct_calls s' r in (s2, b :: t)
  | CWrite b :: r => let '(s', k) := d_write D s b in let '(s2, t) := direct_calls s' r in (s2, firstn k b :: t)
  end.
End Direct.
Theorem hasher_spec : forall S H (D : dev S) (hash : H -> list Z -> H) l s h,
  hasher_calls D hash (s, h) l = (fst (direct_calls D s l), fold_left hash (snd (direct_calls D s l)) h, snd (direct_calls D s l)).
Proof.
  intros S H D hash. induction l as [|c l IH]; intros s h; auto. destruct c as [n|b]; cbn [hasher_calls direct_calls]; unfold hasher_read, hasher_write, conv_read, conv_write; cbn [fst snd].
  - destruct (d_read D s n) as [s' b]. rewrite IH. destruct (direct_calls D s' l). auto.
  - destruct (d_write D s b) as [s' k]. rewrite IH. destruct (direct_calls D s' l). auto.
Qed.
(** one call gives the caller what the stream gives, and its state *)
Theorem hasher_transparent : forall S H (D : dev S) (hash : H -> list Z -> H) s h n b,
  (let '(s', _, st, x) := hasher_read D hash (s, h) n in (s', st, x)) = (fst (d_read D s n), d_state D (fst (d_read D s n)), snd (d_read D s n)) /\
  (let '(s', _, st, k) := hasher_write D hash (s, h) b in (s', st, k)) = (fst (d_write D s b), d_state D (fst (d_write D s b)), snd (d_write D s b)).
Proof. intros. unfold hasher_read, hasher_write, conv_read, conv_write. cbn [fst snd]. destruct (d_read D s n), (d_write D s b). auto. Qed.
(** with the hashes of stdex: the digest of all bytes that went through, however they were divided into calls *)
Theorem hasher_digest : forall S (D : dev S) l s c t, hasher_calls D HashModel.crc32_hash (s, HashModel.crc32_clear) l = (c, t) ->
  HashProps.bytes (concat t) -> HashModel.crc32_finalize (snd c) = HashSpec.crc32_spec (concat t).
Proof. intros S D l s c t E F. rewrite hasher_spec in E. injection E as <- <-. cbn [snd]. apply HashProps.crc32_correct. auto. Qed.
Theorem hasher_digest_md5 : forall S (D : dev S) q0 l s c t, length q0 = 64%nat -> hasher_calls D (HashModel.block_hash HashModel.md5_block) (s, HashModel.md5_clear q0) l = (c, t) ->
  HashProps.small_chunks t -> HashProps.bytes (concat t) -> HashModel.md5_finalize (snd c) = HashSpec.md5_spec (concat t).
Proof. intros S D q0 l s c t Q E Sm F. rewrite hasher_spec in E. injection E as <- <-. cbn [snd]. apply (HashProps.md5_correct q0); auto. Qed.
Theorem hasher_digest_sha1 : forall S (D : dev S) q0 l s c t, length q0 = 64%nat -> hasher_calls D (HashModel.block_hash HashModel.sha1_block) (s, HashModel.sha1_clear q0) l = (c, t) ->
  HashProps.small_chunks t -> HashProps.bytes (concat t) -> HashModel.sha1_finalize (snd c) = Some (HashSpec.sha1_spec (concat t)).
Proof. intros S D q0 l s c t Q E Sm F. rewrite hasher_spec in E. injection E as <- <-. cbn [snd]. apply (HashProps.sha1_correct q0); auto. Qed.
Example hasher_ex : exists c t, hasher_calls array_dev HashModel.crc32_hash (([49; 50; 51; 52], StOk), HashModel.crc32_clear) [CRead 2; CWrite [53]; CRead 9] = (c, t) /\
  t = [[49; 50]; [53]; [51; 52; 53]] /\ HashModel.crc32_finalize (snd c) = HashSpec.crc32_spec [49; 50; 53; 51; 52; 53].
Proof. do 2 eexists. split; [reflexivity|]. split; vm_compute; reflexivity. Qed.

Print Assumptions zlib_writer_stream. Print Assumptions zlib_write_spec. Print Assumptions zlib_read_spec. Print Assumptions zlib_round_trip.
Print Assumptions zlib_reader_trailing_refuted. Print Assumptions hasher_spec. Print Assumptions hasher_digest_sha1.
