(** Lemmas about the string model. *)
From Verif Require Import Base StringModel StringSpec.
From Coq Require Import ZifyBool ZifyNat.

Lemma zstr_le : forall n s, (length (zstr n s) <= n)%nat /\ (length (zstr n s) <= length s)%nat.
Proof. induction n; destruct s; cbn; try lia. destruct (z =? 0); cbn; [lia|]. specialize (IHn s). lia. Qed.
Lemma zstr_nonzero : forall n s c, In c (zstr n s) -> c <> 0.
Proof.
  induction n; destruct s; cbn; try tauto. intros c. destruct (z =? 0) eqn:E; cbn; [tauto|].
  intros [H|H]; [lia|eauto].
Qed.
Lemma zstr_all : forall n s, (length s <= n)%nat -> zstr n s = cz s.
Proof.
  unfold cz. induction n; destruct s; cbn; intros; try lia; auto. destruct (z =? 0); auto. f_equal. apply IHn. lia.
Qed.
Lemma cz_cons : forall c r, cz (c :: r) = if c =? 0 then [] else c :: cz r.
Proof. reflexivity. Qed.
Lemma zstr_prefix : forall n s, exists rest, s = zstr n s ++ rest /\
  (length (zstr n s) = n \/ rest = [] \/ exists r, rest = 0 :: r).
Proof.
  induction n; destruct s as [|c r]; cbn.
  - exists []. auto.
  - exists (c :: r). auto.
  - exists []. auto.
  - destruct (c =? 0) eqn:E.
    + exists (c :: r). split; auto. right. right. exists r. f_equal. lia.
    + destruct (IHn r) as (rest & H & H2). exists rest. cbn. split; [f_equal; auto|]. destruct H2 as [H2|[H2|H2]]; auto.
Qed.

Lemma readable_cons : forall n c r, readable (S n) (c :: r) -> c <> 0 -> readable n r.
Proof. intros n c r [H|H] Hc; [left; cbn in H; lia|]. destruct H; [congruence|right; auto]. Qed.
Lemma readable_nil : forall n, readable n [] -> n = O.
Proof. intros n [H|H]; cbn in *; [lia|tauto]. Qed.

Lemma strlen_cz : forall s, In 0 s -> strlen s = Ret (length (cz s)).
Proof.
  induction s as [|c r IH]; cbn [strlen]; intros H; [destruct H|]. rewrite cz_cons.
  destruct (c =? 0) eqn:E; auto. destruct H; [lia|]. rewrite IH by auto. reflexivity.
Qed.
Lemma strnlen_zstr : forall n s, readable n s -> strnlen s n = Ret (length (zstr n s)).
Proof.
  induction n; intros s H; [destruct s; reflexivity|]. destruct s as [|c r]; [apply readable_nil in H; lia|].
  cbn. destruct (c =? 0) eqn:E; auto. rewrite IHn by (eapply readable_cons; eauto; lia). reflexivity.
Qed.

(* ---- comparison ---- *)
Lemma lex_refl : forall a, lexcmp a a = 0.
Proof. induction a; cbn; auto. destruct (a <? a) eqn:E; [lia|auto]. Qed.
Lemma lex_anti : forall a b, lexcmp b a = - lexcmp a b.
Proof.
  induction a as [|x a IH]; destruct b as [|y b]; cbn; auto. specialize (IH b).
  destruct (x <? y) eqn:E1, (y <? x) eqn:E2; auto; lia.
Qed.
Lemma lex_range : forall a b, lexcmp a b = -1 \/ lexcmp a b = 0 \/ lexcmp a b = 1.
Proof. induction a as [|x a IH]; destruct b as [|y b]; cbn; auto. dif; auto. Qed.
Lemma lex_eq : forall a b, lexcmp a b = 0 <-> a = b.
Proof.
  induction a as [|x a IH]; destruct b as [|y b]; cbn; split; intros H; try discriminate; auto.
  - revert H. dif; intros; try lia. apply IH in H. f_equal; auto; lia.
  - injection H as -> ->. destruct (y <? y) eqn:E; [lia|]. apply IH. auto.
Qed.
Lemma lex_trans : forall a b c, lexcmp a b <= 0 -> lexcmp b c <= 0 -> lexcmp a c <= 0.
Proof.
  induction a as [|x a IH]; destruct b as [|y b]; destruct c as [|z c]; cbn; try lia.
  destruct (x <? y) eqn:E1, (y <? z) eqn:E2, (x <? z) eqn:E3, (y <? x) eqn:E4, (z <? y) eqn:E5, (z <? x) eqn:E6; try lia; try apply IH.
Qed.

Lemma strcmp_lex : forall s1 s2, In 0 s1 -> In 0 s2 ->
  strcmp s1 s2 = Ret (lexcmp (cz s1 ++ [0]) (cz s2 ++ [0])).
Proof.
  induction s1 as [|a r1 IH]; intros s2 H1 H2; [destruct H1|]. destruct s2 as [|b r2]; [destruct H2|].
  cbn [strcmp]. rewrite !cz_cons. assert (HL : (Z.lor a b =? 0) = (a =? 0) && (b =? 0)).
  { pose proof (Z.lor_eq_0_iff a b). lia. } rewrite HL.
  destruct (a =? 0) eqn:Ea, (b =? 0) eqn:Eb; cbn [andb negb app lexcmp].
  - replace a with 0 by lia. replace b with 0 by lia. reflexivity.
  - replace a with 0 by lia. destruct (0 >? b) eqn:E1, (0 <? b) eqn:E2, (b <? 0) eqn:E3; auto; lia.
  - replace b with 0 by lia. destruct (a >? 0) eqn:E1, (0 <? a) eqn:E2, (a <? 0) eqn:E3; auto; lia.
  - destruct H1; [lia|]. destruct H2; [lia|].
    destruct (a >? b) eqn:E1, (a <? b) eqn:E2, (b <? a) eqn:E3; auto; try lia.
Qed.
Lemma lex_term : forall a b, Forall (fun c => 0 < c) a -> Forall (fun c => 0 < c) b ->
  lexcmp (a ++ [0]) (b ++ [0]) = lexcmp a b.
Proof.
  induction a as [|x a IH]; intros [|y b] Ha Hb; cbn; auto.
  - inversion Hb; subst. destruct (0 <? y) eqn:E; [reflexivity|lia].
  - inversion Ha; subst. destruct (x <? 0) eqn:E; [lia|]. destruct (0 <? x) eqn:E2; [reflexivity|lia].
  - inversion Ha; inversion Hb; subst. dif; auto.
Qed.
Lemma unsigned_pos : forall n s, unsigned s -> Forall (fun c => 0 < c) (zstr n s).
Proof.
  induction n; destruct s as [|c r]; cbn; intros H; auto. inversion H; subst. destruct (c =? 0) eqn:E; auto.
  constructor; [lia|auto].
Qed.
Definition zt (n : nat) (s : list Z) : list Z := firstn n (zstr n s ++ [0]).
Lemma strncmp3_lex : forall n s1 s2, readable n s1 -> readable n s2 ->
  strncmp3 s1 s2 n = Ret (lexcmp (zt n s1) (zt n s2)).
Proof.
  unfold zt. induction n; intros s1 s2 H1 H2; [reflexivity|].
  destruct s1 as [|a r1]; [apply readable_nil in H1; lia|]. destruct s2 as [|b r2]; [apply readable_nil in H2; lia|].
  cbn [strncmp3 zstr]. assert (HL : (Z.lor a b =? 0) = (a =? 0) && (b =? 0)).
  { pose proof (Z.lor_eq_0_iff a b). lia. } rewrite HL.
  destruct (a =? 0) eqn:Ea, (b =? 0) eqn:Eb; cbn [andb negb app firstn lexcmp].
  - replace a with 0 by lia. replace b with 0 by lia. rewrite lex_refl. reflexivity.
  - replace a with 0 by lia. destruct (0 >? b) eqn:E1, (0 <? b) eqn:E2, (b <? 0) eqn:E3; auto; lia.
  - replace b with 0 by lia. destruct (a >? 0) eqn:E1, (0 <? a) eqn:E2, (a <? 0) eqn:E3; auto; lia.
  - rewrite IHn by (eapply readable_cons; eauto; lia).
    destruct (a >? b) eqn:E1, (a <? b) eqn:E2, (b <? a) eqn:E3; auto; try lia.
Qed.
Lemma zt_lex : forall n s1 s2, unsigned s1 -> unsigned s2 -> lexcmp (zt n s1) (zt n s2) = lexcmp (zstr n s1) (zstr n s2).
Proof.
  unfold zt. induction n; intros s1 s2 H1 H2; [reflexivity|].
  destruct s1 as [|a r1]; destruct s2 as [|b r2]; cbn; auto.
  - rewrite firstn_nil. reflexivity.
  - inversion H2; subst. destruct (b =? 0) eqn:E; cbn; auto; dif; auto; try lia. rewrite firstn_nil. apply lex_refl.
  - inversion H1; subst. destruct (a =? 0) eqn:E; cbn; auto; dif; auto; try lia. rewrite firstn_nil. apply lex_refl.
  - inversion H1; inversion H2; subst.
    destruct (a =? 0) eqn:Ea, (b =? 0) eqn:Eb; cbn; auto; dif; auto; try lia; rewrite ?firstn_nil; auto.
Qed.

Lemma strnicmp4_lex : forall f n1 s1 n2 s2, (forall c, f c = 0 <-> c = 0) ->
  readable n1 s1 -> readable n2 s2 -> unsigned (map f s1) -> unsigned (map f s2) ->
  strnicmp4 f s1 n1 s2 n2 = Ret (lexcmp (map f (zstr n1 s1)) (map f (zstr n2 s2))).
Proof.
  intros f n1. induction n1; intros s1 n2 s2 Hf H1 H2 U1 U2.
  - cbn [zstr map]. destruct n2; cbn [strnicmp4]; [reflexivity|]. destruct s2 as [|b r2]; [apply readable_nil in H2; lia|].
    unfold rd. cbn. destruct (b =? 0); reflexivity.
  - destruct s1 as [|a r1]; [apply readable_nil in H1; lia|]. destruct n2; cbn [strnicmp4].
    + unfold rd. cbn. destruct (a =? 0); reflexivity.
    + destruct s2 as [|b r2]; [apply readable_nil in H2; lia|]. cbn [zstr].
      pose proof (Hf a). pose proof (Hf b). inversion U1; inversion U2; subst.
      destruct (a =? 0) eqn:Ea, (b =? 0) eqn:Eb.
      * replace (f a =? 0) with true by lia. replace (f b =? 0) with true by lia. reflexivity.
      * replace (f a) with 0 by lia. cbn. destruct (f b =? 0) eqn:E; [lia|]. cbn. destruct (0 >? f b) eqn:E1; [lia|]. destruct (0 <? f b) eqn:E2; [reflexivity|lia].
      * replace (f b) with 0 by lia. cbn. destruct (f a =? 0) eqn:E; [lia|]. cbn. destruct (f a >? 0) eqn:E1; [reflexivity|lia].
      * replace (f a =? 0) with false by lia. cbn [andb]. cbn [map lexcmp].
        rewrite IHn1 by (auto; eapply readable_cons; eauto; lia).
        destruct (f a >? f b) eqn:E1, (f a <? f b) eqn:E2, (f b <? f a) eqn:E3; auto; lia.
Qed.
Lemma stricmp_lex : forall f s1 s2, (forall c, f c = 0 <-> c = 0) -> In 0 s1 -> In 0 s2 ->
  unsigned (map f s1) -> unsigned (map f s2) ->
  stricmp f s1 s2 = Ret (lexcmp (map f (cz s1)) (map f (cz s2))).
Proof.
  intros f. induction s1 as [|a r1 IH]; intros s2 Hf H1 H2 U1 U2; [destruct H1|]. destruct s2 as [|b r2]; [destruct H2|].
  cbn [stricmp]. rewrite !cz_cons. pose proof (Hf a). pose proof (Hf b). inversion U1; inversion U2; subst.
  destruct (a =? 0) eqn:Ea, (b =? 0) eqn:Eb.
  - replace (f a =? 0) with true by lia. replace (f b =? 0) with true by lia. reflexivity.
  - replace (f a) with 0 by lia. cbn. destruct (f b =? 0) eqn:E; [lia|]. cbn. destruct (0 >? f b) eqn:E1; [lia|]. destruct (0 <? f b) eqn:E2; [reflexivity|lia].
  - replace (f b) with 0 by lia. cbn. destruct (f a =? 0) eqn:E; [lia|]. cbn. destruct (f a >? 0) eqn:E1; [reflexivity|lia].
  - replace (f a =? 0) with false by lia. cbn [andb]. cbn [map lexcmp].
    destruct H1; [lia|]. destruct H2; [lia|]. rewrite IH by auto.
    destruct (f a >? f b) eqn:E1, (f a <? f b) eqn:E2, (f b <? f a) eqn:E3; auto; lia.
Qed.
Lemma strnicmp3_4 : forall f n s1 s2, readable n s1 -> readable n s2 -> (forall c, f c = 0 <-> c = 0) ->
  strnicmp3 f s1 s2 n = strnicmp4 f s1 n s2 n.
Proof.
  intros f n. induction n; intros s1 s2 H1 H2 Hf; [reflexivity|].
  destruct s1 as [|a r1]; [reflexivity|]. destruct s2 as [|b r2]; [reflexivity|]. cbn.
  pose proof (Hf a). pose proof (Hf b). destruct (f a >? f b) eqn:E1, (f a <? f b) eqn:E2, (f a =? 0) eqn:E3, (f b =? 0) eqn:E4; cbn; auto; try lia.
  apply IHn; auto; eapply readable_cons; eauto; lia.
Qed.

Lemma rd_nth : forall s i c, nth_error s i = Some c -> rd s i = Ret c.
Proof. intros. unfold rd. rewrite H. auto. Qed.
Lemma strr_loop_lex : forall a b ra rb, strr_loop (a ++ ra) (b ++ rb) (length a) (length b) = Ret (lexcmp (rev a) (rev b)).
Proof.
  intros a. induction a as [|x a IH] using rev_ind; intros b ra rb.
  - cbn [length strr_loop rev lexcmp app]. destruct b using rev_ind; [reflexivity|]. rewrite rev_app_distr, app_length. cbn.
    replace (length b + 1)%nat with (S (length b)) by lia. reflexivity.
  - rewrite rev_app_distr, app_length. cbn [length rev app]. replace (length a + 1)%nat with (S (length a)) by lia.
    destruct b as [|y b _] using rev_ind; [reflexivity|]. rewrite rev_app_distr, app_length. cbn [length rev app].
    replace (length b + 1)%nat with (S (length b)) by lia. cbn [strr_loop lexcmp].
    rewrite <- !app_assoc. rewrite (rd_nth _ (length a) x) by (rewrite nth_error_app2 by lia; rewrite Nat.sub_diag; auto).
    rewrite (rd_nth _ (length b) y) by (rewrite nth_error_app2 by lia; rewrite Nat.sub_diag; auto). cbn [obind].
    rewrite IH. destruct (x >? y) eqn:E1, (x <? y) eqn:E2, (y <? x) eqn:E3; auto; lia.
Qed.

Lemma surr_dec : forall a r, is_surrogate_pair (a :: r) =
  if is_high_surrogate a then match r with b :: _ => Ret (is_low_surrogate b) | [] => UB end else Ret false.
Proof. intros. unfold is_surrogate_pair, rd. cbn. destruct (is_high_surrogate a), r; auto. Qed.
Lemma surr_value : forall a b, is_high_surrogate a = true -> is_low_surrogate b = true ->
  surrogate_pair_to_ucs4 a b = 65536 + (a - 55296) * 1024 + (b - 56320).
Proof. intros. unfold surrogate_pair_to_ucs4. rewrite Z.shiftl_mul_pow2 by lia. change (2 ^ 10) with 1024. lia. Qed.
Lemma surr_cond : forall a b, is_high_surrogate a && is_low_surrogate b =
  (55296 <=? a) && (a <=? 56319) && (56320 <=? b) && (b <=? 57343).
Proof. intros. unfold is_high_surrogate, is_low_surrogate. destruct (55296 <=? a) eqn:?, (a <? 56320) eqn:?, (56320 <=? b) eqn:?, (b <? 57344) eqn:?; lia. Qed.

Lemma readable_skip2 : forall n a b r, readable (S (S n)) (a :: b :: r) -> a <> 0 -> b <> 0 -> readable n r.
Proof. intros. eapply readable_cons; eauto. eapply readable_cons; eauto. Qed.

Lemma tail_cmp_lex0 : forall s1 n1 s2 n2, readable n1 s1 -> readable n2 s2 -> zstr n1 s1 = [] \/ zstr n2 s2 = [] ->
  tail_cmp s1 n1 s2 n2 = Ret (lexcmp (zstr n1 s1) (decode16 (zstr n2 s2))).
Proof.
  intros s1 n1 s2 n2 H1 H2 H. unfold tail_cmp, rd.
  assert (D : forall c r, exists d e, decode16 (c :: r) = d :: e).
  { intros. cbn. destruct r; eauto. dif; eauto. }
  destruct n1 as [|k1]; [|destruct s1 as [|a r1]; [apply readable_nil in H1; lia|]]; cbn [nth_error obind zstr]; ceq; cbn [negb].
  - destruct n2 as [|k2]; [reflexivity|]. destruct s2 as [|b r2]; [apply readable_nil in H2; lia|]. cbn [nth_error obind zstr].
    destruct (b =? 0) eqn:E; cbn [negb]; [reflexivity|]. destruct (D b (zstr k2 r2)) as (d & e & ->). reflexivity.
  - cbn [zstr] in H. destruct (a =? 0) eqn:Ea; cbn [negb].
    + destruct n2 as [|k2]; [reflexivity|]. destruct s2 as [|b r2]; [apply readable_nil in H2; lia|]. cbn [nth_error obind zstr].
      destruct (b =? 0) eqn:E; cbn [negb]; [reflexivity|]. destruct (D b (zstr k2 r2)) as (d & e & ->). reflexivity.
    + destruct H as [H|H]; [discriminate|]. rewrite H. reflexivity.
Qed.

Lemma strncmp_32_16_lex : forall n1 s1 n2 s2, readable n1 s1 -> readable n2 s2 ->
  strncmp_32_16 s1 n1 s2 n2 = Ret (lexcmp (zstr n1 s1) (decode16 (zstr n2 s2))).
Proof.
  induction n1; intros s1 n2 s2 H1 H2.
  - cbn [strncmp_32_16]. destruct n2; apply tail_cmp_lex0; auto; left; destruct s1; reflexivity.
  - destruct n2 as [|k2].
    { cbn [strncmp_32_16]. apply tail_cmp_lex0; auto. }
    cbn [strncmp_32_16]. destruct s1 as [|a r1]; [apply readable_nil in H1; lia|].
    destruct (a =? 0) eqn:Ea. { apply tail_cmp_lex0; auto. left. cbn. rewrite Ea. reflexivity. }
    destruct s2 as [|b r2]; [apply readable_nil in H2; lia|].
    destruct (b =? 0) eqn:Eb.
    { assert (b = 0) by lia. subst b.
      replace (if (S k2 <=? 1)%nat then Ret false else is_surrogate_pair (0 :: r2)) with (@Ret bool false)
        by (rewrite surr_dec; change (is_high_surrogate 0) with false; destruct (S k2 <=? 1)%nat; reflexivity).
      cbn [obind]. unfold rd at 1. cbn [nth_error obind]. ceq. apply tail_cmp_lex0; auto. }
    assert (R1 : readable n1 r1) by (eapply readable_cons; eauto; lia).
    assert (R2 : readable k2 r2) by (eapply readable_cons; eauto; lia).
    assert (Step : forall v j, v <> 0 -> (forall x, decode16 (zstr (S k2) (b :: r2)) = x -> x = v :: decode16 (zstr (S k2 - j) (skipn j (b :: r2)))) ->
       readable (S k2 - j) (skipn j (b :: r2)) ->
       (if v =? 0 then tail_cmp (a :: r1) (S n1) (b :: r2) (S k2) else if a >? v then Ret 1 else if a <? v then Ret (-1)
        else strncmp_32_16 r1 n1 (skipn j (b :: r2)) (S k2 - j)) = Ret (lexcmp (zstr (S n1) (a :: r1)) (decode16 (zstr (S k2) (b :: r2))))).
    { intros v j Hv HD HR. rewrite (HD _ eq_refl). cbn [zstr]. rewrite Ea. cbn [lexcmp]. replace (v =? 0) with false by lia.
      rewrite IHn1 by auto. destruct (a >? v) eqn:E1, (a <? v) eqn:E2, (v <? a) eqn:E3; auto; lia. }
    assert (One : (forall x, decode16 (zstr (S k2) (b :: r2)) = x -> x = b :: decode16 (zstr k2 r2)) ->
       (let* bj := (let* x := rd (b :: r2) 0 in Ret (x, 1%nat)) in
        let '(b0, j) := bj in
        if b0 =? 0 then tail_cmp (a :: r1) (S n1) (b :: r2) (S k2) else if a >? b0 then Ret 1 else if a <? b0 then Ret (-1)
        else strncmp_32_16 r1 n1 (skipn j (b :: r2)) (S k2 - j)) = Ret (lexcmp (zstr (S n1) (a :: r1)) (decode16 (zstr (S k2) (b :: r2))))).
    { intros HD. unfold rd. cbn [nth_error obind]. rewrite <- (Step b 1%nat); [reflexivity|lia|cbn [Nat.sub skipn]; rewrite Nat.sub_0_r; auto|cbn [Nat.sub skipn]; rewrite Nat.sub_0_r; auto]. }
    destruct k2 as [|k2].
    { cbn [Nat.leb obind]. apply One. intros x <-. cbn [zstr]. rewrite Eb. reflexivity. }
    cbn [Nat.leb]. rewrite surr_dec. destruct (is_high_surrogate b) eqn:EH.
    2:{ cbn [obind]. apply One. intros x <-. cbn [zstr]. rewrite Eb. cbn [decode16]. destruct r2 as [|c r2]; [reflexivity|].
        destruct (c =? 0) eqn:Ec; [reflexivity|]. rewrite <- surr_cond, EH. reflexivity. }
    destruct r2 as [|c r2]; [apply readable_nil in R2; lia|]. cbn [obind].
    destruct (is_low_surrogate c) eqn:EL.
    + unfold rd. cbn [nth_error obind]. rewrite surr_value by auto.
      assert (c <> 0) by (unfold is_low_surrogate in EL; lia). assert (55296 <= b) by (unfold is_high_surrogate in EH; lia).
      assert (56320 <= c) by (unfold is_low_surrogate in EL; lia).
      apply Step; [lia| |].
      * intros x <-. cbn [zstr]. rewrite Eb. replace (c =? 0) with false by lia. cbn [decode16]. rewrite <- surr_cond, EH, EL. cbn [andb].
        cbn [Nat.sub skipn]. rewrite Nat.sub_0_r. reflexivity.
      * cbn [Nat.sub skipn]. rewrite Nat.sub_0_r. eapply readable_cons; eauto.
    + apply One. intros x <-. cbn [zstr]. rewrite Eb. cbn [decode16]. destruct (c =? 0) eqn:Ec; [reflexivity|]. rewrite <- surr_cond, EH, EL. reflexivity.
Qed.
