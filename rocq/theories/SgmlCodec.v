(** Encoding and decoding, item by item. *)
From Coq Require Import ZifyBool ZifyNat.
From Verif Require Import Base Bits StringModel StringSpec StringProofs StringSearch StringTrim StringProps SgmlTable SgmlModel SgmlSpec SgmlSearch SgmlDecode.
Ltac Zify.zify_post_hook ::= Z.div_mod_to_equations.

Definition units (w : width) (s : list Z) : list Z := match w with U16 => utf16 s | U32 => s end.
Definition ok_unit (w : width) (c : Z) : Prop :=
  match w with U16 => 0 < c < 65536 | U32 => c <> 0 /\ -2147483648 <= c < 2147483648 end.
Definition decode (w : width) (s : list Z) : list Z := match w with U16 => decode16 s | U32 => s end.

Lemma to16_utf16 : forall s, Forall (fun c => 0 <= c < 1114112) s -> to16 s = utf16 s.
Proof.
  induction s; intros H; auto. inversion H as [|x l Ha Hs E1]; subst. unfold utf16 in *. cbn [to16 flat_map]. unfold utf16_of. destruct (a <? 65536) eqn:E.
  - rewrite u16_small by lia. rewrite IHs by auto. reflexivity.
  - unfold ucs4_to_surrogate_pair. change 1023 with (2 ^ 10 - 1). rewrite !land_ones_mod by lia. rewrite Z.shiftr_div_pow2 by lia. change (2 ^ 10) with 1024.
    set (q := a - 65536) in *. assert (0 <= q < 1048576) by lia. clearbody q.
    assert (H1 : 0 <= q / 1024 < 1024) by (split; [apply Z.div_pos|apply Z.div_lt_upper_bound]; lia).
    pose proof (Z.mod_pos_bound q 1024 ltac:(lia)).
    rewrite (Z.mod_small (q / 1024)) by lia. rewrite (u16_small (q / 1024)) by lia. rewrite (u16_small (q mod 1024)) by lia.
    rewrite !u16_small by lia. rewrite IHs by auto. reflexivity.
Qed.
Lemma units_decode16 : forall n s, (length s <= n)%nat -> Forall (fun c => 0 <= c < 65536) s -> utf16 (decode16 s) = s.
Proof.
  unfold utf16. induction n; intros s L H; destruct s as [|a [|b r]]; auto; cbn [length] in *; try lia.
  - inversion H; subst. cbn [decode16 flat_map]. unfold utf16_of. replace (a <? 65536) with true by lia. reflexivity.
  - inversion H as [|x l Ha Hs E1]; subst. inversion Hs as [|x l Hb Hs' E1]; subst.
    change (decode16 (a :: b :: r)) with (if (55296 <=? a) && (a <=? 56319) && (56320 <=? b) && (b <=? 57343)
      then 65536 + (a - 55296) * 1024 + (b - 56320) :: decode16 r else a :: decode16 (b :: r)).
    destruct (_ && _) eqn:E; cbn [flat_map]; unfold utf16_of at 1.
    + replace (_ <? 65536) with false by lia. rewrite IHn by (auto; lia). cbn [app].
      replace (65536 + (a - 55296) * 1024 + (b - 56320) - 65536) with ((b - 56320) + (a - 55296) * 1024) by lia.
      rewrite Z.div_add, Z.mod_add by lia. rewrite (Z.div_small (b - 56320)), (Z.mod_small (b - 56320)) by lia. f_equal; [lia|f_equal; lia].
    + replace (a <? 65536) with true by lia. rewrite IHn by (auto; cbn [length]; lia). reflexivity.
Qed.
Lemma units_decode : forall w s, Forall (ok_unit w) s -> units w (decode w s) = s.
Proof. intros [] s H; cbn; auto. apply (units_decode16 (length s)); auto. eapply Forall_impl; [|exact H]. cbn. lia. Qed.
Lemma utf16_table : forall u, uni_ok u = true -> utf16 u = u.
Proof.
  intros u H. apply uni_ok_spec in H as [_ H]. induction u; auto. inversion H; subst. unfold utf16 in *. cbn [flat_map]. unfold utf16_of at 1.
  replace (a <? 65536) with true by lia. rewrite IHu by auto. reflexivity.
Qed.
Lemma units_table : forall w u, uni_ok u = true -> units w u = u.
Proof. intros []; cbn; auto using utf16_table. Qed.
Lemma wstr_table : forall w u, uni_ok u = true -> utf32_to_wstr w u = Ret u.
Proof.
  intros [] u H; cbn; auto. pose proof (uni_ok_spec u H) as [L F]. rewrite to16_utf16 by (eapply Forall_impl; [|exact F]; cbn; lia). rewrite utf16_table by auto.
  replace (length u <=? 4)%nat with true by lia. reflexivity.
Qed.

(** ** chr2sgml *)
Lemma strncmp4_firstn : forall n1 s1 n2 s2, strncmp4 s1 n1 s2 n2 = strncmp4 s1 n1 (firstn n2 s2) n2.
Proof.
  unfold strncmp4. induction n1; intros s1 n2 s2; destruct n2; cbn [strnicmp4 firstn]; auto.
  - destruct s2; auto.
  - destruct s1; auto. destruct s2; auto. rewrite <- IHn1. reflexivity.
Qed.
Lemma zstr_firstn : forall n s, Forall (fun c => c <> 0) (firstn n s) -> zstr n s = firstn n s.
Proof.
  induction n; intros [|c r] H; auto. cbn [firstn zstr] in *. inversion H; subst. replace (c =? 0) with false by lia. rewrite IHn; auto.
Qed.
Lemma ok_nz : forall w s, Forall (ok_unit w) s -> Forall (fun c => c <> 0) s.
Proof. intros [] s H; eapply Forall_impl; try exact H; cbn; lia. Qed.

Lemma first_cp_spec : forall w s g, (0 < g)%nat -> (g <= length s)%nat ->
  exists e2 off, first_cp w s g = Ret (e2, off) /\ (1 <= off <= g)%nat /\
    decode w (firstn g s) = e2 :: decode w (firstn (g - off) (skipn off s)).
Proof.
  intros w s g Hg Hl. destruct s as [|a s]; [cbn in Hl; lia|]. destruct g as [|g]; [lia|].
  destruct w; cbn [first_cp].
  2: { exists a, 1%nat. cbn [skipn firstn decode]. rewrite Nat.sub_1_r. cbn [Nat.pred]. repeat split; auto; lia. }
  unfold rd at 1 2. destruct (S g <? 2)%nat eqn:E.
  - cbn [obind nth_error]. exists a, 1%nat. repeat split; auto; try lia. replace g with O by lia. reflexivity.
  - destruct g as [|g]; [lia|]. destruct s as [|b s]; [cbn in Hl; lia|]. rewrite surr_dec.
    assert (D : decode U16 (firstn (S (S g)) (a :: b :: s)) = if is_high_surrogate a && is_low_surrogate b
        then 65536 + (a - 55296) * 1024 + (b - 56320) :: decode16 (firstn g s) else a :: decode16 (firstn (S g) (b :: s))).
    { rewrite surr_cond. reflexivity. }
    destruct (is_high_surrogate a) eqn:EH; [destruct (is_low_surrogate b) eqn:EL|]; cbn [obind]; cbn [andb] in D.
    + unfold rd. cbn [nth_error obind]. rewrite surr_value by auto. eexists; exists 2%nat. split; [reflexivity|]. split; [lia|].
      rewrite D. cbn [skipn Nat.sub decode]. rewrite Nat.sub_0_r. reflexivity.
    + cbn [nth_error obind]. exists a, 1%nat. split; [reflexivity|]. split; [lia|]. rewrite D. cbn [skipn Nat.sub decode]. reflexivity.
    + cbn [nth_error obind]. exists a, 1%nat. split; [reflexivity|]. split; [lia|]. rewrite D. cbn [skipn Nat.sub decode]. reflexivity.
Qed.

Lemma uni_cmp_spec : forall w s g e2 off m name u, (0 < g)%nat -> (g <= length s)%nat -> Forall (ok_unit w) (firstn g s) ->
  first_cp w s g = Ret (e2, off) -> (1 <= off <= g)%nat -> decode w (firstn g s) = e2 :: decode w (firstn (g - off) (skipn off s)) ->
  uentry m = Ret (name, u) -> uni_ok u = true ->
  exists r, uni_cmp w s g e2 off m = Ret r /\ uni_same w s g e2 off m = Ret (r =? 0) /\
    (r = 0 <-> u = decode w (firstn g s)) /\ (unsigned (firstn g s) -> r = lexcmp u (decode w (firstn g s))).
Proof.
  intros w s g e2 off m name u Hg Hl HF HE Ho HD Hu Hok. pose proof (uni_ok_spec u Hok) as [Lu Fu].
  unfold uni_cmp, uni_same. rewrite Hu. cbn [obind snd]. rewrite cells_eq by lia.
  destruct u as [|c t]; [cbn in Lu; lia|]. cbn [app length] in *. unfold rd. cbn [nth_error obind].
  set (p := firstn (g - off) (skipn off s)) in *.
  assert (Pf : exists q, firstn g s = q ++ p).
  { exists (firstn off s). unfold p. replace g with (off + (g - off))%nat at 1 by lia. rewrite firstn_skipn_comm. rewrite <- (firstn_skipn off (firstn (off + (g - off)) s)) at 1. rewrite firstn_firstn. f_equal. f_equal. lia. }
  destruct Pf as (q & Pf).
  assert (Fp : Forall (ok_unit w) p) by (rewrite Pf in HF; apply Forall_app in HF; tauto).
  assert (Tail : exists r, uni_tail_cmp w (c :: t) s g off = Ret r /\ (r = 0 <-> t = decode w p) /\ (unsigned (firstn g s) -> r = lexcmp t (decode w p))).
  { unfold uni_tail_cmp. rewrite cells_eq by (cbn [length]; lia). cbn [app skipn length].
    set (arr := t ++ 0 :: repeat 0 (3 - S (length t) - 1)).
    assert (La : length arr = 2%nat) by (unfold arr; rewrite app_length; cbn [length]; rewrite repeat_length; lia).
    assert (Ft : Forall (fun c => 0 < c < 55296 \/ 57344 <= c < 65536) t) by (inversion Fu; assumption).
    assert (Za : zstr 2 arr = t) by (apply zstr_pos; [eapply Forall_impl; [|exact Ft]; cbn; lia|lia]).
    assert (Zp : zstr (g - off) (skipn off s) = p) by (apply zstr_firstn; fold p; eapply ok_nz; eauto).
    assert (Rs : readable (g - off) (skipn off s)) by (apply readable_len; rewrite skipn_length; lia).
    destruct w.
    - rewrite strncmp_utf32_utf16_spec by (auto; apply readable_len; lia). rewrite Za, Zp. eexists; split; [reflexivity|]. split; [apply lex_eq|auto].
    - destruct (strncmp4_zero 2 arr (g - off) (skipn off s)) as (r & Er & Zr); [apply readable_len; lia|auto|]. rewrite Za, Zp in Zr.
      exists r. split; auto. split; [exact Zr|]. intros U. cbn [decode].
      assert (Ret r = Ret (lexcmp t p)); [|congruence]. rewrite <- Er, strncmp4_firstn. fold p.
      assert (Lp : length p = (g - off)%nat) by (unfold p; rewrite firstn_length, skipn_length; lia).
      rewrite strncmp_spec; [rewrite Za|apply readable_len; lia|apply readable_len; lia| |].
      + f_equal. f_equal. rewrite <- Lp. rewrite zstr_firstn; rewrite firstn_all; auto. eapply ok_nz; eauto.
      + unfold unsigned, arr. apply Forall_app. split; [eapply Forall_impl; [|exact Ft]; cbn; lia|]. constructor; [lia|]. rewrite Forall_forall. intros y Hy. apply repeat_spec in Hy. lia.
      + rewrite Pf in U. unfold unsigned in *. apply Forall_app in U. tauto. }
  destruct Tail as (r & Er & Zr & Ur). rewrite Er. rewrite HD.
  destruct (c <? e2) eqn:E1; [|destruct (c >? e2) eqn:E2].
  - exists (-1). replace (c =? e2) with false by lia. repeat split; auto; try discriminate. { intros [= ? ?]; lia. } intros _. cbn [lexcmp]. rewrite E1. reflexivity.
  - exists 1. replace (c =? e2) with false by lia. repeat split; auto; try discriminate. { intros [= ? ?]; lia. } intros _. cbn [lexcmp]. rewrite E1. replace (e2 <? c) with true by lia. reflexivity.
  - assert (c = e2) by lia. subst e2. exists r. replace (c =? c) with true by lia. cbn [obind]. split; auto. split; auto. split.
    + rewrite Zr. split; [intros ->; auto|intros [= ->]; auto].
    + intros U. cbn [lexcmp]. rewrite E1. replace (c <? c) with false by lia. apply Ur. exact U.
Qed.

Lemma unsigned_dec : forall s, {unsigned s} + {~ unsigned s}.
Proof. intros s. unfold unsigned. apply Forall_dec. intros x. destruct (Z_le_dec 0 x); [left|right]; lia. Qed.

Lemma chr2sgml_spec : forall w s g, (0 < g)%nat -> (g <= length s)%nat -> Forall (ok_unit w) (firstn g s) ->
  exists r, chr2sgml w s g = Ret r /\
    (forall name, r = Some name -> exists u, In (name, u) sgml_unicode /\ units w u = firstn g s) /\
    (r = None -> forall name u, In (name, u) sgml_unicode -> units w u <> firstn g s).
Proof.
  intros w s g Hg Hl HF. destruct (first_cp_spec w s g Hg Hl) as (e2 & off & HE & Ho & HD). unfold chr2sgml. rewrite HE. cbn [obind].
  set (N := length unicode_sgml).
  set (c := fun m => match uni_cmp w s g e2 off m with Ret r => r | _ => 0 end).
  assert (HC : forall m, (m < N)%nat -> exists n u, nth_error uentries m = Some (n, u) /\ uentry m = Ret (n, u) /\ In (n, u) sgml_unicode /\
     uni_cmp w s g e2 off m = Ret (c m) /\ uni_same w s g e2 off m = Ret (c m =? 0) /\ (c m = 0 <-> u = decode w (firstn g s)) /\
     (unsigned (firstn g s) -> c m = lexcmp u (decode w (firstn g s)))).
  { intros m Hm. destruct (uentry_spec m Hm) as ([n u] & Ee & En & Ei). exists n, u. split; auto. split; auto. split; auto.
    destruct (uni_cmp_spec w s g e2 off m n u Hg Hl HF HE Ho HD Ee (proj2 (entry_in n u Ei))) as (r & A & B & C & D). unfold c. rewrite A. tauto. }
  assert (Hcmp : forall m, (m < N)%nat -> uni_cmp w s g e2 off m = Ret (c m)) by (intros m Hm; destruct (HC m Hm) as (n & u & _ & _ & _ & H & _); exact H).
  assert (Hsame : forall m, (m < N)%nat -> uni_same w s g e2 off m = Ret (c m =? 0)) by (intros m Hm; destruct (HC m Hm) as (n & u & _ & _ & _ & _ & H & _); exact H).
  assert (Fin : forall k, (k < N)%nat -> c k = 0 -> exists name u, uentry k = Ret (name, u) /\ cz (cells 12 name) = name /\ In (name, u) sgml_unicode /\ units w u = firstn g s).
  { intros k Hk H0. destruct (HC k Hk) as (n & u & _ & Ee & Ei & _ & _ & Z0 & _). exists n, u. split; auto.
    destruct (entry_in n u Ei) as [Hn _]. apply name_ok_spec in Hn as [Ln Fn]. rewrite cells_cz by (auto using nz_of_name; lia). repeat split; auto.
    apply Z0 in H0. rewrite H0. apply units_decode. auto. }
  destruct (unsigned_dec (firstn g s)) as [U|U].
  - assert (mono : forall a b, (a <= b)%nat -> (b < N)%nat -> (0 <= c a -> 0 <= c b) /\ (c b <= 0 -> c a <= 0)).
    { intros a b Hab Hb. destruct (HC a ltac:(lia)) as (na & ua & Ea & _ & _ & _ & _ & _ & La). destruct (HC b Hb) as (nb & ub & Eb & _ & _ & _ & _ & _ & Lb).
      rewrite (La U), (Lb U).
      assert (S : lexcmp ua ub <= 0). { eapply (sorted_nth (map snd uentries) a b); eauto using unis_sorted; rewrite nth_error_map; [rewrite Ea|rewrite Eb]; reflexivity. }
      split; [apply lex_lt_r; auto|apply lex_lt_l; auto]. }
    destruct (bsearch_least N _ _ c Hcmp Hsame mono (S N) 0 N) as (r & Er & Lr); try lia. fold N. rewrite Er. cbn [obind].
    destruct r as [k|].
    + destruct Lr as [[Hk Hk0] _]. destruct (Fin k Hk Hk0) as (name & u & Eu & Ez & Ei & Eq). rewrite Eu. cbn [obind fst]. rewrite Ez.
      eexists; split; [reflexivity|]. split; [|discriminate]. intros n [= <-]. eauto.
    + eexists; split; [reflexivity|]. split; [discriminate|]. intros _ name u Hi Heq.
      pose proof index_complete as IC. rewrite forallb_forall in IC. specialize (IC _ Hi). apply existsb_exists in IC as ([n' u'] & Hi' & He). cbn [snd] in He.
      destruct (list_eq_dec Z.eq_dec u u'); [|discriminate]. subst u'. apply In_nth_error in Hi' as (k & Hk).
      assert (HkN : (k < N)%nat). { unfold N. replace (length unicode_sgml) with (length uentries) by (unfold uentries; apply map_length). apply nth_error_Some. congruence. }
      apply (Lr k). split; auto. destruct (HC k HkN) as (n2 & u2 & E2 & _ & Ei2 & _ & _ & Z2 & _). apply Z2. rewrite Hk in E2. injection E2 as <- <-.
      rewrite <- Heq. rewrite units_table by (apply (entry_in n' u Ei2)).
      destruct w; cbn [decode]; auto. destruct (entry_in n' u Ei2) as [_ Hu]. apply uni_ok_spec in Hu as [_ Fu]. clear - Fu.
      induction u as [|a u IH]; auto. inversion Fu as [|x l Ha Hs E1]; subst. destruct u as [|b u]; auto.
      change (decode16 (a :: b :: u)) with (if (55296 <=? a) && (a <=? 56319) && (56320 <=? b) && (b <=? 57343)
        then 65536 + (a - 55296) * 1024 + (b - 56320) :: decode16 u else a :: decode16 (b :: u)).
      replace (_ && _) with false by lia. rewrite <- IH; auto.
  - destruct (bsearch_ret N _ _ c Hcmp Hsame (S N) 0 N) as (r & Er & Sr); try lia. fold N. rewrite Er. cbn [obind].
    destruct r as [k|].
    + destruct (Sr k eq_refl) as [Hk Hk0]. destruct (Fin k Hk Hk0) as (name & u & Eu & Ez & Ei & Eq). rewrite Eu. cbn [obind fst]. rewrite Ez.
      eexists; split; [reflexivity|]. split; [|discriminate]. intros n [= <-]. eauto.
    + eexists; split; [reflexivity|]. split; [discriminate|]. intros _ name u Hi Heq. apply U. rewrite <- Heq.
      destruct (entry_in name u Hi) as [_ Hu]. rewrite units_table by auto. apply uni_ok_spec in Hu as [_ Fu]. eapply Forall_impl; [|exact Fu]. cbn. lia.
Qed.
