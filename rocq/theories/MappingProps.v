(** Final theorems about include/stdex/mapping.hpp: properties C18, C19. *)
From Verif Require Import Base MappingModel.
From Coq Require Import ZifyBool ZifyNat.
Ltac Zify.zify_post_hook ::= Z.div_mod_to_equations.

(** Specification, for a vector sorted by key: positions are mapped by the last element whose key
    is not above them; positions before the first element are capped by its counterpart. *)
Definition sorted (key : mapping -> Z) (mp : list mapping) : Prop :=
  forall i j a b, (i < j)%nat -> nth_error mp i = Some a -> nth_error mp j = Some b -> key a < key b.
Definition values_ok (mp : list mapping) : Prop :=
  forall a, In a mp -> 0 <= mfrom a < 2 ^ 64 /\ 0 <= mto a < 2 ^ 64.
Inductive mapped (key val : mapping -> Z) (mp : list mapping) (x : Z) : Z -> Prop :=
| mapped_none : mp = [] -> mapped key val mp x x
| mapped_at : forall i a, nth_error mp i = Some a -> key a <= x ->
    (forall b, nth_error mp (S i) = Some b -> x < key b) ->
    mapped key val mp x ((val a + (x - key a)) mod 2 ^ 64)
| mapped_before : forall a r, mp = a :: r -> x < key a -> mapped key val mp x (Z.min x (val a)).

Section G.
Variables key val : mapping -> Z.
Hypothesis Hkv : forall mp, values_ok mp -> forall a, In a mp -> 0 <= key a < M64 /\ 0 <= val a < M64.

Lemma nth_ex : forall (mp : list mapping) i, (i < length mp)%nat -> exists a, nth_error mp i = Some a.
Proof. intros mp i H. destruct (nth_error mp i) eqn:E; [eauto|]. apply nth_error_None in E. lia. Qed.

(* loop invariant: everything before l has a smaller key, everything from r on a larger one *)
Definition bracket (mp : list mapping) (x : Z) (l r : nat) : Prop :=
  (forall i a, (i < l)%nat -> nth_error mp i = Some a -> key a < x) /\
  (forall i a, (r <= i)%nat -> nth_error mp i = Some a -> x < key a).

Lemma map_loop_ok : forall fuel mp x l r, (r - l < fuel)%nat -> (l <= r <= length mp)%nat -> mp <> [] ->
  sorted key mp -> values_ok mp -> 0 <= x < M64 -> bracket mp x l r ->
  exists y m, map_loop key val fuel mp x l r = Ret (y, m) /\ mapped key val mp x y /\ (m < length mp)%nat.
Proof.
  induction fuel as [|fuel IH]; intros mp x l r Hf Hl Hne Hs Hv Hx [B1 B2]; [lia|]. cbn [map_loop].
  assert (Len : (0 < length mp)%nat) by (destruct mp; [contradiction|cbn; lia]).
  destruct (Nat.ltb_spec l r) as [L|L].
  - set (m := Nat.div (l + r) 2). assert (Hm : (l <= m < r)%nat).
    { pose proof (Nat.div_mod (l+r) 2 ltac:(lia)). pose proof (Nat.mod_upper_bound (l+r) 2 ltac:(lia)). fold m in H. lia. }
    destruct (nth_ex mp m ltac:(lia)) as [el E]. rewrite E.
    destruct (Z.ltb_spec x (key el)) as [C|C].
    + apply IH; auto; try lia. split; auto. intros i a Hi Ha. destruct (Nat.eq_dec i m) as [->|Hn]; [congruence|].
      specialize (Hs m i el a ltac:(lia) E Ha). lia.
    + destruct (Z.ltb_spec (key el) x) as [C2|C2].
      * apply IH; auto; try lia. split; auto. intros i a Hi Ha. destruct (Nat.eq_dec i m) as [->|Hn]; [congruence|].
        specialize (Hs i m a el ltac:(lia) Ha E). lia.
      * exists (val el), m. split; [reflexivity|]. split; [|lia].
        assert (Ek : key el = x) by lia. destruct (Hkv mp Hv el (nth_error_In _ _ E)) as [K1 K2].
        replace (val el) with ((val el + (x - key el)) mod 2 ^ 64).
        -- apply (mapped_at _ _ _ _ m el); auto; try lia. intros b Hb. specialize (Hs m (S m) el b ltac:(lia) E Hb). lia.
        -- rewrite Ek, Z.sub_diag, Z.add_0_r. apply Z.mod_small. change (2 ^ 64) with M64. lia.
  - assert (l = r) by lia. subst r. unfold map_answer. destruct l as [|l'].
    + destruct mp as [|a r]; [contradiction|]. cbn [nth_error]. exists (Z.min x (val a)), O. split; [reflexivity|]. split; [|lia].
      apply (mapped_before _ _ _ _ a r); auto. apply (B2 O a); auto.
    + destruct (nth_ex mp l' ltac:(lia)) as [el E]. rewrite E. eexists _, l'. split; [reflexivity|]. split; [|lia].
      pose proof (B1 l' el ltac:(lia) E) as C. destruct (Hkv mp Hv el (nth_error_In _ _ E)) as [K1 K2].
      rewrite (u64_small (x - key el)) by lia. apply (mapped_at _ _ _ _ l' el); auto; [lia|].
      intros b Hb. apply (B2 (S l') b); auto.
Qed.

Lemma map_search_ok : forall mp x, sorted key mp -> values_ok mp -> 0 <= x < M64 ->
  exists y, map_search key val mp x = Ret y /\ mapped key val mp x y.
Proof.
  intros mp x Hs Hv Hx. unfold map_search. destruct mp as [|a r] eqn:E; [exists x; split; auto; constructor; auto|]. rewrite <- E in *.
  destruct (map_loop_ok (S (length mp)) mp x 0 (length mp)) as (y & m & El & My & Hm); auto; try lia.
  - rewrite E; discriminate.
  - split; [intros; lia|]. intros i b Hi Hb. assert (i < length mp)%nat by (apply nth_error_Some; congruence). lia.
  - rewrite El. exists y. auto.
Qed.

Lemma map_hint_ok : forall mp x m, sorted key mp -> values_ok mp -> 0 <= x < M64 -> (m < length mp)%nat ->
  exists y m', map_search_hint key val mp x m = Ret (y, m') /\ mapped key val mp x y /\ (m' < length mp)%nat.
Proof.
  intros mp x m Hs Hv Hx Hm. unfold map_search_hint. destruct mp as [|a0 r0] eqn:E0; [cbn in Hm; lia|]. rewrite <- E0 in *.
  assert (Hne : mp <> []) by (rewrite E0; discriminate).
  destruct (nth_ex mp m Hm) as [el E]. rewrite E.
  destruct (Hkv mp Hv el (nth_error_In _ _ E)) as [K1 K2].
  destruct (Z.ltb_spec x (key el)) as [C|C].
  - apply map_loop_ok; auto; try lia. split; [intros; lia|]. intros i a Hi Ha. destruct (Nat.eq_dec i m) as [->|Hn]; [congruence|].
    specialize (Hs m i el a ltac:(lia) E Ha). lia.
  - destruct (Z.ltb_spec (key el) x) as [C2|C2].
    + destruct (Nat.leb_spec (length mp - 1) m) as [L|L].
      * eexists _, m. split; [reflexivity|]. split; [|auto]. rewrite (u64_small (x - key el)) by lia. apply (mapped_at _ _ _ _ m el); auto.
        intros b Hb. assert (S m < length mp)%nat by (apply nth_error_Some; congruence). lia.
      * destruct (nth_ex mp (m + 1) ltac:(lia)) as [nx En]. rewrite En. destruct (Z.ltb_spec x (key nx)) as [D|D].
        -- eexists _, m. split; [reflexivity|]. split; [|auto]. rewrite (u64_small (x - key el)) by lia. apply (mapped_at _ _ _ _ m el); auto.
           intros b Hb. replace (S m) with (m + 1)%nat in Hb by lia. congruence.
        -- apply map_loop_ok; auto; try lia. split.
           ++ intros i a Hi Ha. destruct (Nat.eq_dec i m) as [->|Hn]; [congruence|]. specialize (Hs i m a el ltac:(lia) Ha E). lia.
           ++ intros i b Hi Hb. assert (i < length mp)%nat by (apply nth_error_Some; congruence). lia.
    + exists (val el), m. split; [reflexivity|]. split; [|auto].
      assert (Ek : key el = x) by lia.
      replace (val el) with ((val el + (x - key el)) mod 2 ^ 64).
      * apply (mapped_at _ _ _ _ m el); auto. intros b Hb. specialize (Hs m (S m) el b ltac:(lia) E Hb). lia.
      * rewrite Ek, Z.sub_diag, Z.add_0_r. apply Z.mod_small. change (2 ^ 64) with M64. lia.
Qed.

Lemma mapped_unique : forall mp x y z, sorted key mp -> mapped key val mp x y -> mapped key val mp x z -> y = z.
Proof.
  clear Hkv. intros mp x y z Hs H1 H2.
  destruct H1 as [N1|i a Ha La Na|a r Ea La]; destruct H2 as [N2|j b Hb Lb Nb|b r' Eb Lb]; subst; auto;
    try (destruct i; discriminate); try (destruct j; discriminate); try discriminate.
  - destruct (Nat.lt_trichotomy i j) as [L|[L|L]].
    + exfalso. destruct (nth_error mp (S i)) as [c|] eqn:E.
      * specialize (Na c eq_refl). destruct (Nat.eq_dec (S i) j) as [<-|Hn]; [assert (c = b) by congruence; subst; lia|].
        specialize (Hs (S i) j c b ltac:(lia) E Hb). lia.
      * apply nth_error_None in E. assert (j < length mp)%nat by (apply nth_error_Some; congruence). lia.
    + subst j. assert (a = b) by congruence. subst. reflexivity.
    + exfalso. destruct (nth_error mp (S j)) as [c|] eqn:E.
      * specialize (Nb c eq_refl). destruct (Nat.eq_dec (S j) i) as [<-|Hn]; [assert (c = a) by congruence; subst; lia|].
        specialize (Hs (S j) i c a ltac:(lia) E Ha). lia.
      * apply nth_error_None in E. assert (i < length mp)%nat by (apply nth_error_Some; congruence). lia.
  - destruct i as [|i]; cbn in Ha; [assert (a = b) by congruence; subst; lia|].
    specialize (Hs O (S i) b a ltac:(lia) eq_refl Ha). lia.
  - destruct j as [|j]; cbn in Hb; [assert (a = b) by congruence; subst; lia|].
    specialize (Hs O (S j) a b ltac:(lia) eq_refl Hb). lia.
  - congruence.
Qed.
End G.

(** C18 *)
Theorem mapping_dst2src : forall mp to, sorted mto mp -> values_ok mp -> 0 <= to < 2 ^ 64 ->
  exists y, dst2src mp to = Ret y /\ mapped mto mfrom mp to y.
Proof. intros mp to Hs Hv Hx. apply map_search_ok; auto. intros mp' Hv' a Ha. specialize (Hv' a Ha). tauto. Qed.
Theorem mapping_src2dst : forall mp from, sorted mfrom mp -> values_ok mp -> 0 <= from < 2 ^ 64 ->
  exists y, src2dst mp from = Ret y /\ mapped mfrom mto mp from y.
Proof. intros mp from Hs Hv Hx. apply map_search_ok; auto. Qed.
(** The specification determines the answer. *)
Theorem mapping_answer_unique : forall key val mp x y z, sorted key mp ->
  mapped key val mp x y -> mapped key val mp x z -> y = z.
Proof. exact mapped_unique. Qed.

(** C19 *)
Theorem mapping_hint : forall mp x m, values_ok mp -> 0 <= x < 2 ^ 64 -> (m < length mp)%nat ->
  (sorted mto mp -> exists y m', dst2src_hint mp x m = Ret (y, m') /\ dst2src mp x = Ret y /\ (m' < length mp)%nat) /\
  (sorted mfrom mp -> exists y m', src2dst_hint mp x m = Ret (y, m') /\ src2dst mp x = Ret y /\ (m' < length mp)%nat).
Proof.
  intros mp x m Hv Hx Hm. split; intros Hs.
  - destruct (map_hint_ok mto mfrom) with (mp := mp) (x := x) (m := m) as (y & m' & E & M & Hm'); auto.
    { intros mp' Hv' a Ha. specialize (Hv' a Ha). tauto. }
    destruct (mapping_dst2src mp x Hs Hv Hx) as (z & Ez & Mz). exists y, m'. split; [exact E|]. split; [|exact Hm'].
    rewrite Ez. f_equal. eapply mapped_unique; eauto.
  - destruct (map_hint_ok mfrom mto) with (mp := mp) (x := x) (m := m) as (y & m' & E & M & Hm'); auto.
    destruct (mapping_src2dst mp x Hs Hv Hx) as (z & Ez & Mz). exists y, m'. split; [exact E|]. split; [|exact Hm'].
    rewrite Ez. f_equal. eapply mapped_unique; eauto.
Qed.
(** The mappings out of an inverted vector. *)
Theorem mapping_invert : forall mp x, src2dst (map map_invert mp) x = dst2src mp x /\ dst2src (map map_invert mp) x = src2dst mp x.
Proof.
  intros mp x.
  assert (A : forall k1 v1 k2 v2, (forall a, k1 (map_invert a) = k2 a) -> (forall a, v1 (map_invert a) = v2 a) ->
    forall fuel l r, map_loop k1 v1 fuel (map map_invert mp) x l r = map_loop k2 v2 fuel mp x l r).
  { intros k1 v1 k2 v2 Hk Hv'. induction fuel as [|fuel IH]; intros l r; [reflexivity|]. cbn [map_loop].
    destruct (Nat.ltb l r).
    - rewrite nth_error_map. destruct (nth_error mp (Nat.div (l + r) 2)); [|reflexivity]. cbn [option_map]. rewrite Hk, Hv', !IH. reflexivity.
    - unfold map_answer. destruct l as [|l].
      + rewrite nth_error_map. destruct (nth_error mp 0); [|reflexivity]. cbn [option_map]. rewrite Hv'. reflexivity.
      + rewrite nth_error_map. destruct (nth_error mp l); [|reflexivity]. cbn [option_map]. rewrite Hk, Hv'. reflexivity. }
  unfold src2dst, dst2src, map_search. destruct mp as [|a r] eqn:E; [split; reflexivity|]. rewrite <- E in *.
  rewrite !(A mto mfrom mfrom mto), !(A mfrom mto mto mfrom) by reflexivity. rewrite map_length.
  rewrite E. cbn [map]. split; reflexivity.
Qed.
Example mapping_ex : let mp := [mkmap 2 3; mkmap 5 10; mkmap 9 12] in
  dst2src mp 11 = Ret 6 /\ dst2src mp 1 = Ret 1 /\ dst2src mp 12 = Ret 9 /\ dst2src_hint mp 4 2 = Ret (3, 0%nat) /\ sorted mto mp /\ values_ok mp.
Proof.
  cbn zeta. repeat (split; [reflexivity|]). split.
  - intros i j a b Hij Ha Hb. destruct i as [|[|[|i]]]; destruct j as [|[|[|j]]]; cbn in *; try lia; try discriminate;
    try (destruct i; discriminate); try (destruct j; discriminate); inversion Ha; inversion Hb; subst; cbn; lia.
  - intros a [<-|[<-|[<-|[]]]]; cbn; change (2 ^ 64) with M64; lia.
Qed.

Print Assumptions mapping_dst2src.
Print Assumptions mapping_src2dst.
Print Assumptions mapping_answer_unique.
Print Assumptions mapping_hint.
Print Assumptions mapping_invert.
