(** Binary search and table facts for the SGML properties. *)
From Coq Require Import ZifyBool ZifyNat.
From Verif Require Import Base StringModel StringSpec StringProofs StringTrim SgmlTable SgmlModel.

(** ** The search *)
Section Search.
Variables (N : nat) (cmp : nat -> outcome Z) (same : nat -> outcome bool) (c : nat -> Z).
Hypothesis Hcmp : forall m, (m < N)%nat -> cmp m = Ret (c m).
Hypothesis Hsame : forall m, (m < N)%nat -> same m = Ret (c m =? 0).

Lemma back_spec : forall m i, (m < N)%nat -> c m = 0 ->
  exists k, back same i m = Ret k /\ (k <= m)%nat /\ c k = 0 /\ (forall a, (k <= a <= m)%nat -> c a = 0) /\ ((i < k)%nat -> c (k - 1)%nat <> 0).
Proof.
  induction m; intros i Hm H0; cbn [back].
  - exists O. repeat split; auto; try lia. intros a Ha. replace a with O by lia. auto.
  - destruct (i <? S m)%nat eqn:E.
    + rewrite Hsame by lia. cbn [obind]. destruct (c m =? 0) eqn:E0.
      * destruct (IHm i ltac:(lia) ltac:(lia)) as (k & B & L & Z & A & D). exists k. repeat split; auto; try lia.
        intros a Ha. destruct (Nat.eq_dec a (S m)); [subst; auto|apply A; lia].
      * exists (S m). repeat split; auto; try lia. intros a Ha. replace a with (S m) by lia. auto.
        intros _. replace (S m - 1)%nat with m by lia. lia.
    + exists (S m). repeat split; auto; try lia. intros a Ha. replace a with (S m) by lia. auto.
Qed.

Lemma bsearch_ret : forall fuel i j, (j - i < fuel)%nat -> (j <= N)%nat ->
  exists r, bsearch fuel cmp same i j = Ret r /\ forall k, r = Some k -> (k < N)%nat /\ c k = 0.
Proof.
  induction fuel; intros i j Hf Hj; [lia|]. cbn [bsearch]. destruct (i <? j)%nat eqn:E.
  - set (m := ((i + j) / 2)%nat). assert (i <= m < j)%nat by (unfold m; split; [apply Nat.div_le_lower_bound; lia|apply Nat.div_lt_upper_bound; lia]).
    rewrite Hcmp by lia. cbn [obind]. destruct (c m <? 0) eqn:E1.
    { apply IHfuel; lia. }
    destruct (c m >? 0) eqn:E2. { apply IHfuel; lia. }
    destruct (back_spec m i ltac:(lia) ltac:(lia)) as (k & B & L & Z & _). rewrite B. cbn [obind].
    exists (Some k). split; auto. intros k' [= <-]. split; [lia|auto].
  - exists None. split; auto. intros; discriminate.
Qed.

Hypothesis mono : forall a b, (a <= b)%nat -> (b < N)%nat -> (0 <= c a -> 0 <= c b) /\ (c b <= 0 -> c a <= 0).

Lemma bsearch_least : forall fuel i j, (j - i < fuel)%nat -> (i <= j)%nat -> (j <= N)%nat ->
  (forall m, (m < i)%nat -> c m < 0) -> (forall m, (j <= m)%nat -> (m < N)%nat -> 0 < c m) ->
  exists r, bsearch fuel cmp same i j = Ret r /\ least_pos (fun k => (k < N)%nat /\ c k = 0) r.
Proof.
  induction fuel; intros i j Hf Hij Hj HL HR; [lia|]. cbn [bsearch]. destruct (i <? j)%nat eqn:E.
  - set (m := ((i + j) / 2)%nat). assert (i <= m < j)%nat by (unfold m; split; [apply Nat.div_le_lower_bound; lia|apply Nat.div_lt_upper_bound; lia]).
    rewrite Hcmp by lia. cbn [obind]. destruct (c m <? 0) eqn:E1.
    { apply IHfuel; try lia. intros a Ha. destruct (mono a m ltac:(lia) ltac:(lia)). lia. exact HR. }
    destruct (c m >? 0) eqn:E2.
    { apply IHfuel; try lia; auto. intros a Ha Ha'. destruct (mono m a ltac:(lia) ltac:(lia)). lia. }
    destruct (back_spec m i ltac:(lia) ltac:(lia)) as (k & B & L & Z & A & D). rewrite B. cbn [obind].
    exists (Some k). split; auto. cbn. split; [split; [lia|auto]|]. intros a Ha [_ Ha0].
    destruct (Nat.lt_ge_cases a i) as [Hai|Hai]. { specialize (HL a Hai). lia. }
    assert (c (k - 1)%nat <> 0) by (apply D; lia).
    destruct (mono (k - 1)%nat k ltac:(lia) ltac:(lia)). destruct (mono a (k - 1)%nat ltac:(lia) ltac:(lia)). lia.
  - exists None. split; auto. cbn. intros a [Ha Ha0]. destruct (Nat.lt_ge_cases a i) as [Hai|Hai]; [specialize (HL a Hai); lia|].
    specialize (HR a ltac:(lia) Ha). lia.
Qed.
End Search.

(** ** Facts about the two tables, checked by computation *)
Definition name_ok (n : list Z) : bool :=
  (0 <? length n)%nat && (length n <=? 11)%nat &&
  forallb (fun c => (33 <=? c) && (c <=? 122) && negb (c =? 38) && negb (c =? 59) && negb (c =? 35)) n.
Definition uni_ok (u : list Z) : bool :=
  (0 <? length u)%nat && (length u <=? 2)%nat && forallb (fun c => (0 <? c) && (c <? 55296) || (57344 <=? c) && (c <? 65536)) u.
Lemma table_ok : forallb (fun e => name_ok (fst e) && uni_ok (snd e)) sgml_unicode = true.
Proof. vm_compute. reflexivity. Qed.
Fixpoint sorted_by (l : list (list Z)) : bool :=
  match l with
  | a :: (b :: _) as r => (lexcmp a b <=? 0) && sorted_by r
  | _ => true
  end.
Lemma names_sorted : sorted_by (map fst sgml_unicode) = true.
Proof. vm_compute. reflexivity. Qed.
Definition uentries : list (list Z * list Z) := map (fun k => nth (Z.to_nat k) sgml_unicode ([], [])) unicode_sgml.
Lemma index_ok : forallb (fun k => (0 <=? k) && (k <? Z.of_nat (length sgml_unicode))) unicode_sgml = true.
Proof. vm_compute. reflexivity. Qed.
Lemma unis_sorted : sorted_by (map snd uentries) = true.
Proof. vm_compute. reflexivity. Qed.
Lemma index_complete : forallb (fun e => existsb (fun e' => if list_eq_dec Z.eq_dec (snd e) (snd e') then true else false) uentries) sgml_unicode = true.
Proof. vm_compute. reflexivity. Qed.

Lemma sorted_nth : forall l a b x y, sorted_by l = true -> (a <= b)%nat -> nth_error l a = Some x -> nth_error l b = Some y -> lexcmp x y <= 0.
Proof.
  assert (G : forall l b x y, sorted_by (x :: l) = true -> nth_error (x :: l) b = Some y -> lexcmp x y <= 0).
  { induction l; intros b x y Hs Hn.
    - destruct b; [|destruct b; discriminate]. injection Hn as <-. rewrite lex_refl. lia.
    - destruct b. { injection Hn as <-. rewrite lex_refl. lia. }
      cbn [nth_error] in Hn. cbn [sorted_by] in Hs. apply andb_prop in Hs. destruct Hs as [H1 H2].
      eapply lex_trans; [|eapply IHl; [exact H2|exact Hn]]. lia. }
  induction l; intros i j x y Hs Hij Hi Hj; [destruct i; discriminate|].
  destruct i. { injection Hi as <-. eapply G; eauto. }
  destruct j; [lia|]. cbn [nth_error] in Hi, Hj. eapply IHl with (a := i) (b := j); eauto; [|lia].
  destruct l; auto. cbn [sorted_by] in Hs. apply andb_prop in Hs. tauto.
Qed.

Lemma entry_in : forall n u, In (n, u) sgml_unicode -> name_ok n = true /\ uni_ok u = true.
Proof.
  intros n u H. pose proof table_ok as T. rewrite forallb_forall in T. specialize (T _ H). cbn in T. apply andb_prop in T. exact T.
Qed.

(** ** Strings held in the fixed-size arrays *)
Lemma zstr_pos : forall n s t, Forall (fun c => c <> 0) s -> (length s <= n)%nat -> zstr n (s ++ 0 :: t) = s.
Proof.
  intros n s t. revert n. induction s; intros n H L; destruct n; cbn in *; try lia; auto.
  inversion H; subst. replace (a =? 0) with false by lia. rewrite IHs by (auto; lia). reflexivity.
Qed.
Lemma cells_eq : forall n s, (length s < n)%nat -> cells n s = s ++ 0 :: repeat 0 (n - length s - 1).
Proof.
  intros n s H. unfold cells. rewrite firstn_app. rewrite firstn_all2 by lia. f_equal.
  replace n with ((n - length s) + length s)%nat at 2 by lia. rewrite repeat_app, firstn_app, repeat_length, Nat.sub_diag. cbn [firstn]. rewrite app_nil_r.
  rewrite firstn_all2 by (rewrite repeat_length; lia). destruct (n - length s)%nat eqn:E; [lia|]. cbn [repeat]. do 2 f_equal. lia.
Qed.
Lemma cells_cz : forall n s, Forall (fun c => c <> 0) s -> (length s < n)%nat -> cz (cells n s) = s.
Proof. intros n s H L. rewrite cells_eq by auto. unfold cz. apply zstr_pos; auto. rewrite app_length. lia. Qed.
Lemma cells_len : forall n s, length (cells n s) = n.
Proof. intros. unfold cells. apply firstn_length_le. rewrite app_length, repeat_length. lia. Qed.
Lemma name_ok_spec : forall n, name_ok n = true -> (0 < length n <= 11)%nat /\ Forall (fun c => 33 <= c <= 122 /\ c <> 38 /\ c <> 59 /\ c <> 35) n.
Proof.
  intros n H. unfold name_ok in H. apply andb_prop in H as [H1 H2]. split; [lia|]. rewrite Forall_forall. rewrite forallb_forall in H2.
  intros c Hc. specialize (H2 c Hc). lia.
Qed.
Lemma uni_ok_spec : forall u, uni_ok u = true -> (0 < length u <= 2)%nat /\ Forall (fun c => 0 < c < 55296 \/ 57344 <= c < 65536) u.
Proof.
  intros n H. unfold uni_ok in H. apply andb_prop in H as [H1 H2]. split; [lia|]. rewrite Forall_forall. rewrite forallb_forall in H2.
  intros c Hc. specialize (H2 c Hc). lia.
Qed.

(** strncmp without assumptions on the sign of the units *)
Lemma strncmp4_zero : forall n1 s1 n2 s2, readable n1 s1 -> readable n2 s2 ->
  exists r, strncmp4 s1 n1 s2 n2 = Ret r /\ (r = 0 <-> zstr n1 s1 = zstr n2 s2).
Proof.
  unfold strncmp4. induction n1; intros s1 n2 s2 H1 H2.
  - cbn [strnicmp4]. destruct n2; cbn [zstr].
    + exists 0. split; auto. destruct s2; split; auto.
    + destruct s2 as [|b r2]; [apply readable_nil in H2; lia|]. unfold rd. cbn [nth_error obind].
      destruct (b =? 0); cbn [negb]; eexists; split; try reflexivity; split; intros; auto; try discriminate.
  - destruct s1 as [|a r1]; [apply readable_nil in H1; lia|]. destruct n2.
    + cbn [strnicmp4]. unfold rd. cbn [nth_error obind zstr]. destruct (a =? 0); cbn [negb]; eexists; split; try reflexivity; split; intros; auto; discriminate.
    + destruct s2 as [|b r2]; [apply readable_nil in H2; lia|]. cbn [strnicmp4 zstr].
      destruct (a =? 0) eqn:Ea, (b =? 0) eqn:Eb; cbn [andb].
      * exists 0. split; auto. tauto.
      * destruct (a >? b) eqn:E1; [|destruct (a <? b) eqn:E2; [|lia]]; eexists; split; try reflexivity; split; intros; discriminate.
      * destruct (a >? b) eqn:E1; [|destruct (a <? b) eqn:E2; [|lia]]; eexists; split; try reflexivity; split; intros; discriminate.
      * destruct (a >? b) eqn:E1; [|destruct (a <? b) eqn:E2].
        -- eexists; split; try reflexivity. split; [discriminate|]. intros [= ? ?]. lia.
        -- eexists; split; try reflexivity. split; [discriminate|]. intros [= ? ?]. lia.
        -- destruct (IHn1 r1 n2 r2) as (r & -> & Hr); try (eapply readable_cons; eauto; lia).
           exists r. split; auto. rewrite Hr. replace b with a by lia. split; [intros ->; auto|intros [= ->]; auto].
Qed.

Lemma nth_error_lt : forall {A} (l : list A) m, (m < length l)%nat -> exists x, nth_error l m = Some x.
Proof. intros A l m H. destruct (nth_error l m) eqn:E; eauto. apply nth_error_None in E. lia. Qed.
Lemma uentry_spec : forall m, (m < length unicode_sgml)%nat -> exists e, uentry m = Ret e /\ nth_error uentries m = Some e /\ In e sgml_unicode.
Proof.
  intros m H. destruct (nth_error_lt unicode_sgml m H) as (k & E). unfold uentry. rewrite E.
  assert (K : (Z.to_nat k < length sgml_unicode)%nat).
  { pose proof index_ok as T. rewrite forallb_forall in T. specialize (T k (nth_error_In _ _ E)). lia. }
  destruct (nth_error_lt sgml_unicode _ K) as (e & Ee). exists e. unfold entry. rewrite Ee. repeat split; auto.
  - unfold uentries. rewrite nth_error_map, E. cbn [option_map]. f_equal. apply nth_error_nth. auto.
  - eapply nth_error_In; eauto.
Qed.
