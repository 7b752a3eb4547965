(** Entity lookup and decoding. *)
From Coq Require Import ZifyBool ZifyNat.
From Verif Require Import Base Bits StringModel StringSpec StringProofs StringSearch StringTrim StringProps SgmlTable SgmlModel SgmlSpec SgmlSearch.
Ltac Zify.zify_post_hook ::= Z.div_mod_to_equations.

Lemma readable_len : forall n s, (n <= length s)%nat -> readable n s.
Proof. left. auto. Qed.
Lemma nz_of_name : forall n, Forall (fun c => 33 <= c <= 122 /\ c <> 38 /\ c <> 59 /\ c <> 35) n -> Forall (fun c => c <> 0) n.
Proof. intros n H. eapply Forall_impl; [|exact H]. cbn. lia. Qed.

(** name_cmp/name_same against the entity string *)
Lemma name_cmp_spec : forall entity count m n u, nth_error sgml_unicode m = Some (n, u) -> (0 < count)%nat -> (count <= length entity)%nat ->
  exists r, name_cmp entity count m = Ret r /\ (r = 0 <-> n = zstr count entity) /\
    (unsigned entity -> r = lexcmp n (zstr count entity)) /\ name_same entity count m = Ret (r =? 0).
Proof.
  intros entity count m n u Hm Hc Hl. destruct (entry_in n u (nth_error_In _ _ Hm)) as [Hn _]. apply name_ok_spec in Hn as [Ln Fn].
  unfold name_cmp, name_same, entry. rewrite Hm. cbn [obind fst]. rewrite cells_eq by lia.
  destruct n as [|c t]; [cbn in Ln; lia|]. destruct count as [|k]; [lia|]. destruct entity as [|x e]; [cbn in Hl; lia|].
  cbn [app skipn length] in *. unfold rd at 1 2. cbn [nth_error obind].
  assert (Ft : Forall (fun c => 33 <= c <= 122 /\ c <> 38 /\ c <> 59 /\ c <> 35) t) by (inversion Fn; assumption).
  assert (Hc0 : 33 <= c) by (inversion Fn; lia).
  set (arr := t ++ 0 :: repeat 0 (12 - S (length t) - 1)).
  assert (La : length arr = 11%nat) by (unfold arr; rewrite app_length; cbn [length]; rewrite repeat_length; lia).
  assert (Nt : Forall (fun c => c <> 0) t) by (apply nz_of_name; exact Ft).
  assert (Zt : zstr 11 arr = t) by (apply zstr_pos; auto; lia).
  assert (Ua : unsigned arr).
  { unfold unsigned, arr. apply Forall_app. split. { eapply Forall_impl; [|exact Ft]. cbn. lia. }
    constructor; [lia|]. rewrite Forall_forall. intros y Hy. apply repeat_spec in Hy. lia. }
  clearbody arr.
  (* the whole-name comparison used by name_same *)
  destruct (strncmp4_zero 12 (c :: arr) (S k) (x :: e)) as (r2 & E2 & Z2); [apply readable_len; cbn; lia|apply readable_len; cbn; lia|].
  rewrite E2. cbn [obind].
  assert (Zn : zstr 12 (c :: arr) = c :: t) by (change (zstr 12 (c :: arr)) with (if c =? 0 then [] else c :: zstr 11 arr); replace (c =? 0) with false by lia; rewrite Zt; reflexivity).
  rewrite Zn in Z2.
  destruct (c <? x) eqn:E1; [|destruct (c >? x) eqn:E3].
  - exists (-1). repeat split; auto.
    + discriminate.
    + intros H. cbn [zstr] in H. destruct (x =? 0); [discriminate|]. injection H as -> _. lia.
    + intros _. cbn [zstr]. replace (x =? 0) with false by lia. cbn [lexcmp]. rewrite E1. reflexivity.
    + f_equal. ceq. apply Z.eqb_neq. intros ->. destruct Z2 as [Z2 _]. specialize (Z2 eq_refl). cbn [zstr] in Z2. destruct (x =? 0); [discriminate|]. injection Z2 as -> _. lia.
  - exists 1. repeat split; auto.
    + discriminate.
    + intros H. cbn [zstr] in H. destruct (x =? 0); [discriminate|]. injection H as -> _. lia.
    + intros _. cbn [zstr]. destruct (x =? 0) eqn:Ex; cbn [lexcmp]; [reflexivity|]. rewrite E1. replace (x <? c) with true by lia. reflexivity.
    + f_equal. ceq. apply Z.eqb_neq. intros ->. destruct Z2 as [Z2 _]. specialize (Z2 eq_refl). cbn [zstr] in Z2. destruct (x =? 0); [discriminate|]. injection Z2 as -> _. lia.
  - assert (x = c) by lia. subst x. cbn [length] in Hl.
    destruct (strncmp4_zero 11 arr k e) as (r & E & Zr); [apply readable_len; lia|apply readable_len; lia|].
    exists r. rewrite Zt in Zr.
    assert (Hz : r = 0 <-> c :: t = zstr (S k) (c :: e)).
    { cbn [zstr]. replace (c =? 0) with false by lia. rewrite Zr. split; [intros ->; auto|intros [= ->]; auto]. }
    repeat split; auto; try tauto.
    + intros U. cbn [zstr]. replace (c =? 0) with false by lia. cbn [lexcmp]. rewrite E1. replace (c <? c) with false by lia.
      assert (Ret r = Ret (lexcmp (zstr 11 arr) (zstr k e))).
      { rewrite <- E. apply strncmp_spec; auto. apply readable_len; lia. apply readable_len; lia. inversion U; auto. }
      rewrite Zt in H. congruence.
    + f_equal. apply eq_true_iff_eq. rewrite !Z.eqb_eq. tauto.
Qed.

Lemma lex_lt_l : forall a b e, lexcmp a b <= 0 -> lexcmp b e <= 0 -> lexcmp a e <= 0.
Proof. intros. eapply lex_trans; eauto. Qed.
Lemma lex_lt_r : forall a b e, lexcmp a b <= 0 -> 0 <= lexcmp a e -> 0 <= lexcmp b e.
Proof.
  intros a b e H1 H2. rewrite (lex_anti e b). rewrite (lex_anti e a) in H2.
  assert (lexcmp e b <= 0) by (eapply lex_trans; [|exact H1]; lia). lia.
Qed.

Lemma find_least : forall (p : list Z * list Z -> bool) l k e, nth_error l k = Some e -> p e = true ->
  (forall j e', (j < k)%nat -> nth_error l j = Some e' -> p e' = false) -> find p l = Some e.
Proof.
  induction l; intros k e Hk Hp Hj; destruct k; try discriminate.
  - injection Hk as ->. cbn. rewrite Hp. auto.
  - cbn [find]. rewrite (Hj O a); [|lia|reflexivity]. eapply IHl; eauto. intros j e' Hl. apply (Hj (S j)). lia.
Qed.
Lemma find_none_nth : forall (p : list Z * list Z -> bool) l, (forall j e', nth_error l j = Some e' -> p e' = false) -> find p l = None.
Proof. induction l; intros H; cbn; auto. rewrite (H O a eq_refl). apply IHl. intros j e'. apply (H (S j)). Qed.

Definition is_name (name : list Z) (e : list Z * list Z) : bool := if list_eq_dec Z.eq_dec (fst e) name then true else false.
Lemma is_name_eq : forall name e, is_name name e = true <-> fst e = name.
Proof. intros. unfold is_name. destruct (list_eq_dec Z.eq_dec (fst e) name); split; auto; discriminate. Qed.

(** C41: the search finds the first entry of the name *)
Lemma sgml2uni_name : forall entity count, (0 < count)%nat -> (count <= length entity)%nat -> (count < 2)%nat \/ hd 0 entity <> 35 ->
  sgml2uni entity count = Ret (expansion (zstr count entity)).
Proof.
  intros entity count Hc Hl Hn. unfold sgml2uni.
  assert (B : (if (count <? 2)%nat then Ret false else let* x := rd entity 0 in Ret (x =? 35)) = Ret false).
  { destruct (count <? 2)%nat eqn:E; auto. destruct entity as [|x e]; [cbn in Hl; lia|]. unfold rd. cbn [nth_error obind]. cbn [hd] in Hn. f_equal. lia. }
  rewrite B. cbn [obind negb].
  set (N := length sgml_unicode).
  set (c := fun m => match name_cmp entity count m with Ret r => r | _ => 0 end).
  assert (HC : forall m, (m < N)%nat -> exists n u, nth_error sgml_unicode m = Some (n, u) /\ name_cmp entity count m = Ret (c m) /\
     name_same entity count m = Ret (c m =? 0) /\ (c m = 0 <-> n = zstr count entity) /\ (unsigned entity -> c m = lexcmp n (zstr count entity))).
  { intros m Hm. destruct (nth_error_lt sgml_unicode m Hm) as ([n u] & E). exists n, u. split; auto.
    destruct (name_cmp_spec entity count m n u E Hc Hl) as (r & Er & Zr & Ur & Sr). unfold c. rewrite Er. tauto. }
  assert (Hcmp : forall m, (m < N)%nat -> name_cmp entity count m = Ret (c m)) by (intros m Hm; destruct (HC m Hm) as (n & u & _ & H & _); exact H).
  assert (Hsame : forall m, (m < N)%nat -> name_same entity count m = Ret (c m =? 0)) by (intros m Hm; destruct (HC m Hm) as (n & u & _ & _ & H & _); exact H).
  destruct (find (is_name (zstr count entity)) sgml_unicode) as [e|] eqn:EF.
  - (* a known name: all its units are positive, so is the part of the entity that matters *)
    set (E' := zstr count entity) in *.
    assert (HE : name_ok E' = true). { apply find_some in EF as [H1 H2]. apply is_name_eq in H2. destruct e as [n u]. cbn in H2. subst n. apply (entry_in E' u H1). }
    apply name_ok_spec in HE as [LE FE].
    (* comparison is lexicographic, also when the cells after the name are negative *)
    assert (HL : forall m n u, nth_error sgml_unicode m = Some (n, u) -> (m < N)%nat -> c m = lexcmp n E').
    { intros m n u Em Hm. 
      assert (D : (length E' = count \/ length E' < count)%nat) by (unfold E'; pose proof (zstr_le count entity); lia).
      destruct (zstr_prefix count entity) as (rest & ER & HR). fold E' in ER, HR.
      (* replace the cells not looked at by zeros *)
      set (ent2 := E' ++ 0 :: repeat 0 (count - length E')).
      assert (Z2 : zstr count ent2 = E') by (apply zstr_pos; [apply nz_of_name; auto|lia]).
      assert (L2 : (count <= length ent2)%nat) by (unfold ent2; rewrite app_length; cbn [length]; rewrite repeat_length; lia).
      destruct (name_cmp_spec ent2 count m n u Em Hc L2) as (r & Er & Zr & Ur & _).
      assert (U2 : unsigned ent2).
      { unfold unsigned, ent2. apply Forall_app. split. eapply Forall_impl; [|exact FE]. cbn; lia. constructor; [lia|]. rewrite Forall_forall. intros y Hy. apply repeat_spec in Hy. lia. }
      specialize (Ur U2). rewrite Z2 in Ur. rewrite <- Ur. unfold c.
      enough (X : name_cmp entity count m = name_cmp ent2 count m) by (rewrite X, Er; auto).
      unfold name_cmp, entry. rewrite Em. cbn [obind fst].
      destruct E' as [|y ys] eqn:EE; [cbn in LE; lia|].
      assert (R1 : rd entity 0 = Ret y) by (rewrite ER; reflexivity). assert (R2 : rd ent2 0 = Ret y) by reflexivity. rewrite R1, R2.
      destruct (rd (cells 12 n) 0); cbn [obind]; auto. dif; auto. dif; auto. destruct count as [|k]; auto.
      rewrite ER. cbn [app skipn]. unfold ent2. cbn [app skipn].
      assert (Gen : forall ys k arr n1 r1 r2, Forall (fun c => c <> 0) ys -> (length ys <= k)%nat -> length ys = k \/ (exists r1' r2', r1 = 0 :: r1' /\ r2 = 0 :: r2') ->
         strncmp4 arr n1 (ys ++ r1) k = strncmp4 arr n1 (ys ++ r2) k).
      { clear. unfold strncmp4. induction ys; intros k arr n1 r1 r2 F L H.
        - cbn [app]. cbn [length] in *. destruct H as [H|(r1' & r2' & -> & ->)].
          + subst k. destruct n1; reflexivity.
          + destruct k; [destruct n1; reflexivity|]. destruct n1; cbn [strnicmp4]; [reflexivity|]. destruct arr as [|a arr]; [reflexivity|].
            destruct (a =? 0) eqn:Ea; cbn [andb]; auto. change (0 =? 0) with true. cbn [andb]. auto.
            change (0 =? 0) with true. destruct (a >? 0) eqn:E1; auto. destruct (a <? 0) eqn:E2; auto. lia.
        - inversion F; subst. cbn [app]. cbn [length] in *. destruct k; [lia|]. destruct n1; cbn [strnicmp4]; [reflexivity|]. destruct arr as [|b arr]; [reflexivity|].
          destruct (_ && _); auto. destruct (_ >? _); auto. destruct (_ <? _); auto. apply IHys; auto; [lia|]. destruct H; [left; lia|right; auto]. }
      apply Gen.
      - apply nz_of_name in FE. inversion FE; auto.
      - cbn [length] in *. lia.
      - destruct D as [D|D]; [left; cbn [length] in D; lia|]. right. destruct HR as [HR|[HR|(q & HR)]]; [lia|subst rest; rewrite ER, app_nil_r in Hl; lia|]. subst rest. eexists; eexists; split; reflexivity. }
    assert (mono : forall a b, (a <= b)%nat -> (b < N)%nat -> (0 <= c a -> 0 <= c b) /\ (c b <= 0 -> c a <= 0)).
    { intros a b Hab Hb. destruct (HC a ltac:(lia)) as (na & ua & Ea & _). destruct (HC b Hb) as (nb & ub & Eb & _).
      rewrite (HL a na ua Ea ltac:(lia)), (HL b nb ub Eb Hb).
      assert (S : lexcmp na nb <= 0). { eapply (sorted_nth (map fst sgml_unicode) a b); eauto using names_sorted; rewrite nth_error_map; [rewrite Ea|rewrite Eb]; reflexivity. }
      split; [apply lex_lt_r; auto|apply lex_lt_l; auto]. }
    destruct (bsearch_least N _ _ c Hcmp Hsame mono (S N) 0 N) as (r & Er & Lr); try lia. fold N. rewrite Er. cbn [obind].
    unfold expansion. change (fun e => if list_eq_dec Z.eq_dec (fst e) E' then true else false) with (is_name E'). rewrite EF. cbn [option_map].
    destruct r as [k|].
    + destruct Lr as [[Hk Hk0] Hmin]. destruct (HC k Hk) as (n & u & Ek & _ & _ & Zk & _). unfold entry. rewrite Ek. cbn [obind snd]. do 2 f_equal.
      destruct (entry_in n u (nth_error_In _ _ Ek)) as [_ Hu]. apply uni_ok_spec in Hu as [Lu Fu].
      rewrite cells_cz; [|eapply Forall_impl; [|exact Fu]; cbn; lia|lia].
      enough (find (is_name E') sgml_unicode = Some (n, u)) by (replace e with (n, u) by congruence; reflexivity).
      eapply find_least; [exact Ek| |].
      * apply is_name_eq. cbn. tauto.
      * intros j e' Hj Ej. destruct (is_name E' e') eqn:EI; auto. exfalso. apply is_name_eq in EI. apply (Hmin j Hj). split; [lia|].
        destruct (HC j ltac:(lia)) as (n' & u' & Ej' & _ & _ & Zj & _). apply Zj. rewrite Ej in Ej'. injection Ej' as ->. auto.
    + exfalso. apply find_some in EF as [HI HN]. apply In_nth_error in HI as (k & Hk). assert (k < N)%nat by (apply nth_error_Some; congruence).
      apply (Lr k). split; auto. destruct (HC k H) as (n' & u' & Ej' & _ & _ & Zj & _). apply Zj. apply is_name_eq in HN. rewrite Hk in Ej'. injection Ej' as ->. auto.
  - destruct (bsearch_ret N _ _ c Hcmp Hsame (S N) 0 N) as (r & Er & Sr); try lia. fold N. rewrite Er. cbn [obind].
    unfold expansion. change (fun e => if list_eq_dec Z.eq_dec (fst e) (zstr count entity) then true else false) with (is_name (zstr count entity)). rewrite EF. cbn [option_map].
    destruct r as [k|]; auto. exfalso. destruct (Sr k eq_refl) as [Hk Hk0]. destruct (HC k Hk) as (n & u & Ek & _ & _ & Zk & _).
    apply find_none with (x := (n, u)) in EF; [|eapply nth_error_In; eauto]. assert (is_name (zstr count entity) (n, u) = true) by (apply is_name_eq; cbn; tauto). congruence.
Qed.
