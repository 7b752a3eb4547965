(** Theorems about charset_from_name (include/stdex/unicode.hpp): property C67. *)
From Verif Require Import Base StringModel StringSpec StringProofs StringProps CharsetModel.
From Coq Require Import ZifyBool ZifyNat String.
Local Open Scope Z_scope.

(** ** Specification *)
(** ASCII letters of either case are the same. *)
Definition fold_case (c : Z) : Z := if (65 <=? c) && (c <=? 90) then c + 32 else c.
Definition same_name (a b : list Z) : Prop := map fold_case a = map fold_case b.
(** The documented names: IANA names and aliases of the encodings. *)
Definition known_names : list (string * charset) := [
  ("utf-7", CsUtf7); ("unicode-1-1-utf-7", CsUtf7); ("csUnicode11UTF7", CsUtf7);
  ("utf-8", CsUtf8); ("utf8", CsUtf8); ("utf-16", CsUtf16); ("utf-16le", CsUtf16); ("utf-32", CsUtf32); ("utf-32le", CsUtf32);
  ("cp1250", CsWin1250); ("ms-ee", CsWin1250); ("windows-1250", CsWin1250);
  ("cp1251", CsWin1251); ("ms-cyrl", CsWin1251); ("windows-1251", CsWin1251);
  ("cp1252", CsWin1252); ("ms-ansi", CsWin1252); ("windows-1252", CsWin1252)]%string.

(** ** Proofs *)
Lemma fold_eq : forall c, tolower c = fold_case c.
Proof. intros. destruct (ascii_folding c) as [E _]. exact E. Qed.
Lemma fold_zero : forall c, fold_case c = 0 <-> c = 0.
Proof. intros. unfold fold_case. destruct (_ && _) eqn:E; lia. Qed.
Definition key (s : list Z) : list Z := map fold_case (cz s) ++ [0].
Lemma stricmp_key : forall a b, In 0 a -> In 0 b -> stricmp tolower a b = Ret (lexcmp (key a) (key b)).
Proof.
  unfold key. induction a as [|x r1 IH]; intros s2 H1 H2; [destruct H1|]. destruct s2 as [|y r2]; [destruct H2|].
  cbn [stricmp]. rewrite !cz_cons, !fold_eq. pose proof (fold_zero x). pose proof (fold_zero y).
  destruct (x =? 0) eqn:Ea, (y =? 0) eqn:Eb.
  - replace (fold_case x =? 0) with true by lia. replace (fold_case y =? 0) with true by lia. reflexivity.
  - replace (fold_case x) with 0 by lia. cbn [map app lexcmp]. destruct (fold_case y =? 0) eqn:E; [lia|]. cbn [andb Z.eqb]. rewrite Z.gtb_ltb. destruct (fold_case y <? 0) eqn:E1, (0 <? fold_case y) eqn:E2; auto; lia.
  - replace (fold_case y) with 0 by lia. cbn [map app lexcmp]. destruct (fold_case x =? 0) eqn:E; [lia|]. cbn [andb Z.eqb]. rewrite Z.gtb_ltb. destruct (fold_case x <? 0) eqn:E1, (0 <? fold_case x) eqn:E2; auto; lia.
  - replace (fold_case x =? 0) with false by lia. cbn [andb map app lexcmp]. destruct H1; [lia|]. destruct H2; [lia|]. rewrite IH by auto.
    rewrite Z.gtb_ltb. destruct (fold_case x <? fold_case y) eqn:E1, (fold_case y <? fold_case x) eqn:E2; auto; lia.
Qed.
Lemma less_key : forall a b, In 0 a -> In 0 b -> less a b = Ret (lexcmp (key a) (key b) <? 0).
Proof. intros. unfold less. rewrite stricmp_key by auto. reflexivity. Qed.

(* the map as built: sorted, each key terminated *)
Definition cmap : list (list Z * charset) := match map_of charset_table [] with Ret m => m | _ => [] end.
Lemma cmap_ok : map_of charset_table [] = Ret cmap.
Proof. vm_compute. reflexivity. Qed.
Fixpoint ordered (m : list (list Z * charset)) : bool :=
  match m with
  | [] => true
  | (k, _) :: r => existsb (Z.eqb 0) k && forallb (fun '(k', _) => lexcmp (key k) (key k') <? 0) r && ordered r
  end.
Lemma cmap_ordered : ordered cmap = true.
Proof. vm_compute. reflexivity. Qed.
Lemma find_ordered : forall m name, ordered m = true -> In 0 name ->
  exists r, map_find name m = Ret r /\
    match r with
    | Some v => exists k, In (k, v) m /\ key k = key name
    | None => forall k v, In (k, v) m -> key k <> key name
    end.
Proof.
  induction m as [|[k v] m IH]; intros name O H; cbn [map_find].
  - eexists. split; [reflexivity|]. intros k v [].
  - cbn [ordered] in O. apply andb_prop in O. destruct O as [O O3]. apply andb_prop in O. destruct O as [O1 O2].
    assert (K0 : In 0 k) by (apply existsb_exists in O1; destruct O1 as (x & Hx & Ex); assert (x = 0) by lia; subst; auto).
    rewrite less_key by auto. cbn [obind]. destruct (lexcmp (key k) (key name) <? 0) eqn:E.
    + destruct (IH name O3 H) as (r & E1 & E2). exists r. split; [exact E1|]. destruct r as [w|].
      * destruct E2 as (k' & I & Q). exists k'. split; [right; auto|auto].
      * intros k' v' [I|I]; [injection I as <- <-; intros Q; rewrite Q, lex_refl in E; discriminate|eapply E2; eauto].
    + rewrite less_key by auto. cbn [obind]. eexists. split; [reflexivity|]. destruct (lexcmp (key name) (key k) <? 0) eqn:E2.
      * intros k' v' [I|I] Q; [injection I as <- <-; rewrite Q, lex_refl in E2; discriminate|].
        rewrite forallb_forall in O2. specialize (O2 _ I). cbv beta iota in O2. rewrite Q in O2. pose proof (lex_anti (key k) (key name)). lia.
      * exists k. split; [left; auto|]. apply lex_eq. pose proof (lex_anti (key k) (key name)). lia.
Qed.
Lemma key_same : forall a b, key a = key b <-> same_name (cz a) (cz b).
Proof. intros. unfold key, same_name. split; [intros E; apply app_inv_tail in E; exact E|congruence]. Qed.
Lemma lit_cz : forall s, Forall (fun c => c <> 0) (chars s) -> cz (lit s) = chars s.
Proof. intros s H. unfold lit. induction H; cbn [app]; [reflexivity|]. rewrite cz_cons. replace (x =? 0) with false by lia. f_equal. auto. Qed.
Definition entry_eqb (a b : list Z * charset) : bool := (lexcmp (fst a) (fst b) =? 0) && match snd a, snd b with
  | CsSystem, CsSystem | CsUtf7, CsUtf7 | CsUtf8, CsUtf8 | CsUtf16, CsUtf16 | CsUtf32, CsUtf32 | CsWin1250, CsWin1250 | CsWin1251, CsWin1251 | CsWin1252, CsWin1252 => true | _, _ => false end.
Lemma entry_eq : forall a b, entry_eqb a b = true -> a = b.
Proof. intros [a x] [b y] E. unfold entry_eqb in E. cbn [fst snd] in E. apply andb_prop in E. destruct E as [E1 E2]. assert (a = b) by (apply lex_eq; lia). subst. destruct x, y; try discriminate; reflexivity. Qed.
Definition known_keys : list (list Z * charset) := map (fun '(n, v) => (map fold_case (chars n) ++ [0], v)) known_names.
Definition cmap_keys : list (list Z * charset) := map (fun '(k, v) => (key k, v)) cmap.
Lemma keys_known : forall e, In e cmap_keys <-> In e known_keys.
Proof.
  assert (A : forallb (fun e => existsb (entry_eqb e) known_keys) cmap_keys = true) by (vm_compute; reflexivity).
  assert (B : forallb (fun e => existsb (entry_eqb e) cmap_keys) known_keys = true) by (vm_compute; reflexivity).
  rewrite forallb_forall in A, B. generalize dependent known_keys. generalize dependent cmap_keys. intros X Y A B e. split; intros I.
  - specialize (A e I). apply existsb_exists in A. destruct A as (x & Hx & Ex). apply entry_eq in Ex. rewrite Ex. exact Hx.
  - specialize (B e I). apply existsb_exists in B. destruct B as (x & Hx & Ex). apply entry_eq in Ex. rewrite Ex. exact Hx.
Qed.
Lemma known_functional : forall k v1 v2, In (k, v1) known_keys -> In (k, v2) known_keys -> v1 = v2.
Proof.
  assert (A : forallb (fun e => forallb (fun e' => negb (lexcmp (fst e) (fst e') =? 0) || entry_eqb e e') known_keys) known_keys = true) by (vm_compute; reflexivity).
  rewrite forallb_forall in A. generalize dependent known_keys. intros X A k v1 v2 H1 H2. specialize (A _ H1). rewrite forallb_forall in A. specialize (A _ H2). cbn [fst] in A. rewrite lex_refl in A.
  cbn [Z.eqb negb orb] in A. apply entry_eq in A. congruence.
Qed.

Global Opaque cmap known_names charset_table.
(** ** C67 *)
(** A known name in any mixture of cases gives its encoding; any other string gives system. *)
Theorem charset_from_name_spec : forall name, In 0 name ->
  exists r, charset_from_name name = Ret r /\
    (forall n v, In (n, v) known_names -> same_name (chars n) (cz name) -> r = v) /\
    ((forall n v, In (n, v) known_names -> ~ same_name (chars n) (cz name)) -> r = CsSystem).
Proof.
  intros name H. unfold charset_from_name. rewrite cmap_ok. cbn [obind]. destruct (find_ordered cmap name cmap_ordered H) as (o & E & P). rewrite E. cbn [obind].
  eexists. split; [reflexivity|]. 
  assert (K : forall n v, In (n, v) known_names -> same_name (chars n) (cz name) -> In (key name, v) cmap_keys).
  { intros n v I S. apply (proj2 (keys_known _)). replace (key name) with (map fold_case (chars n) ++ [0]) by (unfold key; unfold same_name in S; rewrite S; reflexivity). exact (in_map (fun '(n, v) => (map fold_case (chars n) ++ [0], v)) known_names (n, v) I). }
  destruct o as [v|].
  - destruct P as (k & I & Q). assert (KI : In (key name, v) cmap_keys) by (rewrite <- Q; exact (in_map (fun '(k, v) => (key k, v)) cmap (k, v) I)).
    split.
    + intros n v' In' S. exact (known_functional (key name) v v' (proj1 (keys_known _) KI) (proj1 (keys_known _) (K n v' In' S))).
    + intros No. exfalso. apply (proj1 (keys_known _)) in KI. unfold known_keys in KI. apply in_map_iff in KI. destruct KI as ([n v'] & EQ & I'). injection EQ as EQ ->.
      apply (No n v I'). unfold key in EQ. apply app_inv_tail in EQ. exact EQ.
  - split; [|reflexivity]. intros n v I S. exfalso. specialize (K n v I S). apply (proj1 (in_map_iff (fun '(k, v) => (key k, v)) cmap (key name, v))) in K. destruct K as ([k v'] & EQ & I'). injection EQ as EQ ->. eapply P; eauto.
Qed.
(** Case never matters. *)
Theorem charset_case_insensitive : forall a b, In 0 a -> In 0 b -> same_name (cz a) (cz b) -> charset_from_name a = charset_from_name b.
Proof.
  intros a b Ha Hb S. apply key_same in S. unfold charset_from_name. rewrite cmap_ok. cbn [obind].
  enough (E : forall m, ordered m = true -> map_find a m = map_find b m) by (rewrite (E cmap cmap_ordered); reflexivity).
  induction m as [|[k v] m IH]; intros O; [reflexivity|]. cbn [map_find]. cbn [ordered] in O. apply andb_prop in O. destruct O as [O O3]. apply andb_prop in O. destruct O as [O1 O2].
  assert (K0 : In 0 k) by (apply existsb_exists in O1; destruct O1 as (x & Hx & Ex); assert (x = 0) by lia; subst; auto).
  rewrite !less_key by auto. rewrite S. cbn [obind]. rewrite IH by auto. reflexivity.
Qed.
(* Utf-16lE, windows-1251, utf-16be (unknown), a name with a negative char *)
Example charset_ex :
  charset_from_name (lit "Utf-16lE"%string) = Ret CsUtf16 /\ charset_from_name (lit "windows-1251"%string) = Ret CsWin1251 /\
  charset_from_name (lit "utf-16be"%string) = Ret CsSystem /\ charset_from_name [-61; -124; 0] = Ret CsSystem.
Proof. vm_compute. auto. Qed.
Print Assumptions charset_from_name_spec.
Print Assumptions charset_case_insensitive.
