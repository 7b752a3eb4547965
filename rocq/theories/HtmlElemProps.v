(** Element names and traits: C135-C138. *)
From Coq Require Import String ZifyBool ZifyNat.
From Verif Require Import Base StringModel StringSpec StringProofs StringProps HtmlElemModel HtmlElemSpec.
Import List.ListNotations.
Open Scope Z_scope.
Ltac Zify.zify_post_hook ::= Z.div_mod_to_equations.

Lemma tolower_lower : forall c, tolower c = lower c.
Proof.
  intros c. unfold tolower, lower, isupper. destruct ((65 <=? c) && (c <=? 90)) eqn:E; auto.
  assert (H : forallb (fun c => Z.lor c 32 =? c + 32) (map (fun k => 65 + Z.of_nat k) (seq 0 26)) = true) by reflexivity. rewrite forallb_forall in H. apply Z.eqb_eq, H. apply in_map_iff. exists (Z.to_nat (c - 65)). split; [lia|]. apply in_seq. lia.
Qed.
Section Code.
Context (to_char : Z -> Z).
Definition folded (name : list Z) (n : nat) : list Z := map (fun c => to_char (lower c)) (zstr n name).
Lemma name_cmp_spec : forall mapped name n, readable n name -> name_cmp to_char mapped name n = Ret (lexcmp mapped (folded name n)).
Proof.
  induction mapped as [|x r IH]; intros name n H; destruct n as [|n]; cbn [name_cmp].
  - unfold folded. destruct name; reflexivity.
  - destruct name as [|c s]; [apply readable_nil in H; lia|]. cbn [rd obind nth_error]. unfold folded. cbn [zstr]. destruct (c =? 0); reflexivity.
  - unfold folded. destruct name; reflexivity.
  - destruct name as [|c s]; [apply readable_nil in H; lia|]. unfold rd. cbn [obind nth_error tl]. unfold folded. cbn [zstr]. destruct (c =? 0) eqn:E; [reflexivity|]. cbn [map lexcmp]. rewrite tolower_lower.
    destruct (x <? to_char (lower c)) eqn:A. { replace (to_char (lower c) <? x) with false by lia. reflexivity. }
    destruct (to_char (lower c) <? x); auto. rewrite IH by (eapply readable_cons; eauto; lia). reflexivity.
Qed.
(** the table is sorted *)
Lemma mapping_sorted : forall i j, (i < j < length elem_mapping)%nat -> lexcmp (fst (nth i elem_mapping ([], 0))) (fst (nth j elem_mapping ([], 0))) = -1.
Proof.
  assert (H : forallb (fun j => forallb (fun i => lexcmp (fst (nth i elem_mapping ([], 0))) (fst (nth j elem_mapping ([], 0))) =? -1) (seq 0 j)) (seq 0 (length elem_mapping)) = true) by (vm_compute; reflexivity).
  intros i j L. rewrite forallb_forall in H. specialize (H j). rewrite in_seq in H. specialize (H ltac:(lia)). rewrite forallb_forall in H. specialize (H i). rewrite in_seq in H. specialize (H ltac:(lia)). lia.
Qed.
Lemma lex_vals : forall a b, lexcmp a b = -1 \/ lexcmp a b = 0 \/ lexcmp a b = 1.
Proof. induction a as [|x a IH]; destruct b as [|y b]; cbn [lexcmp]; auto. destruct (x <? y); auto. destruct (y <? x); auto. Qed.
Lemma lex_lt_trans : forall a b c, lexcmp a b = -1 -> lexcmp b c = -1 -> lexcmp a c = -1.
Proof.
  induction a as [|x a IH]; destruct b as [|y b]; destruct c as [|z c]; cbn [lexcmp]; try discriminate; auto.
  destruct (x <? y) eqn:A; destruct (y <? z) eqn:B; intros H1 H2.
  - replace (x <? z) with true by lia. auto.
  - destruct (z <? y) eqn:C; [discriminate|]. replace (x <? z) with true by lia. auto.
  - destruct (y <? x) eqn:C; [discriminate|]. replace (x <? z) with true by lia. auto.
  - destruct (y <? x) eqn:C; [discriminate|]. destruct (z <? y) eqn:D; [discriminate|]. replace (x <? z) with false by lia. replace (z <? x) with false by lia. eauto.
Qed.
Lemma lex_sym : forall a b, lexcmp b a = - lexcmp a b.
Proof. induction a as [|x a IH]; destruct b as [|y b]; cbn [lexcmp]; auto. destruct (x <? y) eqn:A; destruct (y <? x) eqn:B; auto. lia. Qed.
Lemma lex_zero : forall a b, lexcmp a b = 0 -> a = b.
Proof. intros a b. apply (proj2 lexicographic_total_order). Qed.

Definition found_code (w : list Z) : Z := match find (fun p => if list_eq_dec Z.eq_dec (fst p) w then true else false) elem_mapping with Some p => snd p | None => e_unknown end.
Lemma find_at : forall (l : list (list Z * Z)) w m d, (forall i j, (i < j < length l)%nat -> lexcmp (fst (nth i l d)) (fst (nth j l d)) = -1) -> (m < length l)%nat -> fst (nth m l d) = w ->
  find (fun p => if list_eq_dec Z.eq_dec (fst p) w then true else false) l = Some (nth m l d).
Proof.
  induction l as [|p l IH]; intros w m d S L E; cbn [length] in L; [lia|]. cbn [find]. destruct m as [|m]; cbn [nth] in *.
  - destruct (list_eq_dec Z.eq_dec (fst p) w); congruence.
  - destruct (list_eq_dec Z.eq_dec (fst p) w) as [K|K].
    + specialize (S 0%nat (Datatypes.S m) ltac:(cbn [length]; lia)). cbn [nth] in S. rewrite K, E in S. rewrite (proj2 (proj2 lexicographic_total_order w w) eq_refl) in S. discriminate.
    + apply IH; auto; [|lia]. intros i j Hij. apply (S (Datatypes.S i) (Datatypes.S j)). cbn [length]. lia.
Qed.
Lemma find_none : forall (l : list (list Z * Z)) w d, (forall m, (m < length l)%nat -> lexcmp (fst (nth m l d)) w <> 0) -> find (fun p => if list_eq_dec Z.eq_dec (fst p) w then true else false) l = None.
Proof.
  induction l as [|p l IH]; intros w d H; auto. cbn [find]. destruct (list_eq_dec Z.eq_dec (fst p) w) as [K|K].
  - exfalso. apply (H 0%nat); [cbn [length]; lia|]. cbn [nth]. apply (proj2 lexicographic_total_order). auto.
  - apply (IH w d). intros m L. apply (H (S m)). cbn [length]. lia.
Qed.
Lemma code_search_spec : forall fuel i j name n, readable n name -> (j - i < fuel)%nat -> (i <= j <= length elem_mapping)%nat ->
  (forall m, (m < i)%nat -> lexcmp (fst (nth m elem_mapping ([], 0))) (folded name n) = -1) ->
  (forall m, (j <= m < length elem_mapping)%nat -> lexcmp (fst (nth m elem_mapping ([], 0))) (folded name n) = 1) ->
  code_search to_char fuel i j name n = Ret (found_code (folded name n)).
Proof.
  induction fuel; intros i j name n H F B Lo Hi; [lia|]. cbn [code_search]. destruct (i <? j)%nat eqn:E.
  - set (m := ((i + j) / 2)%nat). assert (M : (i <= m < j)%nat). { unfold m. split; [apply Nat.div_le_lower_bound; lia|apply Nat.div_lt_upper_bound; lia]. }
    clearbody m. assert (N : nth_error elem_mapping m = Some (nth m elem_mapping ([], 0))) by (apply nth_error_nth'; lia). rewrite N. pose proof (lex_vals (fst (nth m elem_mapping ([], 0))) (folded name n)) as V.
    destruct (nth m elem_mapping ([], 0)) as [x code] eqn:Nm. cbn [fst] in V. rewrite (name_cmp_spec x name n H). cbn [obind]. destruct V as [V|[V|V]]; rewrite V.
    + change (-1 <? 0) with true. cbv iota. apply IHfuel; auto; try lia. intros k K. destruct (Nat.eq_dec k m) as [->|Ne]; [rewrite Nm; auto|]. assert (S : lexcmp (fst (nth k elem_mapping ([], 0))) (fst (nth m elem_mapping ([], 0))) = -1) by (apply mapping_sorted; lia). rewrite Nm in S. eapply lex_lt_trans; eauto.
    + change (0 <? 0) with false. cbv iota. f_equal. apply lex_zero in V. unfold found_code. rewrite (find_at elem_mapping (folded name n) m ([], 0)); [rewrite Nm; auto|apply mapping_sorted|lia|rewrite Nm; auto].
    + change (1 <? 0) with false. change (0 <? 1) with true. cbv iota. apply IHfuel; auto; try lia. intros k K. destruct (Nat.eq_dec k m) as [->|Ne]; [rewrite Nm; auto|]. destruct (Nat.ltb_spec k j); [|apply Hi; lia].
      assert (S : lexcmp (fst (nth m elem_mapping ([], 0))) (fst (nth k elem_mapping ([], 0))) = -1) by (apply mapping_sorted; lia). rewrite Nm in S. cbn [fst] in S. rewrite lex_sym in V. assert (V2 : lexcmp (folded name n) x = -1) by lia. rewrite lex_sym. rewrite (lex_lt_trans _ _ _ V2 S). reflexivity.
  - f_equal. unfold found_code. rewrite (find_none elem_mapping (folded name n) ([], 0)); auto. intros m L. destruct (Nat.ltb_spec m i); [rewrite Lo by lia; lia|rewrite Hi by lia; lia].
Qed.
Lemma element_code_found : forall name n, readable n name -> element_code to_char name n = Ret (found_code (folded name n)).
Proof. intros name n H. unfold element_code. apply code_search_spec; auto; try lia. Qed.
End Code.
(** the table holds the names in their places *)
Lemma found_place : forall w, found_code w = match place w (map units html_names) with Some k => Z.of_nat k + 1 | None => -1 end.
Proof.
  intros w. unfold found_code. assert (T : elem_mapping = combine (map units html_names) (map (fun k => Z.of_nat k + 1) (seq 0 (length html_names)))) by (vm_compute; reflexivity). rewrite T.
  assert (G : forall l k, match find (fun p : list Z * Z => if list_eq_dec Z.eq_dec (fst p) w then true else false) (combine l (map (fun k => Z.of_nat k + 1) (seq k (length l)))) with Some p => snd p | None => e_unknown end =
     match place w l with Some i => Z.of_nat (k + i) + 1 | None => -1 end).
  { induction l as [|x l IH]; intros k; [reflexivity|]. cbn [length seq map combine find place fst]. destruct (list_eq_dec Z.eq_dec x w) as [->|N].
    - destruct (list_eq_dec Z.eq_dec w w); [|congruence]. cbn [snd]. rewrite Nat.add_0_r. auto.
    - destruct (list_eq_dec Z.eq_dec w x); [congruence|]. rewrite IH. destruct (place w l); cbn [option_map]; auto. f_equal. lia. }
  specialize (G (map units html_names) 0%nat). rewrite map_length in G. rewrite G. destruct (place w _); auto.
Qed.
(** C135: narrow names *)
Theorem element_code_narrow : forall name n, readable n name -> element_code (fun c => c) name n = Ret (html_number (zstr n name)).
Proof. intros name n H. rewrite element_code_found by auto. rewrite found_place. reflexivity. Qed.
(** ... and wide names of characters below U+0080 *)
Theorem element_code_wide : forall name n, readable n name -> Forall (fun c => 0 <= c < 128) (zstr n name) -> element_code i8 name n = Ret (html_number (zstr n name)).
Proof.
  intros name n H A. rewrite element_code_found by auto. rewrite found_place. unfold html_number. assert (E : folded i8 name n = map lower (zstr n name)); [|rewrite E; reflexivity]. unfold folded.
  induction A as [|c l C A IH]; auto. cbn [map]. rewrite IH. f_equal. assert (0 <= lower c < 128) by (unfold lower; destruct ((65 <=? c) && (c <=? 90)) eqn:?; lia). unfold i8. lia.
Qed.
(** every element is found by its own name, in any case *)
Theorem element_code_own : forall k s name n, nth_error html_names k = Some s -> readable n name -> map lower (zstr n name) = units s -> element_code (fun c => c) name n = Ret (Z.of_nat k + 1).
Proof.
  intros k s name n N R E. rewrite element_code_narrow by auto. unfold html_number. rewrite E.
  assert (C : forallb (fun k => match nth_error html_names k with Some s => match place (units s) (map units html_names) with Some i => (i =? k)%nat | None => false end | None => false end) (seq 0 (length html_names)) = true) by (vm_compute; reflexivity).
  rewrite forallb_forall in C. specialize (C k). rewrite in_seq in C. assert (k < length html_names)%nat by (apply nth_error_Some; congruence). specialize (C ltac:(lia)). rewrite N in C. destruct (place (units s) (map units html_names)) as [i|]; [|discriminate]. apply Nat.eqb_eq in C. subst i. auto.
Qed.
(** C136: a wide name with other characters is taken for what its low bytes spell: U+0161 for a *)
Theorem element_code_wide_refuted : element_code i8 [0x161] 1 = Ret e_a /\ html_number [0x161] = -1.
Proof. split; vm_compute; reflexivity. Qed.

(** C137: the elements' numbers and traits *)
Definition all_codes : list Z := map (fun k => Z.of_nat k) (seq 0 (length html_names + 1)) ++ [e_unknown; e_PCDATA; e_CDATA].
Theorem span_html401 :
  Forall (fun s => span (number s) = immediate) html401_empty /\
  Forall (fun s => span (number s) = end_optional) html401_omissible.
Proof. split; repeat constructor. Qed.
(** an element whose end tag is optional does not contain one of its kind: such a start tag ends it (documented at end_optional) *)
Theorem optional_no_nesting : forall code, span code = end_optional -> may_contain code code = false.
Proof.
  assert (H : forallb (fun c => match span c with end_optional => negb (may_contain c c) | _ => true end) (map Z.of_nat (seq 0 (length html_names + 1))) = true) by (vm_compute; reflexivity).
  intros code E. rewrite forallb_forall in H. assert (I : e_a <= code <= e_xmp). { unfold span in E. destruct ((e_a <=? code) && (code <=? e_xmp)) eqn:K; [lia|discriminate]. }
  specialize (H code). rewrite E in H. rewrite <- negb_true_iff. apply H. apply in_map_iff. exists (Z.to_nat code). unfold e_a, e_xmp in I. split; [lia|]. apply in_seq. change (length html_names) with 105%nat. lia.
Qed.

(** ** Attributes *)
Section Attr.
Context (f : Z -> Z) (Hf : forall c, f c = 0 <-> c = 0).
Lemma same_name_spec : forall lit s n, readable n s -> Forall (fun c => c <> 0) lit -> same_name f s n lit = Ret (if list_eq_dec Z.eq_dec (map f (zstr n s)) (map f lit) then true else false).
Proof.
  unfold same_name. induction lit as [|x lit IH]; intros s n H L; destruct n as [|n]; cbn [app length strnicmp4].
  - destruct s; reflexivity.
  - destruct s as [|c s]; [apply readable_nil in H; lia|]. cbn [zstr]. rewrite (proj2 (Hf 0) eq_refl). rewrite Z.eqb_refl, andb_true_r. destruct (c =? 0) eqn:E.
    + assert (c = 0) by lia. subst c. rewrite (proj2 (Hf 0) eq_refl). reflexivity.
    + assert (f c <> 0) by (intros K; apply (proj1 (Hf _)) in K; lia). replace (f c =? 0) with false by lia. cbn [map]. destruct (f c >? 0) eqn:A; [reflexivity|]. replace (f c <? 0) with true by lia. reflexivity.
  - inversion L; subst. unfold rd. cbn [nth_error obind]. replace (x =? 0) with false by lia. cbn [negb obind]. destruct s; reflexivity.
  - inversion L as [|? ? X L2]; subst. destruct s as [|c s]; [apply readable_nil in H; lia|]. cbn [zstr]. assert (f x <> 0) by (intros K; apply (proj1 (Hf _)) in K; lia). replace (f x =? 0) with false by lia. rewrite andb_false_r. destruct (c =? 0) eqn:E.
    + assert (c = 0) by lia. subst c. rewrite (proj2 (Hf 0) eq_refl). cbn [map]. destruct (0 >? f x) eqn:A; [reflexivity|]. replace (0 <? f x) with true by lia. reflexivity.
    + cbn [map]. destruct (f c >? f x) eqn:A. { cbn [obind]. destruct (list_eq_dec Z.eq_dec _ _) as [K|K]; [injection K as K _; lia|reflexivity]. }
      destruct (f c <? f x) eqn:B. { cbn [obind]. destruct (list_eq_dec Z.eq_dec _ _) as [K|K]; [injection K as K _; lia|reflexivity]. }
      rewrite IH by (auto; eapply readable_cons; eauto; lia). assert (f c = f x) by lia. f_equal. destruct (list_eq_dec Z.eq_dec (map f (zstr n s)) (map f lit)) as [K|K]; destruct (list_eq_dec Z.eq_dec (f c :: map f (zstr n s)) (f x :: map f lit)) as [K2|K2]; auto; exfalso; [apply K2|apply K]; congruence.
Qed.
Lemma any_name_spec : forall lits s n, readable n s -> Forall (Forall (fun c => c <> 0)) lits -> any_name f s n lits = Ret (existsb (fun l => if list_eq_dec Z.eq_dec (map f (zstr n s)) (map f l) then true else false) lits).
Proof. induction lits as [|l r IH]; intros s n H L; [reflexivity|]. inversion L; subst. cbn [any_name existsb]. rewrite same_name_spec by auto. cbn [obind]. destruct (list_eq_dec Z.eq_dec _ _); cbn [orb]; auto. Qed.
End Attr.
Lemma nz_check : forall l, forallb (fun c => negb (c =? 0)) l = true -> Forall (fun c => c <> 0) l.
Proof. intros l H. apply Forall_forall. intros c I. rewrite forallb_forall in H. specialize (H c I). lia. Qed.
Lemma attrs_nz : forall table, forallb (fun p => forallb (forallb (fun c => negb (c =? 0))) (snd p)) table = true -> forall code, Forall (Forall (fun c => c <> 0)) (attrs_of table code).
Proof.
  intros table H code. unfold attrs_of. destruct (find _ table) as [[k l]|] eqn:E; [|constructor]. apply find_some in E as [I _]. rewrite forallb_forall in H. specialize (H _ I). cbn [snd] in H. apply Forall_forall. intros x Ix. rewrite forallb_forall in H. apply nz_check. auto.
Qed.
Lemma lower0 : forall c, tolower c = 0 <-> c = 0.
Proof. intros c. rewrite tolower_lower. unfold lower. destruct ((65 <=? c) && (c <=? 90)) eqn:E; lia. Qed.
(** whether a list of names has one, in any case *)
Definition has_name (names : list string) (w : list Z) : Prop := exists s, In s names /\ map lower w = units s.
Lemma lower_units : forall names, forallb (fun s => if list_eq_dec Z.eq_dec (map lower (units s)) (units s) then true else false) names = true -> forall (w : list Z),
  existsb (fun l => if list_eq_dec Z.eq_dec (map tolower w) (map tolower l) then true else false) (map units names) = true <-> has_name names w.
Proof.
  assert (M : forall l, map tolower l = map lower l) by (intros l; apply map_ext; exact tolower_lower).
  intros names H w. rewrite existsb_exists. rewrite forallb_forall in H. split.
  - intros (l & I & E). apply in_map_iff in I as (s & <- & I). destruct (list_eq_dec Z.eq_dec _ _) as [K|]; [|discriminate]. exists s. split; auto. rewrite !M in K. rewrite K. specialize (H s I). destruct (list_eq_dec Z.eq_dec (map lower (units s)) (units s)); congruence.
  - intros (s & I & E). exists (units s). split; [apply in_map; auto|]. rewrite !M, E. specialize (H s I). destruct (list_eq_dec Z.eq_dec (map lower (units s)) (units s)) as [->|]; [|discriminate]. destruct (list_eq_dec Z.eq_dec (units s) (units s)); congruence.
Qed.
(** C138: every attribute that HTML 4.01 gives the type URI is one, in any case, whatever follows the name *)
Theorem is_uri_html401 : forall e a name n, In (e, a) html401_uri -> readable n name -> map lower (zstr n name) = units a -> is_uri tolower (number e) name n = Ret true.
Proof.
  intros e a name n I R E. unfold is_uri. rewrite any_name_spec; [|exact lower0|auto|apply attrs_nz; vm_compute; reflexivity]. f_equal.
  assert (C : forallb (fun p => existsb (fun l => if list_eq_dec Z.eq_dec (units (snd p)) (map tolower l) then true else false) (attrs_of uri_attributes (number (fst p)))) html401_uri = true) by (vm_compute; reflexivity).
  rewrite forallb_forall in C. specialize (C _ I). cbn [fst snd] in C. replace (map tolower (zstr n name)) with (units a); auto. rewrite <- E. apply map_ext. symmetry. apply tolower_lower.
Qed.
(** ... and no attribute of an element that has no attribute with a URI is one, nor one of another name *)
Definition uri_names (e : string) : list string :=
  (if String.eqb e "applet" then ["code"; "codebase"; "src"] else if String.eqb e "bgsound" then ["src"] else if String.eqb e "comment" then ["data"] else if String.eqb e "embed" then ["pluginspage"; "src"]
  else if String.eqb e "table" then ["background"] else if String.eqb e "td" then ["background"] else if String.eqb e "th" then ["background"]
  else if String.eqb e "img" then ["longdesc"; "lowsrc"; "src"; "usemap"] else if String.eqb e "input" then ["lowsrc"; "src"; "usemap"]
  else if String.eqb e "object" then ["basehref"; "classid"; "code"; "codebase"; "data"; "usemap"]
  else map snd (filter (fun p => String.eqb (fst p) e) html401_uri))%string.
Theorem is_uri_exact : forall e name n, In e html_names -> readable n name -> exists b, is_uri tolower (number e) name n = Ret b /\ (b = true <-> has_name (uri_names e) (zstr n name)).
Proof.
  intros e name n I R. unfold is_uri. rewrite any_name_spec; [|exact lower0|auto|apply attrs_nz; vm_compute; reflexivity]. eexists. split; [reflexivity|].
  assert (C : forallb (fun e => (if list_eq_dec (list_eq_dec Z.eq_dec) (attrs_of uri_attributes (number e)) (map units (uri_names e)) then true else false) && forallb (fun s => if list_eq_dec Z.eq_dec (map lower (units s)) (units s) then true else false) (uri_names e)) html_names = true) by (vm_compute; reflexivity).
  rewrite forallb_forall in C. specialize (C e I). apply andb_prop in C as [C1 C2]. destruct (list_eq_dec (list_eq_dec Z.eq_dec) (attrs_of uri_attributes (number e)) (map units (uri_names e))) as [->|]; [|discriminate]. apply lower_units. auto.
Qed.
Definition localizable_names (e : string) : list string :=
  "title"%string :: (if existsb (String.eqb e) ["applet"; "area"; "img"; "input"; "object"]%string then ["alt"] else if String.eqb e "table" then ["summary"] else if existsb (String.eqb e) ["td"; "th"]%string then ["abbr"] else [])%string.
Theorem is_localizable_exact : forall e name n, In e html_names -> readable n name -> exists b, is_localizable tolower (number e) name n = Ret b /\ (b = true <-> has_name (localizable_names e) (zstr n name)).
Proof.
  intros e name n I R. unfold is_localizable. rewrite same_name_spec; [|exact lower0|auto|apply nz_check; vm_compute; reflexivity]. cbn [obind].
  assert (C : forallb (fun e => (if list_eq_dec (list_eq_dec Z.eq_dec) (code_units "title" :: attrs_of localizable_attributes (number e)) (map units (localizable_names e)) then true else false) && forallb (fun s => if list_eq_dec Z.eq_dec (map lower (units s)) (units s) then true else false) (localizable_names e)) html_names = true) by (vm_compute; reflexivity).
  rewrite forallb_forall in C. specialize (C e I). apply andb_prop in C as [C1 C2]. destruct (list_eq_dec (list_eq_dec Z.eq_dec) (code_units "title" :: _) _) as [K|]; [|discriminate].
  pose proof (lower_units (localizable_names e) C2 (zstr n name)) as L. rewrite <- K in L. cbn [existsb] in L. destruct (list_eq_dec Z.eq_dec (map tolower (zstr n name)) (map tolower (code_units "title"))); cbn [orb] in L.
  - exists true. auto.
  - rewrite any_name_spec; [|exact lower0|auto|apply attrs_nz; vm_compute; reflexivity]. eexists. split; [reflexivity|exact L].
Qed.
Print Assumptions element_code_narrow. Print Assumptions element_code_wide. Print Assumptions element_code_own. Print Assumptions element_code_wide_refuted. Print Assumptions span_html401. Print Assumptions optional_no_nesting. Print Assumptions is_uri_html401. Print Assumptions is_uri_exact. Print Assumptions is_localizable_exact.
