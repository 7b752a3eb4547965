(** Properties C227-C231: the SGML code-point tests. *)
From Coq Require Import ZifyBool ZifyNat.
From Verif Require Import Base Bits StringModel StringSpec StringProofs StringProps StringSearch SgmlTable SgmlModel SgmlSpec SgmlSearch SgmlCodec SgmlDecode SgmlText SgmlProps.
From Verif Require Import ParserModel ParserSpec ParserProps ParserPeg ParserNumProps UrlModel DnsProps SgmlCpModel SgmlCpSpec.
Ltac Zify.zify_post_hook ::= Z.div_mod_to_equations.

(** ** texts of references *)
Lemma unit16_nz : forall c, c <> 0 -> 0 <= c < 4294967296 -> Forall (fun x => x <> 0) (unit16_of c).
Proof. intros c H R. unfold unit16_of. destruct (c <? 65536) eqn:E; repeat constructor; lia. Qed.
Lemma to16_units : forall u, Forall (fun c => 0 <= c < 4294967296) u -> to16 u = flat_map unit16_of u.
Proof.
  induction 1; auto. cbn [to16 flat_map]. rewrite IHForall. unfold unit16_of. destruct (x <? 65536) eqn:E; [reflexivity|]. unfold ucs4_to_surrogate_pair. cbn [app].
  f_equal; [|f_equal].
  - rewrite Z.shiftr_div_pow2 by lia. change 1023 with (2 ^ 10 - 1). rewrite land_ones_mod by lia. change (2 ^ 10) with 1024. unfold u16. lia.
  - change 1023 with (2 ^ 10 - 1). rewrite land_ones_mod by lia. change (2 ^ 10) with 1024. unfold u16. lia.
Qed.
Lemma ref_units : forall name u, reference name = Some u -> (length u <= 2)%nat /\ Forall (fun c => c <> 0 /\ -2147483648 <= c < 2147483648) u /\ (length (flat_map unit16_of (map u32 u)) <= 4)%nat.
Proof.
  intros name u H. assert (A : (length u <= 2)%nat /\ Forall (fun c => c <> 0 /\ -2147483648 <= c < 2147483648) u).
  { destruct (reference_cases name u H) as [(n & Hi)|(v & ->)].
    - destruct (entry_in n u Hi) as [_ Hu]. apply uni_ok_spec in Hu as [L Hu]. split; [lia|]. eapply Forall_impl; [|exact Hu]. cbn. intros. lia.
    - unfold one_char. destruct (i32 v =? 0) eqn:E; cbn; split; auto. repeat constructor; unfold i32 in *; lia. }
  destruct A as [A B]. split; auto. split; auto. clear H B name. assert (X : forall c, (length (unit16_of c) <= 2)%nat) by (intros c; unfold unit16_of; destruct (c <? 65536); cbn; lia).
  destruct u as [|a [|b [|]]]; cbn [length map flat_map] in *; rewrite ?app_nil_r, ?app_length in *; try lia. pose proof (X (u32 a)). lia. pose proof (X (u32 a)); pose proof (X (u32 b)). lia.
Qed.
Lemma known_nz : forall w name t, known w name t -> Forall (fun c => c <> 0) t.
Proof.
  intros w name t [_ H]. destruct (reference name) as [u|] eqn:R; [|discriminate]. injection H as <-. destruct (ref_units name u R) as (_ & F & _). destruct w; cbn [wide].
  - clear R. induction F as [|c u [H1 H2] F IH]; cbn [map flat_map]; auto. apply Forall_app; split; auto. apply unit16_nz; unfold u32; lia.
  - eapply Forall_impl; [|exact F]; intros c Hc; apply Hc.
Qed.
Lemma cast_widened : forall w c, -128 <= c < 128 -> cast_unit w c = widened w c.
Proof. intros w c H. destruct w; cbn [cast_unit widened]; unfold u16, i32; lia. Qed.
Lemma code_point_nz : forall w src t rest, code_point w src t rest -> chars src -> Forall (fun c => c <> 0) src -> Forall (fun c => c <> 0) t.
Proof.
  intros w src t rest H C N. destruct H as [name t rest H|c rest H]; [eapply known_nz; eauto|]. inversion C; inversion N; subst. repeat constructor. destruct w; cbn [widened]; lia.
Qed.
Lemma known_fun : forall w name t t', known w name t -> known w name t' -> t = t'.
Proof. intros w name t t' [_ A] [_ B]. congruence. Qed.

(** ** the code point at the beginning of a text, as a function *)
Definition glyph (w : width) (l : list Z) : option (list Z * nat) :=
  match l with
  | [] => None
  | c :: r =>
      match (if c =? 38 then entity_tail isspace r else None) with
      | Some k => match reference (firstn (k - 1) r) with Some u => Some (wide w u, S k) | None => Some ([widened w c], 1%nat) end
      | None => Some ([widened w c], 1%nat)
      end
  end.
Lemma entity_tail_spec : forall l, Forall (fun c => c <> 0) l ->
  match entity_tail isspace l with
  | Some k => exists name rest, l = name ++ 59 :: rest /\ Forall ref_char name /\ k = S (length name)
  | None => forall name rest, l = name ++ 59 :: rest -> ~ Forall ref_char name
  end.
Proof.
  induction l as [|c l IH]; intros F. { intros name rest E. destruct name; discriminate. }
  inversion F as [|x y N F']; subst. specialize (IH F'). cbn [entity_tail]. destruct (c =? 59) eqn:E. { exists [], l. replace c with 59 by lia. auto. }
  destruct ((c =? 38) || isspace c) eqn:B.
  - intros name rest Q R. destruct name as [|d name]; [injection Q as -> _; lia|]. injection Q as -> _. inversion R as [|x y Hd _]; subst. apply ref_char_dec in Hd as [_ Hd]. apply orb_false_iff in Hd as [Hd1 Hd2]. apply orb_false_iff in Hd1 as [_ Hd1]. rewrite Hd1, Hd2 in B. discriminate.
  - destruct (entity_tail isspace l) as [k|]; cbn [option_map].
    + destruct IH as (name & rest & -> & R & ->). exists (c :: name), rest. split; auto. split; auto. constructor; auto. apply ref_char_dec. split; auto. apply orb_false_iff in B as [B1 B2]. rewrite B1, B2. replace (c =? 0) with false by lia. reflexivity.
    + intros name rest Q R. destruct name as [|d name]; [injection Q as -> _; lia|]. injection Q as -> Q. inversion R; subst. eapply IH; eauto.
Qed.
Lemma glyph_spec : forall w l, Forall (fun c => c <> 0) l -> l <> [] ->
  exists src t rest, l = src ++ rest /\ code_point w src t rest /\ glyph w l = Some (t, length src).
Proof.
  intros w l F N. destruct l as [|c r]; [congruence|]. inversion F as [|x y Nc F']; subst. unfold glyph.
  assert (RAW : (forall name t rest', c :: r = 38 :: name ++ 59 :: rest' -> ~ known w name t) -> exists src t rest, c :: r = src ++ rest /\ code_point w src t rest /\ Some ([widened w c], 1%nat) = Some (t, length src)).
  { intros H. exists [c], [widened w c], r. split; auto. split; [constructor; auto|reflexivity]. }
  destruct (c =? 38) eqn:E.
  - pose proof (entity_tail_spec r F') as T. destruct (entity_tail isspace r) as [k|].
    + destruct T as (name & rest & -> & R & ->). replace (S (length name) - 1)%nat with (length name) by lia. rewrite firstn_app, Nat.sub_diag, firstn_all, app_nil_r.
      destruct (reference name) as [u|] eqn:RU.
      * exists (38 :: name ++ [59]), (wide w u), rest. split. { replace c with 38 by lia. cbn [app]. rewrite <- app_assoc. reflexivity. } split. { constructor. split; auto. rewrite RU. reflexivity. }
        cbn [length]. rewrite app_length. cbn [length]. do 2 f_equal. lia.
      * apply RAW. intros name' t rest' Q [R' K]. injection Q as _ Q. destruct (ref_unique _ _ _ _ R R' Q) as [<- _]. rewrite RU in K. discriminate.
    + apply RAW. intros name' t rest' Q [R' K]. injection Q as _ Q. eapply T; eauto.
  - apply RAW. intros name' t rest' Q. injection Q as Q _. lia.
Qed.
(** a text starts with exactly one code point *)
Theorem code_point_unique : forall w l src t rest src' t' rest', l = src ++ rest -> code_point w src t rest -> l = src' ++ rest' -> code_point w src' t' rest' -> src = src' /\ t = t' /\ rest = rest'.
Proof.
  intros w l src t rest src' t' rest' E C E' C'. subst l. destruct C as [name t rest K|c rest K], C' as [name' t' rest' K'|c' rest' K'].
  - cbn [app] in E'. rewrite <- !app_assoc in E'. cbn [app] in E'. injection E' as E'. destruct K as [F1 R1], K' as [F2 R2]. destruct (ref_unique _ _ _ _ F1 F2 E') as [<- <-]. split; auto. split; auto. congruence.
  - exfalso. cbn [app] in E'. rewrite <- app_assoc in E'. cbn [app] in E'. eapply K'; [symmetry; exact E'|exact K].
  - exfalso. cbn [app] in E'. rewrite <- app_assoc in E'. cbn [app] in E'. eapply K; [exact E'|exact K'].
  - cbn [app] in E'. injection E' as -> ->. auto.
Qed.
Lemma glyph_iff : forall w l t n, Forall (fun c => c <> 0) l -> (glyph w l = Some (t, n) <-> exists src rest, l = src ++ rest /\ n = length src /\ code_point w src t rest).
Proof.
  intros w l t n F. split.
  - intros G. destruct l as [|c r]; [discriminate|]. destruct (glyph_spec w (c :: r) F ltac:(discriminate)) as (src & t' & rest & E & C & G'). rewrite G' in G. injection G as -> <-. exists src, rest. auto.
  - intros (src & rest & E & -> & C). assert (N : l <> []). { intros ->. destruct C; cbn in E; discriminate. }
    destruct (glyph_spec w l F N) as (src' & t' & rest' & E' & C' & G'). destruct (code_point_unique w l _ _ _ _ _ _ E C E' C') as (<- & <- & <-). exact G'.
Qed.

Lemma skipn_tl : forall (A : Type) s (l : list A), skipn (S s) l = tl (skipn s l).
Proof. intros A. induction s; intros [|x l]; try reflexivity. exact (IHs l). Qed.

(** ** the tests of texts *)
Definition same_text (f : Z -> Z) (chr t : list Z) : bool := if list_eq_dec Z.eq_dec (map f t) (map f chr) then true else false.
Definition same_cp (tolow : Z -> Z) (chr t : list Z) (fl : pflags) : bool := same_text (if fl_ci fl then tolow else fun c => c) chr t.
Lemma zstr_all : forall t, Forall (fun c => c <> 0) t -> zstr (length t) (t ++ [0]) = t.
Proof. induction 1; cbn; auto. replace (x =? 0) with false by lia. congruence. Qed.
Theorem same_cp_iff : forall tolow chr t fl, same_cp tolow chr t fl = true <-> if fl_ci fl then map tolow t = map tolow chr else t = chr.
Proof. intros. unfold same_cp, same_text. destruct (fl_ci fl); rewrite ?map_id; destruct (list_eq_dec _ _ _); split; intros; congruence. Qed.
(** C228: the classes *)
Theorem space_text_iff : forall wsp t fl, space_text wsp t fl = true <-> (fl_ml fl = true \/ forall r, t <> 10 :: r /\ t <> 13 :: r) /\ Forall (fun c => wsp c = true) t.
Proof.
  intros. unfold space_text. rewrite andb_true_iff, orb_true_iff, forallb_forall, Forall_forall. unfold breaks, islbreak. destruct t as [|c t].
  - split; (intros [A B]; split; [|exact B]); auto; right; split; discriminate.
  - split; (intros [A B]; split; [|exact B]).
    + destruct A as [A|A]; auto. right. intros r. split; intros Q; injection Q as -> _; discriminate.
    + destruct A as [A|A]; auto. right. destruct (c =? 10) eqn:E1; [exfalso; apply (proj1 (A t)); f_equal; lia|]. destruct (c =? 13) eqn:E2; [exfalso; apply (proj2 (A t)); f_equal; lia|]. reflexivity.
Qed.
Theorem punct_text_iff : forall wpu t fl, punct_text wpu t fl = true <-> Forall (fun c => wpu c = true) t.
Proof. intros. unfold punct_text. rewrite forallb_forall, Forall_forall. tauto. Qed.
Theorem space_or_punct_text_iff : forall wsp wpu t fl, space_or_punct_text wsp wpu t fl = true <->
  (fl_ml fl = true \/ forall r, t <> 10 :: r /\ t <> 13 :: r) /\ Forall (fun c => wsp c = true \/ wpu c = true) t.
Proof.
  intros. pose proof (space_text_iff (fun c => wsp c || wpu c) t fl) as H. unfold space_text in H. unfold space_or_punct_text. rewrite H.
  split; (intros [A B]; split; [exact A|]); (eapply Forall_impl; [|exact B]); cbn; intros c Hc; apply orb_true_iff; auto.
Qed.
Fixpoint first_occ (f : Z -> Z) (set t : list Z) (k : nat) : option nat :=
  if list_eq_dec Z.eq_dec (map f (firstn (length t) set)) (map f t) then Some k
  else match set with [] => None | _ :: r => first_occ f r t (S k) end.
Lemma occ_prefix : forall (f : Z -> Z) set t, (exists mid rest, set = mid ++ rest /\ map f mid = map f t) <-> map f (firstn (length t) set) = map f t.
Proof.
  intros f set t. split.
  - intros (mid & rest & -> & E). assert (L : length mid = length t) by (apply (f_equal (@length Z)) in E; rewrite !map_length in E; exact E). rewrite <- L, firstn_app, Nat.sub_diag, firstn_all, app_nil_r. exact E.
  - intros E. exists (firstn (length t) set), (skipn (length t) set). rewrite firstn_skipn. auto.
Qed.
Definition shifted (k : nat) (r : option nat) : option nat := match r with Some j => Some (k + j)%nat | None => None end.
Lemma first_occ_shift : forall (f : Z -> Z) set t k, first_occ f set t k = shifted k (first_occ f set t 0).
Proof.
  induction set as [|c set IH]; intros t k; cbn [first_occ]; destruct (list_eq_dec _ _ _); cbn [shifted]; rewrite ?Nat.add_0_r; auto.
  rewrite (IH t (S k)), (IH t 1%nat). destruct (first_occ f set t 0); cbn [shifted]; auto. f_equal. lia.
Qed.
Lemma first_occ_least : forall f set t, least_pos (occurs_at f set t) (first_occ f set t 0).
Proof.
  induction set as [|c set IH]; intros t; cbn [first_occ]; destruct (list_eq_dec _ _ _) as [Q|Q].
  - cbn [least_pos]. split; [apply occurs_0, occ_prefix, Q|lia].
  - cbn [least_pos]. intros j H. pose proof (occurs_len _ _ _ _ H) as L. cbn [length] in L. replace j with 0%nat in H by lia. apply occurs_0, occ_prefix in H. congruence.
  - cbn [least_pos]. split; [apply occurs_0, occ_prefix, Q|lia].
  - rewrite first_occ_shift. specialize (IH t). destruct (first_occ f set t 0) as [k|]; cbn [shifted least_pos] in *.
    + destruct IH as [A B]. split; [apply occurs_S; exact A|]. intros j Hj. destruct j; [intros H; apply occurs_0, occ_prefix in H; congruence|]. rewrite occurs_S. apply B. lia.
    + intros j. destruct j; [intros H; apply occurs_0, occ_prefix in H; congruence|]. rewrite occurs_S. apply IH.
Qed.
Lemma least_unique : forall P a b, least_pos P a -> least_pos P b -> a = b.
Proof.
  intros P [a|] [b|]; cbn [least_pos]; intros A B; auto.
  - destruct A as [A1 A2], B as [B1 B2]. f_equal. destruct (Nat.lt_trichotomy a b) as [L|[L|L]]; auto; exfalso; [eapply B2|eapply A2]; eauto.
  - exfalso. eapply B, A.
  - exfalso. eapply A, B.
Qed.
Definition fold_of (tolow : Z -> Z) (fl : pflags) : Z -> Z := if fl_ci fl then tolow else fun c => c.
Definition in_set (tolow : Z -> Z) (set t : list Z) (fl : pflags) : bool := match first_occ (fold_of tolow fl) set t 0 with Some _ => true | None => false end.
Theorem in_set_iff : forall tolow set t fl, in_set tolow set t fl = true <-> exists k, occurs_at (fold_of tolow fl) set t k.
Proof.
  intros. unfold in_set. pose proof (first_occ_least (fold_of tolow fl) set t) as H. destruct (first_occ _ _ _ _); cbn [least_pos] in H; split; intros; try discriminate; auto; [exists n; apply H|]. destruct H0 as (k & K). exfalso. eapply H, K.
Qed.
(** A character is in the set when the set holds it; *)
Theorem in_set_one : forall tolow set c fl, in_set tolow set [c] fl = true <-> exists d, In d set /\ fold_of tolow fl d = fold_of tolow fl c.
Proof.
  intros. rewrite in_set_iff. split.
  - intros (k & pre & post & -> & _ & mid & rest & -> & E). destruct mid as [|d [|]]; try discriminate. injection E as E. exists d. split; auto. apply in_or_app. right. left. reflexivity.
  - intros (d & D & E). apply in_split in D as (a & b & ->). exists (length a), a, (d :: b). split; auto. split; auto. exists [d], b. split; auto. cbn. rewrite E. reflexivity.
Qed.
(** ... a reference without text is in every set. *)
Theorem in_set_empty : forall tolow set fl, in_set tolow set [] fl = true.
Proof. intros. apply in_set_iff. exists 0%nat, [], set. split; auto. split; auto. exists [], set. auto. Qed.
Lemma eat_iff : forall f t str r, eat f t str = Some r <-> exists h, str = h ++ r /\ map f t = map f h.
Proof.
  intros f. induction t as [|c t IH]; intros str r; cbn [eat].
  - split; [intros H; injection H as ->; exists []; auto|]. intros (h & -> & E). destruct h; [reflexivity|discriminate].
  - destruct str as [|d str].
    + split; [discriminate|]. intros (h & E & M). destruct h; [discriminate|]. discriminate.
    + destruct (f d =? f c) eqn:Q.
      * rewrite IH. split; intros (h & E & M).
        -- exists (d :: h). subst str. split; auto. cbn. f_equal; auto. lia.
        -- destruct h as [|x h]; [discriminate|]. injection E as -> E. injection M as _ M. exists h. auto.
      * split; [discriminate|]. intros (h & E & M). destruct h as [|x h]; [discriminate|]. injection E as -> E. injection M as M _. lia.
Qed.
Lemma map_length_eq : forall (f : Z -> Z) t h h' r r', map f t = map f h -> map f t = map f h' -> h ++ r = h' ++ r' -> h = h' /\ r = r'.
Proof.
  intros f t h h' r r' A B E. assert (L : length h = length h') by (apply (f_equal (@length Z)) in A, B; rewrite !map_length in A, B; congruence). clear - L E. revert h' L E.
  induction h as [|x h IH]; intros [|y h'] L E; try discriminate; auto. injection E as -> E. injection L as L. destruct (IH h' L E). split; congruence.
Qed.
(** A single character of scope identifiers is a hyphen, an underscore, a colon or alphanumeric; a longer text is all alphanumeric. *)
Theorem scope_id_text_iff : forall walnum t fl, scope_id_text walnum t fl = true <->
  t = [45] \/ t = [95] \/ t = [58] \/ Forall (fun c => walnum c = true) t.
Proof.
  intros. unfold scope_id_text. rewrite orb_true_iff, forallb_forall, Forall_forall. split.
  - intros [H|H]; auto. unfold single in H. destruct t as [|c [|]]; try discriminate. cbn [existsb] in H.
    destruct (Z.eqb_spec c 45) as [->|]; auto. destruct (Z.eqb_spec c 95) as [->|]; auto. destruct (Z.eqb_spec c 58) as [->|]; auto. discriminate.
  - intros [->|[->|[->|H]]]; auto.
Qed.
(** A plain or referenced single character is taken exactly when the plain-text test takes it. *)
Theorem url_text_one : forall walnum c fl,
  username_text walnum [c] fl = username_cu walnum c /\ password_text walnum [c] fl = password_cu walnum c /\ path_text walnum [c] fl = path_cu walnum c.
Proof. intros. unfold username_text, password_text, path_text, username_cu, password_cu, path_cu, single. cbn [forallb]. rewrite andb_true_r. auto. Qed.

Section Props.
Context (w : width) (txt : list Z) (sp : Z -> bool) (SP : forall c, sp c = isspace c) (FIT : fit w txt).
Local Notation text_ok := (text_ok txt).
Local Notation vis := (vis txt).
Local Notation element := (element txt).

Lemma vis_nz : forall s e, Forall (fun c => c <> 0) (vis s e).
Proof. intros s e. unfold ParserSpec.vis. apply zstr_as_firstn. Qed.
Lemma vis_split : forall s e, exists r, skipn s txt = vis s e ++ r.
Proof. intros s e. unfold ParserSpec.vis. destruct (zstr_as_firstn (e - s) (skipn s txt)) as [E _]. exists (skipn (length (zstr (e - s) (skipn s txt))) (skipn s txt)). transitivity (firstn (length (zstr (e - s) (skipn s txt))) (skipn s txt) ++ skipn (length (zstr (e - s) (skipn s txt))) (skipn s txt)); [symmetry; apply firstn_skipn|rewrite E; reflexivity]. Qed.
Lemma vis_chars : forall s e, chars (vis s e).
Proof.
  intros s e. destruct FIT as [C _]. destruct (vis_split s e) as (r & E). unfold chars in *. rewrite <- (firstn_skipn s txt) in C. apply Forall_app in C as [_ C]. rewrite E in C. apply Forall_app in C. apply C.
Qed.
Lemma entity_tail_ext : forall l, entity_tail sp l = entity_tail isspace l.
Proof. induction l; auto. cbn [entity_tail]. rewrite SP, IHl. reflexivity. Qed.

(** C227: next_sgml_cp takes the code point at the start. *)
Theorem next_sgml_cp_spec : forall s e, text_ok s e -> vis s e <> [] ->
  exists src t rest, vis s e = src ++ rest /\ code_point w src t rest /\ next_sgml_cp w txt sp s e = Ret (t, (s + length src)%nat).
Proof.
  intros s e T N. destruct (glyph_spec w (vis s e) (vis_nz s e) N) as (src & t & rest & E & C & G). exists src, t, rest. split; auto. split; auto.
  destruct (vis s e) as [|c v] eqn:V; [congruence|]. destruct (vis_cons txt s e c v T V) as (L & T' & V' & Nc & NE).
  unfold next_sgml_cp, rd. rewrite NE. cbn [obind]. unfold glyph in G. pose proof (vis_chars s e) as Ch. rewrite V in Ch. inversion Ch as [|x y Hc _]; subst x y. rewrite (cast_widened w c Hc).
  destruct (c =? 38) eqn:Q.
  2: { injection G as <- <-. rewrite Nat.add_1_r. reflexivity. }
  rewrite (entity_end_spec txt sp (S (e - s)) (S s) e T') by (pose proof (vis_end txt (S s) e T'); lia). rewrite V', entity_tail_ext. cbn [obind].
  assert (F : Forall (fun c => c <> 0) v). { pose proof (vis_nz s e) as F. rewrite V in F. inversion F; auto. }
  pose proof (entity_tail_spec v F) as TL. destruct (entity_tail isspace v) as [k|]; cbn [option_map].
  2: { injection G as <- <-. rewrite Nat.add_1_r. reflexivity. }
  destruct TL as (name & r & -> & R & ->). replace (S (length name) - 1)%nat with (length name) in G by lia. rewrite firstn_app, Nat.sub_diag, firstn_all, app_nil_r in G.
  replace (S s + S (length name) - 1 - s - 1)%nat with (length name) by lia.
  destruct (vis_split s e) as (r2 & E2). rewrite V in E2. assert (E3 : skipn (S s) txt = name ++ 59 :: r ++ r2).
  { rewrite skipn_tl, E2. cbn [tl app]. rewrite <- app_assoc. reflexivity. }
  unfold entity_w. rewrite E3. rewrite sgml2uni_spec.
  - rewrite firstn_app, Nat.sub_diag, firstn_all, app_nil_r. cbn [obind]. destruct (reference name) as [u|] eqn:RU.
    2: { cbn [obind]. injection G as <- <-. rewrite Nat.add_1_r. reflexivity. }
    injection G as <- <-. destruct w eqn:W.
    + destruct (ref_units name u RU) as (_ & FU & LU). unfold utf32_to_wstr. rewrite to16_units. 2: { apply Forall_forall. intros x Hx. apply in_map_iff in Hx as (d & <- & Hd). unfold u32. lia. }
      replace (length (flat_map unit16_of (map u32 u)) <=? 4)%nat with true by lia. cbn [obind wide]. do 2 f_equal. lia.
    + unfold in_buf. destruct FIT as [_ NN]. specialize (NN eq_refl). destruct name as [|h [|a nm]].
      * cbn [length]. cbn [Nat.ltb Nat.leb obind wide]. do 2 f_equal. lia.
      * cbn [length]. cbn [Nat.ltb Nat.leb obind wide]. do 2 f_equal. lia.
      * replace (length (h :: a :: nm) <? 2)%nat with false by (cbn [length]; lia). unfold rd. cbn [app nth_error obind]. destruct (h =? 35) eqn:H35; [exfalso|cbn [obind wide]; do 2 f_equal; lia].
        inversion R as [|x y _ R']; subst x y. apply (NN (firstn s txt) a nm (r ++ r2)); auto. rewrite <- (firstn_skipn s txt) at 1. f_equal. rewrite E2. replace c with 38 by lia. replace h with 35 by lia. cbn [app]. rewrite <- app_assoc. reflexivity.
  - rewrite app_length. lia.
  - rewrite firstn_app, Nat.sub_diag, firstn_all, app_nil_r. eapply Forall_impl; [|exact R]. intros x Hx. apply Hx.
  - destruct name; [right; reflexivity|left; cbn [length]; lia].
Qed.
Lemma next_glyph : forall s e, text_ok s e -> vis s e <> [] -> exists t n, glyph w (vis s e) = Some (t, n) /\ next_sgml_cp w txt sp s e = Ret (t, (s + n)%nat) /\
  (0 < n <= length (vis s e))%nat /\ Forall (fun c => c <> 0) t.
Proof.
  intros s e T N. destruct (next_sgml_cp_spec s e T N) as (src & t & rest & E & C & H). exists t, (length src). split; [apply glyph_iff; [apply vis_nz|]; exists src, rest; auto|]. split; auto.
  split. { rewrite E, app_length. destruct C; cbn [length]; lia. }
  pose proof (vis_nz s e) as F. pose proof (vis_chars s e) as Ch. unfold chars in Ch. rewrite E in F, Ch. apply Forall_app in F as [F _], Ch as [Ch _]. eapply code_point_nz; eauto.
Qed.

(** ** one code point, tested *)
Definition cp_fn (r : list Z -> pflags -> bool) (invert : bool) : pfun := fun s e fl =>
  match glyph w (vis s e) with Some (t, n) => if xorb (r t fl) invert then Some (s + n)%nat else None | None => None end.
(** ... which is to say *)
Theorem cp_fn_iff : forall r invert s e fl x, cp_fn r invert s e fl = Some x <->
  exists src t rest, vis s e = src ++ rest /\ code_point w src t rest /\ x = (s + length src)%nat /\ r t fl = negb invert.
Proof.
  intros r invert s e fl x. unfold cp_fn. split.
  - destruct (glyph w (vis s e)) as [[t n]|] eqn:G; [|discriminate]. apply glyph_iff in G as (src & rest & E & -> & C); [|apply vis_nz]. intros H. exists src, t, rest. split; auto. split; auto. destruct (r t fl), invert; cbn in H |- *; try discriminate; injection H as <-; auto.
  - intros (src & t & rest & E & C & -> & R). replace (glyph w (vis s e)) with (Some (t, length src)) by (symmetry; apply glyph_iff; [apply vis_nz|exists src, rest; auto]). rewrite R. destruct invert; reflexivity.
Qed.
Lemma cp_fn_within : forall r invert s e fl x, text_ok s e -> cp_fn r invert s e fl = Some x -> (s < x <= s + length (vis s e))%nat.
Proof.
  intros r invert s e fl x T H. apply cp_fn_iff in H as (src & t & rest & E & C & -> & _). rewrite E, app_length. destruct C; cbn [length]; lia.
Qed.
Theorem cp_advances : forall r invert, advances txt (cp_fn r invert).
Proof. intros r invert s e fl x T H. apply (cp_fn_within r invert s e fl x T) in H. lia. Qed.
Theorem one_cp_spec : forall r invert, element (one_cp w txt sp r invert) leaf (cp_fn r invert) no_vals.
Proof.
  intros r invert. split; try reflexivity; try (intros st H; split; [exact H|reflexivity]).
  - intros st s e fl W H. cbn [one_cp p_match]. rewrite (peek_spec txt s e H). cbn [obind]. unfold cp_fn. destruct (vis s e) as [|c v] eqn:V; cbn [hd_error].
    + eexists. split; [reflexivity|]. split; [exact W|reflexivity].
    + destruct (next_glyph s e H) as (t & n & G & E & _); [rewrite V; discriminate|]. rewrite V in G. rewrite G, E. cbn [obind].
      destruct (r t fl), invert; cbn [xorb andb orb negb]; (eexists; split; [reflexivity|]; split; [exact W|]; try split; try reflexivity; exact W).
  - intros s e fl x H E. pose proof (cp_fn_within r invert s e fl x H E). lia.
Qed.

(** C227: sgml_cp tells whether the code point at the start has the text of the given one. *)
Theorem sgml_cp_spec : forall tolow, (forall c, tolow c = 0 <-> c = 0) -> forall chr invert, Forall (fun c => c <> 0) chr ->
  element (sgml_cp w txt sp tolow chr invert) leaf (cp_fn (same_cp tolow chr) invert) no_vals.
Proof.
  intros tolow Ht chr invert Hchr. split; try reflexivity; try (intros st H; split; [exact H|reflexivity]).
  - intros st s e fl W H. cbn [sgml_cp p_match]. rewrite (peek_spec txt s e H). cbn [obind]. unfold cp_fn. destruct (vis s e) as [|c v] eqn:V; cbn [hd_error].
    + eexists. split; [reflexivity|]. split; [exact W|reflexivity].
    + destruct (next_glyph s e H) as (t & n & G & E & _ & Nt); [rewrite V; discriminate|]. rewrite V in G. rewrite G, E. cbn [obind].
      set (fold := if fl_ci fl then tolow else fun c => c). assert (Hf : forall c, fold c = 0 <-> c = 0) by (subst fold; destruct (fl_ci fl); auto; tauto).
      destruct (strnicmp_zero tolow fold Hf (length t) (t ++ [0]) chr Hchr) as (d & -> & Hd). { left. rewrite app_length. lia. } rewrite zstr_all in Hd by auto. cbn [obind].
      replace (d =? 0) with (same_cp tolow chr t fl).
      2: { unfold same_cp, same_text. fold fold. destruct (list_eq_dec _ _ _) as [Q|Q]; [rewrite <- Hd in Q; lia|]. destruct (d =? 0) eqn:D; auto. exfalso. apply Q, Hd. lia. }
      destruct (same_cp tolow chr t fl), invert; cbn [xorb andb orb negb]; (eexists; split; [reflexivity|]; split; [exact W|]; try split; try reflexivity; exact W).
  - intros s e fl x H E. pose proof (cp_fn_within _ invert s e fl x H E). lia.
Qed.

Theorem sgml_class_spec : forall wsp wpu invert,
  element (sgml_space_cp w txt sp wsp invert) leaf (cp_fn (space_text wsp) invert) no_vals /\
  element (sgml_punct_cp w txt sp wpu invert) leaf (cp_fn (punct_text wpu) invert) no_vals /\
  element (sgml_space_or_punct_cp w txt sp wsp wpu invert) leaf (cp_fn (space_or_punct_text wsp wpu) invert) no_vals.
Proof. intros. split; [|split]; apply one_cp_spec. Qed.

(** ** C229: the set *)
(** sgml_cp_set matches when the text of the code point at the start occurs in the set; hit_offset is its first place *)
Theorem sgml_cp_set_spec : forall tolow set invert, Forall (fun c => c <> 0) set ->
  element (sgml_cp_set w txt sp tolow set invert) (fun _ => True) (cp_fn (in_set tolow set) invert)
    (fun s e fl => match glyph w (vis s e) with Some (t, _) => [opt_z (first_occ (fold_of tolow fl) set t 0)] | None => [-1] end).
Proof.
  intros tolow set invert Hs. split; auto; try (intros st H; split; [exact H|reflexivity]).
  - intros st s e fl W H. cbn [sgml_cp_set p_match]. rewrite (peek_spec txt s e H). cbn [obind]. unfold cp_fn. destruct (vis s e) as [|c v] eqn:V; cbn [hd_error].
    + eexists. split; [reflexivity|]. split; [exact W|reflexivity].
    + destruct (next_glyph s e H) as (t & n & G & E & _ & Nt); [rewrite V; discriminate|]. rewrite V in G. rewrite G, E. cbn [obind].
      assert (X : (if fl_ci fl then strnistr tolow (set ++ [0]) (length set) (t ++ [0]) else strnstr (set ++ [0]) (length set) (t ++ [0])) = Ret (first_occ (fold_of tolow fl) set t 0)).
      { assert (Y : strnistr (fold_of tolow fl) (set ++ [0]) (length set) (t ++ [0]) = Ret (first_occ (fold_of tolow fl) set t 0)).
        { destruct (strnstr_spec (fold_of tolow fl) (set ++ [0]) (length set) (t ++ [0])) as (r & -> & Hr). { left. rewrite app_length. lia. } { apply in_or_app. right. left. reflexivity. }
          f_equal. rewrite zstr_all in Hr by auto. assert (CZ : cz (t ++ [0]) = t). { clear - Nt. unfold cz. rewrite app_length. cbn [length]. induction Nt; cbn; auto. replace (x =? 0) with false by lia. f_equal. auto. } rewrite CZ in Hr.
          eapply least_unique; [exact Hr|apply first_occ_least]. }
        unfold fold_of in *. destruct (fl_ci fl); exact Y. }
      rewrite X. cbn [obind]. unfold in_set. destruct (first_occ (fold_of tolow fl) set t 0) as [k|], invert; cbn [negb xorb]; (eexists; split; [reflexivity|]; split; [exact W|]; try split; reflexivity).
  - intros s e fl x H E. pose proof (cp_fn_within _ invert s e fl x H E). lia.
Qed.

(** ** C230: strings *)
Lemma spells_inv : forall f str l n, spells w f str l n -> (str = [] /\ n = 0%nat) \/
  (str <> [] /\ exists h str' src t rest n', str = h ++ str' /\ l = src ++ rest /\ code_point w src t rest /\ map f t = map f h /\ spells w f str' rest n' /\ n = (length src + n')%nat).
Proof. intros f str l n H. destruct H as [l|h str src t rest n N C M H]; [left; auto|right; split; auto]. exists h, str, src, t, rest, n. repeat (split; [solve [auto]|]). auto. Qed.
Lemma spells_fun : forall f str l n, spells w f str l n -> forall m, spells w f str l m -> n = m.
Proof.
  intros f str l n H. induction H as [l|h str src t rest n N C M H IH]; intros m H'; apply spells_inv in H'.
  - destruct H' as [[_ ->]|[X _]]; [reflexivity|congruence].
  - destruct H' as [[X _]|[_ (h' & str' & src' & t' & rest' & m' & Eh & El & C' & M' & S' & ->)]]; [congruence|].
    destruct (code_point_unique w _ _ _ _ _ _ _ eq_refl C El C') as (<- & <- & <-). destruct (map_length_eq f t h h' _ _ M M' Eh) as [<- <-]. f_equal. apply IH. exact S'.
Qed.
Lemma string_loop_spec : forall fuel f str y e, text_ok y e -> (length (vis y e) < fuel)%nat ->
  exists r, sgml_string_loop w txt sp fuel f str y e = Ret r /\ match r with Some x => exists n, spells w f str (vis y e) n /\ x = (y + n)%nat /\ (n <= length (vis y e))%nat | None => forall n, ~ spells w f str (vis y e) n end.
Proof.
  induction fuel as [|fuel IH]; intros f str y e T L; [lia|]. cbn [sgml_string_loop]. destruct str as [|d str].
  - eexists. split; [reflexivity|]. exists 0%nat. split; [constructor|]. split; lia.
  - set (ds := d :: str) in *. rewrite (peek_spec txt y e T). cbn [obind]. destruct (vis y e) as [|c v] eqn:V; cbn [hd_error].
    + eexists. split; [reflexivity|]. intros n H. apply spells_inv in H as [[X _]|[_ (h & str' & src & t & rest & n' & _ & E & C & _)]]; [discriminate|]. destruct C; discriminate.
    + destruct (next_sgml_cp_spec y e T) as (src & t & rest & E & C & H); [rewrite V; discriminate|]. rewrite H. cbn [obind]. rewrite V in E.
      assert (LS : (0 < length src)%nat) by (destruct C; cbn [length]; lia).
      destruct (vis_skip txt (length src) y e T) as [T' V']. { rewrite V, E, app_length. lia. }
      assert (VR : vis (y + length src) e = rest). { rewrite V', V, E, skipn_app, skipn_all, Nat.sub_diag. reflexivity. }
      destruct (eat f t ds) as [str'|] eqn:EA.
      * apply eat_iff in EA as (h & Eh & M). destruct (IH f str' (y + length src)%nat e T') as (r & Er & Hr). { rewrite VR. rewrite E, app_length in L. lia. }
        rewrite Er. exists r. split; auto. rewrite VR in Hr. destruct r as [x|].
        -- destruct Hr as (n & Hn & -> & Ln). exists (length src + n)%nat. split; [|split; [lia|rewrite E, app_length; lia]]. rewrite Eh, E. econstructor; eauto. rewrite <- Eh. discriminate.
        -- intros n Hn. apply spells_inv in Hn as [[X _]|[_ (h' & s2 & src' & t' & rest' & n' & Eh' & El & C' & M' & S' & ->)]]; [discriminate|].
           destruct (code_point_unique w (c :: v) _ _ _ _ _ _ E C El C') as (<- & <- & <-). rewrite Eh in Eh'. destruct (map_length_eq f t h h' _ _ M M' Eh') as [<- <-]. eapply Hr; eauto.
      * exists None. split; auto. intros n Hn. apply spells_inv in Hn as [[X _]|[_ (h' & s2 & src' & t' & rest' & n' & Eh' & El & C' & M' & S' & ->)]]; [discriminate|].
        destruct (code_point_unique w (c :: v) _ _ _ _ _ _ E C El C') as (<- & <- & <-). assert (X : eat f t ds = Some s2) by (apply eat_iff; exists h'; auto). congruence.
Qed.
(** sgml_string matches where code points spell the string, and takes no more of them than that needs *)
Theorem sgml_string_spec : forall tolow str, exists f, element (sgml_string_p w txt sp tolow str) leaf f no_vals /\
  forall s e fl x, text_ok s e -> (f s e fl = Some x <-> exists n, spells w (fold_of tolow fl) str (vis s e) n /\ x = (s + n)%nat).
Proof.
  intros tolow str. destruct (element_of txt (sgml_string_p w txt sp tolow str) leaf (fun s e fl x v => (exists n, spells w (fold_of tolow fl) str (vis s e) n /\ x = (s + n)%nat) /\ v = [])) as (f & g & El & Sp).
  - reflexivity.
  - intros st H. split; [exact H|reflexivity].
  - intros s e fl y v z w' T [(n & A & ->) ->] [(m & B & ->) ->]. split; auto. f_equal. eapply spells_fun; eauto.
  - intros st s e fl W T. cbn [sgml_string_p p_match]. fold (fold_of tolow fl). destruct (string_loop_spec (S (S (e - s))) (fold_of tolow fl) str s e T) as (r & -> & Hr). { pose proof (vis_end txt s e T). lia. }
    cbn [obind]. destruct r as [x|].
    + destruct Hr as (n & A & -> & Ln). do 2 eexists. split; [reflexivity|]. split; [exact W|]. exists (s + n)%nat. split; [split; [exists n; auto|exact W]|]. split; [reflexivity|]. unfold in_vis. lia.
    + do 2 eexists. split; [reflexivity|]. split; [exact W|]. split; [|reflexivity]. intros y v [(n & A & _) _]. eapply Hr; eauto.
  - exists f. split.
    + destruct El as [E1 E2 E3 E4]. constructor; auto. intros st s e fl W T. destruct (E2 st s e fl W T) as (st' & A & B & C). exists st'. split; auto. split; auto. destruct (f s e fl) as [x|]; auto. destruct C as [C _]. split; auto.
    + intros s e fl x T. destruct (Sp s e fl x T) as [A B]. rewrite A. split; [intros [H _]; exact H|]. intros H. split; auto.
      destruct (f s e fl) as [y|] eqn:F. * destruct (Sp s e fl y T) as [A' _]. rewrite F in A'. apply A'. reflexivity. * exfalso. eapply (proj1 B eq_refl). split; [exact H|reflexivity].
Qed.

(** ** C231: the characters of names and URLs *)
Definition dns_fn (walnum : Z -> bool) (idn : bool) (t : list Z) (fl : pflags) : bool :=
  match t with [c] => ((65 <=? c) && (c <=? 90)) || ((97 <=? c) && (c <=? 122)) || ((48 <=? c) && (c <=? 57)) || (c =? 45) | _ => false end || (idn && forallb walnum t).
Theorem sgml_dns_domain_char_spec : forall walnum idn,
  element (sgml_dns_domain_char w txt sp walnum idn) (fun _ => True) (cp_fn (dns_fn walnum idn) false)
    (fun s e fl => match glyph w (vis s e) with Some ([c], _) => if c =? 45 then [0] else [1] | _ => [1] end).
Proof.
  intros walnum idn. split; auto; try (intros st H; split; [exact H|reflexivity]).
  - intros st s e fl W H. cbn [sgml_dns_domain_char p_match]. rewrite (peek_spec txt s e H). cbn [obind]. unfold cp_fn. destruct (vis s e) as [|c v] eqn:V; cbn [hd_error].
    + eexists. split; [reflexivity|]. split; [exact W|reflexivity].
    + destruct (next_glyph s e H) as (t & n & G & E & _ & Nt); [rewrite V; discriminate|]. rewrite V in G. rewrite G, E. cbn [obind]. unfold dns_fn, single.
      destruct t as [|d [|d2 t]].
      * cbn [existsb orb]. destruct (idn && forallb walnum []); cbn [xorb]; (eexists; split; [reflexivity|]; split; [exact W|]; try split; reflexivity).
      * cbn [existsb]. rewrite orb_false_r. rewrite (Z.eqb_sym d 45). destruct (45 =? d) eqn:Q.
        -- replace d with 45 by lia. cbn [Z.leb Z.compare andb orb xorb]. eexists; split; [reflexivity|]; split; [exact W|]; split; reflexivity.
        -- rewrite orb_false_r. destruct (_ || _) ; [|destruct (idn && forallb walnum [d])]; cbn [orb xorb]; (eexists; split; [reflexivity|]; split; [exact W|]; try split; reflexivity).
      * cbn [orb]. destruct (idn && forallb walnum (d :: d2 :: t)); cbn [xorb]; (eexists; split; [reflexivity|]; split; [exact W|]; try split; reflexivity).
  - intros s e fl x H E. pose proof (cp_fn_within _ false s e fl x H E). lia.
Qed.
Theorem sgml_url_char_spec : forall walnum,
  element (sgml_ipv6_scope_id_char w txt sp walnum) leaf (cp_fn (scope_id_text walnum) false) no_vals /\
  element (sgml_url_username_char w txt sp walnum) leaf (cp_fn (username_text walnum) false) no_vals /\
  element (sgml_url_password_char w txt sp walnum) leaf (cp_fn (password_text walnum) false) no_vals /\
  element (sgml_url_path_char w txt sp walnum) leaf (cp_fn (path_text walnum) false) no_vals.
Proof. intros. split; [|split; [|split]]; apply one_cp_spec. Qed.
(** A DNS name written with SGML characters is matched exactly where there is one, and the longest. *)
Theorem sgml_dns_name_spec : forall walnum tolow idn abs, (forall c, tolow c = 0 <-> c = 0) -> (forall c, tolow c = tolow 46 <-> c = 46) -> walnum 46 = false ->
  let D := ESpec (sgml_dns_domain_char w txt sp walnum idn) (fun _ => True) (cp_fn (dns_fn walnum idn) false)
             (fun s e fl => match glyph w (vis s e) with Some ([c], _) => if c =? 45 then [0] else [1] | _ => [1] end) in
  let S := ESpec (sgml_cp w txt sp tolow [46] false) leaf (cp_fn (same_cp tolow [46]) false) no_vals in
  exists f, element (dns_name txt abs (es_P D) (es_P S)) (dns_wf D S) f no_vals /\
  forall s e fl y, text_ok s e -> (f s e fl = Some y <-> UrlSpec.longest (UrlSpec.dns_at e fl abs D S) s y) /\ (f s e fl = None <-> forall y, ~ UrlSpec.dns_at e fl abs D S s y).
Proof.
  intros walnum tolow idn abs H0 H46 W46 D S. destruct (dns_name_spec txt abs D S) as (f & A & _ & B).
  - apply sgml_dns_domain_char_spec.
  - apply sgml_cp_spec; auto. repeat constructor. lia.
  - apply cp_advances.
  - apply cp_advances.
  - intros x e fl T. cbn [es_f D S]. unfold cp_fn. destruct (glyph w (vis x e)) as [[t n]|] eqn:G; auto. rewrite !xorb_false_r. destruct (same_cp tolow [46] t fl) eqn:Q; auto. left. apply same_cp_iff in Q.
    assert (t = [46]). { destruct (fl_ci fl); auto. destruct t as [|c [|]]; try discriminate. injection Q as Q. apply H46 in Q. congruence. } subst t.
    unfold dns_fn. cbn [forallb]. rewrite W46, andb_false_r. reflexivity.
  - exists f. auto.
Qed.
End Props.

(** The decoder of sgml2strcat agrees: what sgml_string matches decodes to the string. *)
Lemma known_is_ref : forall name t, known U32 name t <-> is_ref U32 0 name t.
Proof. intros. unfold known, is_ref. assert (E : option_map (wide U32) (reference name) = option_map (text_of U32) (reference name)) by reflexivity. rewrite E. split; [intros [A B]; split; auto; split; auto; apply flagged_0|tauto]. Qed.
Lemma spells_segs : forall f str l n, spells U32 f str l n -> chars l -> exists segs, segmented U32 0 (firstn n l) segs /\ map f (flat_map (seg_dst (cast_unit U32)) segs) = map f str.
Proof.
  intros f str l n H. induction H as [l|h str src t rest n N C M H IH]; intros Ch.
  - exists []. split; [constructor|reflexivity].
  - apply Forall_app in Ch as [Cs Cr]. destruct (IH Cr) as (segs & S1 & S2). assert (E : firstn (length src + n) (src ++ rest) = src ++ firstn n rest). { rewrite firstn_app. rewrite firstn_all2 by lia. f_equal. f_equal. lia. } rewrite E.
    destruct C as [name t rest K|c rest K].
    + exists (Ref name t :: segs). split.
      * cbn [app]. rewrite <- app_assoc. cbn [app]. constructor; auto. apply known_is_ref. exact K.
      * cbn [flat_map seg_dst]. rewrite !map_app, S2, M. reflexivity.
    + exists (Raw c :: segs). split.
      * cbn [app]. constructor; auto. intros name t rest' Q R. apply (K name t (rest' ++ skipn n rest)); [|apply known_is_ref; exact R]. rewrite <- (firstn_skipn n rest) at 1. change (c :: firstn n rest ++ skipn n rest) with ((c :: firstn n rest) ++ skipn n rest). rewrite Q. cbn [app]. rewrite <- app_assoc. reflexivity.
      * cbn [flat_map seg_dst]. rewrite !map_app, S2. inversion Cs; subst. rewrite (cast_widened U32 c) by auto. rewrite M. reflexivity.
Qed.
Theorem sgml_string_decodes : forall txt sp, (forall c, sp c = isspace c) -> fit U32 txt -> forall tolow str st s e fl st', vals st = [] -> text_ok txt s e ->
  p_match (sgml_string_p U32 txt sp tolow str) st s e fl = Ret (st', true) ->
  exists x t m, iv st' = (s, x) /\ (s <= x)%nat /\ sgml2strcat U32 [] (firstn (x - s) (skipn s txt)) (x - s) 0 = Ret (t, m) /\ map (fold_of tolow fl) t = map (fold_of tolow fl) str.
Proof.
  intros txt sp SP FIT tolow str st s e fl st' Hv T H. destruct (sgml_string_spec U32 txt sp SP FIT tolow str) as (f & El & Sp).
  destruct (el_match _ _ _ _ _ El st s e fl Hv T) as (st2 & E & _ & R). rewrite E in H. injection H as -> F. destruct (f s e fl) as [x|] eqn:Fx; [|discriminate]. destruct R as [I _].
  apply Sp in Fx as (n & Hn & ->); auto. pose proof (el_within _ _ _ _ _ El s e fl) as W.
  destruct (spells_segs _ _ _ _ Hn (vis_chars U32 txt FIT s e)) as (segs & S1 & S2).
  assert (Ln : (n <= length (vis txt s e))%nat).
  { specialize (W (s + n)%nat T). assert (Q : f s e fl = Some (s + n)%nat) by (apply Sp; auto; exists n; auto). specialize (W Q). lia. }
  destruct (vis_split txt s e) as (r & Er). assert (Ef : firstn n (skipn s txt) = firstn n (vis txt s e)). { rewrite Er, firstn_app. replace (n - length (vis txt s e))%nat with 0%nat by lia. cbn. apply app_nil_r. }
  destruct (sgml2strcat_spec U32 [] (firstn n (vis txt s e)) n 0) as (segs' & S3 & S4). { left. rewrite firstn_length. lia. }
  assert (Z : zstr n (firstn n (vis txt s e)) = firstn n (vis txt s e)).
  { pose proof (vis_nz txt s e) as F2. clear - F2 Ln. revert n Ln. induction F2; intros n Ln; destruct n; cbn in *; auto; try lia. replace (x =? 0) with false by lia. f_equal. apply IHF2. lia. }
  rewrite Z in S3. pose proof (segmented_unique _ _ _ _ S1 _ S3) as ->. exists (s + n)%nat. do 2 eexists. split; [exact I|]. split; [lia|]. replace (s + n - s)%nat with n by lia. rewrite Ef, S4. split; [reflexivity|]. exact S2.
Qed.
(** The code point given to sgml_cp: the first one of the string *)
Theorem sgml_cp_chr_spec : forall w sp chr count, (forall c, sp c = isspace c) -> fit w chr -> readable count chr ->
  match zstr count chr with
  | [] => sgml_cp_chr w sp chr count = Ret []
  | l => exists src t rest, l = src ++ rest /\ code_point w src t rest /\ sgml_cp_chr w sp chr count = Ret t
  end.
Proof.
  intros w sp chr count SP FIT R. assert (T : text_ok chr 0 count). { split; [lia|]. split; [lia|]. rewrite Nat.sub_0_r. exact R. }
  assert (V : vis chr 0 count = zstr count chr). { unfold vis. rewrite Nat.sub_0_r. reflexivity. } unfold sgml_cp_chr. destruct count as [|count]; [destruct chr; reflexivity|]. cbn [Nat.eqb].
  pose proof (peek_spec chr 0 (S count) T) as P. unfold peek in P. cbn [Nat.ltb Nat.leb] in P. rewrite V in P. destruct (rd chr 0) as [c| |]; cbn [obind] in *; try discriminate.
  destruct (zstr (S count) chr) as [|d l] eqn:Q; cbn [hd_error] in P.
  - destruct (c =? 0); [reflexivity|discriminate].
  - destruct (c =? 0); [discriminate|]. destruct (next_sgml_cp_spec w chr sp SP FIT 0 (S count) T) as (src & t & rest & A & B & C); [rewrite V; discriminate|]. rewrite V in A. exists src, t, rest. rewrite C. cbn [obind]. auto.
Qed.

(** ** what is refuted *)
(** Where wchar_t has 32 bits, a numeric character reference makes the outcome undefined: the text "&#65;". *)
Theorem sgml_numeric_refuted : forall invert st fl, p_match (sgml_cp U32 [38; 35; 54; 53; 59; 0] isspace (fun c => c) [65] invert) st 0 5 fl = UB /\ sgml_cp_chr U32 isspace [38; 35; 54; 53; 59; 0] 5 = UB.
Proof. intros. split; vm_compute; reflexivity. Qed.
(** On Windows "&#0;", which has no text, is in every set, is a space and is punctuation, whatever these are; with [end] after it. *)
Theorem sgml_empty_refuted : forall set wsp wpu st fl, Forall (fun c => c <> 0) set -> let txt := [38; 35; 48; 59; 0] in
  (exists st', p_match (sgml_cp_set U16 txt isspace (fun c => c) set false) st 0 4 fl = Ret (st', true)) /\
  (exists st', p_match (sgml_space_cp U16 txt isspace wsp false) (new_pst [] []) 0 4 fl = Ret (st', true)) /\
  (exists st', p_match (sgml_punct_cp U16 txt isspace wpu false) (new_pst [] []) 0 4 fl = Ret (st', true)).
Proof.
  intros set wsp wpu st fl Hs txt. assert (F : fit U16 txt). { split; [repeat constructor; lia|discriminate]. } assert (T : text_ok txt 0 4). { split; [lia|]. split; [cbn; lia|]. left. cbn. lia. }
  assert (G : glyph U16 (vis txt 0 4) = Some ([], 4%nat)) by (vm_compute; reflexivity).
  split; [|split].
  - destruct (el_match _ _ _ _ _ (sgml_cp_set_spec U16 txt isspace (fun _ => eq_refl) F (fun c => c) set false Hs) st 0 4 fl I T) as (st' & E & _). exists st'. rewrite E. unfold cp_fn. rewrite G, in_set_empty. reflexivity.
  - destruct (el_match _ _ _ _ _ (proj1 (sgml_class_spec U16 txt isspace (fun _ => eq_refl) F wsp wpu false)) (new_pst [] []) 0 4 fl eq_refl T) as (st' & E & _). exists st'. rewrite E. unfold cp_fn. rewrite G. unfold space_text. cbn [breaks forallb negb]. rewrite orb_true_r. reflexivity.
  - destruct (el_match _ _ _ _ _ (proj1 (proj2 (sgml_class_spec U16 txt isspace (fun _ => eq_refl) F wsp wpu false))) (new_pst [] []) 0 4 fl eq_refl T) as (st' & E & _). exists st'. rewrite E. unfold cp_fn. rewrite G. reflexivity.
Qed.
Definition en_tolow (c : Z) : Z := if (65 <=? c) && (c <=? 90) then c + 32 else c.
(** "&lt;b" *)
Example sgml_cp_ex : fit U32 [38; 108; 116; 59; 98; 0] /\ text_ok [38; 108; 116; 59; 98; 0] 0 5 /\
  p_match (sgml_cp U32 [38; 108; 116; 59; 98; 0] isspace en_tolow [60] false) (new_pst [] []) 0 5 (PFlags false false) = Ret (Pst 0 4 [] [], true) /\
  p_match (sgml_string_p U32 [38; 108; 116; 59; 98; 0] isspace en_tolow [60; 66]) (new_pst [] []) 0 5 (PFlags true false) = Ret (Pst 0 5 [] [], true) /\
  p_match (sgml_string_p U32 [38; 108; 116; 59; 98; 0] isspace en_tolow [60; 66]) (new_pst [] []) 0 5 (PFlags false false) = Ret (Pst 1 0 [] [], false) /\
  p_match (sgml_cp_set U32 [38; 108; 116; 59; 98; 0] isspace en_tolow [62; 60] false) (new_pst [-1] []) 0 5 (PFlags false false) = Ret (Pst 0 4 [1] [], true).
Proof.
  split. { split; [repeat constructor; lia|]. intros _ a x name b E _. repeat (destruct a as [|? a]; cbn [app] in E; [discriminate|]; try discriminate; injection E as _ E). }
  split. { split; [lia|]. split; [cbn; lia|]. left. cbn. lia. }
  repeat split; vm_compute; reflexivity.
Qed.
(** on Windows numeric references have a text: "&#x1F600;" *)
Example sgml_wide_ex : sgml_cp_chr U16 isspace [38; 35; 120; 49; 70; 54; 48; 48; 59; 0] 9 = Ret [55357; 56832].
Proof. vm_compute. reflexivity. Qed.
