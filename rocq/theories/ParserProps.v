(** Properties C63 and following: the parser framework. *)
From Coq Require Import ZifyBool ZifyNat Permutation.
From Verif Require Import Base StringModel StringSpec StringProofs StringProps ParserModel ParserSpec.
Ltac Zify.zify_post_hook ::= Z.div_mod_to_equations.

Section Props.
Context (txt : list Z).
Local Notation text_ok := (text_ok txt).
Local Notation vis := (vis txt).
Local Notation element := (element txt).
Local Notation good := (good txt).

(** ** reading the text *)
Lemma skipn_at : forall s, (s < length txt)%nat -> exists c, nth_error txt s = Some c /\ skipn s txt = c :: skipn (S s) txt.
Proof.
  intros s. generalize txt. induction s; intros l H; destruct l as [|c l]; cbn in H; try lia. exists c; auto.
  destruct (IHs l) as (d & H1 & H2); [lia|]. exists d. cbn [nth_error skipn]. auto.
Qed.
Lemma text_lt : forall s e, text_ok s e -> (s < e)%nat -> (s < length txt)%nat.
Proof.
  intros s e (H1 & H2 & H3) L. destruct (Nat.eq_dec s (length txt)); [|lia]. subst s. rewrite skipn_all in H3. destruct H3 as [H3|[]]. cbn in H3. lia.
Qed.
Lemma peek_spec : forall s e, text_ok s e -> peek txt s e = Ret (hd_error (vis s e)).
Proof.
  intros s e H. unfold peek, vis. destruct (s <? e)%nat eqn:L.
  - destruct (skipn_at s (text_lt s e H ltac:(lia))) as (c & E1 & E2). unfold rd. rewrite E1, E2. cbn [obind]. replace (e - s)%nat with (S (e - S s)) by lia. cbn [zstr].
    destruct (c =? 0); reflexivity.
  - replace (e - s)%nat with 0%nat by lia. reflexivity.
Qed.
Lemma vis_cons : forall s e c r, text_ok s e -> vis s e = c :: r -> (s < e)%nat /\ text_ok (S s) e /\ vis (S s) e = r /\ c <> 0 /\ nth_error txt s = Some c.
Proof.
  intros s e c r H V. assert (L : (s < e)%nat). { destruct (Nat.ltb_spec s e); auto. unfold ParserSpec.vis in V. replace (e - s)%nat with 0%nat in V by lia. discriminate. }
  pose proof (text_lt s e H L) as Lt. destruct (skipn_at s Lt) as (d & E1 & E2). unfold ParserSpec.vis in V. rewrite E2 in V. replace (e - s)%nat with (S (e - S s)) in V by lia. cbn [zstr] in V.
  destruct (d =? 0) eqn:Z; [discriminate|]. injection V as -> V. split; auto. split. { split; [lia|]. split; [lia|]. destruct H as (_ & _ & H). rewrite E2 in H. destruct H as [H|H]; [left; cbn [length] in H; lia|].
    right. destruct H as [H|H]; auto. lia. }
  split; auto. split; [lia|auto].
Qed.
Lemma vis_skip : forall k s e, text_ok s e -> (k <= length (vis s e))%nat -> text_ok (s + k) e /\ vis (s + k) e = skipn k (vis s e).
Proof.
  induction k; intros s e H L. { rewrite Nat.add_0_r. auto. }
  destruct (vis s e) as [|c r] eqn:V; [cbn in L; lia|]. destruct (vis_cons s e c r H V) as (_ & H' & V' & _). rewrite <- Nat.add_succ_comm. rewrite <- V' in *. cbn [length] in L. apply IHk; auto. lia.
Qed.
Lemma vis_to : forall s e x, text_ok s e -> (s <= x <= s + length (vis s e))%nat -> text_ok x e /\ vis x e = skipn (x - s) (vis s e).
Proof. intros s e x H L. destruct (vis_skip (x - s) s e H ltac:(lia)) as [A B]. replace (s + (x - s))%nat with x in * by lia. auto. Qed.
Lemma vis_end : forall s e, text_ok s e -> (s + length (vis s e) <= e)%nat /\ (s + length (vis s e) <= length txt)%nat.
Proof. intros s e (H1 & H2 & H3). unfold ParserSpec.vis. pose proof (zstr_le (e - s) (skipn s txt)) as [A B]. rewrite skipn_length in B. lia. Qed.
Lemma vis_trans : forall s e x y, text_ok s e -> (s <= x <= s + length (vis s e))%nat -> (x <= y <= x + length (vis x e))%nat -> (s <= y <= s + length (vis s e))%nat.
Proof. intros s e x y H A B. destruct (vis_to s e x H A) as [_ V]. rewrite V, skipn_length in B. lia. Qed.
(** What is within sight holds no terminator, and is what the text holds there. *)
Theorem vis_is_text : forall s e i, text_ok s e -> (i < length (vis s e))%nat -> exists c, nth_error (vis s e) i = Some c /\ nth_error txt (s + i) = Some c /\ c <> 0 /\ (s + i < e)%nat.
Proof.
  intros s e i H L. destruct (vis_skip i s e H ltac:(lia)) as [H' V]. destruct (vis (s + i) e) as [|c r] eqn:Q.
  - assert (X : length (skipn i (vis s e)) = 0%nat) by (rewrite <- V; reflexivity). rewrite skipn_length in X. lia.
  - destruct (vis_cons _ _ _ _ H' Q) as (A & _ & _ & B & C). exists c. split; auto. rewrite <- (firstn_skipn i (vis s e)). rewrite nth_error_app2 by apply firstn_le_length. rewrite firstn_length, Nat.min_l, Nat.sub_diag by lia. rewrite <- V. reflexivity.
Qed.

(** ** one unit *)
Definition one_fn (r : Z -> pflags -> bool) (invert : bool) : pfun := fun s e fl =>
  match vis s e with c :: _ => if xorb (r c fl) invert then Some (S s) else None | [] => None end.
Definition no_vals : nat -> nat -> pflags -> list Z := fun _ _ _ => [].
Definition leaf (st : pst) : Prop := vals st = [].
Theorem one_cu_spec : forall r invert, element (one_cu txt r invert) leaf (one_fn r invert) no_vals.
Proof.
  intros r invert. split; try reflexivity; try (intros st H; split; [exact H|reflexivity]).
  - intros st s e fl W H. cbn [one_cu p_match]. rewrite (peek_spec s e H). cbn [obind]. unfold one_fn. destruct (vis s e) as [|c v]; cbn [hd_error].
    + eexists. split; [reflexivity|]. split; [exact W|reflexivity].
    + destruct (r c fl), invert; cbn [xorb andb orb negb]; (eexists; split; [reflexivity|]; split; [exact W|]; try split; try reflexivity; exact W).
  - intros s e fl x H E. unfold one_fn in E. destruct (vis s e); [discriminate|]. destruct (xorb _ _); [|discriminate]. injection E as <-. cbn [length]. lia.
Qed.
(** nothing, when something is left *)
Theorem noop_spec : element (noop txt) leaf (fun s e fl => match vis s e with _ :: _ => Some s | [] => None end) no_vals.
Proof.
  split; try reflexivity; try (intros st H; split; [exact H|reflexivity]).
  - intros st s e fl W H. cbn [noop p_match]. rewrite (peek_spec s e H). cbn [obind]. destruct (vis s e); cbn [hd_error]; (eexists; split; [reflexivity|]; split; [exact W|]; try split; try reflexivity; exact W).
  - intros s e fl x H E. destruct (vis s e); [discriminate|]. injection E as <-. lia.
Qed.
(** line boundaries *)
Theorem bol_spec : forall invert, element (bol txt invert) leaf
  (fun s e fl => if xorb (match s with O => true | S k => (nth k txt 0 =? 10) || (nth k txt 0 =? 13) end) invert then Some s else None) no_vals.
Proof.
  intros invert. split; try reflexivity; try (intros st H; split; [exact H|reflexivity]).
  - intros st s e fl W H. cbn [bol p_match]. set (r := match s with O => true | S k => (nth k txt 0 =? 10) || (nth k txt 0 =? 13) end).
    assert (E : (if (s =? 0)%nat then Ret true else if (s <=? e)%nat then let* c := rd txt (s - 1) in Ret (islbreak c) else Ret false) = Ret r).
    { destruct s as [|k]; [reflexivity|]. cbn [Nat.eqb]. destruct H as (H1 & H2 & _). replace (S k <=? e)%nat with true by lia. cbn [Nat.sub]. rewrite Nat.sub_0_r. unfold rd.
      destruct (nth_error txt k) as [c|] eqn:En; [|apply nth_error_None in En; lia]. cbn [obind]. subst r. rewrite (nth_error_nth txt k 0 En). reflexivity. }
    rewrite E. cbn [obind]. destruct r, invert; cbn [xorb andb orb negb]; (eexists; split; [reflexivity|]; split; [exact W|]; try split; try reflexivity; exact W).
  - intros s e fl x H E. destruct (xorb _ _); [|discriminate]. injection E as <-. lia.
Qed.
Theorem eol_spec : forall invert, element (eol txt invert) leaf
  (fun s e fl => if xorb (match vis s e with c :: _ => (c =? 10) || (c =? 13) | [] => true end) invert then Some s else None) no_vals.
Proof.
  intros invert. split; try reflexivity; try (intros st H; split; [exact H|reflexivity]).
  - intros st s e fl W H. cbn [eol p_match]. rewrite (peek_spec s e H). cbn [obind]. unfold islbreak.
    destruct (vis s e) as [|c v]; cbn [hd_error]; [destruct invert|destruct ((c =? 10) || (c =? 13)), invert]; cbn [xorb andb orb negb]; (eexists; split; [reflexivity|]; split; [exact W|]; try split; try reflexivity; exact W).
  - intros s e fl x H E. destruct (xorb _ _); [|discriminate]. injection E as <-. lia.
Qed.

Section Loc.
Context (tolow : Z -> Z) (sp pu : Z -> bool).
(** the units recognised *)
Theorem any_cu_spec : element (any_cu txt) leaf (fun s e fl => match vis s e with _ :: _ => Some (S s) | [] => None end) no_vals.
Proof. exact (one_cu_spec (fun _ _ => true) false). Qed.
Theorem cu_spec : forall chr invert, element (cu txt tolow chr invert) leaf
  (fun s e fl => match vis s e with c :: _ => if xorb (if fl_ci fl then tolow c =? tolow chr else c =? chr) invert then Some (S s) else None | [] => None end) no_vals.
Proof. intros. exact (one_cu_spec (fun c fl => if fl_ci fl then tolow c =? tolow chr else c =? chr) invert). Qed.
Theorem space_cu_spec : forall invert, element (space_cu txt sp invert) leaf
  (fun s e fl => match vis s e with c :: _ => if xorb ((fl_ml fl || negb ((c =? 10) || (c =? 13))) && sp c) invert then Some (S s) else None | [] => None end) no_vals.
Proof. intros. exact (one_cu_spec _ invert). Qed.
Theorem punct_cu_spec : forall invert, element (punct_cu txt pu invert) leaf
  (fun s e fl => match vis s e with c :: _ => if xorb (pu c) invert then Some (S s) else None | [] => None end) no_vals.
Proof. intros. exact (one_cu_spec _ invert). Qed.
Theorem space_or_punct_cu_spec : forall invert, element (space_or_punct_cu txt sp pu invert) leaf
  (fun s e fl => match vis s e with c :: _ => if xorb ((fl_ml fl || negb ((c =? 10) || (c =? 13))) && (sp c || pu c)) invert then Some (S s) else None | [] => None end) no_vals.
Proof. intros. exact (one_cu_spec _ invert). Qed.
End Loc.

Section Fold.
Context (tolow : Z -> Z).
(** ** a set of units *)
Theorem cu_set_spec : forall set invert, Forall (fun c => c <> 0) set ->
  exists f g, element (cu_set txt tolow set invert) (fun st => exists z, vals st = [z]) f g /\
  (forall s e fl, let fold := if fl_ci fl then tolow else fun c => c in
    (* a unit of the set (of its complement) *)
    (forall x, f s e fl = Some x <-> x = S s /\ exists c r, vis s e = c :: r /\ (In (fold c) (map fold set) <-> invert = false)) /\
    (* hit_offset is the first place of the unit in the set *)
    (forall c r x, vis s e = c :: r -> f s e fl = Some x -> if invert then g s e fl = [-1] else exists k, g s e fl = [Z.of_nat k] /\ least_pos (unit_at fold set c) (Some k))).
Proof.
  intros set invert Hset.
  set (hit := fun (fl : pflags) c => if fl_ci fl then strnichr tolow set (length set) c else strnchr set (length set) c).
  assert (Z0 : zstr (length set) set = set). { clear - Hset. induction set as [|c l IH]; auto. inversion Hset; subst. cbn [length zstr]. replace (c =? 0) with false by lia. f_equal. auto. }
  assert (Hhit : forall fl c, exists r, hit fl c = Ret r /\ least_pos (unit_at (if fl_ci fl then tolow else fun c => c) set c) r).
  { intros fl c. unfold hit. destruct (fl_ci fl).
    - destruct (strnichr_spec tolow set (length set) c ltac:(left; lia)) as (r & E & L). rewrite E. exists r. split; auto. rewrite Z0 in L. exact L.
    - destruct (strnchr_correct set (length set) c ltac:(left; lia)) as (r & E & L). rewrite E. exists r. split; auto. rewrite Z0 in L. unfold unit_at. rewrite map_id. exact L. }
  set (hv := fun fl c => match hit fl c with Ret r => r | _ => None end).
  assert (Hin : forall fl c, hit fl c = Ret (hv fl c) /\ least_pos (unit_at (if fl_ci fl then tolow else fun c => c) set c) (hv fl c)).
  { intros fl c. unfold hv. destruct (Hhit fl c) as (r & E & L). rewrite E. auto. }
  exists (fun s e fl => match vis s e with c :: _ => if (match hv fl c with Some _ => negb invert | None => invert end) then Some (S s) else None | [] => None end).
  exists (fun s e fl => match vis s e with c :: _ => [opt_z (hv fl c)] | [] => [] end). split.
  - split.
    + eexists; reflexivity.
    + intros st s e fl W H. cbn [cu_set p_match]. rewrite (peek_spec s e H). cbn [obind]. destruct (vis s e) as [|c v]; cbn [hd_error].
      * eexists. split; [reflexivity|]. split; [eexists; reflexivity|reflexivity].
      * fold (hit fl c). rewrite (proj1 (Hin fl c)). cbn [obind]. destruct (match hv fl c with Some _ => negb invert | None => invert end);
          (eexists; split; [reflexivity|]; split; [eexists; reflexivity|]; try split; reflexivity).
    + intros s e fl x H E. destruct (vis s e); [discriminate|]. destruct (match hv fl z with Some _ => negb invert | None => invert end); [|discriminate]. injection E as <-. cbn [length]. lia.
    + intros st W. split; [eexists; reflexivity|reflexivity].
  - intros s e fl fold.
    assert (Hm : forall c, In (fold c) (map fold set) <-> hv fl c <> None).
    { intros c. pose proof (proj2 (Hin fl c)) as L. fold fold in L. destruct (hv fl c) as [k|].
      - cbn [least_pos] in L. destruct L as [L _]. split; [discriminate|]. intros _. unfold unit_at in L. eapply nth_error_In; eauto.
      - cbn [least_pos] in L. split; [|congruence]. intros Hi. apply In_nth_error in Hi. destruct Hi as [k Hk]. exfalso. apply (L k). exact Hk. }
    split.
    + intros x. destruct (vis s e) as [|c v].
      * split; [discriminate|]. intros (_ & c & r & E & _). discriminate.
      * specialize (Hm c). split.
        { intros E. assert (x = S s /\ (match hv fl c with Some _ => negb invert | None => invert end) = true) as [-> Q]. { destruct (match hv fl c with Some _ => _ | None => _ end); [|discriminate]. injection E as <-. auto. }
          split; auto. exists c, v. split; auto. rewrite Hm. destruct (hv fl c), invert; cbn in Q; try discriminate; split; congruence. }
        { intros (-> & c' & r & E & Q). injection E as <- <-. rewrite Hm in Q. destruct (hv fl c), invert; cbn [negb]; auto; destruct Q as [Q1 Q2]; [discriminate Q1; discriminate|destruct Q2; auto; congruence]. }
    + intros c r x V E. rewrite V in *. pose proof (proj2 (Hin fl c)) as L. fold fold in L. destruct (hv fl c) as [k|], invert; cbn [negb] in E; try discriminate; cbn [opt_z]; [|reflexivity].
      exists k. auto.
Qed.

(** ** a given string *)
Lemma strnicmp_zero : forall f, (forall c, f c = 0 <-> c = 0) -> forall n1 s1 s2, Forall (fun c => c <> 0) s2 -> readable n1 s1 ->
  exists r, strnicmp4 f s1 n1 s2 (length s2) = Ret r /\ (r = 0 <-> map f (zstr n1 s1) = map f s2).
Proof.
  intros f Hf. induction n1 as [|n1 IH]; intros s1 s2 H2 H1.
  - destruct s2 as [|b s2]; cbn [strnicmp4 length zstr map].
    + exists 0. tauto.
    + inversion H2; subst. cbn [rd nth_error obind]. replace (b =? 0) with false by lia. cbn [negb]. exists (-1). split; auto. split; [lia|discriminate].
  - destruct s1 as [|a s1]. { destruct H1 as [H1|[]]. cbn in H1. lia. }
    destruct s2 as [|b s2]; cbn [strnicmp4 length zstr map].
    + cbn [rd nth_error obind]. destruct (a =? 0) eqn:Ea; cbn [negb map].
      * exists 0. tauto.
      * exists 1. split; auto. split; [lia|discriminate].
    + inversion H2; subst. assert (Hb : f b <> 0) by (rewrite Hf; auto). replace (f b =? 0) with false by lia. rewrite andb_false_r.
      destruct (a =? 0) eqn:Ea.
      * assert (Ha : f a = 0) by (apply Hf; lia). cbn [map]. destruct (f a >? f b) eqn:G; [exists 1; split; auto; split; [lia|discriminate]|].
        destruct (f a <? f b) eqn:G2; [exists (-1); split; auto; split; [lia|discriminate]|]. lia.
      * cbn [map]. destruct (f a >? f b) eqn:G; [exists 1; split; auto; split; [lia|intros E; injection E as E _; lia]|].
        destruct (f a <? f b) eqn:G2; [exists (-1); split; auto; split; [lia|intros E; injection E as E _; lia]|].
        destruct (IH s1 s2 H4) as (r & E & Hr). { destruct H1 as [H1|[H1|H1]]; [left; cbn [length] in H1; lia|lia|right; auto]. }
        exists r. split; auto. rewrite Hr. split; [intros ->; f_equal; lia|intros Q; injection Q; auto].
Qed.
Definition string_fn (str : list Z) : pfun := fun s e fl =>
  let fold := if fl_ci fl then tolow else fun c => c in
  if list_eq_dec Z.eq_dec (map fold (firstn (length str) (vis s e))) (map fold str) then Some (s + length str)%nat else None.
Lemma zstr_min : forall n m (l : list Z), zstr (Nat.min n m) l = firstn m (zstr n l).
Proof.
  induction n; intros m l; [cbn; rewrite firstn_nil; reflexivity|]. destruct m; [reflexivity|]. cbn [Nat.min zstr]. destruct l as [|c l]; [reflexivity|]. destruct (c =? 0); [reflexivity|]. cbn [firstn]. f_equal. apply IHn.
Qed.
Theorem string_spec : (forall c, tolow c = 0 <-> c = 0) -> forall str, Forall (fun c => c <> 0) str -> element (string_p txt tolow str) leaf (string_fn str) no_vals.
Proof.
  intros Ht str Hstr. split; try reflexivity; try (intros st H; split; [exact H|reflexivity]).
  - intros st s e fl W H. cbn [string_p p_match]. pose proof H as H'. destruct H' as (H1 & H2 & H3). replace (s <=? e)%nat with true by lia.
    set (fold := if fl_ci fl then tolow else fun c => c). assert (Hf : forall c, fold c = 0 <-> c = 0) by (subst fold; destruct (fl_ci fl); auto; tauto).
    destruct (strnicmp_zero fold Hf (Nat.min (e - s) (length str)) (skipn s txt) str Hstr) as (r & E & Hr). { destruct H3 as [H3|H3]; [left; lia|right; auto]. }
    rewrite E. cbn [obind]. rewrite zstr_min in Hr. fold (vis s e) in Hr. unfold string_fn. fold fold. destruct (list_eq_dec _ _ _) as [Q|Q].
    + replace (r =? 0) with true by (rewrite <- Hr in Q; lia). assert (L : (length str <= e - s)%nat).
      { apply (f_equal (@length Z)) in Q. rewrite !map_length, firstn_length in Q. unfold ParserSpec.vis in Q. pose proof (zstr_le (e - s) (skipn s txt)). lia. }
      replace (Nat.min (e - s) (length str)) with (length str) by lia. eexists. split; [reflexivity|]. split; [exact W|]. split; [reflexivity|exact W].
    + replace (r =? 0) with false by (rewrite <- Hr in Q; lia). eexists. split; [reflexivity|]. split; [exact W|reflexivity].
  - intros s e fl x H E. unfold string_fn in E. destruct (list_eq_dec _ _ _) as [Q|Q]; [|discriminate]. injection E as <-. apply (f_equal (@length Z)) in Q. rewrite !map_length, firstn_length in Q. lia.
Qed.
(** ... without case folding: the text goes on with the string *)
Theorem string_exact : forall str s e fl x, fl_ci fl = false -> (string_fn str s e fl = Some x <-> x = (s + length str)%nat /\ exists rest, vis s e = str ++ rest).
Proof.
  intros str s e fl x H. unfold string_fn. rewrite H, !map_id. destruct (list_eq_dec _ _ _) as [Q|Q].
  - split; [intros E; injection E as <-; split; auto|intros (-> & _); reflexivity]. exists (skipn (length str) (vis s e)). rewrite <- Q at 1. symmetry. apply firstn_skipn.
  - split; [discriminate|]. intros (_ & rest & E). exfalso. apply Q. rewrite E. rewrite firstn_app, Nat.sub_diag, firstn_all, app_nil_r. reflexivity.
Qed.

End Fold.

Section Sgml.
Context (sp : Z -> bool).
(** ** any SGML code point *)
(** the length of an entity's tail: up to and with the first ';', if no '&' or space comes before it *)
Fixpoint entity_tail (l : list Z) : option nat :=
  match l with [] => None | c :: r => if c =? 59 then Some 1%nat else if (c =? 38) || sp c then None else option_map S (entity_tail r) end.
Lemma entity_end_spec : forall fuel i e, text_ok i e -> (length (vis i e) < fuel)%nat -> entity_end txt sp fuel i e = Ret (option_map (Nat.add i) (entity_tail (vis i e))).
Proof.
  induction fuel as [|fuel IH]; intros i e H L; [lia|]. cbn [entity_end]. rewrite (peek_spec i e H). cbn [obind]. destruct (vis i e) as [|c v] eqn:V; cbn [hd_error entity_tail]; auto.
  destruct (vis_cons i e c v H V) as (_ & H' & V' & _). destruct (c =? 59). { cbn [option_map]. rewrite Nat.add_1_r. reflexivity. } destruct (_ || _); [reflexivity|].
  rewrite IH by (auto; rewrite V'; cbn [length] in L; lia). rewrite V'. destruct (entity_tail v); cbn [option_map]; auto. rewrite Nat.add_succ_r. reflexivity.
Qed.
Lemma entity_tail_len : forall l k, entity_tail l = Some k -> (k <= length l)%nat.
Proof. induction l; intros k E; [discriminate|]. cbn [entity_tail] in E. destruct (a =? 59); [injection E as <-; cbn; lia|]. destruct (_ || _); [discriminate|]. destruct (entity_tail l) eqn:Q; [|discriminate]. cbn in E. injection E as <-. specialize (IHl n eq_refl). cbn. lia. Qed.
Theorem sgml_any_cp_spec : element (sgml_any_cp txt sp) leaf (fun s e fl =>
  match vis s e with
  | [] => None
  | c :: r => if c =? 38 then match entity_tail r with Some k => Some (S s + k)%nat | None => Some (S s) end else Some (S s)
  end) no_vals.
Proof.
  split; try reflexivity; try (intros st H; split; [exact H|reflexivity]).
  - intros st s e fl W H. cbn [sgml_any_cp p_match]. rewrite (peek_spec s e H). cbn [obind]. destruct (vis s e) as [|c v] eqn:V; cbn [hd_error].
    + eexists. split; [reflexivity|]. split; [exact W|reflexivity].
    + destruct (vis_cons s e c v H V) as (L & H' & V' & _). destruct (c =? 38); cbn [obind].
      * rewrite (entity_end_spec (S (e - s)) (S s) e H') by (pose proof (vis_end (S s) e H'); lia). rewrite V'. cbn [obind]. destruct (entity_tail v); cbn [option_map]; (eexists; split; [reflexivity|]; split; [exact W|]; split; [reflexivity|exact W]).
      * eexists. split; [reflexivity|]. split; [exact W|]. split; [reflexivity|exact W].
  - intros s e fl x H E. destruct (vis s e) as [|c v]; [discriminate|]. cbn [length]. destruct (c =? 38); [|injection E as <-; lia]. destruct (entity_tail v) eqn:Q; [|injection E as <-; lia]. injection E as <-. apply entity_tail_len in Q. lia.
Qed.

End Sgml.

(** ** repetition *)
Lemma reps_det : forall f e fl n s y z, reps f n s y e fl -> reps f n s z e fl -> y = z.
Proof. induction n; cbn [reps]; intros s y z A B; [congruence|]. destruct A as (x & E & _ & A). destruct B as (x' & E' & _ & B). assert (x = x') by congruence. subst x'. eauto. Qed.
Section Iter.
Context (P : pcls) (wf : pst -> Prop) (f : pfun) (g : nat -> nat -> pflags -> list Z) (HP : element P wf f g) (mn mx : nat) (greedy : bool).
(* [n] more matches lead from x to z, where it stops *)
Lemma iter_loop_spec : forall fuel k i s x e fl, wf k -> text_ok x e -> (length (vis x e) + 1 < fuel)%nat ->
  exists k' n z, reps f n x z e fl /\ (x <= z <= x + length (vis x e))%nat /\ wf k' /\
   (forall m u, (m < n)%nat -> reps f m x u e fl -> ~ iter_stops f mn mx greedy (i + m) u e fl) /\
   ((iter_loop fuel P mn mx greedy k i s x e fl = Ret (Pst s z [] [k'], true) /\ iter_stops f mn mx greedy (i + n) z e fl) \/
    (iter_loop fuel P mn mx greedy k i s x e fl = Ret (Pst 1 0 [] [k'], false) /\ ~ iter_stops f mn mx greedy (i + n) z e fl /\ f z e fl = None)).
Proof.
  induction fuel as [|fuel IH]; intros k i s x e fl W H L; [lia|]. cbn [iter_loop].
  destruct ((negb greedy && (mn <=? i)%nat) || (mx <=? i)%nat) eqn:E.
  - exists k, 0%nat, x. cbn [reps]. split; auto. split; [lia|]. split; auto. split; [lia|]. left. split; auto. rewrite Nat.add_0_r. unfold iter_stops. destruct greedy; cbn [negb andb orb] in E; [right; left; lia|]. destruct (mn <=? i)%nat eqn:E2; [left; split; auto; lia|right; left; cbn in E; lia].
  - destruct (el_match _ _ _ _ _ HP k x e fl W H) as (k' & Em & W' & R). rewrite Em. cbn [obind]. destruct (f x e fl) as [y|] eqn:F; cbn [found negb].
    + destruct R as [R _]. assert (Ey : i_end k' = y) by (apply (f_equal snd) in R; exact R). rewrite Ey. pose proof (el_within _ _ _ _ _ HP x e fl y H F) as In. destruct (y =? x)%nat eqn:Q.
      * exists k', 0%nat, x. cbn [reps]. split; auto. split; [lia|]. split; auto. split; [lia|]. left. split; auto. right. right. right. rewrite F. f_equal. lia.
      * destruct (vis_to x e y H In) as [H' V']. destruct (IH k' (S i) s y e fl W' H') as (k2 & n & z & A1 & A2 & A3 & A4 & A5). { rewrite V', skipn_length. lia. }
        exists k2, (S n), z. split. { cbn [reps]. exists y. split; auto. split; [lia|auto]. } split; [apply (vis_trans x e y z); auto|]. split; auto. split.
        { intros [|m] u Hm Hr.
          - cbn [reps] in Hr. subst u. rewrite Nat.add_0_r. unfold iter_stops. intros [[B1 B2]|[B|[[B1 B2]|B]]]; [|lia|congruence|rewrite F in B; injection B as B; lia]. subst greedy. cbn [negb andb orb] in E. lia.
          - cbn [reps] in Hr. destruct Hr as (x' & F' & _ & Hr). assert (x' = y) by congruence. subst x'. replace (i + S m)%nat with (S i + m)%nat by lia. apply A4; auto. lia. }
        replace (i + S n)%nat with (S i + n)%nat by lia. exact A5.
    + destruct (mn <=? i)%nat eqn:Q.
      * exists k', 0%nat, x. cbn [reps]. split; auto. split; [lia|]. split; auto. split; [lia|]. left. split; auto. rewrite Nat.add_0_r. right. right. left. split; auto. lia.
      * exists k', 0%nat, x. cbn [reps]. split; auto. split; [lia|]. split; auto. split; [lia|]. right. split; auto. split; auto. rewrite Nat.add_0_r. unfold iter_stops. intros [[B1 B2]|[B|[[B1 B2]|B]]]; try congruence; try lia.
Qed.
(** A repetition: the first number of non-empty matches after which it stops; it fails when the element fails earlier. *)
Theorem iterations_spec : exists h, element (iterations P mn mx greedy) (fun st => vals st = [] /\ exists k, kids st = [k] /\ wf k) h no_vals /\
  forall s e fl, text_ok s e ->
   (forall y, h s e fl = Some y <-> exists n, reps f n s y e fl /\ iter_stops f mn mx greedy n y e fl /\ forall m u, (m < n)%nat -> reps f m s u e fl -> ~ iter_stops f mn mx greedy m u e fl) /\
   (h s e fl = None -> exists n z, (n < mn)%nat /\ reps f n s z e fl /\ f z e fl = None).
Proof.
  set (h := fun s e fl => match p_match (iterations P mn mx greedy) (p_init (iterations P mn mx greedy)) s e fl with Ret (st, true) => Some (i_end st) | _ => None end).
  assert (Key : forall st s e fl, (exists k, kids st = [k] /\ wf k) -> text_ok s e ->
    exists k' n z, reps f n s z e fl /\ (s <= z <= s + length (vis s e))%nat /\ wf k' /\
     (forall m u, (m < n)%nat -> reps f m s u e fl -> ~ iter_stops f mn mx greedy m u e fl) /\
     ((p_match (iterations P mn mx greedy) st s e fl = Ret (Pst s z [] [k'], true) /\ iter_stops f mn mx greedy n z e fl) \/
      (p_match (iterations P mn mx greedy) st s e fl = Ret (Pst 1 0 [] [k'], false) /\ ~ iter_stops f mn mx greedy n z e fl /\ f z e fl = None))).
  { intros st s e fl (k & Ek & W) H. cbn [iterations p_match]. rewrite Ek. apply (iter_loop_spec (2 + (e - s)) k 0 s s e fl W H). pose proof (vis_end s e H). lia. }
  assert (Kini : exists k, kids (p_init (iterations P mn mx greedy)) = [k] /\ wf k) by (eexists; split; [reflexivity|apply (el_init _ _ _ _ _ HP)]).
  assert (Hh : forall s e fl, text_ok s e -> exists n z, reps f n s z e fl /\ (s <= z <= s + length (vis s e))%nat /\
     (forall m u, (m < n)%nat -> reps f m s u e fl -> ~ iter_stops f mn mx greedy m u e fl) /\
     ((h s e fl = Some z /\ iter_stops f mn mx greedy n z e fl) \/ (h s e fl = None /\ ~ iter_stops f mn mx greedy n z e fl /\ f z e fl = None))).
  { intros s e fl H. destruct (Key _ s e fl Kini H) as (k' & n & z & A1 & A2 & A3 & A4 & A5). exists n, z. split; auto. split; auto. split; auto. unfold h. destruct A5 as [[-> B]|[-> B]]; [left|right]; auto. }
  assert (Uniq : forall s e fl n z n' z', reps f n s z e fl -> (iter_stops f mn mx greedy n z e fl \/ f z e fl = None) -> (forall m u, (m < n)%nat -> reps f m s u e fl -> ~ iter_stops f mn mx greedy m u e fl) ->
     reps f n' s z' e fl -> (iter_stops f mn mx greedy n' z' e fl \/ f z' e fl = None) -> (forall m u, (m < n')%nat -> reps f m s u e fl -> ~ iter_stops f mn mx greedy m u e fl) -> (n <= n')%nat).
  { assert (Q : forall fl e n' s z' n z, reps f n s z e fl -> reps f n' s z' e fl -> (n' < n)%nat -> f z' e fl <> None).
    { induction n' as [|n' IH]; intros s z' n z R1 R2 L; destruct n as [|n]; try lia; cbn [reps] in *.
      - subst z'. destruct R1 as (x & E & _). congruence.
      - destruct R1 as (x & E & _ & R1). destruct R2 as (x' & E' & _ & R2). assert (x = x') by congruence. subst x'. apply (IH x z' n z R1 R2). lia. }
    intros s e fl n z n' z' R1 S1 M1 R2 S2 M2. destruct (Nat.le_gt_cases n n'); auto. exfalso. destruct S2 as [S2|S2]; [exact (M1 n' z' H R2 S2)|]. exact (Q fl e n' s z' n z R1 R2 H S2). }
  exists h. split.
  - split.
    + split; [reflexivity|exact Kini].
    + intros st s e fl [W1 W2] H. destruct (Key st s e fl W2 H) as (k1 & n1 & z1 & A1 & A2 & A3 & A4 & A5). destruct (Hh s e fl H) as (n2 & z2 & B1 & B2 & B4 & B5).
      assert (n1 = n2). { apply Nat.le_antisymm; [apply (Uniq s e fl n1 z1 n2 z2)|apply (Uniq s e fl n2 z2 n1 z1)]; auto; try (destruct A5 as [(_ & ?)|(_ & _ & ?)]; auto); try (destruct B5 as [(_ & ?)|(_ & _ & ?)]; auto). }
      subst n2. assert (z1 = z2) by (eapply reps_det; eauto). subst z2.
      destruct A5 as [(-> & C1)|(-> & C1 & C2)], B5 as [(-> & D1)|(-> & D1 & D2)]; try contradiction; cbn [found].
      * eexists. split; [reflexivity|]. split; [split; [reflexivity|eexists; split; [reflexivity|auto]]|]. split; reflexivity.
      * eexists. split; [reflexivity|]. split; [split; [reflexivity|eexists; split; [reflexivity|auto]]|]. reflexivity.
    + intros s e fl x H E. destruct (Hh s e fl H) as (n & z & B1 & B2 & B4 & [[B5 B6]|[B5 B6]]); [|congruence]. rewrite B5 in E. injection E as <-. auto.
    + intros st [W1 W2]. split; [split; [exact W1|exact W2]|reflexivity].
  - intros s e fl H. destruct (Hh s e fl H) as (n & z & B1 & B2 & B4 & B5). split.
    + intros y. split.
      * intros E. destruct B5 as [[B5 B6]|[B5 B6]]; [|congruence]. rewrite B5 in E. injection E as <-. exists n. auto.
      * intros (n' & C1 & C2 & C3). assert (n = n'). { apply Nat.le_antisymm; [apply (Uniq s e fl n z n' y)|apply (Uniq s e fl n' y n z)]; auto; destruct B5 as [(_ & ?)|(_ & _ & ?)]; auto. }
        subst n'. assert (z = y) by (eapply reps_det; eauto). subst y. destruct B5 as [[B5 B6]|[B5 [B6 _]]]; [auto|contradiction].
    + intros E. destruct B5 as [[B5 B6]|(B5 & B6 & B7)]; [congruence|]. exists n, z. split; auto. destruct (Nat.le_gt_cases mn n); auto. exfalso. apply B6. right. right. left. auto.
Qed.
End Iter.

(** ** sequence *)
Lemma inval_all_ok : forall es ks, Forall good es -> kids_ok es ks -> kids_ok es (inval_all (map es_P es) ks) /\ Forall (fun k => iv k = (1, 0)%nat) (inval_all (map es_P es) ks).
Proof.
  intros es ks G K. induction K as [|x k es ks H K IH]; cbn [map inval_all]; [split; constructor|]. inversion G; subst. destruct (IH H3) as [A B]. destruct (el_inval _ _ _ _ _ H2 k H) as [C D]. split; constructor; auto.
Qed.
Lemma kids_len : forall es ks, kids_ok es ks -> length es = length ks.
Proof. intros es ks K. induction K; cbn [length]; auto. Qed.
Lemma seq_loop_spec : forall es ks x e fl, Forall good es -> kids_ok es ks -> text_ok x e ->
  exists ks', seq_loop (map es_P es) ks x e fl = Ret (ks', seq_fn (map es_f es) x e fl) /\ kids_ok es ks' /\
   match seq_fn (map es_f es) x e fl with
   | Some y => ichain (combine (map es_f es) (map iv ks')) x y e fl /\ (x <= y <= x + length (vis x e))%nat
   | None => True
   end.
Proof.
  intros es ks x e fl G K. revert x. induction K as [|p k es ks W K IH]; intros x H; cbn [map seq_loop seq_fn].
  - exists []. split; auto. split; [constructor|]. cbn [combine map ichain]. split; auto. lia.
  - inversion G as [|? ? G1 G2]; subst. destruct (el_match _ _ _ _ _ G1 k x e fl W H) as (k' & Em & W' & R). rewrite Em. cbn [obind]. destruct (es_f p x e fl) as [y|] eqn:F; cbn [found negb].
    + destruct R as [R _]. assert (Ey : i_end k' = y) by (apply (f_equal snd) in R; exact R). rewrite Ey. pose proof (el_within _ _ _ _ _ G1 x e fl y H F) as In. destruct (vis_to x e y H In) as [H' V'].
      destruct (IH G2 y H') as (ks' & E & K' & C). rewrite E. cbn [obind]. exists (k' :: ks'). split; auto. split; [constructor; auto|]. destruct (seq_fn (map es_f es) y e fl) as [z|]; auto. destruct C as [C1 C2].
      split; [|apply (vis_trans x e y z); auto]. cbn [map combine ichain]. rewrite R. auto.
    + eexists. split; [reflexivity|]. split; auto. constructor; auto. apply inval_all_ok; auto.
Qed.
(** A sequence: each element after the one before; the intervals of the elements tile the match. *)
Theorem sequence_spec : forall es, Forall good es ->
  element (sequence (map es_P es)) (fun st => vals st = [] /\ kids_ok es (kids st)) (seq_fn (map es_f es)) no_vals /\
  forall st s e fl, vals st = [] /\ kids_ok es (kids st) -> text_ok s e -> forall y, seq_fn (map es_f es) s e fl = Some y ->
    exists st', p_match (sequence (map es_P es)) st s e fl = Ret (st', true) /\ ichain (combine (map es_f es) (map iv (kids st'))) s y e fl.
Proof.
  intros es G. split.
  - split.
    + split; [reflexivity|]. cbn [sequence p_init kids new_pst]. clear -G. induction G; cbn [map]; constructor; auto. apply (el_init _ _ _ _ _ H).
    + intros st s e fl [W1 W2] H. cbn [sequence p_match]. destruct (seq_loop_spec es (kids st) s e fl G W2 H) as (ks' & E & K & C). rewrite E. cbn [obind]. destruct (seq_fn (map es_f es) s e fl) as [y|]; cbn [found];
        (eexists; split; [reflexivity|]; split; [split; auto|]; try split; reflexivity).
    + intros s e fl x H E. assert (K : kids_ok es (map p_init (map es_P es))). { clear -G. induction G; cbn [map]; constructor; auto. apply (el_init _ _ _ _ _ H). }
      destruct (seq_loop_spec es _ s e fl G K H) as (ks' & _ & _ & C). rewrite E in C. tauto.
    + intros st [W1 W2]. split; [|reflexivity]. split; [reflexivity|]. apply inval_all_ok; auto.
  - intros st s e fl [W1 W2] H y E. cbn [sequence p_match]. destruct (seq_loop_spec es (kids st) s e fl G W2 H) as (ks' & E' & K & C). rewrite E', E in *. cbn [obind]. eexists. split; [reflexivity|]. cbn [kids]. tauto.
Qed.
Theorem seq_is_chain : forall fs s y e fl, seq_fn fs s e fl = Some y <-> chain fs s y e fl.
Proof.
  induction fs; intros s y e fl; cbn [seq_fn chain]; [split; congruence|]. destruct (a s e fl) as [x|] eqn:E.
  - rewrite IHfs. split; [eauto|]. intros (x' & E' & C). congruence.
  - split; [discriminate|]. intros (x & E' & _). congruence.
Qed.

(** ** branch *)
Lemma branch_loop_spec : forall es ks h s e fl, Forall good es -> kids_ok es ks -> text_ok s e ->
  exists ks' r, branch_loop (map es_P es) ks h s e fl = Ret (ks', r) /\ kids_ok es ks' /\
   match branch_fn (map es_f es) s e fl with
   | Some y => exists k, r = Some ((h + first_fn (map es_f es) s e fl)%nat, k) /\ iv k = (s, y) /\
       map iv ks' = repeat (1, 0)%nat (first_fn (map es_f es) s e fl) ++ (s, y) :: repeat (1, 0)%nat (length es - S (first_fn (map es_f es) s e fl))
   | None => r = None /\ map iv ks' = repeat (1, 0)%nat (length es)
   end.
Proof.
  intros es ks h s e fl G K H. revert h. induction K as [|p k es ks W K IH]; intros h; cbn [map branch_loop branch_fn first_fn].
  - exists [], None. split; auto. split; [constructor|]. split; reflexivity.
  - inversion G as [|? ? G1 G2]; subst. destruct (el_match _ _ _ _ _ G1 k s e fl W H) as (k' & Em & W' & R). rewrite Em. cbn [obind]. destruct (es_f p s e fl) as [y|] eqn:F; cbn [found].
    + destruct R as [R _]. eexists. eexists. split; [reflexivity|]. split. { constructor; auto. apply inval_all_ok; auto. } exists k'. rewrite Nat.add_0_r. split; auto. split; auto.
      cbn [map repeat app length Nat.sub]. rewrite R, Nat.sub_0_r. f_equal. destruct (inval_all_ok es ks G2 K) as [A B]. apply kids_len in A. rewrite A. clear -B. induction B; cbn [map repeat length]; auto. rewrite H, IHB. reflexivity.
    + destruct (IH G2 (S h)) as (ks' & r & E & K' & C). rewrite E. cbn [obind]. exists (k' :: ks'), r. split; auto. split; [constructor; auto|]. destruct (branch_fn (map es_f es) s e fl) as [y|].
      * destruct C as (k2 & -> & I2 & M). exists k2. rewrite Nat.add_succ_r. split; auto. split; auto. cbn [map repeat app length Nat.sub]. rewrite R, M. reflexivity.
      * destruct C as [-> M]. split; auto. cbn [map repeat length]. rewrite R, M. reflexivity.
Qed.
(** A branch: the first element that matches; hit_offset is its place, and only its interval is valid. *)
Theorem branch_spec : forall es, Forall good es ->
  element (branch (map es_P es)) (fun st => (exists z, vals st = [z]) /\ kids_ok es (kids st)) (branch_fn (map es_f es)) (fun s e fl => [Z.of_nat (first_fn (map es_f es) s e fl)]) /\
  forall st s e fl, (exists z, vals st = [z]) /\ kids_ok es (kids st) -> text_ok s e ->
    exists st' b, p_match (branch (map es_P es)) st s e fl = Ret (st', b) /\
      map iv (kids st') = match branch_fn (map es_f es) s e fl with
        | Some y => repeat (1, 0)%nat (first_fn (map es_f es) s e fl) ++ (s, y) :: repeat (1, 0)%nat (length es - S (first_fn (map es_f es) s e fl))
        | None => repeat (1, 0)%nat (length es)
        end.
Proof.
  intros es G. assert (Kini : kids_ok es (map p_init (map es_P es))). { clear -G. induction G; cbn [map]; constructor; auto. apply (el_init _ _ _ _ _ H). }
  split.
  - split.
    + split; [eexists; reflexivity|exact Kini].
    + intros st s e fl [W1 W2] H. cbn [branch p_match]. destruct (branch_loop_spec es (kids st) 0 s e fl G W2 H) as (ks' & r & E & K & C). rewrite E. cbn [obind]. destruct (branch_fn (map es_f es) s e fl) as [y|]; cbn [found].
      * destruct C as (k & -> & I & _). injection I as I1 I2. rewrite I1, I2. eexists. split; [reflexivity|]. split; [split; [eexists; reflexivity|auto]|]. split; reflexivity.
      * destruct C as [-> _]. eexists. split; [reflexivity|]. split; [split; [eexists; reflexivity|auto]|]. reflexivity.
    + intros s e fl x H E. clear Kini. induction G as [|p es Gp G IH]; cbn [map branch_fn] in E; [discriminate|]. destruct (es_f p s e fl) eqn:F; [|auto]. injection E as <-. exact (el_within _ _ _ _ _ Gp s e fl _ H F).
    + intros st [W1 W2]. split; [|reflexivity]. split; [eexists; reflexivity|]. apply inval_all_ok; auto.
  - intros st s e fl [W1 W2] H. cbn [branch p_match]. destruct (branch_loop_spec es (kids st) 0 s e fl G W2 H) as (ks' & r & E & K & C). rewrite E. cbn [obind]. destruct (branch_fn (map es_f es) s e fl) as [y|].
    + destruct C as (k & -> & I & M). eexists. eexists. split; [reflexivity|]. exact M.
    + destruct C as [-> M]. eexists. eexists. split; [reflexivity|]. exact M.
Qed.
Theorem branch_is_first : forall fs s y e fl, branch_fn fs s e fl = Some y <->
  exists pre f post, fs = pre ++ f :: post /\ first_fn fs s e fl = length pre /\ f s e fl = Some y /\ Forall (fun g => g s e fl = None) pre.
Proof.
  induction fs as [|a fs IH]; intros s y e fl; cbn [branch_fn first_fn].
  - split; [discriminate|]. intros (pre & f & post & E & _). destruct pre; discriminate.
  - destruct (a s e fl) as [x|] eqn:E.
    + split.
      * intros Q. injection Q as ->. exists [], a, fs. auto.
      * intros (pre & f & post & Q & L & F & N). destruct pre as [|b pre]; [injection Q as -> ->; congruence|]. injection Q as -> ->. inversion N; subst. congruence.
    + rewrite IH. split.
      * intros (pre & f & post & -> & L & F & N). exists (a :: pre), f, post. cbn [length]. repeat split; auto.
      * intros (pre & f & post & Q & L & F & N). destruct pre as [|b pre]; [discriminate|]. injection Q as -> ->. inversion N; subst. exists pre, f, post. cbn [length] in L. repeat split; auto.
Qed.
End Props.
