(** HTML documents: conditional sections and entities (C155, C156, C160). *)
From Coq Require Import String ZifyBool ZifyNat.
From Verif Require Import Base StringModel StringSpec StringProofs ParserModel ParserSpec ParserProps HtmlTagModel HtmlTagSpec HtmlTagProps HtmlTagMore HtmlElemModel HtmlElemSpec HtmlElemProps HtmlDocModel HtmlDocSpec HtmlDocProps HtmlDocInv HtmlDocMain HtmlDocMore HtmlDocChunk HtmlDocRef.
Import List.ListNotations. Open Scope Z_scope.
Ltac Zify.zify_post_hook ::= Z.div_mod_to_equations.

(** ** Specification *)
(** a conditional section: the condition in blanks, the content *)
Definition section (b c b2 body : list Z) : list Z := [60; 33; 91] ++ b ++ c ++ b2 ++ 91 :: body ++ [93; 93; 62].
Definition trimmed (sp : Z -> bool) (c : list Z) : Prop := sp (hd 0 c) = false /\ exists u x, c = u ++ [x] /\ sp x = false.
(** all that is appended so far is parsed, outside of any section *)
Definition settled (d : doc) : Prop := d_parsed d = length (d_src d) /\ d_cdata d = false /\ d_rcdata d = false /\ d_invalid d = 0%nat.
(** what a section with condition [c] adds: its content as CDATA or RCDATA, or nothing *)
Definition adds (c : list Z) (t : option seq_t) : Prop := c = w "CDATA" /\ t = Some SCdata \/ c = w "RCDATA" /\ t = Some SPcdata \/ c = w "IGNORE" /\ t = None.

Section Cond.
Context (sp : Z -> bool).
Lemma no_end_in : forall body j r, ~ occurs [93; 93; 62] (body ++ [93; 93]) -> (j < length body)%nat -> skipn j body ++ [93; 93; 62] <> [93; 93; 62] ++ r.
Proof.
  intros body j r O L E. apply O. destruct (exists_last (l := r)) as (r' & z & ->). { intros ->. apply (f_equal (@length Z)) in E. rewrite app_nil_r, app_length, skipn_length in E. cbn [length] in E. lia. }
  rewrite app_assoc in E. change [93; 93; 62] with ([93; 93] ++ [62]) in E at 1. rewrite app_assoc in E. apply app_inj_tail in E. destruct E as [E _]. exists (firstn j body), r'. rewrite <- E, app_assoc, firstn_skipn. reflexivity.
Qed.
Lemma cend_iff : forall src i, ~ In 0 src -> (i <= length src)%nat -> starts (skipn i src) [93; 93; 62] -> condition_end src i (length src) = Ret (Some (i + 3)%nat).
Proof. intros src i N L S. destruct (html_condition_end_iff src i (length src) (src_ok _ _ L)) as (r & E & R & I). rewrite src_vis in I by auto. apply I in S. congruence. Qed.
Lemma cend_none : forall src i, ~ In 0 src -> (i <= length src)%nat -> ~ starts (skipn i src) [93; 93; 62] -> condition_end src i (length src) = Ret None.
Proof. intros src i N L S. destruct (html_condition_end_iff src i (length src) (src_ok _ _ L)) as (r & E & R & I). rewrite src_vis in I by auto. destruct R as [R|R]; [exfalso; apply S, I; auto|congruence]. Qed.
(** C155 *)
Theorem conditional_section : forall d b c b2 body t, reach sp d -> settled d -> sp 91 = false -> blank sp b -> blank sp b2 -> trimmed sp c -> adds c t -> ~ In 0 (section b c b2 body) -> ~ occurs [93; 93; 62] (body ++ [93; 93]) ->
  exists d', append sp d (section b c b2 body) = Ret d' /\ settled d' /\ d_stack d' = d_stack d /\
  match t with
  | None => d_seqs d' = d_seqs d
  | Some t => exists x, d_seqs d' = d_seqs d ++ [x] /\ q_type x = t /\ q_parent x = active d /\ between (d_src d') (extent x) = body
  end.
Proof.
  intros d b c b2 body t R (P & C0 & C1 & C2) S91 B B2 T A NZ O. set (s := section b c b2 body) in *. pose proof (reach_inv sp d R) as I. pose proof (inv_nz _ _ _ _ I) as NS. set (src := d_src d ++ s). assert (NZS : ~ In 0 src) by (intros Q; apply in_app_or in Q; tauto).
  set (p := length (d_src d)) in *. assert (SK : skipn p src = s) by (unfold src, p; apply skipn_length_app). assert (LS : length src = (p + length s)%nat) by (unfold src; apply app_length). assert (LL : length s = (3 + length b + length c + length b2 + 1 + length body + 3)%nat) by (unfold s, section; repeat (rewrite app_length || cbn [length]); lia).
  set (x := (p + 3 + length b + length c + length b2 + 1)%nat). assert (SX : forall j, (j <= length body)%nat -> skipn (x + j) src = skipn j body ++ [93; 93; 62]).
  { intros j J. replace (x + j)%nat with (p + (x - p + j))%nat by lia. rewrite <- skipn_plus, SK. unfold s, section. replace (x - p + j)%nat with (length ([60; 33; 91] ++ b ++ c ++ b2 ++ [91])%Z + j)%nat by (unfold x; repeat (rewrite app_length || cbn [length]); lia). replace ([60; 33; 91] ++ b ++ c ++ b2 ++ 91 :: body ++ [93; 93; 62]) with (([60; 33; 91] ++ b ++ c ++ b2 ++ [91]) ++ body ++ [93; 93; 62]) by (rewrite <- !app_assoc; reflexivity). rewrite <- skipn_plus, skipn_length_app. rewrite skipn_app. replace (j - length body)%nat with 0%nat by lia. reflexivity. }
  assert (N91 : ~ In 91 c /\ ~ In 37 c). { destruct A as [[-> _]|[[-> _]|[-> _]]]; split; vm_compute; intros Q; repeat (destruct Q as [Q|Q]; [discriminate|]); exact Q. } destruct N91 as [N91 N37].
  assert (CS : condition_start src sp p (length src) = Ret (Some ((p + 3 + length b, p + 3 + length b + length c)%nat, x))).
  { unfold x. eapply (html_condition_recognised src sp p (length src) b c b2 (body ++ [93; 93; 62])); auto. - apply src_ok. lia. - rewrite src_vis by auto. exact SK. }
  assert (PC : piece src (p + 3 + length b, p + 3 + length b + length c)%nat = c).
  { unfold piece. cbn [fst snd]. replace (p + 3 + length b + length c - (p + 3 + length b))%nat with (length c) by lia. replace (p + 3 + length b)%nat with (p + (3 + length b))%nat by lia. rewrite <- skipn_plus, SK. unfold s, section. replace ([60; 33; 91] ++ b ++ c ++ b2 ++ 91 :: body ++ [93; 93; 62]) with (([60; 33; 91] ++ b) ++ c ++ (b2 ++ 91 :: body ++ [93; 93; 62])) by (rewrite <- !app_assoc; reflexivity). replace (3 + length b)%nat with (length ([60; 33; 91] ++ b)) by (rewrite app_length; reflexivity). rewrite skipn_length_app. rewrite firstn_app, Nat.sub_diag, firstn_all. cbn. apply app_nil_r. }
  assert (CE0 : condition_end src p (length src) = Ret None). { apply cend_none; auto; [lia|]. rewrite SK. unfold s, section. intros (r & Q). discriminate. }
  assert (CEJ : forall j, (j < length body)%nat -> condition_end src (x + j) (length src) = Ret None). { intros j J. apply cend_none; auto; [lia|]. rewrite SX by lia. intros (r & Q). eapply no_end_in; eauto. }
  assert (CEE : condition_end src (x + length body) (length src) = Ret (Some (length src))). { rewrite cend_iff; auto; [do 2 f_equal; lia|lia|]. rewrite SX, skipn_all by lia. exists []. reflexivity. }
  (* the turns *)
  assert (T0 : turn sp (lift s d) p = Ret (Some (at_condition (lift s d) c x))).
  { unfold turn. cbv zeta. cbn [lift d_src]. fold src. rewrite CE0. cbn [obind]. change (d_cdata (lift s d)) with (d_cdata d). change (d_rcdata (lift s d)) with (d_rcdata d). change (d_invalid (lift s d)) with (d_invalid d). rewrite C0, C1, C2. cbn [orb]. change (negb (0 =? 0)%nat) with false. cbv iota. change (d_valid (lift s d)) with (d_valid d). replace (if (d_valid d =? 0)%nat then None else None : option nat) with (None : option nat) by (destruct (d_valid d =? 0)%nat; auto). rewrite CS. cbn [obind]. rewrite PC. change (d_ents (lift s d)) with (d_ents d). rewrite replace_plain by (auto; lia). reflexivity. }
  set (d1 := at_condition (lift s d) c x) in *. assert (S1 : d_src d1 = src) by reflexivity. assert (P1 : d_parsed d1 = x) by reflexivity.
  assert (INS : (d_cdata d1 || d_rcdata d1 = true \/ d_cdata d1 || d_rcdata d1 = false /\ d_invalid d1 = 1%nat)). { unfold d1, at_condition. cbn [d_cdata d_rcdata d_invalid]. change (d_cdata (lift s d)) with (d_cdata d). change (d_rcdata (lift s d)) with (d_rcdata d). change (d_invalid (lift s d)) with (d_invalid d). rewrite C0, C1, C2. destruct A as [[-> _]|[[-> _]|[-> _]]]; vm_compute; auto. }
  assert (TJ : forall k, (x <= k < x + length body)%nat -> turn sp d1 k = Ret None).
  { intros k K. unfold turn. cbv zeta. rewrite S1. replace k with (x + (k - x))%nat by lia. rewrite CEJ by lia. cbn [obind]. destruct INS as [E|[E E2]]; rewrite E; [reflexivity|]. rewrite E2. reflexivity. }
  assert (IL : dinv (lift s d)) by (unfold dinv; cbn [lift d_src d_parsed d_seqs d_stack]; apply inv_append; auto).
  assert (MAIN : forall d2, turn sp d1 (x + length body) = Ret (Some d2) -> d_parsed d2 = length src -> d_src d2 = src -> append sp d s = Ret d2).
  { intros d2 T2 P2 S2. apply (append_runs sp d s d2 I NZ). rewrite P. eapply runs_turn; [cbn [lift d_src]; fold src; lia|exact T0|]. rewrite P1. apply (runs_to sp d1 x (x + length body)); [rewrite S1; lia|exact TJ|]. eapply runs_turn; [rewrite S1; lia|exact T2|]. rewrite P2. apply runs_end. rewrite S2. lia. }
  assert (BT : between src (x, x + length body)%nat = body). { unfold between. cbn [fst snd]. replace (x + length body - x)%nat with (length body) by lia. replace x with (x + 0)%nat by lia. rewrite SX by lia. cbn [skipn]. rewrite firstn_app, Nat.sub_diag, firstn_all. cbn. apply app_nil_r. }
  assert (TE : turn sp d1 (x + length body) = Ret (if d_cdata d1 || d_rcdata d1 then Some (at_cdata_end d1 (x + length body) (length src)) else Some (Doc (d_src d1) (length src) (d_valid d1) (pred (d_invalid d1)) (d_cdata d1) (d_rcdata d1) (d_ents d1) (d_seqs d1) (d_stack d1) (d_special d1)))).
  { unfold turn. cbv zeta. rewrite S1, CEE. cbn [obind]. destruct INS as [E|[E E2]]; rewrite E; [reflexivity|]. rewrite E2. reflexivity. }
  destruct A as [[-> ->]|[[-> ->]|[-> ->]]].
  - assert (E : d_cdata d1 = true /\ d_rcdata d1 = false /\ d_invalid d1 = 0%nat). { unfold d1, at_condition. cbn [d_cdata d_rcdata d_invalid]. change (d_cdata (lift s d)) with (d_cdata d). change (d_rcdata (lift s d)) with (d_rcdata d). change (d_invalid (lift s d)) with (d_invalid d). rewrite C0, C1, C2. vm_compute. auto. } destruct E as (E1 & E2 & E3). rewrite E1 in TE. cbn [orb] in TE.
    eexists. split; [apply (MAIN _ TE); reflexivity|]. split; [|split]. { split; [reflexivity|]. split; [reflexivity|]. split; [reflexivity|]. exact E3. } { reflexivity. }
    eexists. split; [reflexivity|]. rewrite E1. split; [reflexivity|]. split; [reflexivity|]. exact BT.
  - assert (E : d_cdata d1 = false /\ d_rcdata d1 = true /\ d_invalid d1 = 0%nat). { unfold d1, at_condition. cbn [d_cdata d_rcdata d_invalid]. change (d_cdata (lift s d)) with (d_cdata d). change (d_rcdata (lift s d)) with (d_rcdata d). change (d_invalid (lift s d)) with (d_invalid d). rewrite C0, C1, C2. vm_compute. auto. } destruct E as (E1 & E2 & E3). rewrite E1, E2 in TE. cbn [orb] in TE.
    eexists. split; [apply (MAIN _ TE); reflexivity|]. split; [|split]. { split; [reflexivity|]. split; [reflexivity|]. split; [reflexivity|]. exact E3. } { reflexivity. }
    eexists. split; [reflexivity|]. rewrite E1. split; [reflexivity|]. split; [reflexivity|]. exact BT.
  - assert (E : d_cdata d1 = false /\ d_rcdata d1 = false /\ d_invalid d1 = 1%nat). { unfold d1, at_condition. cbn [d_cdata d_rcdata d_invalid]. change (d_cdata (lift s d)) with (d_cdata d). change (d_rcdata (lift s d)) with (d_rcdata d). change (d_invalid (lift s d)) with (d_invalid d). rewrite C0, C1, C2. vm_compute. auto. } destruct E as (E1 & E2 & E3). rewrite E1, E2 in TE. cbn [orb] in TE.
    eexists. split; [apply (MAIN _ TE); reflexivity|]. split; [|split]. { split; [reflexivity|]. split; [reflexivity|]. split; [reflexivity|]. cbn [d_invalid]. rewrite E3. reflexivity. } { reflexivity. } reflexivity.
Qed.
End Cond.
Example section_settled : settled doc_empty /\ trimmed sp_c (w "IGNORE") /\ adds (w "IGNORE") None /\ section [32] (w "IGNORE") [] (w "x<b>") = w "<![ IGNORE[x<b>]]>".
Proof. split; [repeat split|]. split; [split; [reflexivity|exists (w "IGNOR"), 69; split; reflexivity]|]. split; [right; right; auto|reflexivity]. Qed.

(** ** Entities *)
(** text with references to entities *)
Inductive part : Type := Plain (t : list Z) | Ref (n : list Z).
Definition part_text (p : part) : list Z := match p with Plain t => t | Ref n => 37 :: n ++ [59] end.
Definition part_ok (p : part) : Prop := match p with Plain t => ~ In 37 t | Ref n => ~ In 59 n end.
(** entities by name, the first one counts *)
Fixpoint value_for (defs : list (list Z * list Z)) (n : list Z) : option (list Z) :=
  match defs with [] => None | (m, v) :: r => if list_eq_dec Z.eq_dec m n then Some v else value_for r n end.
(** every reference replaced; None when one is not defined *)
Fixpoint expand (defs : list (list Z * list Z)) (ps : list part) : option (list Z) :=
  match ps with
  | [] => Some []
  | Plain t :: r => option_map (app t) (expand defs r)
  | Ref n :: r => match value_for defs n with None => None | Some v => option_map (app v) (expand defs r) end
  end.
Definition defs_of (src : list Z) (ents : list (itv * list Z)) : list (list Z * list Z) := map (fun x => (between src (fst x), snd x)) ents.
Lemma nth_app_len : forall (n : list Z) x r d, nth (length n) (n ++ x :: r) d = x.
Proof. induction n; intros; cbn; auto. Qed.
Lemma same_true : forall a b, same a b = true <-> a = b.
Proof. intros a b. unfold same. destruct (list_eq_dec Z.eq_dec a b); split; auto; discriminate. Qed.
Lemma split_at : forall (m n : list Z) r r', ~ In 59 m -> ~ In 59 n -> m ++ 59 :: r = n ++ 59 :: r' -> m = n /\ r = r'.
Proof.
  induction m as [|c m IH]; intros [|d n] r r' M N E; cbn [app] in E.
  - injection E as ->. auto. - injection E as <- ?. exfalso. apply N. left. auto. - injection E as -> ?. exfalso. apply M. left. auto.
  - injection E as -> E. apply IH in E. + destruct E as [-> ->]. auto. + intros Q. apply M. right. auto. + intros Q. apply N. right. auto.
Qed.
Lemma find_spec : forall src ents n r, Forall (fun x => (fst (fst x) <= snd (fst x) <= length src)%nat /\ ~ In 59 (between src (fst x))) ents -> ~ In 59 n -> find_entity src ents (n ++ 59 :: r) = match value_for (defs_of src ents) n with Some v => Some (v, r) | None => None end.
Proof.
  intros src. induction ents as [|[m v] ents IH]; intros n r F N; auto. inversion F as [|? ? [L M] F2]; subst. cbn [fst] in L, M. cbn [find_entity defs_of map value_for fst snd]. fold (defs_of src ents).
  assert (LB : length (between src m) = (snd m - fst m)%nat) by (unfold between; rewrite firstn_length, skipn_length; lia). change (piece src m) with (between src m). rewrite IH by auto.
  destruct (list_eq_dec Z.eq_dec (between src m) n) as [E|E].
  - rewrite E in LB. rewrite <- LB. replace (length n <? length (n ++ (59 :: r)%Z))%nat with true by (symmetry; apply Nat.ltb_lt; rewrite app_length; cbn [length]; lia). rewrite firstn_app, Nat.sub_diag, firstn_all. cbn [firstn]. rewrite app_nil_r, E. replace (same n n) with true by (symmetry; apply same_true; auto). rewrite nth_app_len. cbn [andb]. change (59 =? 59) with true. cbv iota.
    do 2 f_equal. change (n ++ 59 :: r) with (n ++ [59] ++ r). rewrite app_assoc. replace (S (length n)) with (length (n ++ [59])) by (rewrite app_length; cbn; lia). apply skipn_length_app.
  - rewrite <- LB. set (k := length (between src m)). destruct ((k <? length (n ++ (59 :: r)%Z))%nat && same (firstn k (n ++ 59 :: r)) (between src m) && (nth k (n ++ 59 :: r) 0 =? 59)) eqn:C; [|reflexivity]. exfalso. apply andb_prop in C. destruct C as [C C3]. apply andb_prop in C. destruct C as [C1 C2]. apply same_true in C2. apply Nat.ltb_lt in C1. apply E.
    assert (X : n ++ 59 :: r = between src m ++ 59 :: skipn (S k) (n ++ 59 :: r)). { rewrite <- C2. rewrite <- (firstn_skipn k (n ++ 59 :: r)) at 1. f_equal. destruct (nth_split (n ++ 59 :: r) 0 C1) as (l1 & l2 & Q & Q1). rewrite Q at 1 2. rewrite <- Q1 at 1. rewrite skipn_length_app. replace (nth k (n ++ 59 :: r) 0) with 59 by lia. f_equal. change (l1 ++ 59 :: l2) with (l1 ++ [59] ++ l2). rewrite app_assoc. replace (S k) with (length (l1 ++ [59])) by (rewrite app_length; cbn; lia). symmetry. apply skipn_length_app. }
    apply split_at in X; auto. destruct X as [X _]. auto.
Qed.
Lemma replace_app : forall t fuel src ents r, ~ In 37 t -> replace_entities (length t + fuel) src ents (t ++ r) = omap (app t) (replace_entities fuel src ents r).
Proof.
  induction t as [|c t IH]; intros fuel src ents r N. { cbn. destruct (replace_entities fuel src ents r); reflexivity. } cbn [length plus app replace_entities]. destruct (c =? 37) eqn:E. { exfalso. apply N. left. lia. } rewrite IH by (intros Q; apply N; right; auto). destruct (replace_entities fuel src ents r); reflexivity.
Qed.
Lemma find_short : forall src ents r v rest, find_entity src ents r = Some (v, rest) -> (length rest < length r)%nat.
Proof.
  intros src. induction ents as [|[n x] ents IH]; intros r v rest; [discriminate|]. cbn [find_entity]. set (k := (snd n - fst n)%nat). destruct ((k <? length r)%nat && same (firstn k r) (piece src n) && (nth k r 0 =? 59)) eqn:C; [|apply IH]. intros F. assert (E : rest = skipn (S k) r) by congruence. apply andb_prop in C. destruct C as [C _]. apply andb_prop in C. destruct C as [C _]. apply Nat.ltb_lt in C. rewrite E, skipn_length. lia.
Qed.
Lemma replace_more : forall fuel src ents input, (length input < fuel)%nat -> replace_entities fuel src ents input = replace_entities (S (length input)) src ents input.
Proof.
  assert (G : forall f1 f2 src ents input, (length input < f1)%nat -> (length input < f2)%nat -> replace_entities f1 src ents input = replace_entities f2 src ents input).
  { induction f1; intros f2 src ents input L1 L2; [lia|]. destruct f2; [lia|]. cbn [replace_entities]. destruct input as [|c r]; auto. cbn [length] in *. destruct (c =? 37).
    - destruct (find_entity src ents r) as [[v rest]|] eqn:F; auto. rewrite (IHf1 f2); auto; clear IHf1.
      + apply find_short in F. lia.
      + apply find_short in F. lia.
    - rewrite (IHf1 f2) by lia. reflexivity. }
  intros. apply G; lia.
Qed.
Lemma replace_step : forall f src ents r, replace_entities (S f) src ents (37 :: r) = match find_entity src ents r with Some (v, rest) => let* o := replace_entities f src ents rest in Ret (v ++ o) | None => Throw end.
Proof. reflexivity. Qed.
(** C156 *)
Theorem entities_replaced : forall src ents ps, Forall (fun x => (fst (fst x) <= snd (fst x) <= length src)%nat /\ ~ In 59 (between src (fst x))) ents -> Forall part_ok ps ->
  let input := concat (map part_text ps) in
  replace_entities (S (length input)) src ents input = match expand (defs_of src ents) ps with Some t => Ret t | None => Throw end.
Proof.
  intros src ents ps F. cbv zeta. induction ps as [|[t|n] ps IH]; intros P; cbn [map concat part_text expand]; [reflexivity| |]; inversion P as [|? ? P1 P2]; subst; specialize (IH P2); cbn [part_ok] in P1.
  - rewrite app_length. replace (S (length t + length (concat (map part_text ps)))) with (length t + S (length (concat (map part_text ps))))%nat by lia. rewrite replace_app by auto. rewrite IH. destruct (expand _ ps); reflexivity.
  - set (rest := concat (map part_text ps)) in *. change ((37 :: n ++ [59]) ++ rest) with (37 :: (n ++ [59]) ++ rest). rewrite <- app_assoc. cbn [app]. rewrite replace_step. cbn [length]. rewrite find_spec by auto. destruct (value_for (defs_of src ents) n) as [v|]; [|reflexivity].
    rewrite replace_more by (rewrite app_length; cbn [length]; lia). rewrite IH. destruct (expand _ ps); reflexivity.
Qed.
Example entities_example : expand [(w "a", w "IG"); (w "b", w "NORE")] [Ref (w "a"); Ref (w "b")] = Some (w "IGNORE") /\ concat (map part_text [Ref (w "a"); Plain (w "x"); Ref (w "b")]) = w "%a;x%b;".
Proof. split; reflexivity. Qed.
(** an entity with a plain value in use *)
Example entity_used : look (assign sp_c doc_empty (w "<!ENTITY % a IGNORE><![%a;[x]]>y")) = Ret [(SDecl, w "<!ENTITY % a IGNORE>", None, None); (SText, w "y", None, None)].
Proof. vm_compute. reflexivity. Qed.
(** C160: the value of an entity includes the quotation marks it is written in, so a quoted IGNORE does not ignore *)
Theorem quoted_entity_refuted : look (assign sp_c doc_empty (w "<!ENTITY % a 'IGNORE'><![%a;[x]]>y")) = Ret [(SDecl, w "<!ENTITY % a 'IGNORE'>", None, None); (SText, w "x", None, None); (SText, w "y", None, None)].
Proof. vm_compute. reflexivity. Qed.
Print Assumptions conditional_section.
Print Assumptions entities_replaced.
