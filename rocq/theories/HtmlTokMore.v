(** HTML tokens: lists of active tokens (C171-C173). *)
From Coq Require Import String ZifyBool ZifyNat.
From Verif Require Import Base StringModel StringSpec HtmlEscModel HtmlEscSpec HtmlEscProps HtmlTagModel HtmlElemModel HtmlElemSpec HtmlDocModel HtmlTokModel HtmlTokSpec HtmlTokProps HtmlTokParse HtmlTokMain.
Import List.ListNotations. Open Scope Z_scope.
Ltac Zify.zify_post_hook ::= Z.div_mod_to_equations.

Section Active.
Context (addr : nat -> Z).
Set Default Proof Using "Type".
(** each of the tokens starts the element of that name *)
Definition starts_named (toks : list token) (t : nat) (name : list Z) : Prop := exists x, nth_error toks t = Some (TText x) /\ t_kind x = KStarting /\ t_name x = name.
(** each of the tokens is the ending tag of that name *)
Definition end_tag (name : list Z) : list Z := units "</" ++ name ++ units ">".
Definition ends_named (toks : list token) (t : nat) (name : list Z) : Prop := exists x, nth_error toks t = Some (TText x) /\ t_kind x = KEnding /\ t_text x = end_tag name /\ t_tok x = false /\ t_txt x = false.
Lemma common_spec : forall a b p u v, common a b = (p, u, v) -> a = p ++ u /\ b = p ++ v /\ (u = [] \/ v = [] \/ exists x y r s, u = x :: r /\ v = y :: s /\ x <> y).
Proof.
  clear. induction a as [|x a IH]; intros b p u v H; cbn [common] in H. { injection H as <- <- <-. auto. } destruct b as [|y b]. { injection H as <- <- <-. auto. }
  destruct (x =? y)%nat eqn:E. - destruct (common a b) as [[p' u'] v'] eqn:C. injection H as <- <- <-. assert (x = y) by lia. subst y. destruct (IH b p' u' v' C) as (-> & -> & D). auto.
  - injection H as <- <- <-. split; auto. split; auto. right. right. exists x, y, a, b. split; auto. split; auto. lia.
Qed.
Lemma start_spec : forall from source active, start_tokens addr source active from = (source ++ flat_map (tag addr) from, active ++ from).
Proof. induction from as [|t r IH]; intros; cbn [start_tokens flat_map]. - rewrite !app_nil_r. reflexivity. - rewrite IH, <- !app_assoc. reflexivity. Qed.
Lemma ends_more1 : forall toks more l names, Forall2 (ends_named toks) l names -> Forall2 (ends_named (toks ++ more)) l names.
Proof. intros toks more l names F. induction F as [|t n r ns (x' & N & K) F IH]; constructor; auto. exists x'. split; auto. rewrite nth_error_app1; auto. apply nth_error_Some. congruence. Qed.
Lemma end_loop_spec : forall ts names toks source, Forall2 (starts_named toks) ts names ->
  exists more, end_loop addr toks source ts = Ret (toks ++ more, source ++ flat_map (tag addr) (seq (length toks) (length more))) /\ length more = length ts /\ Forall2 (ends_named (toks ++ more)) (seq (length toks) (length more)) names.
Proof.
  induction ts as [|t r IH]; intros names toks source F; inversion F as [|t0 n0 r0 ns S F' Q1 Q2]; subst; cbn [end_loop]. { exists []. cbn. rewrite !app_nil_r. repeat split; auto. }
  destruct S as (x & N & K & <-). rewrite N, K.
  destruct (IH ns (toks ++ [ending_of x]) (source ++ tag addr (length toks))) as (more & E & L & R).
  { clear - F'. induction F' as [|t n r ns (x' & N & K) F IH]; constructor; auto. exists x'. split; auto. rewrite nth_error_app1; auto. apply nth_error_Some. congruence. }
  exists (ending_of x :: more). rewrite app_length in E, R. cbn [length] in E, R. rewrite Nat.add_1_r in E, R. rewrite <- !app_assoc in *. cbn [app length seq flat_map] in *. rewrite E. split; auto. split; [lia|]. constructor; auto.
  eexists. split. { rewrite nth_error_app2, Nat.sub_diag by lia. reflexivity. } repeat split.
Qed.
(** C171: the active tokens become the new ones: what is not common to both is ended, the last one first, then the rest of the
    new ones is started *)
Theorem switch_tokens : forall toks source active new names, Forall2 (starts_named toks) active names ->
  exists p u v more, active = p ++ u /\ new = p ++ v /\ (u = [] \/ v = [] \/ exists x y r t, u = x :: r /\ v = y :: t /\ x <> y) /\
    (let* (toks, source, active, from) := end_tokens addr toks source active new in let (source, active) := start_tokens addr source active from in Ret (toks, source, active)) = Ret (toks ++ more, source ++ flat_map (tag addr) (seq (length toks) (length more)) ++ flat_map (tag addr) v, new) /\
    Forall2 (ends_named (toks ++ more)) (seq (length toks) (length more)) (rev (skipn (length p) names)).
Proof.
  intros toks source active new names F. unfold end_tokens. destruct (common active new) as [[p u] v] eqn:C. destruct (common_spec _ _ _ _ _ C) as (EA & EN & D).
  assert (FU : Forall2 (starts_named toks) u (skipn (length p) names)). { rewrite EA in F. clear - F. revert names F. induction p as [|x p IH]; intros names F; cbn [app length skipn] in *; auto. inversion F; subst. apply IH. auto. }
  assert (FR : Forall2 (starts_named toks) (rev u) (rev (skipn (length p) names))). { clear - FU. induction FU as [|x y u n S F IH]; cbn [rev]; [constructor|]. apply Forall2_app; auto. }
  destruct (end_loop_spec _ _ toks source FR) as (more & E & L & R). exists p, u, v, more. split; auto. split; auto. split; auto. split.
  - rewrite E. cbn [obind]. rewrite start_spec. cbn [fst snd]. rewrite <- app_assoc, EN. reflexivity.
  - auto.
Qed.
(** C172: the tokens to insert at a place are inserted there in their order and removed, the others are kept *)
Definition goes_to (word : nat) (after : bool) (t : inserted) : bool := (i_word t =? word)%nat && Bool.eqb (i_after t) after.
Definition ends_element (toks : list token) (t : inserted) : Prop := exists x, nth_error toks (i_tok t) = Some (TText x) /\ t_kind x = KEnding.
(** what is written for the tokens [ts]: the tags that make the right tokens active, then the tag of the token *)
Inductive insertion (toks : list token) : list nat -> list inserted -> list Z -> list nat -> Prop :=
| ins_nil : forall a, insertion toks a [] [] a
| ins_ending : forall a t r s b, ends_element toks t -> insertion toks a r s b -> insertion toks a (t :: r) (tag addr (i_tok t) ++ s) b
| ins_other : forall a t r p u v ks names s b, ~ ends_element toks t -> a = p ++ u -> i_active t = p ++ v -> (u = [] \/ v = [] \/ exists x y r t, u = x :: r /\ v = y :: t /\ x <> y) ->
    Forall2 (starts_named toks) u names -> Forall2 (ends_named toks) ks (rev names) ->
    insertion toks (i_active t) r s b -> insertion toks a (t :: r) (flat_map (tag addr) ks ++ flat_map (tag addr) v ++ tag addr (i_tok t) ++ s) b.
Lemma named_more : forall toks more l names, Forall2 (starts_named toks) l names -> Forall2 (starts_named (toks ++ more)) l names.
Proof. intros toks more l names F. induction F as [|t n r ns (x' & N & K) F IH]; constructor; auto. exists x'. split; auto. rewrite nth_error_app1; auto. apply nth_error_Some. congruence. Qed.
Lemma ends_more : forall toks more t, (i_tok t < length toks)%nat -> (ends_element (toks ++ more) t <-> ends_element toks t).
Proof. intros toks more t L. unfold ends_element. rewrite nth_error_app1 by auto. tauto. Qed.
Lemma skipn_forall2 : forall toks (p u : list nat) names, Forall2 (starts_named toks) (p ++ u) names -> Forall2 (starts_named toks) u (skipn (length p) names).
Proof. intros toks p. induction p as [|x p IH]; intros u names F; cbn [app length skipn] in *; auto. inversion F; subst. apply IH. auto. Qed.
Theorem insert_tokens : forall ins toks source active word after,
  (exists names, Forall2 (starts_named toks) active names) -> (forall t, In t ins -> goes_to word after t = true -> (i_tok t < length toks)%nat /\ exists names, Forall2 (starts_named toks) (i_active t) names) ->
  exists more s active', append_inserted addr toks source ins word after active = Ret (toks ++ more, source ++ s, filter (fun t => negb (goes_to word after t)) ins, active') /\
    insertion (toks ++ more) active (filter (goes_to word after) ins) s active'.
Proof.
  induction ins as [|t r IH]; intros toks source active word after FA FI; cbn [append_inserted filter]. { exists [], [], active. rewrite !app_nil_r. split; auto. constructor. }
  fold (goes_to word after t). destruct (goes_to word after t) eqn:G; cbn [negb].
  - destruct (FI t (or_introl eq_refl) G) as (L & names & FT). destruct (nth_error toks (i_tok t)) as [tk|] eqn:N. 2: { apply nth_error_None in N. lia. }
    assert (FI2 : forall more u, In u r -> goes_to word after u = true -> (i_tok u < length (toks ++ more))%nat /\ exists names, Forall2 (starts_named (toks ++ more)) (i_active u) names).
    { intros more u U GU. destruct (FI u (or_intror U) GU) as (LU & nu & FU). rewrite app_length. split; [lia|]. exists nu. apply named_more. auto. }
    assert (DEC : ends_element toks t \/ ~ ends_element toks t). { destruct tk as [x|u0 e0 s0]. 2: { right. intros (x & Q & _). congruence. } destruct (t_kind x) eqn:K. - right. intros (y & Q & R). assert (y = x) by congruence. congruence. - right. intros (y & Q & R). assert (y = x) by congruence. congruence. - left. exists x. auto. }
    destruct DEC as [EE|NE].
    + destruct EE as (x & Q & K). assert (tk = TText x) by congruence. subst tk. rewrite K. cbn [obind]. destruct (IH toks (source ++ tag addr (i_tok t)) active word after FA) as (more & s & b & E & R). { intros u U GU. destruct (FI2 [] u U GU) as [A B]. rewrite app_nil_r in A, B. auto. }
      rewrite E. exists more, (tag addr (i_tok t) ++ s), b. rewrite <- app_assoc. split; auto. apply ins_ending; auto. apply ends_more; auto. exists x. auto.
    + destruct FA as (na & FA). destruct (switch_tokens toks source active (i_active t) na FA) as (p & u & v & m1 & EA & EN & D & E & R1). set (e := flat_map (tag addr) (seq (length toks) (length m1))) in *.
      assert (E' : match tk with
              | TText x => match t_kind x with
                           | KEnding => Ret (toks, source, active)
                           | _ => let* (toks, source, active, from) := end_tokens addr toks source active (i_active t) in let (source, active) := start_tokens addr source active from in Ret (toks, source, active)
                           end
              | TUrl _ _ _ => let* (toks, source, active, from) := end_tokens addr toks source active (i_active t) in let (source, active) := start_tokens addr source active from in Ret (toks, source, active)
              end = Ret (toks ++ m1, source ++ e ++ flat_map (tag addr) v, i_active t)).
      { destruct tk as [x|u0 e0 s0]; auto. destruct (t_kind x) eqn:K; auto. exfalso. apply NE. exists x. auto. }
      rewrite E'. cbn [obind]. destruct (IH (toks ++ m1) ((source ++ e ++ flat_map (tag addr) v) ++ tag addr (i_tok t)) (i_active t) word after) as (m2 & s & b & E2 & R2). { exists names. apply named_more. auto. } { apply FI2. }
      rewrite E2. exists (m1 ++ m2), (e ++ flat_map (tag addr) v ++ tag addr (i_tok t) ++ s), b. rewrite <- !app_assoc in *. split; auto.
      eapply ins_other with (names := skipn (length p) na); eauto.
      * rewrite ends_more; auto.
      * apply named_more. subst active. apply skipn_forall2. auto.
      * rewrite app_assoc. apply ends_more1. auto.
  - destruct (IH toks source active word after FA) as (more & s & b & E & R). { intros u U. apply FI. right. auto. } rewrite E. cbn [obind]. exists more, s, b. auto.
Qed.
(** C173: merge never adds anything to the list it is to extend *)
Lemma merge_one_same : forall a t, merge_one a t = a.
Proof. induction a as [|x a IH]; intros t; cbn [merge_one]; auto. destruct (x =? t)%nat; congruence. Qed.
Theorem merge_adds_nothing : forall a b, merge a b = a.
Proof. intros a b. unfold merge. induction b as [|t b IH] using rev_ind; cbn; auto. rewrite fold_left_app. cbn [fold_left]. rewrite IH. apply merge_one_same. Qed.
Theorem merge_union_partial : (forall a b t, In t (merge a b) -> In t a \/ In t b) /\ (forall a b, incl b a -> forall t, In t (merge a b) <-> In t a \/ In t b) /\ ~ (forall a b t, In t (merge a b) <-> In t a \/ In t b).
Proof.
  split; [|split].
  - intros a b t. rewrite merge_adds_nothing. auto.
  - intros a b I t. rewrite merge_adds_nothing. split; auto. intros [H|H]; auto.
  - intros H. apply (proj2 (H [] [1%nat] 1%nat)). right. left. auto.
Qed.
End Active.
Print Assumptions switch_tokens.
Print Assumptions insert_tokens.
Print Assumptions merge_union_partial.
