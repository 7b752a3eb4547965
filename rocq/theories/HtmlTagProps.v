(** HTML tags: C139-C142. *)
From Coq Require Import ZifyBool ZifyNat.
From Verif Require Import Base StringModel StringSpec StringProofs ParserModel ParserSpec ParserProps HtmlTagModel HtmlTagSpec.
Ltac Zify.zify_post_hook ::= Z.div_mod_to_equations.

(** how far one goes until [stop] holds of what is left *)
Fixpoint scan (stop : list Z -> bool) (v : list Z) : nat := match v with [] => 0%nat | _ :: r => if stop v then 0%nat else S (scan stop r) end.
Lemma scan_le : forall stop v, (scan stop v <= length v)%nat.
Proof. induction v as [|c r IH]; cbn [scan]; auto. destruct (stop (c :: r)); cbn [length]; lia. Qed.
Lemma scan_stop : forall stop v, skipn (scan stop v) v = [] \/ stop (skipn (scan stop v) v) = true.
Proof. induction v as [|c r IH]; cbn [scan]; auto. destruct (stop (c :: r)) eqn:E; cbn [skipn]; auto. Qed.
Lemma scan_app : forall stop u v, (forall a b, u = a ++ b -> b <> [] -> stop (b ++ v) = false) -> scan stop (u ++ v) = (length u + scan stop v)%nat.
Proof.
  intros stop u. induction u as [|c u IH]; intros v H; auto. cbn [app scan length]. pose proof (H [] (c :: u) eq_refl ltac:(discriminate)) as E. cbn [app] in E. rewrite E. rewrite IH; auto. intros a b -> N. apply (H (c :: a) b); auto.
Qed.
Lemma scan_here : forall stop v, stop v = true -> scan stop v = 0%nat.
Proof. intros stop [|c r] H; auto. cbn [scan]. rewrite H. auto. Qed.
Definition hdz (v : list Z) (c : Z) : bool := match v with x :: _ => x =? c | [] => false end.
Definition pre2 (a b : Z) (v : list Z) : bool := hdz v a && hdz (tl v) b.
Definition pre3 (a b c : Z) (v : list Z) : bool := hdz v a && (hdz (tl v) b && hdz (tl (tl v)) c).
Lemma pre2_iff : forall a b v, pre2 a b v = true <-> exists r, v = a :: b :: r.
Proof.
  intros a b v. unfold pre2. split.
  - destruct v as [|x [|y r]]; cbn [hdz tl]; intros H; try discriminate; [lia|]. exists r. f_equal; [lia|f_equal; lia].
  - intros (r & ->). cbn [hdz tl]. lia.
Qed.
Lemma pre3_iff : forall a b c v, pre3 a b c v = true <-> exists r, v = a :: b :: c :: r.
Proof.
  intros a b c v. unfold pre3. split.
  - destruct v as [|x [|y [|z r]]]; cbn [hdz tl]; intros H; try discriminate; try lia. exists r. f_equal; [lia|f_equal; [lia|f_equal; lia]].
  - intros (r & ->). cbn [hdz tl]. lia.
Qed.

Section Tags.
Context (txt : list Z) (sp : Z -> bool).
Local Notation text_ok := (text_ok txt).
Local Notation vis := (vis txt).
Definition no_blank (v : list Z) : bool := match v with c :: _ => negb (sp c) | [] => true end.
Definition ident_stop (v : list Z) : bool := match v with c :: _ => (c =? 62) || (c =? 61) || pre2 47 62 v || sp c | [] => true end.
Definition value_stop (v : list Z) : bool := match v with c :: _ => (c =? 62) || pre2 47 62 v || sp c | [] => true end.

Lemma is_at_spec : forall i e c, text_ok i e -> is_at txt i e c = Ret (hdz (vis i e) c).
Proof. intros i e c H. unfold is_at. rewrite (peek_spec txt i e H). cbn [obind]. destruct (ParserSpec.vis txt i e); reflexivity. Qed.
Lemma is_at_next : forall i e x r c, text_ok i e -> vis i e = x :: r -> is_at txt (S i) e c = Ret (hdz r c).
Proof. intros i e x r c H V. destruct (vis_cons txt i e x r H V) as (_ & H2 & V2 & _). rewrite (is_at_spec _ _ _ H2), V2. auto. Qed.
Lemma and2_spec : forall i e a b, text_ok i e -> and_then (is_at txt i e a) (is_at txt (S i) e b) = Ret (pre2 a b (vis i e)).
Proof.
  intros i e a b H. unfold and_then, pre2. rewrite (is_at_spec i e a H). cbn [obind]. destruct (ParserSpec.vis txt i e) as [|x r] eqn:V; [reflexivity|]. cbn [hdz tl]. destruct (x =? a); auto. rewrite (is_at_next i e x r b H V). auto.
Qed.
Lemma and3_spec : forall i e a b c, text_ok i e -> and_then (is_at txt i e a) (and_then (is_at txt (S i) e b) (is_at txt (S (S i)) e c)) = Ret (pre3 a b c (vis i e)).
Proof.
  intros i e a b c H. unfold and_then at 1, pre3. rewrite (is_at_spec i e a H). cbn [obind]. destruct (ParserSpec.vis txt i e) as [|x r] eqn:V; [reflexivity|]. cbn [hdz tl]. destruct (x =? a); auto.
  destruct (vis_cons txt i e x r H V) as (_ & H2 & V2 & _). rewrite (and2_spec (S i) e b c H2), V2. reflexivity.
Qed.
Ltac step H V := match type of V with ParserSpec.vis _ ?i ?e = ?c :: ?r => let T := fresh "T" in let W := fresh "W" in destruct (vis_cons txt i e c r H V) as (_ & T & W & _) end.
Lemma skip_space_spec : forall fuel i e, text_ok i e -> (length (vis i e) < fuel)%nat -> skip_space txt sp fuel i e = Ret (i + scan no_blank (vis i e))%nat.
Proof.
  induction fuel; intros i e H L; [lia|]. cbn [skip_space]. rewrite (peek_spec txt i e H). cbn [obind]. destruct (ParserSpec.vis txt i e) as [|c r] eqn:V; cbn [hd_error scan no_blank]; [f_equal; lia|].
  destruct (sp c); cbn [negb]; [|f_equal; lia]. step H V. rewrite IHfuel; auto; rewrite W; [f_equal; lia|cbn [length] in L; lia].
Qed.
Lemma slash_spec : forall i e c r, text_ok i e -> vis i e = c :: r -> and_then (Ret (c =? 47)) (is_at txt (S i) e 62) = Ret (pre2 47 62 (vis i e)).
Proof. intros i e c r H V. unfold and_then. cbn [obind]. rewrite V. unfold pre2. cbn [hdz tl]. destruct (c =? 47); auto. apply (is_at_next i e c r 62 H V). Qed.
Lemma ident_loop_spec : forall fuel i e, text_ok i e -> (length (vis i e) < fuel)%nat -> ident_loop txt sp fuel i e = Ret (i + scan ident_stop (vis i e))%nat.
Proof.
  induction fuel; intros i e H L; [lia|]. cbn [ident_loop]. rewrite (peek_spec txt i e H). cbn [obind]. destruct (vis i e) as [|c r] eqn:V; cbn [hd_error]; [cbn [scan]; f_equal; lia|].
  rewrite (slash_spec i e c r H V). cbn [obind scan]. unfold ident_stop at 1. rewrite V. destruct ((c =? 62) || (c =? 61) || pre2 47 62 (c :: r) || sp c); [f_equal; lia|]. step H V. rewrite IHfuel; auto; rewrite W; [f_equal; lia|cbn [length] in L; lia].
Qed.
Lemma unquoted_loop_spec : forall fuel i e, text_ok i e -> (length (vis i e) < fuel)%nat -> unquoted_loop txt sp fuel i e = Ret (i + scan value_stop (vis i e))%nat.
Proof.
  induction fuel; intros i e H L; [lia|]. cbn [unquoted_loop]. rewrite (peek_spec txt i e H). cbn [obind]. destruct (vis i e) as [|c r] eqn:V; cbn [hd_error]; [cbn [scan]; f_equal; lia|].
  rewrite (slash_spec i e c r H V). cbn [obind scan]. unfold value_stop at 1. rewrite V. destruct ((c =? 62) || pre2 47 62 (c :: r) || sp c); [f_equal; lia|]. step H V. rewrite IHfuel; auto; rewrite W; [f_equal; lia|cbn [length] in L; lia].
Qed.
(** the first place where [stop] holds, if there is one *)
Definition first_at (stop : list Z -> bool) (i : nat) (v : list Z) : option nat := if (scan stop v <? length v)%nat then Some (i + scan stop v)%nat else None.
Lemma first_cons : forall stop i c r, first_at stop i (c :: r) = if stop (c :: r) then Some i else first_at stop (S i) r.
Proof.
  intros stop i c r. unfold first_at. cbn [scan length]. destruct (stop (c :: r)). { replace (0 <? S (length r))%nat with true by lia. f_equal. lia. }
  replace (S (scan stop r) <? S (length r))%nat with (scan stop r <? length r)%nat by lia. destruct (scan stop r <? length r)%nat; auto. f_equal. lia.
Qed.
Lemma first_nil : forall stop i, first_at stop i [] = None.
Proof. reflexivity. Qed.
Lemma quote_loop_spec : forall fuel i e q, text_ok i e -> (length (vis i e) < fuel)%nat -> quote_loop txt fuel i e q = Ret (first_at (fun v => hdz v q) i (vis i e)).
Proof.
  induction fuel; intros i e q H L; [lia|]. cbn [quote_loop]. rewrite (peek_spec txt i e H). cbn [obind]. destruct (vis i e) as [|c r] eqn:V; cbn [hd_error]; [rewrite first_nil; auto|].
  rewrite first_cons. cbn [hdz]. destruct (c =? q); auto. step H V. rewrite IHfuel; auto; rewrite W; auto. cbn [length] in L; lia.
Qed.
Lemma comment_loop_spec : forall fuel i e, text_ok i e -> (length (vis i e) < fuel)%nat -> comment_loop txt fuel i e = Ret (first_at (pre3 45 45 62) i (vis i e)).
Proof.
  induction fuel; intros i e H L; [lia|]. cbn [comment_loop]. rewrite (peek_spec txt i e H). cbn [obind]. destruct (vis i e) as [|c r] eqn:V; cbn [hd_error]; [rewrite first_nil; auto|].
  rewrite (and3_spec i e 45 45 62 H), V. cbn [obind]. rewrite first_cons. destruct (pre3 45 45 62 (c :: r)); auto. step H V. rewrite IHfuel; auto; rewrite W; auto. cbn [length] in L; lia.
Qed.
Lemma decl_comment_spec : forall fuel i e, text_ok i e -> (length (vis i e) < fuel)%nat -> decl_comment_loop txt fuel i e = Ret (option_map (fun k => (k + 2)%nat) (first_at (pre2 45 45) i (vis i e))).
Proof.
  induction fuel; intros i e H L; [lia|]. cbn [decl_comment_loop]. rewrite (peek_spec txt i e H). cbn [obind]. destruct (vis i e) as [|c r] eqn:V; cbn [hd_error]; [rewrite first_nil; auto|].
  rewrite (and2_spec i e 45 45 H), V. cbn [obind]. rewrite first_cons. destruct (pre2 45 45 (c :: r)); auto. step H V. rewrite IHfuel; auto; rewrite W; auto. cbn [length] in L; lia.
Qed.
Definition instr_stop (v : list Z) : bool := hdz v 62 || pre2 63 62 v.
Lemma instr_loop_spec : forall fuel i e, text_ok i e -> (length (vis i e) < fuel)%nat ->
  instr_loop txt fuel i e = Ret (option_map (fun k => (k, if hdz (skipn (k - i) (vis i e)) 62 then S k else (k + 2)%nat)) (first_at instr_stop i (vis i e))).
Proof.
  induction fuel; intros i e H L; [lia|]. cbn [instr_loop]. rewrite (peek_spec txt i e H). cbn [obind]. destruct (vis i e) as [|c r] eqn:V; cbn [hd_error]; [rewrite first_nil; auto|].
  rewrite first_cons. unfold instr_stop at 1. cbn [hdz]. destruct (c =? 62) eqn:C. { cbn [orb option_map]. rewrite Nat.sub_diag. cbn [skipn hdz]. rewrite C. auto. }
  cbn [orb]. assert (P : and_then (Ret (c =? 63)) (is_at txt (S i) e 62) = Ret (pre2 63 62 (c :: r))). { unfold and_then, pre2. cbn [obind hdz tl]. destruct (c =? 63); auto. apply (is_at_next i e c r 62 H V). }
  rewrite P. cbn [obind]. destruct (pre2 63 62 (c :: r)). { cbn [option_map]. rewrite Nat.sub_diag. cbn [skipn hdz]. rewrite C. auto. }
  step H V. rewrite IHfuel; auto; rewrite W; [|cbn [length] in L; lia]. unfold first_at. destruct (scan instr_stop r <? length r)%nat; auto. cbn [option_map]. replace (S i + scan instr_stop r - S i)%nat with (scan instr_stop r) by lia. replace (S i + scan instr_stop r - i)%nat with (S (scan instr_stop r)) by lia. reflexivity.
Qed.
Lemma html_ident_spec : forall i e, text_ok i e -> html_ident txt sp i e = Ret (match vis i e with [] => None | v => Some (i + scan ident_stop v)%nat end).
Proof.
  intros i e H. unfold html_ident. assert (B : (length (vis i e) <= e - i)%nat) by (pose proof (vis_end txt i e H); destruct H; lia). rewrite ident_loop_spec by (auto; lia). cbn [obind].
  destruct (vis_to txt i e (i + scan ident_stop (vis i e))%nat H) as [H2 V2]. { pose proof (scan_le ident_stop (vis i e)). lia. }
  rewrite (peek_spec txt _ e H2). cbn [obind]. rewrite V2. replace (i + scan ident_stop (vis i e) - i)%nat with (scan ident_stop (vis i e)) by lia. destruct (vis i e) as [|c r] eqn:V.
  - cbn [scan skipn hd_error]. replace (i <? i + 0)%nat with false by lia. auto.
  - destruct (skipn (scan ident_stop (c :: r)) (c :: r)) eqn:K; cbn [hd_error]; auto. destruct (i <? i + scan ident_stop (c :: r))%nat eqn:L; auto. replace (scan ident_stop (c :: r)) with 0%nat in K by lia. discriminate.
Qed.
(** a value: the content and the end, relative to the text *)
Definition value_of (i : nat) (v : list Z) : option (itv * nat) :=
  match v with
  | c :: r => if (c =? 34) || (c =? 39) then option_map (fun k => ((S i, k), S k)) (first_at (fun v => hdz v c) (S i) r) else Some ((i, i + scan value_stop v)%nat, (i + scan value_stop v)%nat)
  | [] => Some ((i, i), i)
  end.
Lemma html_value_spec : forall i e, text_ok i e -> html_value txt sp i e = Ret (value_of i (vis i e)).
Proof.
  intros i e H. unfold html_value. rewrite (peek_spec txt i e H). cbn [obind]. assert (B : (length (vis i e) <= e - i)%nat) by (pose proof (vis_end txt i e H); destruct H; lia). destruct (vis i e) as [|c r] eqn:V; cbn [hd_error value_of].
  - rewrite unquoted_loop_spec by (auto; rewrite V; cbn; lia). rewrite V. cbn [scan obind]. rewrite Nat.add_0_r. auto.
  - destruct ((c =? 34) || (c =? 39)).
    + step H V. cbn [length] in B. rewrite quote_loop_spec by (auto; rewrite W; lia). rewrite W. cbn [obind]. destruct (first_at _ (S i) r); auto.
    + rewrite unquoted_loop_spec by (auto; rewrite V; cbn [length] in *; lia). rewrite V. reflexivity.
Qed.

(** one attribute in front of [v] *)
Definition p_one (i : nat) (v : list Z) : option (attr * nat) :=
  match v with
  | [] => None
  | _ =>
      let j := scan ident_stop v in let v1 := skipn j v in let k := scan no_blank v1 in let v2 := skipn k v1 in
      if hdz v2 61 then
        let v3 := tl v2 in let m := scan no_blank v3 in let v4 := skipn m v3 in let x := (i + j + k + 1 + m)%nat in
        match value_of x v4 with
        | Some (c, y) => Some (Attr (i, i + j)%nat c, (y + scan no_blank (skipn (y - x) v4))%nat)
        | None => Some (Attr (i, i + j)%nat no_itv, x)
        end
      else Some (Attr (i, i + j)%nat no_itv, (i + j + k)%nat)
  end.
Lemma first_bound : forall stop i v k, first_at stop i v = Some k -> (i <= k < i + length v)%nat /\ stop (skipn (k - i) v) = true /\ (k - i = scan stop v)%nat.
Proof.
  intros stop i v k H. unfold first_at in H. destruct (scan stop v <? length v)%nat eqn:L; [|discriminate]. injection H as <-. replace (i + scan stop v - i)%nat with (scan stop v) by lia.
  split; [lia|]. split; auto. destruct (scan_stop stop v) as [K|K]; auto. apply (f_equal (@length Z)) in K. rewrite skipn_length in K. cbn [length] in K. lia.
Qed.
Lemma value_bound : forall i v c y, value_of i v = Some (c, y) -> (i <= fst c <= snd c)%nat /\ (snd c <= y <= i + length v)%nat.
Proof.
  intros i [|x r] c y H; cbn [value_of] in H. { injection H as <- <-. cbn. lia. }
  destruct ((x =? 34) || (x =? 39)).
  - destruct (first_at _ (S i) r) as [k|] eqn:F; [|discriminate]. injection H as <- <-. destruct (first_bound _ _ _ _ F) as [B _]. cbn [fst snd length]. lia.
  - pose proof (scan_le value_stop (x :: r)) as L. set (n := scan value_stop (x :: r)) in *. clearbody n. injection H as <- <-. cbn [fst snd]. lia.
Qed.
Lemma one_attr_spec : forall i e, text_ok i e -> one_attr txt sp i e = Ret (p_one i (vis i e)).
Proof.
  intros i e H. unfold one_attr, p_one. rewrite html_ident_spec by auto. cbn [obind]. remember (vis i e) as v eqn:V. destruct v as [|c r]; [reflexivity|]. cbv zeta. set (v := c :: r) in *. clearbody v. clear c r.
  pose proof (vis_end txt i e H) as [VE _]. rewrite <- V in VE. pose proof (scan_le ident_stop v) as L1. set (j := scan ident_stop v) in *. clearbody j.
  destruct (vis_skip txt j i e H) as [H1 V1]; [rewrite <- V; lia|]. rewrite <- V in V1. set (v1 := skipn j v) in *. assert (B1 : length v1 = (length v - j)%nat) by (unfold v1; apply skipn_length). clearbody v1.
  rewrite (skip_space_spec _ (i + j) e H1) by (rewrite V1; lia). cbn [obind]. rewrite V1. pose proof (scan_le no_blank v1) as L2. set (k := scan no_blank v1) in *. clearbody k.
  destruct (vis_skip txt k (i + j) e H1) as [H2 V2]; [rewrite V1; lia|]. rewrite V1 in V2. set (v2 := skipn k v1) in *. assert (B2 : length v2 = (length v1 - k)%nat) by (unfold v2; apply skipn_length). clearbody v2.
  rewrite (is_at_spec _ e 61 H2), V2. cbn [obind]. destruct (hdz v2 61) eqn:Q; [|reflexivity]. destruct v2 as [|x v3]; [discriminate|]. cbn [tl length] in *. clear Q.
  destruct (vis_cons txt _ e x v3 H2 V2) as (_ & H3 & V3 & _). rewrite (skip_space_spec _ (S (i + j + k)) e H3) by (rewrite V3; lia). rewrite V3. cbn [obind]. pose proof (scan_le no_blank v3) as L3. set (m := scan no_blank v3) in *. clearbody m.
  destruct (vis_skip txt m _ e H3) as [H4 V4]; [rewrite V3; lia|]. rewrite V3 in V4. set (v4 := skipn m v3) in *. assert (B4 : length v4 = (length v3 - m)%nat) by (unfold v4; apply skipn_length). clearbody v4.
  rewrite (html_value_spec _ e H4), V4. cbn [obind]. replace (S (i + j + k) + m)%nat with (i + j + k + 1 + m)%nat in * by lia. set (z := (i + j + k + 1 + m)%nat) in *.
  destruct (value_of z v4) as [[ct y]|] eqn:VO; [|reflexivity]. destruct (value_bound _ _ _ _ VO) as [_ B5].
  destruct (vis_to txt z e y H4) as [H5 V5]; [rewrite V4; pose proof (value_bound _ _ _ _ VO); lia|]. rewrite V4 in V5. rewrite (skip_space_spec _ y e H5) by (rewrite V5, skipn_length; lia). rewrite V5. reflexivity.
Qed.
Lemma skip_to_nonblank : forall v, no_blank (skipn (scan no_blank v) v) = true.
Proof. intros v. destruct (scan_stop no_blank v) as [->|K]; auto. Qed.
Lemma skipn_plus : forall (a b : nat) (v : list Z), skipn a (skipn b v) = skipn (b + a) v.
Proof. intros a b. revert a. induction b; intros a v; auto. destruct v; cbn [skipn Nat.add]; [apply skipn_nil|apply IHb]. Qed.
Lemma tl_skip : forall (v : list Z), tl v = skipn 1 v.
Proof. destruct v; reflexivity. Qed.
Lemma hdz_len : forall v c, hdz v c = true -> (0 < length v)%nat.
Proof. intros [|x v] c H; [discriminate|cbn; lia]. Qed.
(** after one attribute: further on unless it was an empty name in front of the end of an element, and at no white space *)
Lemma p_one_step : forall i v a j, p_one i v = Some (a, j) -> no_blank v = true -> hdz v 62 = false ->
  (i <= j <= i + length v)%nat /\ no_blank (skipn (j - i) v) = true /\ (pre2 47 62 v = false -> (i < j)%nat) /\
  (i <= fst (a_name a) <= snd (a_name a))%nat /\ (a_value a = no_itv /\ (snd (a_name a) <= j)%nat \/ (snd (a_name a) < fst (a_value a) <= snd (a_value a))%nat /\ (snd (a_value a) <= j)%nat).
Proof.
  intros i v a j H NB N62. unfold p_one in H. destruct v as [|c r]; [discriminate|]. cbv zeta in H.
  assert (PR : scan ident_stop (c :: r) = 0%nat -> pre2 47 62 (c :: r) = false -> c = 61).
  { cbn [scan]. unfold ident_stop. intros K P. rewrite P in K. cbn [no_blank hdz] in *. destruct (sp c); [discriminate|]. destruct (c =? 62); [discriminate|]. destruct (c =? 61) eqn:E; [lia|]. cbn [orb] in K. discriminate. }
  set (v := c :: r) in *. pose proof (scan_le ident_stop v) as L1. set (n := scan ident_stop v) in *. 
  set (v1 := skipn n v) in *. assert (B1 : length v1 = (length v - n)%nat) by (unfold v1; apply skipn_length). pose proof (scan_le no_blank v1) as L2. pose proof (skip_to_nonblank v1) as S2. set (k := scan no_blank v1) in *. 
  set (v2 := skipn k v1) in *. assert (B2 : length v2 = (length v1 - k)%nat) by (unfold v2; apply skipn_length).
  assert (E2 : v2 = skipn (n + k) v) by (unfold v2, v1; apply skipn_plus).
  destruct (hdz v2 61) eqn:Q.
  - pose proof (hdz_len _ _ Q) as P2. assert (B3 : length (tl v2) = (length v2 - 1)%nat) by (rewrite tl_skip; apply skipn_length). assert (E3 : tl v2 = skipn (n + k + 1) v) by (rewrite tl_skip, E2; apply skipn_plus).
    set (v3 := tl v2) in *. pose proof (scan_le no_blank v3) as L3. pose proof (skip_to_nonblank v3) as S3. set (m := scan no_blank v3) in *. set (v4 := skipn m v3) in *. assert (B4 : length v4 = (length v3 - m)%nat) by (unfold v4; apply skipn_length).
    assert (E4 : v4 = skipn (n + k + 1 + m) v) by (unfold v4; rewrite E3; apply skipn_plus). set (x := (i + n + k + 1 + m)%nat) in *.
    destruct (value_of x v4) as [[ct y]|] eqn:VO.
    + assert (H1 : Attr (i, i + n)%nat ct = a) by congruence. assert (H2 : (y + scan no_blank (skipn (y - x) v4))%nat = j) by congruence. clear H. destruct (value_bound _ _ _ _ VO) as [VB1 VB2].
      pose proof (scan_le no_blank (skipn (y - x) v4)) as L5. rewrite skipn_length in L5. pose proof (skip_to_nonblank (skipn (y - x) v4)) as S5. rewrite skipn_plus in S5.
      subst a j. cbn [a_name a_value fst snd]. set (w := scan no_blank (skipn (y - x) v4)) in *. clearbody w. unfold x in *. split; [lia|]. split; [|split; [lia|split; [lia|right; lia]]].
      rewrite E4, skipn_plus in S5. replace (i + n + k + 1 + m)%nat with x in * by reflexivity. replace (y + w - i)%nat with (n + k + 1 + m + (y - x + w))%nat by (unfold x in *; lia). exact S5.
    + assert (H1 : Attr (i, i + n)%nat no_itv = a) by congruence. assert (H2 : x = j) by congruence. clear H. subst a j. unfold x in *. cbn [a_name a_value fst snd]. split; [lia|]. split; [|split; [lia|split; [lia|left; split; [auto|lia]]]].
      replace (i + n + k + 1 + m - i)%nat with (n + k + 1 + m)%nat by lia. rewrite <- E4. exact S3.
  - assert (H1 : Attr (i, i + n)%nat no_itv = a) by congruence. assert (H2 : (i + n + k)%nat = j) by congruence. clear H. subst a j. cbn [a_name a_value fst snd]. split; [lia|]. split; [|split; [|split; [lia|left; split; [auto|lia]]]].
    + replace (i + n + k - i)%nat with (n + k)%nat by lia. rewrite <- E2. exact S2.
    + intros P. destruct (Nat.eq_dec n 0) as [Z0|]; [|lia]. pose proof (PR Z0 P) as ->. exfalso. revert Q. unfold v2, k, v1. rewrite Z0. rewrite (scan_here no_blank (skipn 0 v)) by exact NB. unfold v. cbn [skipn hdz]. discriminate.
Qed.

Fixpoint p_attrs (fuel : nat) (ty : seq_t) (i : nat) (v : list Z) (attrs : list attr) : outcome (option (seq_t * list attr * nat)) :=
  match fuel with
  | O => UB
  | S f =>
      if is_start ty && pre2 47 62 v then Ret (Some (SElement, attrs, (i + 2)%nat)) else
      if hdz v 62 then Ret (Some (ty, attrs, S i)) else
      if is_decl ty && pre2 33 62 v then Ret (Some (ty, attrs, (i + 2)%nat)) else
      if is_decl ty && pre2 45 45 v then
        match first_at (pre2 45 45) (i + 2) (skipn 2 v) with
        | None => Ret None
        | Some j => let k := (j + 2 + scan no_blank (skipn (j + 2 - i) v))%nat in p_attrs f ty k (skipn (k - i) v) attrs
        end
      else match p_one i v with None => Ret None | Some (a, j) => p_attrs f ty j (skipn (j - i) v) (attrs ++ [a]) end
  end.
Lemma if_out : forall (c : bool) (x : outcome bool) (b : bool), x = Ret b -> (if c then x else Ret false) = Ret (c && b).
Proof. intros [|] x b ->; reflexivity. Qed.
Lemma pre2_len : forall a b v, pre2 a b v = true -> (2 <= length v)%nat.
Proof. intros a b v H. apply pre2_iff in H. destruct H as (r & ->). cbn [length]. lia. Qed.
Lemma comment_end : forall i v j, pre2 45 45 v = true -> first_at (pre2 45 45) (i + 2) (skipn 2 v) = Some j -> (i + 2 <= j)%nat /\ (j + 2 <= i + length v)%nat /\ pre2 45 45 (skipn (j - i) v) = true.
Proof.
  intros i v j P F. apply pre2_len in P. destruct (first_bound _ _ _ _ F) as (B1 & B2 & _). rewrite skipn_length in B1. rewrite skipn_plus in B2. replace (2 + (j - (i + 2)))%nat with (j - i)%nat in B2 by lia. pose proof (pre2_len _ _ _ B2) as B3. rewrite skipn_length in B3. split; [lia|]. split; [lia|auto].
Qed.
Lemma attr_loop_spec : forall fuel ty i e attrs, text_ok i e -> no_blank (vis i e) = true -> attr_loop txt sp fuel ty i e attrs = p_attrs fuel ty i (vis i e) attrs.
Proof.
  induction fuel; intros ty i e attrs H NB; [reflexivity|]. cbn [attr_loop p_attrs].
  rewrite (if_out _ _ _ (and2_spec i e 47 62 H)). cbn [obind]. destruct (is_start ty && _); [reflexivity|].
  rewrite (is_at_spec i e 62 H). cbn [obind]. destruct (hdz (vis i e) 62) eqn:E62; [reflexivity|].
  rewrite (if_out _ _ _ (and2_spec i e 33 62 H)). cbn [obind]. destruct (is_decl ty && pre2 33 62 _); [reflexivity|].
  rewrite (if_out _ _ _ (and2_spec i e 45 45 H)). cbn [obind]. destruct (is_decl ty && pre2 45 45 _) eqn:DC.
  - apply andb_prop in DC. destruct DC as [_ DC]. pose proof (pre2_len _ _ _ DC) as L2. pose proof (vis_end txt i e H) as [VE _]. destruct (vis_skip txt 2 i e H L2) as [H2 V2].
    rewrite (decl_comment_spec _ (i + 2) e H2) by (rewrite V2, skipn_length; lia). rewrite V2. cbn [obind]. destruct (first_at _ _ _) as [j|] eqn:F; cbn [option_map]; [|reflexivity].
    destruct (comment_end i _ j DC F) as (J1 & J2 & _). destruct (vis_to txt i e (j + 2) H) as [H3 V3]; [lia|]. rewrite (skip_space_spec _ (j + 2) e H3) by (rewrite V3, skipn_length; lia). cbn [obind]. rewrite V3. cbv zeta.
    pose proof (scan_le no_blank (skipn (j + 2 - i) (vis i e))) as L3. rewrite skipn_length in L3. pose proof (skip_to_nonblank (skipn (j + 2 - i) (vis i e))) as S3. set (w := scan no_blank _) in *. clearbody w.
    destruct (vis_to txt i e (j + 2 + w) H) as [H4 V4]; [lia|]. rewrite IHfuel by (auto; rewrite V4; rewrite skipn_plus in S3; replace (j + 2 + w - i)%nat with (j + 2 - i + w)%nat by lia; auto). rewrite V4. reflexivity.
  - rewrite (peek_spec txt i e H). cbn [obind]. rewrite (one_attr_spec i e H). destruct (vis i e) as [|c r] eqn:V; [reflexivity|]. cbn [hd_error obind].
    destruct (p_one i (c :: r)) as [[a j]|] eqn:P. 2: { exfalso. unfold p_one in P. cbv zeta in P. destruct (hdz _ 61); [destruct (value_of _ _) as [[? ?]|]|]; discriminate. }
    destruct (p_one_step _ _ _ _ P NB E62) as (S1 & S2 & _). rewrite <- V in S1. destruct (vis_to txt i e j H S1) as [H3 V3]. rewrite V in V3. rewrite IHfuel by (auto; rewrite V3; auto). rewrite V3. reflexivity.
Qed.

Definition p_rest (fuel : nat) (ty : seq_t) (name : itv) (i : nat) (v : list Z) : outcome (option tag) :=
  let w := scan no_blank v in
  let* r := p_attrs fuel ty (i + w) (skipn w v) [] in
  match r with Some (ty, attrs, k) => Ret (Some (Tag ty name attrs k)) | None => Ret None end.
Lemma tag_rest_spec : forall fuel ty name i e, text_ok i e -> tag_rest txt sp fuel ty name i e = p_rest fuel ty name i (vis i e).
Proof.
  intros fuel ty name i e H. unfold tag_rest, p_rest. pose proof (vis_end txt i e H) as [VE _]. rewrite (skip_space_spec _ i e H) by lia. cbn [obind]. cbv zeta.
  destruct (vis_skip txt (scan no_blank (vis i e)) i e H (scan_le _ _)) as [H2 V2]. rewrite attr_loop_spec by (auto; rewrite V2; apply skip_to_nonblank). rewrite V2. reflexivity.
Qed.
Definition p_tag (fuel s : nat) (v : list Z) : outcome (option tag) :=
  if hdz v 60 then
    match tl v with
    | [] => Ret None
    | c :: r =>
        if c =? 47 then
          match r with
          | [] => let n := scan ident_stop (c :: r) in p_rest fuel SStart (s + 1, s + 1 + n)%nat (s + 1 + n) (skipn n (c :: r))
          | _ => let n := scan ident_stop r in p_rest fuel SEnd (s + 2, s + 2 + n)%nat (s + 2 + n) (skipn n r)
          end
        else if c =? 33 then
          if pre2 45 45 r then Ret (option_map (fun j => Tag SComment (s + 4, j)%nat [] (j + 3)) (first_at (pre3 45 45 62) (s + 4) (skipn 2 r)))
          else p_rest fuel SDecl (s + 2, s + 2)%nat (s + 2) r
        else if c =? 63 then
          Ret (option_map (fun k => Tag SInstr (s + 2, k)%nat [] (if hdz (skipn (k - (s + 2)) r) 62 then S k else (k + 2)%nat)) (first_at instr_stop (s + 2) r))
        else let n := scan ident_stop (c :: r) in p_rest fuel SStart (s + 1, s + 1 + n)%nat (s + 1 + n) (skipn n (c :: r))
    end
  else Ret None.
Lemma ident_rest : forall fuel ty i e j, text_ok i e -> (j <= length (vis i e))%nat -> tag_rest txt sp fuel ty (i, i + j)%nat (i + j) e = p_rest fuel ty (i, i + j)%nat (i + j) (skipn j (vis i e)).
Proof. intros fuel ty i e j H L. destruct (vis_skip txt j i e H L) as [H2 V2]. rewrite tag_rest_spec by auto. rewrite V2. reflexivity. Qed.
Definition z_case (c k : Z) : {c = k} + {c <> k} := Z.eq_dec c k.
Lemma html_tag_spec : forall fuel s e, text_ok s e -> html_tag txt sp fuel s e = p_tag fuel s (vis s e).
Proof.
  intros fuel s e H. unfold html_tag, p_tag. rewrite (is_at_spec s e 60 H). cbn [obind]. destruct (hdz (vis s e) 60) eqn:E0; cbn [negb]; [|auto].
  destruct (vis s e) as [|x v] eqn:V; [discriminate|]. clear E0. cbn [tl].
  destruct (vis_cons txt s e x v H V) as (_ & H1 & V1 & _). rewrite (peek_spec txt _ e H1), V1. cbn [obind]. destruct v as [|c r]; [reflexivity|]. cbn [hd_error].
  destruct (vis_cons txt _ e c r H1 V1) as (_ & H2 & V2 & _). pose proof (vis_end txt _ e H1) as [VE _]. rewrite V1 in VE. cbn [length] in VE.
  destruct (z_case c 47) as [->|N47].
  - change (47 =? 47) with true. cbv iota. rewrite (html_ident_spec _ e H2), V2. cbn [obind]. destruct r as [|d r].
    + change (47 =? 33) with false. change (47 =? 63) with false. cbv iota. rewrite (html_ident_spec _ e H1), V1. cbn [obind]. cbv zeta. replace (S s) with (s + 1)%nat in * by lia. rewrite (ident_rest _ _ (s + 1) e) by (auto; rewrite V1; apply scan_le). rewrite V1. reflexivity.
    + cbv zeta. replace (S (S s)) with (s + 2)%nat in * by lia. rewrite (ident_rest _ _ (s + 2) e) by (auto; rewrite V2; apply scan_le). rewrite V2. reflexivity.
  - replace (c =? 47) with false by lia. cbn [obind]. destruct (z_case c 33) as [->|N33].
    + change (33 =? 33) with true. cbv iota. replace (S s + 2)%nat with (S (S (S s))) by lia. rewrite (and2_spec _ e 45 45 H2), V2. cbn [obind]. destruct (pre2 45 45 r) eqn:P.
      * apply pre2_iff in P. destruct P as (r' & ->). cbn [length] in VE. destruct (vis_skip txt 2 _ e H2) as [H4 V4]; [rewrite V2; cbn [length]; lia|]. rewrite V2 in V4. cbn [skipn] in V4. replace (S (S s) + 2)%nat with (s + 4)%nat in * by lia. replace (S s + 3)%nat with (s + 4)%nat by lia.
        rewrite (comment_loop_spec _ (s + 4) e H4) by (rewrite V4; lia). rewrite V4. cbn [obind skipn]. destruct (first_at _ _ r'); reflexivity.
      * rewrite tag_rest_spec by auto. rewrite V2. replace (S (S s)) with (s + 2)%nat by lia. reflexivity.
    + replace (c =? 33) with false by lia. destruct (z_case c 63) as [->|N63].
      * change (63 =? 63) with true. cbv iota. rewrite (instr_loop_spec _ _ e H2) by (rewrite V2; lia). rewrite V2. cbn [obind]. replace (S (S s)) with (s + 2)%nat by lia. destruct (first_at _ _ r); reflexivity.
      * replace (c =? 63) with false by lia. rewrite (html_ident_spec _ e H1), V1. cbn [obind]. cbv zeta. replace (S s) with (s + 1)%nat in * by lia. rewrite (ident_rest _ _ (s + 1) e) by (auto; rewrite V1; apply scan_le). rewrite V1. reflexivity.
Qed.

Lemma within_mono : forall l i j k, (i <= j)%nat -> attrs_within j k l -> attrs_within i k l.
Proof. intros [|a l] i j k L H; cbn [attrs_within] in *; [lia|]. destruct H as [H1 H2]. split; [lia|auto]. Qed.
Lemma ends_1 : forall v k, hdz (skipn k v) 62 = true -> ends v (S k) [62].
Proof.
  intros v k. unfold ends. revert v. induction k; intros v H; destruct v as [|c v]; try discriminate.
  - cbn [skipn hdz] in H. exists []. cbn. f_equal. lia. - cbn [skipn] in H. destruct (IHk v H) as (a & E). exists (c :: a). cbn [firstn app]. cbn [firstn] in E. rewrite E. reflexivity.
Qed.
Lemma ends_at : forall w v k, (exists r, skipn k v = w ++ r) -> ends v (k + length w) w.
Proof.
  intros w v k (r & E). exists (firstn k v). assert (L : (k <= length v)%nat \/ w = []). { destruct (Nat.le_gt_cases k (length v)); auto. right. rewrite skipn_all2 in E by lia. destruct w; auto. discriminate. }
  rewrite <- (firstn_skipn k v) at 1. rewrite E. destruct L as [L| ->].
  - rewrite firstn_app, firstn_firstn, firstn_length. replace (Nat.min k (length v)) with k by lia. replace (k + length w - k)%nat with (length w) by lia. rewrite firstn_app, Nat.sub_diag, firstn_all. cbn [firstn]. rewrite app_nil_r. f_equal. f_equal. lia.
  - cbn [length]. rewrite Nat.add_0_r, app_nil_r. rewrite firstn_app, firstn_firstn. rewrite Nat.min_id, firstn_length. replace (k - Nat.min k (length v))%nat with (k - length v)%nat by lia.
    destruct (Nat.le_gt_cases k (length v)). { replace (k - length v)%nat with 0%nat by lia. cbn. apply app_nil_r. } cbn [app] in E. rewrite skipn_all2 in E by lia. subst r. rewrite firstn_nil. apply app_nil_r.
Qed.
Lemma ends_shift : forall v i k w, (i <= k)%nat -> (i <= length v)%nat -> ends (skipn i v) (k - i) w -> ends v k w.
Proof.
  intros v i k w L B (a & E). exists (firstn i v ++ a). rewrite <- (firstn_skipn i v) at 1. rewrite firstn_app, firstn_firstn, firstn_length. replace (Nat.min k i) with i by lia. replace (Nat.min i (length v)) with i by lia. rewrite E, app_assoc. reflexivity.
Qed.
Lemma p_attrs_bound : forall fuel ty i v attrs ty' l k, no_blank v = true -> p_attrs fuel ty i v attrs = Ret (Some (ty', l, k)) ->
  exists l', l = attrs ++ l' /\ (i < k <= i + length v)%nat /\ ends v (k - i) [62] /\ attrs_within i (k - 1) l' /\ (ty' = ty \/ ty = SStart /\ ty' = SElement /\ ends v (k - i) [47; 62]).
Proof.
  induction fuel; intros ty i v attrs ty' l k NB H; [discriminate|]. cbn [p_attrs] in H.
  destruct (is_start ty && pre2 47 62 v) eqn:C1.
  { apply andb_prop in C1. destruct C1 as [S1 C1]. destruct ty; try discriminate. apply pre2_iff in C1. destruct C1 as (r & ->). injection H as <- <- <-. exists []. rewrite app_nil_r. cbn [length attrs_within]. replace (i + 2 - i)%nat with 2%nat by lia.
    split; auto. split; [lia|]. split; [exists [47]; reflexivity|]. split; [lia|]. right. split; auto. split; auto. exists []; reflexivity. }
  destruct (hdz v 62) eqn:C2. { injection H as <- <- <-. exists []. rewrite app_nil_r. cbn [attrs_within]. replace (S i - i)%nat with 1%nat by lia. split; auto. pose proof (hdz_len _ _ C2). split; [lia|]. split; [apply (ends_1 v 0); auto|]. split; [lia|auto]. }
  destruct (is_decl ty && pre2 33 62 v) eqn:C3.
  { apply andb_prop in C3. destruct C3 as [_ C3]. apply pre2_iff in C3. destruct C3 as (r & ->). injection H as <- <- <-. exists []. rewrite app_nil_r. cbn [length attrs_within]. replace (i + 2 - i)%nat with 2%nat by lia. split; auto. split; [lia|]. split; [exists [33]; reflexivity|]. split; [lia|auto]. }
  destruct (is_decl ty && pre2 45 45 v) eqn:C4.
  - apply andb_prop in C4. destruct C4 as [_ C4]. destruct (first_at _ _ _) as [j|] eqn:F; [|discriminate]. destruct (comment_end i v j C4 F) as (J1 & J2 & _). cbv zeta in H.
    pose proof (scan_le no_blank (skipn (j + 2 - i) v)) as L3. rewrite skipn_length in L3. pose proof (skip_to_nonblank (skipn (j + 2 - i) v)) as S3. rewrite skipn_plus in S3. set (w := scan no_blank _) in *. clearbody w.
    apply IHfuel in H. 2: { replace (j + 2 + w - i)%nat with (j + 2 - i + w)%nat by lia. auto. } destruct H as (l' & E & B & N & W & T). rewrite skipn_length in B. exists l'. split; auto. split; [lia|]. split; [apply (ends_shift v (j + 2 + w - i) (k - i) [62]); [lia|lia|replace (k - i - (j + 2 + w - i))%nat with (k - (j + 2 + w))%nat by lia; auto]|].
    split; [apply (within_mono l' i (j + 2 + w) (k - 1)); [lia|auto]|]. destruct T as [T|(T1 & T2 & T3)]; auto. right. split; auto. split; auto. apply (ends_shift v (j + 2 + w - i) (k - i) [47; 62]); [lia|lia|replace (k - i - (j + 2 + w - i))%nat with (k - (j + 2 + w))%nat by lia; auto].
  - destruct (p_one i v) as [[a j]|] eqn:P; [|discriminate]. destruct (p_one_step _ _ _ _ P NB C2) as (S1 & S2 & _ & S4 & S5). apply IHfuel in H; auto. destruct H as (l' & E & B & N & W & T). rewrite skipn_length in B. exists (a :: l'). split; [rewrite E, <- app_assoc; reflexivity|]. split; [lia|].
    split; [apply (ends_shift v (j - i) (k - i) [62]); [lia|lia|replace (k - i - (j - i))%nat with (k - j)%nat by lia; auto]|]. split.
    + cbn [attrs_within]. split; [lia|]. destruct S5 as [[S5 S6]|[S5 S6]]; [left|right]; (split; [auto|]); eapply within_mono; try apply W; lia.
    + destruct T as [T|(T1 & T2 & T3)]; auto. right. split; auto. split; auto. apply (ends_shift v (j - i) (k - i) [47; 62]); [lia|lia|replace (k - i - (j - i))%nat with (k - j)%nat by lia; auto].
Qed.
Lemma p_rest_bound : forall fuel ty name i v g, p_rest fuel ty name i v = Ret (Some g) ->
  g_name g = name /\ (i < g_end g <= i + length v)%nat /\ ends v (g_end g - i) [62] /\ attrs_within i (g_end g - 1) (g_attrs g) /\ (g_type g = ty \/ ty = SStart /\ g_type g = SElement /\ ends v (g_end g - i) [47; 62]).
Proof.
  intros fuel ty name i v g H. unfold p_rest in H. cbv zeta in H. set (w := scan no_blank v) in *. pose proof (scan_le no_blank v) as L. fold w in L.
  destruct (p_attrs fuel ty (i + w) (skipn w v) []) as [[[[ty' l] k]|]| |] eqn:E; cbn [obind] in H; try discriminate. injection H as <-. cbn [g_name g_end g_attrs g_type].
  apply p_attrs_bound in E. 2: apply skip_to_nonblank. destruct E as (l' & E & B & N & W & T). cbn [app] in E. subst l'. rewrite skipn_length in B. split; auto. split; [lia|].
  split; [apply (ends_shift v w (k - i) [62]); [lia|lia|replace (k - i - w)%nat with (k - (i + w))%nat by lia; auto]|]. split; [eapply within_mono; [|apply W]; lia|].
  destruct T as [T|(T1 & T2 & T3)]; auto. right. split; auto. split; auto. apply (ends_shift v w (k - i) [47; 62]); [lia|lia|replace (k - i - w)%nat with (k - (i + w))%nat by lia; auto].
Qed.
Lemma no_start : forall x y a b r, y <> b -> ~ starts (x :: y :: r) [a; b].
Proof. intros x y a b r N (q & E). injection E as _ E _. congruence. Qed.
(** the text from the tag's name on: [m] units in front of the attributes *)
Lemma rest_tag : forall fuel ty s m n v g, (1 <= n <= m)%nat -> (m <= length v)%nat -> p_rest fuel ty (s + n, s + m)%nat (s + m) (skipn m v) = Ret (Some g) ->
  (s + m < g_end g <= s + length v)%nat /\ (s < fst (g_name g) <= snd (g_name g))%nat /\ attrs_within (snd (g_name g)) (g_end g - 1) (g_attrs g) /\ ends v (g_end g - s) [62] /\ (g_type g = ty \/ ty = SStart /\ g_type g = SElement /\ ends v (g_end g - s) [47; 62]).
Proof.
  intros fuel ty s m n v g L1 L2 H. apply p_rest_bound in H. destruct H as (N & B & E & W & T). rewrite skipn_length in B. rewrite N. cbn [fst snd]. split; [lia|]. split; [lia|]. split; auto. split; [apply (ends_shift v m (g_end g - s) [62]); [lia|lia|replace (g_end g - s - m)%nat with (g_end g - (s + m))%nat by lia; auto]|].
  destruct T as [T|(T1 & T2 & T3)]; auto. right. split; auto. split; auto. apply (ends_shift v m (g_end g - s) [47; 62]); [lia|lia|replace (g_end g - s - m)%nat with (g_end g - (s + m))%nat by lia; auto].
Qed.
(** C139 *)
Theorem html_tag_within : forall fuel s e g, text_ok s e -> html_tag txt sp fuel s e = Ret (Some g) ->
  (s + 1 < g_end g <= s + length (vis s e))%nat /\ (s < fst (g_name g) <= snd (g_name g))%nat /\ attrs_within (snd (g_name g)) (g_end g - 1) (g_attrs g) /\ type_ok (vis s e) (g_end g - s) (g_type g).
Proof.
  intros fuel s e g H K. rewrite html_tag_spec in K by auto. set (v := vis s e) in *. clearbody v. unfold p_tag in K. destruct (hdz v 60) eqn:E0; [|discriminate]. destruct v as [|x v]; [discriminate|]. assert (x = 60) as -> by (cbn [hdz] in E0; lia). clear E0. cbn [tl] in K.
  destruct v as [|c r]; [discriminate|]. destruct (z_case c 47) as [->|N47].
  - change (47 =? 47) with true in K. cbv iota in K. destruct r as [|d r].
    + cbv zeta in K. exfalso. assert (Q : exists n, skipn (scan ident_stop [47]) [47] = [] \/ skipn (scan ident_stop [47]) [47] = [47] /\ sp 47 = true /\ n = 0%nat). { exists 0%nat. destruct (scan_stop ident_stop [47]) as [Q|Q]; auto. unfold ident_stop in Q. cbn [scan] in *. unfold ident_stop in *. unfold pre2 in *. cbn [hdz tl] in *. rewrite andb_false_r in *. change (47 =? 62) with false in *. change (47 =? 61) with false in *. cbn [orb] in *. destruct (sp 47); auto. }
      assert (NIL : forall i name, p_rest fuel SStart name i [] <> Ret (Some g)). { intros i name. unfold p_rest. cbn [scan skipn]. destruct fuel; cbn; discriminate. }
      destruct Q as (_ & [Q|(Q & S47 & _)]). { rewrite Q in K. exact (NIL _ _ K). }
      rewrite Q in K. unfold p_rest in K. cbn [scan no_blank] in K. rewrite S47 in K. cbn [negb skipn] in K. destruct fuel; cbn in K; discriminate.
    + cbv zeta in K. set (n := scan ident_stop (d :: r)) in *. pose proof (scan_le ident_stop (d :: r)) as L. fold n in L. clearbody n. set (v := 60 :: 47 :: d :: r). assert (LV : length v = S (S (length (d :: r)))) by reflexivity.
      replace (skipn n (d :: r)) with (skipn (2 + n) v) in K by reflexivity. replace (s + 2 + n)%nat with (s + (2 + n))%nat in K by lia. apply rest_tag in K; [|lia|lia]. destruct K as (B & N & W & E & T). split; [lia|]. split; auto. split; auto.
      destruct T as [->|(T & _)]; [|discriminate]. split; auto. exists (d :: r). reflexivity.
  - replace (c =? 47) with false in K by lia. set (v := 60 :: c :: r) in *. destruct (z_case c 33) as [->|N33].
    + change (33 =? 33) with true in K. cbv iota in K. destruct (pre2 45 45 r) eqn:P.
      * apply pre2_iff in P. destruct P as (r' & ->). cbn [skipn] in K. destruct (first_at (pre3 45 45 62) (s + 4) r') as [j|] eqn:F; [|discriminate]. destruct (first_bound _ _ _ _ F) as (F1 & F2 & _). cbn [option_map] in K. injection K as <-. cbn [g_end g_name g_attrs g_type fst snd attrs_within].
        assert (LV : length v = (4 + length r')%nat) by reflexivity. apply pre3_iff in F2. destruct F2 as (r2 & F2). pose proof F2 as F3. apply (f_equal (@length Z)) in F3. rewrite skipn_length in F3. cbn [length] in F3. split; [lia|]. split; [lia|]. split; [lia|]. split; [exists r'; reflexivity|].
        replace (j + 3 - s)%nat with (j - s + length [45; 45; 62]%Z)%nat by (cbn [length]; lia). apply ends_at. exists r2. unfold v. replace (j - s)%nat with (4 + (j - (s + 4)))%nat by lia. rewrite <- skipn_plus. exact F2.
      * replace (s + 2, s + 2)%nat with (s + 2, s + (2 + 0))%nat in K by (f_equal; lia). replace (s + 2)%nat with (s + (2 + 0))%nat in K at 3 by lia. replace r with (skipn (2 + 0) v) in K by reflexivity. assert (LV : length v = (2 + length r)%nat) by reflexivity. apply rest_tag in K; [|lia|lia]. destruct K as (B & N & W & E & T). split; [lia|]. split; auto. split; auto.
        destruct T as [->|(T & _)]; [|discriminate]. split; [exists r; reflexivity|]. split; auto. intros (q & Q). unfold v in Q. cbn [app] in Q. assert (r = 45 :: 45 :: q) by congruence. subst r. discriminate.
    + replace (c =? 33) with false in K by lia. destruct (z_case c 63) as [->|N63].
      * change (63 =? 63) with true in K. cbv iota in K. destruct (first_at instr_stop (s + 2) r) as [j|] eqn:F; [|discriminate]. destruct (first_bound _ _ _ _ F) as (F1 & F2 & _). cbn [option_map] in K. assert (LV : length v = (2 + length r)%nat) by reflexivity.
        unfold instr_stop in F2. destruct (hdz (skipn (j - (s + 2)) r) 62) eqn:F3.
        -- injection K as <-. cbn [g_end g_name g_attrs g_type fst snd attrs_within]. split; [lia|]. split; [lia|]. split; [lia|]. split; [exists r; reflexivity|]. replace (S j - s)%nat with (S (2 + (j - (s + 2)))) by lia. apply ends_1. rewrite <- skipn_plus. exact F3.
        -- cbn [orb] in F2. apply pre2_iff in F2. destruct F2 as (r2 & F2). pose proof F2 as F4. apply (f_equal (@length Z)) in F4. rewrite skipn_length in F4. cbn [length] in F4. injection K as <-. cbn [g_end g_name g_attrs g_type fst snd attrs_within]. split; [lia|]. split; [lia|]. split; [lia|]. split; [exists r; reflexivity|].
           replace (j + 2 - s)%nat with (S (2 + (j - (s + 2) + 1))) by lia. apply ends_1. rewrite <- skipn_plus. unfold v. cbn [skipn]. rewrite <- skipn_plus, F2. reflexivity.
      * replace (c =? 63) with false in K by lia. cbv zeta in K. set (n := scan ident_stop (c :: r)) in *. pose proof (scan_le ident_stop (c :: r)) as L. fold n in L. clearbody n. assert (LV : length v = (1 + length (c :: r))%nat) by reflexivity. replace (skipn n (c :: r)) with (skipn (1 + n) v) in K by reflexivity. replace (s + 1 + n)%nat with (s + (1 + n))%nat in K by lia. apply rest_tag in K; [|lia|lia]. destruct K as (B & N & W & E & T).
        assert (S3 : starts v [60] /\ ~ starts v [60; 33] /\ ~ starts v [60; 63] /\ ~ starts v [60; 47]). { split; [exists (c :: r); reflexivity|]. unfold v. split; [|split]; apply no_start; auto. }
        split. { destruct n; [|lia]. destruct (Nat.eq_dec (g_end g) (s + 1)); [lia|]. lia. } split; auto. split; auto. destruct S3 as (A1 & A2 & A3 & A4). destruct T as [->|(_ & -> & T)]; cbn [type_ok is_start]; repeat (split; auto).
Qed.

(** where the name (or the content) starts, by type *)
Theorem html_tag_name : forall fuel s e g, text_ok s e -> html_tag txt sp fuel s e = Ret (Some g) ->
  match g_type g with
  | SStart | SElement => fst (g_name g) = (s + 1)%nat
  | SEnd | SInstr => fst (g_name g) = (s + 2)%nat
  | SDecl => g_name g = (s + 2, s + 2)%nat
  | SComment => fst (g_name g) = (s + 4)%nat /\ (snd (g_name g) + 3 = g_end g)%nat
  | _ => False
  end.
Proof.
  intros fuel s e g H K. rewrite html_tag_spec in K by auto. set (v := vis s e) in *. clearbody v. unfold p_tag in K. destruct (hdz v 60); [|discriminate]. destruct (tl v) as [|c r]; [discriminate|]. cbv zeta in K.
  destruct (c =? 47). { destruct r as [|d r]; apply p_rest_bound in K; destruct K as (N & _ & _ & _ & T); rewrite N; destruct T as [->|(T0 & -> & _)]; try discriminate; reflexivity. }
  destruct (c =? 33). { destruct (pre2 45 45 r). - destruct (first_at _ _ _) as [j|]; [|discriminate]. injection K as <-. cbn. auto. - apply p_rest_bound in K; destruct K as (N & _ & _ & _ & T); rewrite N; destruct T as [->|(T0 & _ & _)]; try discriminate; reflexivity. }
  destruct (c =? 63). { destruct (first_at _ _ _) as [j|]; [|discriminate]. cbn [option_map] in K. match type of K with Ret (Some ?x) = _ => assert (g = x) as -> by congruence end. reflexivity. }
  apply p_rest_bound in K; destruct K as (N & _ & _ & _ & T); rewrite N; destruct T as [->|(T0 & -> & _)]; try discriminate; reflexivity.
Qed.
Lemma occurs_skipn : forall w v k, occurs w (skipn k v) -> occurs w v.
Proof. intros w v k (a & b & E). exists (firstn k v ++ a), b. rewrite <- app_assoc, <- E, firstn_skipn. reflexivity. Qed.
Lemma occurs_pre2 : forall v, pre2 47 62 v = true -> occurs [47; 62] v.
Proof. intros v H. apply pre2_iff in H. destruct H as (r & ->). exists [], r. reflexivity. Qed.
Lemma p_attrs_ends : forall fuel ty i v attrs, no_blank v = true -> (length v < fuel)%nat -> (is_start ty = true \/ ~ occurs [47; 62] v) -> exists r, p_attrs fuel ty i v attrs = Ret r.
Proof.
  induction fuel; intros ty i v attrs NB L C; [lia|]. cbn [p_attrs].
  destruct (is_start ty && pre2 47 62 v) eqn:C1; [eauto|]. destruct (hdz v 62) eqn:C2; [eauto|]. destruct (is_decl ty && pre2 33 62 v) eqn:C3; [eauto|]. destruct (is_decl ty && pre2 45 45 v) eqn:C4.
  - apply andb_prop in C4. destruct C4 as [D C4]. destruct (first_at _ _ _) as [j|] eqn:F; [|eauto]. destruct (comment_end i v j C4 F) as (J1 & J2 & _). cbv zeta.
    pose proof (scan_le no_blank (skipn (j + 2 - i) v)) as L3. rewrite skipn_length in L3. pose proof (skip_to_nonblank (skipn (j + 2 - i) v)) as S3. rewrite skipn_plus in S3. set (w := scan no_blank _) in *. clearbody w. apply IHfuel.
    + replace (j + 2 + w - i)%nat with (j + 2 - i + w)%nat by lia. auto. + rewrite skipn_length. lia. + destruct C as [C|C]; auto. right. intros O. apply C. eapply occurs_skipn, O.
  - destruct (p_one i v) as [[a j]|] eqn:P; [|eauto]. destruct (p_one_step _ _ _ _ P NB C2) as (S1 & S2 & S3 & _). assert (NP : pre2 47 62 v = false). { destruct C as [C|C]. - rewrite C in C1. exact C1. - destruct (pre2 47 62 v) eqn:Q; auto. exfalso. apply C, occurs_pre2, Q. }
    specialize (S3 NP). apply IHfuel; auto. + rewrite skipn_length. lia. + destruct C as [C|C]; auto. right. intros O. apply C. eapply occurs_skipn, O.
Qed.
Lemma p_rest_ends : forall fuel ty name i v, (length v < fuel)%nat -> (is_start ty = true \/ ~ occurs [47; 62] v) -> exists r, p_rest fuel ty name i v = Ret r.
Proof.
  intros fuel ty name i v L C. unfold p_rest. cbv zeta. destruct (p_attrs_ends fuel ty (i + scan no_blank v) (skipn (scan no_blank v) v) []) as (r & ->). - apply skip_to_nonblank. - rewrite skipn_length. lia. - destruct C as [C|C]; auto. right. intros O. apply C. eapply occurs_skipn, O.
  - cbn [obind]. destruct r as [[[? ?] ?]|]; eauto.
Qed.
(** C140 *)
Theorem html_tag_returns : forall fuel s e, text_ok s e -> (length (vis s e) < fuel)%nat ->
  (~ starts (vis s e) [60; 47] /\ ~ starts (vis s e) [60; 33] \/ ~ occurs [47; 62] (vis s e)) -> exists r, html_tag txt sp fuel s e = Ret r.
Proof.
  intros fuel s e H L C. rewrite html_tag_spec by auto. set (v := vis s e) in *. clearbody v. unfold p_tag. destruct (hdz v 60) eqn:E0; [|eauto]. destruct v as [|x v]; [discriminate|]. assert (x = 60) as -> by (cbn [hdz] in E0; lia). clear E0. cbn [tl].
  destruct v as [|c r]; [eauto|]. cbn [length] in L. cbv zeta.
  assert (O : forall k, occurs [47; 62] (skipn k r) -> occurs [47; 62] (60 :: c :: r)) by (intros k Q; apply (occurs_skipn _ _ (2 + k)); exact Q).
  destruct (c =? 47) eqn:E47. { destruct r as [|d r]. - apply p_rest_ends; auto. rewrite skipn_length. cbn [length]. lia. - apply p_rest_ends. + rewrite skipn_length. cbn [length] in *. lia. + right. intros Q. apply O in Q. destruct C as [[C _]|C]; auto. apply C. exists (d :: r). cbn. f_equal. f_equal. lia. }
  destruct (c =? 33) eqn:E33. { destruct (pre2 45 45 r); [eauto|]. apply p_rest_ends; [lia|]. right. intros Q. apply (O 0%nat) in Q. destruct C as [[_ C]|C]; auto. apply C. exists r. cbn. f_equal. f_equal. lia. }
  destruct (c =? 63) eqn:E63; [eauto|]. apply p_rest_ends; auto. rewrite skipn_length. cbn [length]. lia.
Qed.

(** C141: in an end tag (or a declaration) that ends like an empty element the loop never ends *)
Lemma p_one_slash : forall i r, sp 47 = false -> p_one i (47 :: 62 :: r) = Some (Attr (i, i + 0)%nat no_itv, (i + 0 + 0)%nat).
Proof.
  intros i r S47. unfold p_one. rewrite (scan_here ident_stop) by (unfold ident_stop, pre2; cbn [hdz tl]; rewrite !Z.eqb_refl; rewrite orb_true_r; auto). cbv zeta. cbn [skipn]. rewrite (scan_here no_blank) by (cbn [no_blank]; rewrite S47; auto). cbn [skipn hdz]. change (47 =? 61) with false. reflexivity.
Qed.
Lemma p_attrs_never : forall fuel ty i r attrs, sp 47 = false -> is_start ty = false -> p_attrs fuel ty i (47 :: 62 :: r) attrs = UB.
Proof.
  induction fuel; intros ty i r attrs S47 T; [reflexivity|]. cbn [p_attrs]. rewrite T. cbn [andb hdz pre2 tl]. change (47 =? 62) with false. unfold pre2. cbn [hdz]. change (47 =? 33) with false. change (47 =? 45) with false. cbn [andb]. rewrite andb_false_r. cbv iota.
  rewrite p_one_slash by auto. rewrite !Nat.add_0_r, Nat.sub_diag. cbn [skipn]. apply IHfuel; auto.
Qed.
Lemma scan_name : forall n v, Forall (fun c => name_char sp c = true) n -> ident_stop v = true -> scan ident_stop (n ++ v) = length n.
Proof.
  intros n v F S. rewrite scan_app. { rewrite (scan_here _ _ S). lia. } intros a b E N. rewrite E in F. apply Forall_app in F. destruct F as [_ F]. destruct b as [|c b]; [congruence|]. inversion F as [|? ? C ?]; subst. unfold name_char in C.
  unfold ident_stop, pre2. cbn [app hdz]. destruct (sp c); [discriminate|]. destruct (c =? 62); [discriminate|]. destruct (c =? 61); [discriminate|]. destruct (c =? 47); [discriminate|]. reflexivity.
Qed.
Lemma skipn_length_app : forall (a b : list Z), skipn (length a) (a ++ b) = b.
Proof. intros a b. rewrite skipn_app, skipn_all, Nat.sub_diag. reflexivity. Qed.
Theorem html_end_tag_never_ends : forall fuel s e n r, text_ok s e -> sp 47 = false -> name_ok sp n -> vis s e = 60 :: 47 :: n ++ 47 :: 62 :: r -> html_tag txt sp fuel s e = UB.
Proof.
  intros fuel s e n r H S47 [N0 N] V. rewrite html_tag_spec by auto. rewrite V. unfold p_tag. cbn [hdz tl]. change (60 =? 60) with true. change (47 =? 47) with true. cbv iota. destruct (n ++ 47 :: 62 :: r) as [|d q] eqn:E. { destruct n; discriminate. }
  rewrite <- E. cbv zeta. rewrite scan_name by (auto; unfold ident_stop, pre2; cbn [hdz tl]; rewrite !Z.eqb_refl; rewrite orb_true_r; auto). rewrite skipn_length_app. unfold p_rest. rewrite (scan_here no_blank) by (cbn [no_blank]; rewrite S47; auto). cbn [skipn]. rewrite p_attrs_never by auto. reflexivity.
Qed.
Theorem html_declaration_never_ends : forall fuel s e n r, text_ok s e -> sp 47 = false -> name_ok sp n -> hd 0 n <> 45 -> vis s e = 60 :: 33 :: n ++ 47 :: 62 :: r -> html_tag txt sp fuel s e = UB.
Proof.
  intros fuel s e n r H S47 [N0 N] N45 V. rewrite html_tag_spec by auto. rewrite V. unfold p_tag. cbn [hdz tl]. change (60 =? 60) with true. change (33 =? 47) with false. change (33 =? 33) with true. cbv iota.
  destruct n as [|c n]; [congruence|]. cbn [hd] in N45. assert (PP : pre2 45 45 ((c :: n) ++ 47 :: 62 :: r) = false) by (unfold pre2; cbn [app hdz]; replace (c =? 45) with false by lia; auto). rewrite PP.
  assert (C : name_char sp c = true) by (inversion N; auto). unfold name_char in C. assert (SC : sp c = false) by (destruct (sp c); auto; discriminate). unfold p_rest. cbv zeta. rewrite (scan_here no_blank) by (cbn [app no_blank]; rewrite SC; auto). cbn [skipn].
  destruct fuel as [|fuel]; [reflexivity|]. cbn [p_attrs is_start is_decl andb]. assert (hdz ((c :: n) ++ 47 :: 62 :: r) 62 = false) as ->. { cbn [app hdz]. destruct (c =? 62); auto. rewrite SC in C. discriminate. }
  rewrite PP. destruct (pre2 33 62 ((c :: n) ++ 47 :: 62 :: r)) eqn:P33. { exfalso. apply pre2_iff in P33. destruct P33 as (q & E). destruct n as [|d n]. - discriminate. - cbn [app] in E. assert (d = 62) by congruence. subst d. inversion N as [|? ? _ N']; subst. inversion N' as [|? ? C' _]; subst. unfold name_char in C'. rewrite Z.eqb_refl in C'. cbn in C'. rewrite andb_false_r in C'. discriminate. }
  assert (PO : p_one (s + 2 + 0) ((c :: n) ++ 47 :: 62 :: r) = Some (Attr (s + 2 + 0, s + 2 + 0 + length (c :: n))%nat no_itv, (s + 2 + 0 + length (c :: n) + 0)%nat)).
  { unfold p_one. change ((c :: n) ++ 47 :: 62 :: r) with (c :: (n ++ 47 :: 62 :: r)) at 1. cbv iota. rewrite scan_name by (auto; unfold ident_stop, pre2; cbn [hdz tl]; rewrite !Z.eqb_refl; rewrite orb_true_r; auto). rewrite skipn_length_app. rewrite (scan_here no_blank) by (cbn [no_blank]; rewrite S47; auto). cbv zeta. cbn [skipn hdz]. change (47 =? 61) with false. reflexivity. }
  rewrite PO. replace (s + 2 + 0 + length (c :: n) + 0 - (s + 2 + 0))%nat with (length (c :: n)) by lia. rewrite skipn_length_app. rewrite p_attrs_never by auto. reflexivity.
Qed.

(** C142: what is well written is recognised *)
Hypothesis Hsp : forall c, In c [62; 61; 47; 34; 39] -> sp c = false.
Lemma blank_run : forall b v, blank sp b -> no_blank v = true -> scan no_blank (b ++ v) = length b.
Proof.
  intros b v F S. rewrite scan_app. { rewrite (scan_here _ _ S). lia. } intros x y E N. unfold blank in F. rewrite E in F. apply Forall_app in F. destruct F as [_ F]. destruct y as [|c y]; [congruence|]. inversion F; subst. cbn [app no_blank]. rewrite H1. auto.
Qed.
Definition at_end (v : list Z) : Prop := (exists r, v = 62 :: r) \/ (exists r, v = 47 :: 62 :: r).
Lemma sp62 : sp 62 = false. Proof. apply Hsp. cbn. auto. Qed.
Lemma sp61 : sp 61 = false. Proof. apply Hsp. cbn. auto. Qed.
Lemma sp47 : sp 47 = false. Proof. apply Hsp. cbn. auto. Qed.
Lemma end_nb : forall v, at_end v -> no_blank v = true.
Proof. intros v [(r & ->)|(r & ->)]; cbn [no_blank]; [rewrite sp62|rewrite sp47]; auto. Qed.
Lemma blank_first : forall w v, blank sp w -> w <> [] -> ident_stop (w ++ v) = true /\ value_stop (w ++ v) = true.
Proof. intros [|c w] v B N; [congruence|]. inversion B; subst. unfold ident_stop, value_stop. cbn [app]. rewrite H1, !orb_true_r. auto. Qed.
Lemma end_stop : forall v, at_end v -> ident_stop v = true /\ value_stop v = true.
Proof. intros v [(r & ->)|(r & ->)]; unfold ident_stop, value_stop, pre2; cbn [hdz tl]; rewrite ?Z.eqb_refl, ?orb_true_r; auto. Qed.
(** behind an attribute: another one, or the end of the tag *)
Definition name_first (v : list Z) : Prop := exists c r, v = c :: r /\ name_char sp c = true.
Lemma name_first_nb : forall v, name_first v -> no_blank v = true /\ hdz v 61 = false /\ hdz v 62 = false /\ hdz v 47 = false.
Proof. intros v (c & r & -> & C). unfold name_char in C. cbn [no_blank hdz]. destruct (sp c); [discriminate|]. destruct (c =? 62); [discriminate|]. destruct (c =? 61); [discriminate|]. destruct (c =? 47); [discriminate|]. auto. Qed.
Lemma name_ok_first : forall n v, name_ok sp n -> name_first (n ++ v).
Proof. intros [|c n] v [N F]; [congruence|]. inversion F; subst. exists c, (n ++ v). auto. Qed.
Lemma end_no_eq : forall v, at_end v -> hdz v 61 = false.
Proof. intros v [(r & ->)|(r & ->)]; reflexivity. Qed.
Lemma name_then : forall i n b v, name_ok sp n -> blank sp b -> no_blank v = true -> ident_stop (b ++ v) = true -> hdz v 61 = false -> p_one i (n ++ b ++ v) = Some (Attr (i, i + length n)%nat no_itv, (i + length n + length b)%nat).
Proof.
  intros i n b v [N F] B NB ST E. unfold p_one. destruct (n ++ b ++ v) as [|c r] eqn:Q. { destruct n; [congruence|discriminate]. } rewrite <- Q. rewrite scan_name by auto. cbv zeta. rewrite skipn_length_app. rewrite blank_run by auto. rewrite skipn_length_app, E. reflexivity.
Qed.
Lemma ident_eq : forall b v, blank sp b -> ident_stop (b ++ 61 :: v) = true.
Proof. intros [|c b] v B; [reflexivity|]. apply blank_first; [auto|discriminate]. Qed.
Lemma name_eq : forall i n b1 b2 v, name_ok sp n -> blank sp b1 -> blank sp b2 -> no_blank v = true ->
  p_one i (n ++ b1 ++ 61 :: b2 ++ v) = let x := (i + length n + length b1 + 1 + length b2)%nat in
    match value_of x v with Some (c, y) => Some (Attr (i, i + length n)%nat c, (y + scan no_blank (skipn (y - x) v))%nat) | None => Some (Attr (i, i + length n)%nat no_itv, x) end.
Proof.
  intros i n b1 b2 v [N F] B1 B2 NB. unfold p_one. destruct (n ++ b1 ++ 61 :: b2 ++ v) as [|c r] eqn:Q. { destruct n; [congruence|discriminate]. } rewrite <- Q. rewrite scan_name by (auto; apply ident_eq; auto). cbv zeta. rewrite skipn_length_app. rewrite blank_run by (auto; cbn [no_blank]; rewrite sp61; auto). rewrite skipn_length_app. cbn [hdz tl]. change (61 =? 61) with true. cbv iota. rewrite blank_run by auto. rewrite skipn_length_app. reflexivity.
Qed.
Lemma value_plain : forall x v w, value_ok sp v -> value_stop w = true -> (forall u, v = u ++ [47] -> hdz w 62 = false) -> value_of x (v ++ w) = Some ((x, x + length v)%nat, (x + length v)%nat).
Proof.
  intros x v w [(c & r & -> & N1 & N2) F] ST NS. cbn [app value_of]. replace ((c =? 34) || (c =? 39)) with false by lia. change (c :: r ++ w) with ((c :: r) ++ w). assert (SC : scan value_stop ((c :: r) ++ w) = length (c :: r)).
  { rewrite scan_app. { rewrite (scan_here _ _ ST). lia. } intros a b E N. rewrite E in F. apply Forall_app in F. destruct F as [_ F]. destruct b as [|d b]; [congruence|]. inversion F as [|? ? D F']; subst. unfold value_char in D. cbn [app]. unfold value_stop, pre2. cbn [hdz tl]. destruct (sp d); [discriminate|]. destruct (d =? 62); [discriminate|]. cbn [orb]. rewrite orb_false_r.
    destruct (d =? 47) eqn:D47; auto. cbn [andb]. destruct b as [|d' b]. - cbn [app]. apply (NS a). rewrite E. f_equal. f_equal. lia. - cbn [app hdz]. inversion F' as [|? ? D' _]; subst. unfold value_char in D'. destruct (d' =? 62); auto. rewrite andb_false_r in D'. discriminate. }
  rewrite SC. reflexivity.
Qed.
Lemma first_quote : forall q v w i, ~ In q v -> first_at (fun v => hdz v q) i (v ++ q :: w) = Some (i + length v)%nat.
Proof.
  intros q v w i N. unfold first_at. rewrite scan_app. - rewrite (scan_here _ (q :: w)) by (cbn [hdz]; apply Z.eqb_refl). rewrite app_length. cbn [length]. replace (_ <? _)%nat with true by lia. f_equal. lia.
  - intros a b E NB. destruct b as [|c b]; [congruence|]. cbn [app hdz]. destruct (c =? q) eqn:C; auto. exfalso. apply N. rewrite E. apply in_or_app. right. left. lia.
Qed.
Lemma value_quoted : forall x q v w, q = 34 \/ q = 39 -> ~ In q v -> value_of x (q :: v ++ q :: w) = Some ((x + 1, x + 1 + length v)%nat, (x + 1 + length v + 1)%nat).
Proof. intros x q v w Q N. cbn [value_of]. replace ((q =? 34) || (q =? 39)) with true by (destruct Q; subst; auto). rewrite first_quote by auto. cbn [option_map]. f_equal. f_equal; [f_equal; lia|lia]. Qed.
Lemma one_written : forall i last a v, wattr_ok sp last a -> (if last then at_end v else name_first v) -> p_one i (wattr_text a ++ v) = Some (wattr_at i a, (i + length (wattr_text a))%nat).
Proof.
  intros i last a v [B W] NX. assert (NV : no_blank v = true /\ hdz v 61 = false). { destruct last; [split; [apply end_nb|apply end_no_eq]; auto|]. pose proof (name_first_nb v NX). tauto. } destruct NV as [NV N61]. 
  destruct a as [n w|n b1 b2 x w|n b1 b2 q x w]; cbn [wattr_text wattr_at after_of] in *.
  - destruct W as [Hn Hw]. rewrite <- app_assoc. rewrite name_then; auto. + rewrite app_length. f_equal. f_equal. lia. + destruct w as [|z w]; [|apply blank_first; [auto|discriminate]]. destruct Hw as [->|]; [|congruence]. apply end_stop. exact NX.
  - destruct W as (Hn & B1 & B2 & Hv & Hw). rewrite <- app_assoc. rewrite <- app_assoc. cbn [app]. rewrite <- !app_assoc. rewrite name_eq; auto. 2: { destruct Hv as [(c & r & -> & _) F]. cbn [app no_blank]. inversion F as [|? ? C _]; subst. unfold value_char in C. destruct (sp c); auto. }
    cbv zeta. rewrite value_plain; auto.
    + replace (i + length n + length b1 + 1 + length b2 + length x - (i + length n + length b1 + 1 + length b2))%nat with (length x) by lia. rewrite skipn_length_app. rewrite blank_run by auto. f_equal. f_equal. rewrite !app_length. cbn [length]. rewrite !app_length. lia.
    + destruct w as [|z w]; [|apply blank_first; [auto|discriminate]]. destruct Hw as [|[-> _]]; [congruence|]. apply end_stop. exact NX.
    + intros u E. destruct Hw as [Hw|[_ Hw]]; [|exfalso; exact (Hw u E)]. destruct w as [|z w]; [congruence|]. cbn [app hdz]. inversion B; subst. destruct (z =? 62) eqn:Z62; auto. assert (z = 62) by lia. subst z. rewrite sp62 in H1. discriminate.
  - destruct W as (Hn & B1 & B2 & Hq & Hv). rewrite <- app_assoc. rewrite <- app_assoc. cbn [app]. rewrite <- !app_assoc. cbn [app]. rewrite <- !app_assoc. cbn [app]. rewrite name_eq; auto. 2: { cbn [no_blank]. rewrite Hsp; [auto|]. cbn. destruct Hq; subst; auto 6. }
    cbv zeta. rewrite value_quoted by auto. set (y := (i + length n + length b1 + 1 + length b2)%nat). replace (y + 1 + length x + 1 - y)%nat with (length (q :: x ++ [q])) by (cbn [length]; rewrite app_length; cbn [length]; lia). replace (q :: x ++ q :: w ++ v) with ((q :: x ++ [q]) ++ w ++ v) by (cbn [app]; rewrite <- app_assoc; reflexivity). rewrite skipn_length_app. rewrite blank_run by auto. f_equal. f_equal. unfold y. rewrite !app_length. cbn [length]. rewrite !app_length. cbn [length]. rewrite app_length. cbn [length]. lia.
Qed.
Lemma wattr_first : forall last a v, wattr_ok sp last a -> name_first (wattr_text a ++ v).
Proof. intros last a v [_ W]. destruct a; cbn [wattr_text]; rewrite <- app_assoc; apply name_ok_first; tauto. Qed.
Lemma wattr_len : forall last a, wattr_ok sp last a -> (1 <= length (wattr_text a))%nat.
Proof. intros last a [_ W]. destruct a as [n ?|n ? ? ? ?|n ? ? ? ? ?]; cbn [wattr_text]; rewrite app_length; assert ((1 <= length n)%nat) by (destruct W as [[Q _] _]; destruct n; [congruence|cbn; lia]); lia. Qed.
Lemma attrs_written : forall l fuel ty i attrs v, is_decl ty = false -> wattrs_ok sp l -> at_end v -> (length l < fuel)%nat ->
  (exists r, v = 62 :: r) \/ is_start ty = true ->
  p_attrs fuel ty i (wattrs_text l ++ v) attrs = Ret (Some (if hdz v 62 then ty else SElement, attrs ++ wattrs_at i l, (i + length (wattrs_text l) + if hdz v 62 then 1 else 2)%nat)).
Proof.
  induction l as [|a l IH]; intros fuel ty i attrs v D W E F T; (destruct fuel as [|fuel]; [cbn [length] in F; lia|]).
  - cbn [wattrs_text flat_map app wattrs_at length p_attrs]. rewrite app_nil_r, Nat.add_0_r. destruct E as [(r & ->)|(r & ->)].
    + unfold pre2. cbn [hdz]. change (62 =? 62) with true. change (62 =? 47) with false. cbn [andb]. rewrite andb_false_r. f_equal. f_equal. f_equal. lia.
    + destruct T as [(q & T)|T]; [discriminate|]. rewrite T. unfold pre2. cbn [hdz tl]. change (47 =? 47) with true. change (62 =? 62) with true. change (47 =? 62) with false. reflexivity.
  - cbn [wattrs_ok] in W. destruct W as [W1 W2]. unfold wattrs_text. cbn [flat_map]. fold (wattrs_text l). rewrite <- app_assoc. cbn [p_attrs wattrs_at]. pose proof (wattr_first _ a (wattrs_text l ++ v) W1) as NF. destruct (name_first_nb _ NF) as (N1 & N2 & N3 & N4). rewrite D. cbn [andb]. rewrite N3. assert (pre2 47 62 (wattr_text a ++ wattrs_text l ++ v) = false) as -> by (unfold pre2; rewrite N4; auto). rewrite andb_false_r.
    rewrite (one_written i _ a (wattrs_text l ++ v) W1). 2: { destruct l as [|b l]; [exact E|]. cbn [wattrs_ok] in W2. destruct W2 as [W2 _]. unfold wattrs_text. cbn [flat_map]. rewrite <- app_assoc. eapply wattr_first, W2. }
    replace (i + length (wattr_text a) - i)%nat with (length (wattr_text a)) by lia. rewrite skipn_length_app. rewrite IH; auto. 2: cbn [length] in F; lia. rewrite <- app_assoc, app_length. cbn [app]. do 3 f_equal. lia.
Qed.
Lemma wattrs_nb : forall l v, wattrs_ok sp l -> at_end v -> no_blank (wattrs_text l ++ v) = true.
Proof. intros [|a l] v W E; [apply end_nb, E|]. cbn [wattrs_ok] in W. destruct W as [W _]. unfold wattrs_text. cbn [flat_map]. rewrite <- app_assoc. apply (name_first_nb _ (wattr_first _ a _ W)). Qed.
Lemma wattrs_len : forall l, wattrs_ok sp l -> (length l <= length (wattrs_text l))%nat.
Proof. induction l as [|a l IH]; intros W; auto. cbn [wattrs_ok] in W. destruct W as [W1 W2]. unfold wattrs_text. cbn [flat_map length]. fold (wattrs_text l). rewrite app_length. pose proof (wattr_len _ _ W1). specialize (IH W2). lia. Qed.
Lemma rest_written : forall fuel ty name i b l v, is_decl ty = false -> blank sp b -> wattrs_ok sp l -> at_end v -> (length l < fuel)%nat -> (exists r, v = 62 :: r) \/ is_start ty = true ->
  p_rest fuel ty name i (b ++ wattrs_text l ++ v) = Ret (Some (Tag (if hdz v 62 then ty else SElement) name (wattrs_at (i + length b) l) (i + length b + length (wattrs_text l) + if hdz v 62 then 1 else 2)%nat)).
Proof. intros fuel ty name i b l v D B W E F T. unfold p_rest. cbv zeta. rewrite blank_run by (auto; apply wattrs_nb; auto). rewrite skipn_length_app. rewrite attrs_written by auto. reflexivity. Qed.
Lemma ident_end : forall b l v, blank sp b -> (l = [] \/ b <> []) -> at_end v -> ident_stop (b ++ wattrs_text l ++ v) = true.
Proof. intros b l v B N E. destruct b as [|c b]; [|apply blank_first; [auto|discriminate]]. destruct N as [->|N]; [|congruence]. apply end_stop, E. Qed.
Theorem html_start_recognised : forall fuel s e n b l v, text_ok s e -> (length (vis s e) < fuel)%nat -> vis s e = 60 :: n ++ b ++ wattrs_text l ++ v ->
  name_ok sp n -> hd 0 n <> 33 -> hd 0 n <> 63 -> blank sp b -> (l = [] \/ b <> []) -> wattrs_ok sp l ->
  let i := (s + 1 + length n + length b)%nat in
  (forall r, v = 62 :: r -> html_tag txt sp fuel s e = Ret (Some (Tag SStart (s + 1, s + 1 + length n)%nat (wattrs_at i l) (i + length (wattrs_text l) + 1)))) /\
  (forall r, v = 47 :: 62 :: r -> html_tag txt sp fuel s e = Ret (Some (Tag SElement (s + 1, s + 1 + length n)%nat (wattrs_at i l) (i + length (wattrs_text l) + 2)))).
Proof.
  intros fuel s e n b l v H L V [N F] N1 N2 B BL W i.
  assert (K : at_end v -> html_tag txt sp fuel s e = Ret (Some (Tag (if hdz v 62 then SStart else SElement) (s + 1, s + 1 + length n)%nat (wattrs_at i l) (i + length (wattrs_text l) + if hdz v 62 then 1 else 2)%nat))).
  { intros E. rewrite html_tag_spec by auto. rewrite V. unfold p_tag. cbn [hdz tl]. change (60 =? 60) with true. cbv iota. destruct n as [|c n]; [congruence|]. set (t := b ++ wattrs_text l ++ v) in *. change ((c :: n) ++ t) with (c :: (n ++ t)). cbv iota. cbn [hd] in *. assert (C : name_char sp c = true) by (inversion F; auto). unfold name_char in C.
    replace (c =? 47) with false by (destruct (c =? 47); auto; rewrite andb_false_r in C; discriminate). replace (c =? 33) with false by lia. replace (c =? 63) with false by lia. change (c :: n ++ t) with ((c :: n) ++ t). rewrite scan_name by (auto; apply ident_end; auto). cbv zeta. rewrite skipn_length_app. unfold t. rewrite rest_written; auto.
    apply wattrs_len in W. rewrite V in L. cbn [length] in L. unfold t in L. rewrite !app_length in L. lia. }
  split; intros r ->; rewrite K by (unfold at_end; eauto); cbn [hdz]; reflexivity.
Qed.
Theorem html_end_recognised : forall fuel s e n b r, text_ok s e -> (0 < fuel)%nat -> vis s e = 60 :: 47 :: n ++ b ++ 62 :: r -> name_ok sp n -> blank sp b ->
  html_tag txt sp fuel s e = Ret (Some (Tag SEnd (s + 2, s + 2 + length n)%nat [] (s + 2 + length n + length b + 1))).
Proof.
  intros fuel s e n b r H L V [N F] B. rewrite html_tag_spec by auto. rewrite V. unfold p_tag. cbn [hdz tl]. change (60 =? 60) with true. change (47 =? 47) with true. cbv iota. assert (E : at_end (62 :: r)) by (left; eauto).
  destruct (n ++ b ++ 62 :: r) as [|d q] eqn:Q. { destruct n; [congruence|discriminate]. } rewrite <- Q. cbv zeta. rewrite scan_name by (auto; apply (ident_end b [] (62 :: r)); auto). rewrite skipn_length_app. pose proof (rest_written fuel SEnd (s + 2, s + 2 + length n)%nat (s + 2 + length n) b [] (62 :: r) eq_refl B I E ltac:(cbn; lia) (or_introl (ex_intro _ r eq_refl))) as R.
  cbn [wattrs_text flat_map app length wattrs_at hdz] in R. change (62 =? 62) with true in R. cbv iota in R. rewrite R. do 3 f_equal. lia.
Qed.
Lemma first_here : forall stop u v i, v <> [] -> stop v = true -> (forall a b, u = a ++ b -> b <> [] -> stop (b ++ v) = false) -> first_at stop i (u ++ v) = Some (i + length u)%nat.
Proof. intros stop u v i N S H. unfold first_at. rewrite scan_app by auto. rewrite (scan_here _ _ S), app_length. assert ((0 < length v)%nat) by (destruct v; [congruence|cbn; lia]). replace (_ <? _)%nat with true by lia. f_equal. lia. Qed.
Theorem html_comment_recognised : forall fuel s e c r, text_ok s e -> vis s e = 60 :: 33 :: 45 :: 45 :: c ++ 45 :: 45 :: 62 :: r -> ~ occurs [45; 45; 62] (c ++ [45; 45]) ->
  html_tag txt sp fuel s e = Ret (Some (Tag SComment (s + 4, s + 4 + length c)%nat [] (s + 4 + length c + 3))).
Proof.
  intros fuel s e c r H V O. rewrite html_tag_spec by auto. rewrite V. unfold p_tag, pre2. cbn [hdz tl skipn]. rewrite !Z.eqb_refl. change (33 =? 47) with false. cbn [andb]. cbv iota. rewrite first_here; [reflexivity|discriminate|reflexivity|].
  intros a b E NB. destruct (pre3 45 45 62 (b ++ 45 :: 45 :: 62 :: r)) eqn:P; auto. exfalso. apply O. apply pre3_iff in P. destruct P as (q & P). destruct b as [|x [|y [|z b]]]; [congruence| | |]; cbn [app] in P.
  - assert (62 = 45) by congruence. discriminate. - assert (45 = 62) by congruence. discriminate.
  - exists a, (b ++ [45; 45]). rewrite E, <- app_assoc. cbn [app]. assert (x = 45 /\ y = 45 /\ z = 62) as (-> & -> & ->) by (split; [congruence|split; congruence]). reflexivity.
Qed.
Theorem html_instruction_recognised : forall fuel s e c r, text_ok s e -> ~ In 62 c -> 
  (vis s e = 60 :: 63 :: c ++ 63 :: 62 :: r -> html_tag txt sp fuel s e = Ret (Some (Tag SInstr (s + 2, s + 2 + length c)%nat [] (s + 2 + length c + 2)))) /\
  (vis s e = 60 :: 63 :: c ++ 62 :: r -> (forall u, c <> u ++ [63]) -> html_tag txt sp fuel s e = Ret (Some (Tag SInstr (s + 2, s + 2 + length c)%nat [] (s + 2 + length c + 1)))).
Proof.
  intros fuel s e c r H N. assert (G : forall v x, (v = 62 :: r /\ x = 1%nat /\ (forall u, c <> u ++ [63]) \/ v = 63 :: 62 :: r /\ x = 2%nat) -> vis s e = 60 :: 63 :: c ++ v -> html_tag txt sp fuel s e = Ret (Some (Tag SInstr (s + 2, s + 2 + length c)%nat [] (s + 2 + length c + x)))).
  { intros v x VX V. rewrite html_tag_spec by auto. rewrite V. unfold p_tag. cbn [hdz tl]. rewrite !Z.eqb_refl. change (63 =? 47) with false. change (63 =? 33) with false. cbv iota. rewrite first_here.
    - cbn [option_map]. replace (s + 2 + length c - (s + 2))%nat with (length c) by lia. rewrite skipn_length_app. do 3 f_equal. destruct VX as [(-> & -> & _)|(-> & ->)]; cbn [hdz]; [change (62 =? 62) with true|change (63 =? 62) with false]; cbv iota; lia.
    - destruct VX as [(-> & _)|(-> & _)]; discriminate. - destruct VX as [(-> & _)|(-> & _)]; reflexivity.
    - intros a b E NB. destruct b as [|d b]; [congruence|]. unfold instr_stop, pre2. cbn [app hdz tl]. assert (D : d <> 62) by (intros ->; apply N; rewrite E; apply in_or_app; right; left; auto). replace (d =? 62) with false by lia. cbn [orb]. destruct (d =? 63) eqn:D63; auto. cbn [andb].
      destruct b as [|d' b]. + cbn [app]. destruct VX as [(_ & _ & K)|(-> & _)]; [|reflexivity]. exfalso. apply (K a). rewrite E. f_equal. f_equal. lia. + cbn [app hdz]. destruct (d' =? 62) eqn:D'; auto. exfalso. apply N. rewrite E. apply in_or_app. right. right. left. lia. }
  split; intros V; intros; eapply G; eauto.
Qed.
End Tags.
Print Assumptions html_tag_within.
Print Assumptions html_tag_name.
Print Assumptions html_tag_returns.
Print Assumptions html_end_tag_never_ends.
Print Assumptions html_declaration_never_ends.
Print Assumptions html_start_recognised.
Print Assumptions html_end_recognised.
Print Assumptions html_comment_recognised.
Print Assumptions html_instruction_recognised.
