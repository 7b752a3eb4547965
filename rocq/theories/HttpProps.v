(** HTTP parsers: tokens, quoted strings, parameters, media types, cookies. *)
From Coq Require Import ZifyBool ZifyNat.
From Verif Require Import Base StringModel StringSpec StringProofs StringTrim ParserModel ParserSpec ParserProps HtmlTagModel HtmlTagSpec HtmlTagProps HttpModel HttpSpec.
Ltac Zify.zify_post_hook ::= Z.div_mod_to_equations.

(** ** Runs of units *)
Definition len_while (p : Z -> bool) (v : list Z) : nat := length (take_while p v).
Lemma split_while : forall p v, v = take_while p v ++ drop_while p v.
Proof. induction v as [|c r IH]; cbn [take_while drop_while]; auto. destruct (p c); cbn [app]; auto. f_equal; auto. Qed.
Lemma skip_while : forall p v, skipn (len_while p v) v = drop_while p v.
Proof. intros p v. unfold len_while. rewrite (split_while p v) at 2. rewrite skipn_app, skipn_all, Nat.sub_diag. reflexivity. Qed.
Lemma len_while_le : forall p v, (len_while p v <= length v)%nat.
Proof. intros p v. unfold len_while. rewrite (split_while p v) at 2. rewrite app_length. lia. Qed.
Lemma scan_while : forall p v, scan (fun v => match v with c :: _ => negb (p c) | [] => true end) v = len_while p v.
Proof. induction v as [|c r IH]; cbn [scan]; auto. unfold len_while in *. cbn [take_while]. destruct (p c); cbn [negb length]; auto. Qed.
Lemma no_blank_while : forall v, scan (no_blank isspace) v = len_while white v.
Proof. intros v. rewrite <- (scan_while white). unfold no_blank. induction v as [|c r IH]; cbn [scan]; auto. rewrite isspace_white. destruct (white c); cbn [negb]; auto. Qed.
Lemma while_drop : forall p v, take_while p (drop_while p v) = [].
Proof. induction v as [|c v IH]; cbn [drop_while]; auto. destruct (p c) eqn:W; auto. cbn [take_while]. rewrite W. auto. Qed.
Lemma longest_while : forall (P : Z -> Prop) (p : Z -> bool) v w r, (forall c, In c v -> P c <-> p c = true) -> (longest P v w r <-> w = take_while p v /\ r = drop_while p v).
Proof.
  intros P p v w r H. split.
  - intros (E & F & S). subst v. induction w as [|c w IH]; cbn [app take_while drop_while] in *.
    + destruct r as [|c r]; auto. cbn [stops] in S. assert (p c = false). { destruct (p c) eqn:Q; auto. exfalso. apply S, H; cbn; auto. } cbn [take_while drop_while]. rewrite H0. auto.
    + inversion F; subst. assert (p c = true) by (apply H; cbn; auto). rewrite H0. destruct IH as [A B]; auto. { intros d D. apply H. cbn; auto. } split; [f_equal|]; auto.
  - intros [-> ->]. split; [apply split_while|]. revert H. induction v as [|c v IH]; cbn [take_while drop_while]; intros H; [split; constructor|].
    destruct (p c) eqn:Q.
    + destruct IH as [A B]. { intros d D. apply H. cbn; auto. } split; auto. constructor; auto. apply H; cbn; auto.
    + split; [constructor|]. cbn [stops]. rewrite H by (cbn; auto). congruence.
Qed.
Lemma longest_all : forall (P : Z -> Prop) (p : Z -> bool) v w r, (forall c, P c <-> p c = true) -> (longest P v w r <-> w = take_while p v /\ r = drop_while p v).
Proof. intros. apply longest_while. auto. Qed.
Lemma white_run : forall v w r, longest is_white v w r <-> w = take_while white v /\ r = drop_while white v.
Proof. intros. apply longest_all. reflexivity. Qed.
Definition tcharb (c : Z) : bool := negb (token_stop c).
Lemma token_stop_spec : forall c, -128 <= c <= 127 -> c <> 0 -> (token_char c <-> tcharb c = true).
Proof.
  intros c R N. unfold tcharb, token_stop, token_char. rewrite isspace_white. unfold white, uint. change (2 ^ 32) with 4294967296.
  assert (I : In c separators <-> (c = 40 \/ c = 41 \/ c = 60 \/ c = 62 \/ c = 64 \/ c = 44 \/ c = 59 \/ c = 58 \/ c = 92 \/ c = 34 \/ c = 47 \/ c = 91 \/ c = 93 \/ c = 63 \/ c = 61 \/ c = 123 \/ c = 125)).
  { unfold separators. cbn [In]. split; intuition auto. }
  rewrite I. lia.
Qed.

Section Http.
Set Default Proof Using "Type".
Context (txt : list Z).
Local Notation text_ok := (ParserSpec.text_ok txt).
Local Notation vis := (ParserSpec.vis txt).
Lemma vis_len : forall i e, text_ok i e -> (length (vis i e) <= e - i)%nat.
Proof. intros i e H. pose proof (vis_end txt i e H). destruct H. lia. Qed.
Lemma vis_app : forall i e w r, text_ok i e -> vis i e = w ++ r -> text_ok (i + length w) e /\ vis (i + length w) e = r.
Proof. intros i e w r H V. destruct (vis_skip txt (length w) i e H) as [A B]. { rewrite V, app_length. lia. } split; auto. rewrite B, V, skipn_app, skipn_all, Nat.sub_diag. reflexivity. Qed.
Lemma vis_next : forall i e c r, text_ok i e -> vis i e = c :: r -> text_ok (S i) e /\ vis (S i) e = r.
Proof. intros i e c r H V. destruct (vis_cons txt i e c r H V) as (_ & A & B & _). auto. Qed.
Lemma vis_nz : forall i e, text_ok i e -> Forall (fun c => c <> 0) (vis i e).
Proof. intros i e H. apply Forall_forall. intros c I. apply In_nth_error in I. destruct I as (k & E). destruct (vis_is_text txt i e k H) as (d & A & _ & N & _). { apply nth_error_Some. congruence. } congruence. Qed.
Lemma vis_chars : forall i e, text_ok i e -> chars txt -> chars (vis i e).
Proof.
  intros i e H C. apply Forall_forall. intros c I. apply In_nth_error in I. destruct I as (k & E). destruct (vis_is_text txt i e k H) as (d & A & B & _). { apply nth_error_Some. congruence. }
  assert (c = d) by congruence. subst d. apply nth_error_In in B. unfold chars in C. rewrite Forall_forall in C. auto.
Qed.
Lemma run_spec : forall stop fuel i e, text_ok i e -> (length (vis i e) < fuel)%nat -> run txt stop fuel i e = Ret (i + len_while (fun c => negb (stop c)) (vis i e))%nat.
Proof.
  induction fuel; intros i e H L; [lia|]. cbn [run]. rewrite (peek_spec txt i e H). cbn [obind]. destruct (vis i e) as [|c r] eqn:V; cbn [hd_error]; [cbn; f_equal; lia|].
  unfold len_while. cbn [take_while]. destruct (stop c); cbn [negb length]; [f_equal; lia|]. destruct (vis_next _ _ _ _ H V) as [T W]. cbn [length] in L. rewrite IHfuel; auto; rewrite W; [|lia]. unfold len_while. f_equal. lia.
Qed.
Lemma run_all_spec : forall stop i e, text_ok i e -> run_all txt stop i e = Ret (i + len_while (fun c => negb (stop c)) (vis i e))%nat.
Proof. intros stop i e H. apply run_spec; auto. pose proof (vis_len i e H). lia. Qed.
Lemma skip_white : forall i e fuel, text_ok i e -> (length (vis i e) < fuel)%nat -> skip_space txt isspace fuel i e = Ret (i + len_while white (vis i e))%nat.
Proof. intros i e fuel H L. rewrite (skip_space_spec txt isspace) by auto. rewrite no_blank_while. reflexivity. Qed.

(** ** White space *)
Definition f_break (v : list Z) : nat := match v with c :: r => if c =? 13 then if hdz r 10 then 2%nat else 0%nat else if c =? 10 then 1%nat else 0%nat | [] => 0%nat end.
Lemma break_is : forall i e, text_ok i e -> line_break txt i e = Ret (match f_break (vis i e) with O => None | k => Some (i + k)%nat end).
Proof.
  intros i e H. unfold line_break. rewrite (peek_spec txt i e H). cbn [obind]. destruct (vis i e) as [|c r] eqn:V; cbn [hd_error f_break]; auto.
  destruct (c =? 13).
  - destruct (vis_next _ _ _ _ H V) as [T W]. rewrite (is_at_spec txt _ _ _ T), W. cbn [obind]. destruct (hdz r 10); auto. do 2 f_equal. lia.
  - destruct (c =? 10); auto. do 2 f_equal. lia.
Qed.
Lemma break_le : forall v, (f_break v <= length v)%nat.
Proof. intros [|c r]; cbn [f_break]; auto. destruct (c =? 13). { destruct r; cbn [hdz length]; [lia|]. destruct (z =? 10); lia. } destruct (c =? 10); cbn [length]; lia. Qed.
(** a lone line break *)
Definition lone (v : list Z) : bool := match v with [a] => a =? 10 | [a; b] => (a =? 13) && (b =? 10) | _ => false end.
Lemma lone_iff : forall v, lone v = true <-> single_break v.
Proof. intros v. unfold single_break. destruct v as [|a [|b [|c v]]]; cbn [lone]; split; try (intros [?|?]; discriminate); try discriminate.
  - intros. left. f_equal. lia.
  - intros [E|E]; [injection E as ->; lia|discriminate].
  - intros. right. f_equal; [lia|]. f_equal. lia.
  - intros [E|E]; [discriminate|injection E as -> ->; lia].
Qed.
Definition f_space (v : list Z) : nat := if lone (take_while white v) then 0%nat else len_while white v.
Lemma space_is : forall i e, text_ok i e -> http_space txt i e = Ret (match f_space (vis i e) with O => None | k => Some (i + k)%nat end).
Proof.
  intros i e H. unfold http_space. rewrite (break_is i e H). cbn [obind].
  assert (SP : forall j, text_ok j e -> spaces1 txt j e = Ret (match len_while white (vis j e) with O => None | k => Some (j + k)%nat end)).
  { intros j T. unfold spaces1. rewrite (peek_spec txt j e T). cbn [obind]. destruct (vis j e) as [|c r] eqn:V; cbn [hd_error]; auto. rewrite isspace_white. unfold len_while. cbn [take_while]. destruct (white c); auto.
    destruct (vis_next _ _ _ _ T V) as [T2 W]. rewrite skip_white; auto. 2: { pose proof (vis_len _ _ T). rewrite V in H0. rewrite W. cbn [length] in H0. lia. } rewrite W. cbn [obind length]. do 2 f_equal. unfold len_while. lia. }
  destruct (f_break (vis i e)) as [|k] eqn:B.
  - rewrite SP by auto. unfold f_space. destruct (vis i e) as [|c r] eqn:V; auto. unfold len_while. cbn [take_while]. destruct (white c) eqn:WC; auto. cbn [f_break] in B.
    destruct (c =? 13) eqn:C13. { destruct r as [|d r]; cbn [take_while lone]. { replace (c =? 10) with false by lia. auto. } cbn [hdz] in B. destruct (d =? 10) eqn:D; [discriminate|]. destruct (white d); cbn [lone]. 2: { replace (c =? 10) with false by lia. auto. } destruct (take_while white r); auto. rewrite D, andb_false_r. auto. }
    destruct (c =? 10) eqn:C10; [discriminate|]. destruct (take_while white r) as [|d [|? ?]]; cbn [lone]; rewrite ?C10, ?C13; auto.
  - pose proof (break_le (vis i e)) as L. rewrite B in L. destruct (vis_skip txt (S k) i e H L) as [T W]. rewrite SP by auto. rewrite W. clear SP. unfold f_space. f_equal.
    destruct (vis i e) as [|c r] eqn:V; [discriminate|]. cbn [f_break] in B. destruct (c =? 13) eqn:C13.
    + destruct r as [|d r]; cbn [hdz] in B; [discriminate|]. destruct (d =? 10) eqn:D; [|discriminate]. injection B as <-. assert (c = 13) by lia. assert (d = 10) by lia. subst c d. unfold len_while. cbn [skipn take_while]. change (white 13) with true. change (white 10) with true. cbn [lone].
      destruct r as [|x r]; cbn [take_while]; [reflexivity|]. destruct (white x); cbn [lone length]; [|reflexivity]. f_equal. lia.
    + destruct (c =? 10) eqn:C10; [|discriminate]. injection B as <-. assert (c = 10) by lia. subst c. unfold len_while. cbn [skipn take_while]. change (white 10) with true.
      destruct r as [|x r]; cbn [take_while lone]; [reflexivity|]. destruct (white x) eqn:X; cbn [lone length]; [|reflexivity].
      destruct (take_while white r); cbn [lone length]; change (10 =? 13) with false; cbn [andb]; f_equal; lia.
Qed.
Lemma space_le : forall v, (f_space v <= length v)%nat.
Proof. intros v. unfold f_space. destruct (lone _); [lia|apply len_while_le]. Qed.
Lemma space_once : forall v, f_space v <> 0%nat -> f_space (skipn (f_space v) v) = 0%nat.
Proof.
  intros v H. unfold f_space in *. destruct (lone (take_while white v)); [lia|]. rewrite skip_while. unfold len_while. rewrite while_drop. reflexivity.
Qed.
Lemma spaces_is : forall i e, text_ok i e -> spaces_all txt i e = Ret (i + f_space (vis i e))%nat.
Proof.
  intros i e H. unfold spaces_all. pose proof (vis_len i e H) as B. cbn [spaces]. rewrite (space_is i e H). cbn [obind]. destruct (f_space (vis i e)) as [|k] eqn:F; [f_equal; lia|].
  pose proof (space_le (vis i e)) as L. rewrite F in L. destruct (vis_skip txt (S k) i e H L) as [T W]. destruct (e - i)%nat as [|m] eqn:M; [lia|]. cbn [spaces]. rewrite (space_is _ e T), W. cbn [obind].
  rewrite <- F at 1. rewrite space_once by lia. reflexivity.
Qed.
Lemma gap_iff : forall v w r, gap v w r <-> w = firstn (f_space v) v /\ r = skipn (f_space v) v.
Proof.
  intros v w r. unfold gap, f_space. split.
  - intros (u & t & L & C). apply white_run in L. destruct L as [-> ->]. destruct C as [(S & -> & ->)|(S & -> & ->)].
    + apply lone_iff in S. rewrite S. auto.
    + destruct (lone (take_while white v)) eqn:E; [apply lone_iff in E; tauto|]. rewrite skip_while. split; auto. unfold len_while. rewrite (split_while white v) at 3. rewrite firstn_app, firstn_all, Nat.sub_diag. cbn [firstn]. rewrite app_nil_r. auto.
  - intros [-> ->]. exists (take_while white v), (drop_while white v). split; [apply white_run; auto|]. destruct (lone (take_while white v)) eqn:E.
    + left. split; [apply lone_iff; auto|auto].
    + right. split; [rewrite <- lone_iff; congruence|]. rewrite skip_while. split; auto. unfold len_while. rewrite (split_while white v) at 2. rewrite firstn_app, firstn_all, Nat.sub_diag. cbn [firstn]. rewrite app_nil_r. auto.
Qed.
Lemma gap_fun : forall v, gap v (firstn (f_space v) v) (skipn (f_space v) v).
Proof. intros. apply gap_iff. auto. Qed.
Lemma gap_len : forall v, length (firstn (f_space v) v) = f_space v.
Proof. intros. apply firstn_length_le, space_le. Qed.
Lemma gap_split : forall v w r, gap v w r -> v = w ++ r.
Proof. intros v w r G. apply gap_iff in G. destruct G as [-> ->]. symmetry. apply firstn_skipn. Qed.
(** C176: white space between tokens *)
Theorem http_space_spec : forall s e, text_ok s e -> exists r, http_space txt s e = Ret r /\
  forall y, r = Some y <-> exists w t, gap (vis s e) w t /\ w <> [] /\ y = (s + length w)%nat.
Proof.
  intros s e H. eexists. split; [apply space_is; auto|]. intros y. split.
  - intros E. exists (firstn (f_space (vis s e)) (vis s e)), (skipn (f_space (vis s e)) (vis s e)). split; [apply gap_fun|]. pose proof (gap_len (vis s e)) as G. destruct (f_space (vis s e)) as [|k] eqn:F; [discriminate|]. split.
    + intros N. rewrite N in G. discriminate.
    + rewrite G. injection E as E. lia.
  - intros (w & t & G & N & ->). apply gap_iff in G. destruct G as [-> ->]. rewrite gap_len in *. destruct (f_space (vis s e)); [contradiction N; auto|reflexivity].
Qed.

(** ** Tokens *)
Definition f_token (v : list Z) : nat := len_while tcharb v.
Lemma token_is : forall i e, text_ok i e -> http_token txt i e = Ret (match f_token (vis i e) with O => None | k => Some (i + k)%nat end).
Proof. intros i e H. unfold http_token. rewrite run_all_spec by auto. cbn [obind]. unfold f_token. change (fun c => negb (token_stop c)) with tcharb. destruct (len_while tcharb (vis i e)) as [|k]; [replace (i <? i + 0)%nat with false by lia; auto|replace (i <? i + S k)%nat with true by lia; auto]. Qed.
Lemma tok_iff : forall v w r, chars v -> Forall (fun c => c <> 0) v -> (tok v w r <-> w = take_while tcharb v /\ r = drop_while tcharb v /\ f_token v <> 0%nat).
Proof.
  intros v w r C N. unfold tok. rewrite (longest_while token_char tcharb). 2: { intros c I. unfold chars in C. rewrite Forall_forall in C, N. apply token_stop_spec; auto. }
  unfold f_token, len_while. split; [intros [[-> ->] K]|intros (-> & -> & K)]; repeat split; auto.
  - destruct (take_while tcharb v); [congruence|discriminate].
  - intros E. rewrite E in K. apply K. reflexivity.
Qed.
Lemma f_token_le : forall v, (f_token v <= length v)%nat. Proof. intros. apply len_while_le. Qed.
Context (C : chars txt).
(** C177 *)
Theorem http_token_spec : forall s e, text_ok s e -> exists r, http_token txt s e = Ret r /\
  forall y, r = Some y <-> exists w t, tok (vis s e) w t /\ y = (s + length w)%nat.
Proof using C.
  intros s e H. eexists. split; [apply token_is; auto|]. intros y. pose proof (vis_chars s e H C) as VC. pose proof (vis_nz s e H) as VN. split.
  - intros E. exists (take_while tcharb (vis s e)), (drop_while tcharb (vis s e)). split.
    + apply tok_iff; auto. repeat split; auto. destruct (f_token (vis s e)); [discriminate|lia].
    + unfold f_token, len_while in E. destruct (length (take_while tcharb (vis s e))); [discriminate|]. injection E as E. lia.
  - intros (w & t & T & ->). apply tok_iff in T; auto. destruct T as (-> & -> & K). unfold f_token, len_while in *. destruct (length (take_while tcharb (vis s e))); [lia|]. reflexivity.
Qed.

(** ** Quoted strings *)
Definition f_text (v : list Z) : bool := match v with c :: r => (32 <=? c) || negb (f_space v =? 0)%nat | [] => false end.
Lemma text_is : forall i e, text_ok i e -> exists r, http_text_char txt i e = Ret r /\ (r <> None <-> f_text (vis i e) = true).
Proof using Type.
  intros i e H. unfold http_text_char. rewrite (space_is i e H). cbn [obind]. rewrite (peek_spec txt i e H). cbn [obind]. unfold f_text. destruct (vis i e) as [|c r] eqn:V; cbn [hd_error].
  - change (f_space []) with 0%nat. eexists. split; eauto. split; [congruence|discriminate].
  - destruct (f_space (c :: r)) as [|k] eqn:F. { eexists. split; eauto. destruct (32 <=? c); cbn; split; congruence. } eexists. split; eauto. cbn. rewrite orb_true_r. split; congruence.
Qed.
Fixpoint f_quoted (n : nat) (v : list Z) : option nat :=
  match n with
  | O => None
  | S n =>
    match v with
    | [] => None
    | c :: r => if c =? 34 then Some 0%nat
                else if c =? 92 then match r with _ :: t => option_map (fun k => S (S k)) (f_quoted n t) | [] => None end
                else if f_text v then option_map S (f_quoted n r) else None
    end
  end.
Lemma quoted_is : forall fuel n i e, text_ok i e -> (length (vis i e) < fuel)%nat -> (length (vis i e) <= n)%nat -> quoted_loop txt fuel i e = Ret (option_map (Nat.add i) (f_quoted n (vis i e))).
Proof using Type.
  induction fuel; intros n i e H L N; [lia|]. cbn [quoted_loop]. rewrite (peek_spec txt i e H). cbn [obind]. destruct (vis i e) as [|c r] eqn:V; cbn [hd_error]. { destruct n; reflexivity. }
  destruct n as [|n]; [cbn [length] in N; lia|]. cbn [f_quoted]. destruct (c =? 34) eqn:Q. { cbn [option_map]. do 2 f_equal. lia. }
  destruct (vis_next _ _ _ _ H V) as [T W]. cbn [length] in L, N. destruct (c =? 92).
  - rewrite (peek_spec txt (S i) e T), W. cbn [obind]. destruct r as [|d r]; cbn [hd_error]; auto. destruct (vis_next _ _ _ _ T W) as [T2 W2]. cbn [length] in L, N. rewrite (IHfuel n); auto; rewrite ?W2; try lia. destruct (f_quoted n r); cbn [option_map]; auto. do 2 f_equal. lia.
  - destruct (text_is i e H) as (x & -> & X). cbn [obind]. rewrite V in X. destruct x as [y|].
    + replace (f_text (c :: r)) with true by (symmetry; apply X; congruence). rewrite (IHfuel n); auto; rewrite ?W; try lia. destruct (f_quoted n r); cbn [option_map]; auto. do 2 f_equal. lia.
    + destruct (f_text (c :: r)); auto. destruct X as [_ X]. specialize (X eq_refl). congruence.
Qed.
Definition wh (v : list Z) : bool := match v with c :: _ => white c | [] => false end.
Lemma f_text_eq : forall c r, f_text (c :: r) = (32 <=? c) || (white c && negb ((c =? 10) && negb (wh r)) && negb ((c =? 13) && hdz r 10 && negb (wh (tl r)))).
Proof using Type.
  intros c r. unfold f_text. f_equal. unfold f_space, len_while. cbn [take_while]. destruct (white c) eqn:W; [|reflexivity]. cbn [andb].
  destruct r as [|d r]; cbn [take_while wh hdz tl]. { cbn [lone length]. destruct (c =? 10); destruct (c =? 13); reflexivity. }
  destruct (white d) eqn:D.
  - destruct r as [|x r]; cbn [take_while wh]. { cbn [lone length]. destruct (c =? 13) eqn:E; destruct (d =? 10) eqn:E2; cbn [andb negb]; rewrite ?andb_false_r; try reflexivity. }
    destruct (white x); cbn [lone length negb]; rewrite ?andb_false_r, ?andb_true_r; destruct (c =? 13), (d =? 10); reflexivity.
  - cbn [lone length negb]. destruct (c =? 10) eqn:E. { reflexivity. } replace (d =? 10) with false. { destruct (c =? 13); reflexivity. } symmetry. apply Z.eqb_neq. intros ->. discriminate.
Qed.
Lemma quoted_sound : forall n v k, f_quoted n v = Some k -> exists b t, v = b ++ 34 :: t /\ k = length b /\ quoted_body b.
Proof using Type.
  induction n; intros v k H; [discriminate|]. destruct v as [|c r]; [discriminate|]. cbn [f_quoted] in H. destruct (c =? 34) eqn:Q. { injection H as <-. exists [], r. split; [cbn [app]; f_equal; lia|]. split; auto. constructor. }
  destruct (c =? 92) eqn:B.
  - destruct r as [|d r]; [discriminate|]. destruct (f_quoted n r) as [m|] eqn:F; [|discriminate]. injection H as <-. apply IHn in F. destruct F as (b & t & -> & -> & F). exists (92 :: d :: b), t. split; [cbn [app]; f_equal; lia|]. split; auto. constructor. auto.
  - destruct (f_text (c :: r)) eqn:T; [|discriminate]. destruct (f_quoted n r) as [m|] eqn:F; [|discriminate]. injection H as <-. apply IHn in F. destruct F as (b & t & -> & -> & F). exists (c :: b), t. split; auto. split; auto.
    rewrite f_text_eq in T. destruct (32 <=? c) eqn:G. { apply qb_char; auto; lia. } cbn [orb] in T. apply andb_prop in T. destruct T as [T _]. apply andb_prop in T. destruct T as [T1 T2]. apply qb_white; auto.
    intros ->. change (10 =? 10) with true in T2. cbn [andb] in T2. rewrite negb_involutive in T2. destruct b as [|d b]; [discriminate|]. cbn [app wh] in T2. eauto.
Qed.
Lemma quoted_complete : forall b t n, quoted_body b -> (length (b ++ (34 :: t)%Z) <= n)%nat -> f_quoted n (b ++ 34 :: t) = Some (length b).
Proof using Type.
  intros b t n H. revert n. induction H as [|c b H IH|c b C1 C2 C3 H IH|c b C1 C2 H IH]; intros n L; cbn [app length] in L; (destruct n as [|n]; [lia|]); cbn [f_quoted app].
  - reflexivity.
  - change (92 =? 34) with false. change (92 =? 92) with true. rewrite IH by lia. reflexivity.
  - replace (c =? 34) with false by lia. replace (c =? 92) with false by lia. rewrite f_text_eq. replace (32 <=? c) with true by lia. cbn [orb]. rewrite IH by lia. reflexivity.
  - assert (W : 9 <= c <= 13 \/ c = 32) by (unfold is_white, white in C1; lia). replace (c =? 34) with false by lia. replace (c =? 92) with false by lia. rewrite f_text_eq, IH by lia.
    replace (_ || _) with true; [reflexivity|]. symmetry. unfold is_white in C1. rewrite C1. cbn [andb]. destruct (32 <=? c) eqn:G; auto. cbn [orb]. apply andb_true_intro. split.
    + destruct (c =? 10) eqn:E; auto. destruct C2 as (d & x & -> & D); [lia|]. cbn [app wh]. rewrite D. reflexivity.
    + destruct (c =? 13) eqn:E; auto. destruct H as [|c' b' H|c' b' D1 D2 D3 H|c' b' D1 D2 H]; cbn [app hdz tl]; auto.
      * replace (c' =? 10) with false by lia. auto.
      * destruct (c' =? 10) eqn:E2; auto. destruct D2 as (d & x & -> & D); [lia|]. cbn [app wh]. rewrite D. reflexivity.
Qed.
Definition f_qstring (v : list Z) : option nat := match v with c :: r => if c =? 34 then f_quoted (length r) r else None | [] => None end.
Lemma qstring_is : forall i e, text_ok i e -> http_quoted_string txt i e = Ret (option_map (fun k => ((S i, S i + k), S (S i + k))%nat) (f_qstring (vis i e))).
Proof using Type.
  intros i e H. unfold http_quoted_string. rewrite (is_at_spec txt _ _ _ H). cbn [obind]. pose proof (vis_len i e H) as B. destruct (vis i e) as [|c r] eqn:V; cbn [hdz f_qstring]; auto. destruct (c =? 34); auto.
  destruct (vis_next _ _ _ _ H V) as [T W]. cbn [length] in B. rewrite (quoted_is _ (length r)); auto; rewrite ?W; try lia. cbn [obind]. destruct (f_quoted (length r) r); reflexivity.
Qed.
(** C178 *)
Theorem http_quoted_string_spec : forall s e, text_ok s e -> exists r, http_quoted_string txt s e = Ret r /\
  forall content y, r = Some (content, y) <-> exists b t, vis s e = 34 :: b ++ 34 :: t /\ quoted_body b /\ content = (s + 1, s + 1 + length b)%nat /\ y = (s + length b + 2)%nat.
Proof using Type.
  intros s e H. eexists. split; [apply qstring_is; auto|]. intros content y. split.
  - intros E. destruct (vis s e) as [|c r]; [discriminate|]. cbn [f_qstring] in E. destruct (c =? 34) eqn:Q; [|discriminate]. destruct (f_quoted (length r) r) as [k|] eqn:F; [|discriminate]. apply quoted_sound in F. destruct F as (b & t & -> & -> & F).
    cbn [option_map] in E. injection E as <- <-. exists b, t. split; [f_equal; lia|]. split; auto. split; [f_equal|]; lia.
  - intros (b & t & -> & Q & -> & ->). cbn [f_qstring]. change (34 =? 34) with true. rewrite quoted_complete by auto. cbn [option_map]. replace (S (S s + length b)) with (s + length b + 2)%nat by lia. replace (S s) with (s + 1)%nat by lia. reflexivity.
Qed.
(** ** Values *)
Definition f_value (i : nat) (v : list Z) : option hvalue :=
  match f_qstring v with
  | Some k => Some (HQuoted (i, S (S i + k)) (S i, S i + k))%nat
  | None => match f_token v with O => None | k => Some (HToken (i, i + k)%nat) end
  end.
Lemma value_is : forall i e, text_ok i e -> http_value txt i e = Ret (f_value i (vis i e)).
Proof using Type.
  intros i e H. unfold http_value, f_value. rewrite (qstring_is i e H). cbn [obind]. destruct (f_qstring (vis i e)); cbn [option_map]; auto. rewrite (token_is i e H). cbn [obind]. destruct (f_token (vis i e)); reflexivity.
Qed.
Lemma qstring_split : forall v k, f_qstring v = Some k -> exists b t, v = 34 :: b ++ 34 :: t /\ k = length b /\ quoted_body b.
Proof using Type. intros [|c r] k E; [discriminate|]. cbn [f_qstring] in E. destruct (c =? 34) eqn:Q; [|discriminate]. apply quoted_sound in E. destruct E as (b & t & -> & -> & F). exists b, t. repeat split; auto. f_equal. lia. Qed.
Lemma skip_q : forall k b (t : list Z), (k = length b + 2)%nat -> skipn k (34 :: b ++ 34 :: t) = t.
Proof using Type. intros k b t ->. replace (length b + 2)%nat with (S (length b + 1)) by lia. change (skipn (length b + 1) (b ++ 34 :: t) = t). rewrite <- skipn_plus, skipn_length_app. reflexivity. Qed.
Lemma value_fun : forall i v x, chars v -> Forall (fun c => c <> 0) v -> (f_value i v = Some x -> value_at i v x (skipn (hv_end x - i) v) /\ (i < hv_end x <= i + length v)%nat).
Proof using Type.
  intros i v x VC VN E. unfold f_value in E. destruct (f_qstring v) as [k|] eqn:Q.
  - injection E as <-. apply qstring_split in Q. destruct Q as (b & t & -> & -> & F). cbn [hv_end snd length]. rewrite app_length. cbn [length]. split; [|lia]. left. exists b. split.
    + rewrite skip_q by lia. reflexivity.
    + split; auto. f_equal; f_equal; lia.
  - pose proof (f_token_le v) as L. destruct (f_token v) as [|k] eqn:F; [discriminate|]. injection E as <-. cbn [hv_end snd]. split; [|lia]. right. exists (take_while tcharb v). split.
    + apply tok_iff; auto. repeat split; auto; [|lia]. replace (i + S k - i)%nat with (S k) by lia. rewrite <- F. apply skip_while.
    + f_equal. f_equal. change (length (take_while tcharb v)) with (f_token v). rewrite F. reflexivity.
Qed.
Lemma value_rel : forall i v x r, chars v -> Forall (fun c => c <> 0) v -> value_at i v x r -> f_value i v = Some x /\ r = skipn (hv_end x - i) v.
Proof using Type.
  intros i v x r VC VN [(b & -> & Q & ->)|(w & T & ->)]; unfold f_value.
  - cbn [f_qstring]. change (34 =? 34) with true. rewrite quoted_complete by auto. split; [do 2 f_equal; f_equal; lia|]. cbn [hv_end snd]. rewrite skip_q by lia. reflexivity.
  - apply tok_iff in T; auto. destruct T as (-> & -> & K). replace (f_qstring v) with (@None nat). 2: { destruct v as [|c v]; auto. cbn [f_qstring]. destruct (c =? 34) eqn:E; auto. exfalso. apply K. assert (c = 34) by lia. subst c. reflexivity. }
    unfold f_token, len_while in *. destruct (length (take_while tcharb v)) as [|k] eqn:L; [lia|]. split; auto. cbn [hv_end snd]. replace (i + S k - i)%nat with (S k) by lia. rewrite <- L. symmetry. apply skip_while.
Qed.
(** C178 *)
Theorem http_value_spec : forall s e, text_ok s e -> exists r, http_value txt s e = Ret r /\ forall x, r = Some x <-> exists t, value_at s (vis s e) x t /\ vis (hv_end x) e = t.
Proof using C.
  intros s e H. eexists. split; [apply value_is; auto|]. pose proof (vis_chars s e H C) as VC. pose proof (vis_nz s e H) as VN. intros x. split.
  - intros E. destruct (value_fun _ _ _ VC VN E) as [A B]. eexists. split; [exact A|]. destruct (vis_to txt s e (hv_end x) H) as [_ W]; [lia|]. exact W.
  - intros (t & V & _). apply value_rel in V; tauto.
Qed.
End Http.
