(** CSS tokens: C163-C165. *)
From Coq Require Import ZifyBool ZifyNat.
From Verif Require Import Base StringModel StringSpec StringProofs ParserModel ParserSpec ParserProps HtmlTagModel HtmlTagSpec HtmlTagProps CssModel CssSpec.
Ltac Zify.zify_post_hook ::= Z.div_mod_to_equations.

Definition is_quote (c : Z) : bool := (c =? 34) || (c =? 39).
Definition hdq (v : list Z) : bool := match v with c :: _ => is_quote c | [] => false end.
(** where a string ends, seen from behind its quotation mark *)
Fixpoint css_close (n : nat) (q : Z) (v : list Z) : option nat :=
  match n with
  | O => None
  | S n =>
    match v with
    | [] => None
    | c :: r => if c =? q then Some 0%nat
                else if (c =? 92) && hdq r then option_map (fun k => S (S k)) (css_close n q (tl r)) else option_map S (css_close n q r)
    end
  end.
Lemma close_le : forall n q v k, css_close n q v = Some k -> (k < length v)%nat.
Proof.
  induction n; intros q v k H; [discriminate|]. destruct v as [|c r]; [discriminate|]. cbn [css_close] in H. destruct (c =? q). { injection H as <-. cbn [length]. lia. }
  destruct ((c =? 92) && hdq r) eqn:E.
  - destruct r as [|d r]; [cbn [hdq] in E; lia|]. cbn [tl] in H. destruct (css_close n q r) eqn:C; [|discriminate]. apply IHn in C. cbn [option_map] in H. injection H as <-. cbn [length]. lia.
  - destruct (css_close n q r) eqn:C; [|discriminate]. apply IHn in C. cbn [option_map] in H. injection H as <-. cbn [length]. lia.
Qed.
(** enough fuel is enough *)
Lemma close_fuel : forall n m q v, (length v <= n)%nat -> (length v <= m)%nat -> css_close n q v = css_close m q v.
Proof.
  induction n; intros m q v A B. { destruct v; [|cbn [length] in A; lia]. destruct m; reflexivity. }
  destruct m. { destruct v; [|cbn [length] in B; lia]. reflexivity. }
  destruct v as [|c r]; [reflexivity|]. cbn [css_close]. cbn [length] in A, B. destruct (c =? q); auto. destruct ((c =? 92) && hdq r).
  - rewrite (IHn m); auto; destruct r; cbn [tl length] in *; lia.
  - rewrite (IHn m); auto; lia.
Qed.

(** what strings hold, and when the first quotation mark that ends the body is taken for its end *)
Section Body.
Context (q : Z) (Q : is_quote q = true).
Lemma q_not_bs : q <> 92. Proof. unfold is_quote in Q. lia. Qed.
Lemma close_body : forall b rest, css_body q b -> ~ ends_in 92 b -> forall n, (length (b ++ q :: rest) <= n)%nat -> css_close n q (b ++ q :: rest) = Some (length b).
Proof.
  intros b rest H. 
  assert (G : forall k b, (length b <= k)%nat -> css_body q b -> ~ ends_in 92 b -> forall n, (length (b ++ q :: rest) <= n)%nat -> css_close n q (b ++ q :: rest) = Some (length b)).
  2: { intros; eapply G; eauto. }
  clear b H. induction k as [|k IH]; intros b L H N n F.
  { destruct b; [|cbn [length] in L; lia]. destruct n; [cbn [app length] in F; lia|]. cbn [app css_close]. rewrite Z.eqb_refl. reflexivity. }
  destruct H as [|c b H1 H2 H|c b H].
  - destruct n; [cbn [app length] in F; lia|]. cbn [app css_close]. rewrite Z.eqb_refl. reflexivity.
  - destruct n; [cbn [app length] in F; lia|]. cbn [app css_close]. cbn [app length] in F, L. replace (c =? q) with false by lia. replace (c =? 92) with false by lia. cbn [andb].
    rewrite IH; auto; try lia. intros (a & ->). apply N. exists (c :: a). reflexivity.
  - assert (Nb : ~ ends_in 92 b \/ False). { left. intros (a & ->). apply N. exists (92 :: c :: a). reflexivity. } destruct Nb as [Nb|[]].
    pose proof q_not_bs as QB. destruct n; [cbn [app length] in F; lia|]. cbn [app css_close]. cbn [app length] in F, L. replace (92 =? q) with false by lia. cbn [Z.eqb]. change (92 =? 92) with true. cbn [andb hdq].
    destruct (is_quote c) eqn:C; cbn [andb tl].
    + rewrite IH; auto; try lia.
    + assert (Cq : c <> q) by (intros ->; congruence). destruct n; [cbn [length] in F; rewrite app_length in F; cbn [length] in F; lia|]. cbn [css_close]. replace (c =? q) with false by lia.
      assert (X : forall m, (length (b ++ q :: rest) <= m)%nat -> css_close m q (b ++ q :: rest) = Some (length b)) by (intros; apply IH; auto; lia).
      destruct ((c =? 92) && hdq (b ++ q :: rest)) eqn:E.
      * (* an escaped backslash in front of a quotation mark *)
        assert (c = 92) by lia. subst c. destruct H as [|d b D1 D2 H|d b H].
        -- exfalso. apply N. exists [92]. reflexivity.
        -- cbn [app tl]. assert (Nd : ~ ends_in 92 b). { intros (a & ->). apply Nb. exists (d :: a). reflexivity. } rewrite IH; auto; cbn [app length] in *; lia.
        -- cbn [app hdq] in E. unfold is_quote in E. change (92 =? 34) with false in E. change (92 =? 39) with false in E. cbn [orb] in E. lia.
      * rewrite X by lia. reflexivity.
Qed.
Lemma close_past : forall b rest, css_body q b -> ends_in 92 b -> forall n k, css_close n q (b ++ q :: rest) = Some k -> (length b < k)%nat.
Proof.
  intros b rest H.
  assert (G : forall m b, (length b <= m)%nat -> css_body q b -> ends_in 92 b -> forall n k, css_close n q (b ++ q :: rest) = Some k -> (length b < k)%nat).
  2: { intros; eapply G; eauto. }
  clear b H. pose proof q_not_bs as QB. induction m as [|m IH]; intros b L H N n k F.
  { destruct b; [|cbn [length] in L; lia]. destruct N as (a & E). destruct a; discriminate. }
  destruct n; [discriminate|]. destruct H as [|c b H1 H2 H|c b H].
  - destruct N as (a & E). destruct a; discriminate.
  - assert (Nb : ends_in 92 b). { destruct N as (a & E). destruct a as [|x a]; [injection E as E1 E2; congruence|]. injection E as <- ->. exists a. auto. }
    cbn [app css_close length] in *. replace (c =? q) with false in F by lia. replace (c =? 92) with false in F by lia. cbn [andb] in F.
    destruct (css_close n q (b ++ q :: rest)) eqn:K; [|discriminate]. apply IH in K; auto; [|lia]. cbn [option_map] in F. injection F as <-. lia.
  - cbn [app css_close length] in *. replace (92 =? q) with false in F by lia. change (92 =? 92) with true in F. cbn [andb hdq tl] in F.
    destruct b as [|d b].
    + assert (c = 92). { destruct N as (a & E). destruct a as [|x [|y a]]; try discriminate; [|destruct a; discriminate]. injection E as _ E. auto. } subst c. change (is_quote 92) with false in F. cbn [andb app] in F.
      destruct n; [discriminate|]. cbn [css_close] in F. replace (92 =? q) with false in F by lia. change (92 =? 92) with true in F. cbn [andb hdq app] in F. rewrite Q in F. cbn [tl] in F.
      destruct (css_close n q rest) eqn:K; cbn [option_map] in F; [injection F as <-; cbn [length]; lia|discriminate].
    + assert (Nb : ends_in 92 (d :: b)). { destruct N as (a & E). destruct a as [|x [|y a]]; try discriminate. injection E as _ _ E. exists a. auto. }
      destruct (is_quote c) eqn:C; cbn [andb] in F.
      * destruct (css_close n q ((d :: b) ++ q :: rest)) eqn:K; [|rewrite ?K in F; cbn [app] in F, K; rewrite ?K in F; discriminate]; cbn [app] in F; pose proof K as K'; cbn [app] in K'; rewrite ?K' in F; clear K'. apply (IH (d :: b)) in K; auto; [|cbn [length] in *; lia]. cbn [option_map] in F. injection F as <-. cbn [length] in *. lia.
      * assert (Cq : c <> q) by (intros ->; congruence). destruct n; [discriminate|]. cbn [css_close app] in F. replace (c =? q) with false in F by lia.
        destruct ((c =? 92) && hdq (d :: b ++ q :: rest)) eqn:E.
        -- (* c is an escaped backslash and d a quotation mark: not q, as the body goes on *)
           apply andb_prop in E. destruct E as [E Dq]. cbn [hdq] in Dq. inversion H; subst; [|cbv in Dq; discriminate]. cbn [tl app] in F.
           assert (Nb' : ends_in 92 b). { destruct Nb as (a & E2). destruct a as [|x a]; [injection E2 as E2 _; congruence|]. injection E2 as <- ->. exists a. auto. }
           destruct (css_close n q (b ++ q :: rest)) eqn:K; [|discriminate]. apply IH in K; auto; [|cbn [length] in *; lia]. cbn [option_map] in F. injection F as <-. cbn [length] in *. lia.
        -- destruct (css_close n q ((d :: b) ++ q :: rest)) eqn:K; [|rewrite ?K in F; cbn [app] in F, K; rewrite ?K in F; discriminate]; cbn [app] in F; pose proof K as K'; cbn [app] in K'; rewrite ?K' in F; clear K'. apply (IH (d :: b)) in K; auto; [|cbn [length] in *; lia]. cbn [option_map] in F. injection F as <-. cbn [length] in *. lia.
Qed.
End Body.

Section Css.
Set Default Proof Using "Type".
Context (txt : list Z) (sp : Z -> bool).
Local Notation text_ok := (text_ok txt).
Local Notation vis := (vis txt).
Ltac step H V := match type of V with ParserSpec.vis _ ?i ?e = ?c :: ?r => let T := fresh "T" in let W := fresh "W" in destruct (vis_cons txt i e c r H V) as (_ & T & W & _) end.

Definition hd2 (v : list Z) (a b : Z) : bool := match v with c :: _ => (c =? a) || (c =? b) | [] => false end.
Lemma is_either_spec : forall i e a b, text_ok i e -> is_either txt i e a b = Ret (hd2 (vis i e) a b).
Proof. clear sp. intros i e a b H. unfold is_either. rewrite (peek_spec txt i e H). cbn [obind]. destruct (ParserSpec.vis txt i e); reflexivity. Qed.
Lemma css_comment_loop_spec : forall fuel i e, text_ok i e -> (length (vis i e) < fuel)%nat -> css_comment_loop txt fuel i e = Ret (first_at (pre2 42 47) i (vis i e)).
Proof. clear sp.
  induction fuel; intros i e H L; [lia|]. cbn [css_comment_loop]. rewrite (peek_spec txt i e H). cbn [obind]. destruct (vis i e) as [|c r] eqn:V; cbn [hd_error]; [rewrite first_nil; auto|].
  rewrite (and2_spec txt i e 42 47 H), V. cbn [obind]. rewrite (first_cons (fun _ => false)). destruct (pre2 42 47 (c :: r)); auto. step H V. rewrite IHfuel; auto; rewrite W; auto. cbn [length] in L; lia.
Qed.
Lemma vis_len : forall i e, text_ok i e -> (length (vis i e) <= e - i)%nat.
Proof. clear sp. intros i e H. pose proof (vis_end txt i e H). destruct H. lia. Qed.
Lemma css_quote_loop_spec : forall fuel i e q, text_ok i e -> (length (vis i e) < fuel)%nat -> is_quote q = true ->
  css_quote_loop txt fuel i e q = Ret (option_map (Nat.add i) (css_close (length (vis i e)) q (vis i e))).
Proof. clear sp.
  induction fuel; intros i e q H L Q; [lia|]. cbn [css_quote_loop]. rewrite (peek_spec txt i e H). cbn [obind]. destruct (vis i e) as [|c r] eqn:V; cbn [hd_error]; [reflexivity|].
  step H V. cbn [length] in L. cbn [length css_close]. destruct (c =? q). { cbn [option_map]. do 2 f_equal. lia. }
  assert (P : and_then (Ret (c =? 92)) (is_either txt (S i) e 34 39) = Ret ((c =? 92) && hdq r)).
  { unfold and_then. cbn [obind]. destruct (c =? 92); auto. rewrite (is_either_spec (S i) e 34 39 T), W. destruct r; reflexivity. }
  rewrite P. cbn [obind]. destruct ((c =? 92) && hdq r) eqn:E.
  - destruct r as [|d r]; [cbn [hdq] in E; lia|]. destruct (vis_cons txt (S i) e d r T W) as (_ & T2 & W2 & _). cbn [tl]. replace (i + 2)%nat with (S (S i)) by lia. rewrite IHfuel; auto; rewrite W2; [|cbn [length] in L; lia].
    rewrite (close_fuel (length r) (length (d :: r)) q r) by (cbn [length]; lia). destruct (css_close (length (d :: r)) q r); cbn [option_map]; auto. do 2 f_equal. lia.
  - rewrite IHfuel; auto; rewrite W; [|lia]. destruct (css_close (length r) q r); cbn [option_map]; auto. do 2 f_equal. lia.
Qed.

(** the tokens, as functions of what can be seen of the text *)
Definition f_comment (s : nat) (v : list Z) : option (itv * nat) :=
  if pre2 47 42 v then option_map (fun i => ((s + 2, i), i + 2)%nat) (first_at (pre2 42 47) (s + 2)%nat (skipn 2 v)) else None.
Lemma comment_is : forall s e, text_ok s e -> css_comment txt s e = Ret (f_comment s (vis s e)).
Proof. clear sp.
  intros s e H. unfold css_comment, f_comment. rewrite (and2_spec txt s e 47 42 H). cbn [obind]. destruct (pre2 47 42 (vis s e)) eqn:P; [|reflexivity].
  apply pre2_iff in P. destruct P as (r & V). destruct (vis_skip txt 2 s e H) as [T W]. { rewrite V. cbn [length]. lia. } pose proof (vis_len s e H) as B. rewrite V in B, W. cbn [length] in B. cbn [skipn] in W.
  rewrite css_comment_loop_spec; auto; rewrite W; [|lia]. rewrite V. cbn [obind skipn]. destruct (first_at _ _ r); reflexivity.
Qed.
Definition f_string (s : nat) (v : list Z) : option (itv * nat) :=
  match v with c :: r => if is_quote c then option_map (fun k => ((S s, S s + k), S (S s + k))%nat) (css_close (length r) c r) else None | [] => None end.
Lemma string_is : forall s e, text_ok s e -> css_string txt s e = Ret (f_string s (vis s e)).
Proof. clear sp.
  intros s e H. unfold css_string, f_string. rewrite (peek_spec txt s e H). cbn [obind]. pose proof (vis_len s e H) as B. destruct (vis s e) as [|c r] eqn:V; cbn [hd_error]; [reflexivity|]. fold (is_quote c). destruct (is_quote c) eqn:Q; [|reflexivity].
  step H V. cbn [length] in B. rewrite css_quote_loop_spec; auto; rewrite W; [|lia]. cbn [obind]. destruct (css_close (length r) c r); reflexivity.
Qed.
Fixpoint f_raw (k ce : nat) (v : list Z) : option (nat * nat) :=
  match v with [] => None | c :: r => if c =? 41 then Some (ce, k) else if sp c then f_raw (S k) ce r else f_raw (S k) (S k) r end.
Lemma raw_loop_spec : forall fuel i e ce, text_ok i e -> (length (vis i e) < fuel)%nat -> css_raw_loop txt sp fuel i e ce = Ret (f_raw i ce (vis i e)).
Proof.
  induction fuel; intros i e ce H L; [lia|]. cbn [css_raw_loop]. rewrite (peek_spec txt i e H). cbn [obind]. destruct (vis i e) as [|c r] eqn:V; cbn [hd_error f_raw]; [reflexivity|].
  destruct (c =? 41); auto. step H V. cbn [length] in L. destruct (sp c); rewrite IHfuel; auto; rewrite W; auto; lia.
Qed.
(** what follows url( at [i] *)
Definition f_addr (i : nat) (v : list Z) : option (itv * nat) :=
  let w := scan (no_blank sp) v in
  let v := skipn w v in let i := (i + w)%nat in
  match v with
  | c :: r =>
      if is_quote c then
        match css_close (length r) c r with
        | Some k => let u := skipn (S k) r in let m := scan (no_blank sp) u in
                    if hdz (skipn m u) 41 then Some ((S i, S i + k), S (S i + S k + m))%nat else None
        | None => None
        end
      else option_map (fun p => ((i, fst p), S (snd p))) (f_raw i i v)
  | [] => None
  end.
Definition pre_url (v : list Z) : bool := hd2 v 117 85 && (hd2 (tl v) 114 82 && (hd2 (tl (tl v)) 108 76 && hdz (tl (tl (tl v))) 40)).
Definition f_uri (s : nat) (v : list Z) : option (itv * nat) := if pre_url v then f_addr (s + 4) (skipn 4 v) else None.
Lemma and_either : forall i e a b (f : list Z -> bool) k, text_ok i e -> (forall c r, vis i e = c :: r -> k = Ret (f r)) -> and_then (is_either txt i e a b) k = Ret (hd2 (vis i e) a b && f (tl (vis i e))).
Proof. clear sp.
  intros i e a b f k H K. unfold and_then. rewrite (is_either_spec i e a b H). cbn [obind]. destruct (ParserSpec.vis txt i e) as [|c r] eqn:V; [reflexivity|]. cbn [hd2 tl]. destruct ((c =? a) || (c =? b)); auto. cbn [andb]. eapply K; eauto.
Qed.
Lemma hd2_cons : forall v a b, hd2 v a b = true -> exists c r, v = c :: r /\ (c = a \/ c = b).
Proof. clear sp. intros [|c r] a b H; [discriminate|]. exists c, r. split; auto. cbn [hd2] in H. lia. Qed.
Lemma uri_head : forall s e, text_ok s e -> and_then (is_either txt s e 117 85) (and_then (is_either txt (s + 1) e 114 82) (and_then (is_either txt (s + 2) e 108 76) (is_at txt (s + 3) e 40))) = Ret (pre_url (vis s e)).
Proof. clear sp.
  intros s e H. unfold pre_url. apply (and_either s e 117 85 (fun t => hd2 t 114 82 && (hd2 (tl t) 108 76 && hdz (tl (tl t)) 40)) _ H). intros c r V. step H V. replace (s + 1)%nat with (S s) by lia. rewrite <- W.
  apply (and_either (S s) e 114 82 (fun t => hd2 t 108 76 && hdz (tl t) 40) _ T). intros c2 r2 V2. step T V2. replace (s + 2)%nat with (S (S s)) by lia. rewrite <- W0.
  apply (and_either (S (S s)) e 108 76 (fun t => hdz t 40) _ T0). intros c3 r3 V3. step T0 V3. replace (s + 3)%nat with (S (S (S s))) by lia. rewrite (is_at_spec txt _ _ _ T1), W1. reflexivity.
Qed.
Lemma uri_is : forall s e, text_ok s e -> css_uri txt sp s e = Ret (f_uri s (vis s e)).
Proof.
  intros s e H. unfold css_uri, f_uri. rewrite (uri_head s e H). cbn [obind]. destruct (pre_url (vis s e)) eqn:P; [|reflexivity].
  assert (L : (4 <= length (vis s e))%nat). { unfold pre_url in P. destruct (vis s e) as [|? [|? [|? [|? ?]]]]; cbn [hd2 hdz tl] in P; try lia. cbn [length]. lia. }
  destruct (vis_skip txt 4 s e H L) as [T W]. pose proof (vis_len s e H) as B.
  assert (LW : length (vis (s + 4) e) = (length (vis s e) - 4)%nat) by (rewrite W; apply skipn_length).
  rewrite (skip_space_spec txt sp) by (auto; lia). cbn [obind]. unfold f_addr. rewrite <- W. set (v := ParserSpec.vis txt (s + 4) e) in *. pose proof (scan_le (no_blank sp) v) as SL. set (w := scan (no_blank sp) v) in *.
  destruct (vis_to txt (s + 4) e (s + 4 + w)%nat T) as [T2 W2]. { fold v. lia. } fold v in W2. replace (s + 4 + w - (s + 4))%nat with w in W2 by lia. set (i := (s + 4 + w)%nat) in *.
  rewrite (peek_spec txt i e T2). cbn [obind]. rewrite W2. pose proof (vis_len i e T2) as B2. rewrite W2 in B2.
  destruct (skipn w v) as [|c r] eqn:K; cbn [hd_error].
  - rewrite raw_loop_spec by (auto; rewrite W2; cbn [length]; lia). rewrite W2. reflexivity.
  - fold (is_quote c). destruct (is_quote c) eqn:Q.
    + destruct (vis_cons txt i e c r T2 W2) as (_ & T3 & W3 & _). cbn [length] in B2. rewrite css_quote_loop_spec by (auto; rewrite W3; lia). rewrite W3. cbn [obind]. destruct (css_close (length r) c r) as [k|] eqn:C; cbn [option_map]; [|reflexivity].
      pose proof (close_le _ _ _ _ C) as CL. destruct (vis_to txt (S i) e (S (S i + k))%nat T3) as [T4 W4]. { rewrite W3. lia. } rewrite W3 in W4. replace (S (S i + k) - S i)%nat with (S k) in W4 by lia.
      pose proof (vis_len _ _ T4) as B4. rewrite (skip_space_spec txt sp) by (auto; lia). cbn [obind]. rewrite W4 in *. pose proof (scan_le (no_blank sp) (skipn (S k) r)) as SM. set (m := scan (no_blank sp) (skipn (S k) r)) in *.
      destruct (vis_to txt (S (S i + k)) e (S (S i + k) + m)%nat T4) as [T5 W5]. { rewrite W4. lia. } rewrite W4 in W5. replace (S (S i + k) + m - S (S i + k))%nat with m in W5 by lia.
      rewrite (is_at_spec txt _ _ _ T5), W5. cbn [obind]. replace (S (S i + k) + m)%nat with (S i + S k + m)%nat by lia. reflexivity.
    + rewrite raw_loop_spec by (auto; rewrite W2; cbn [length] in *; lia). rewrite W2. cbn [obind]. destruct (f_raw i i (c :: r)) as [[ce j]|]; reflexivity.
Qed.
Definition pre_import (v : list Z) : bool :=
  hdz v 64 && (hd2 (tl v) 105 73 && (hd2 (tl (tl v)) 109 77 && (hd2 (tl (tl (tl v))) 112 80 && (hd2 (tl (tl (tl (tl v)))) 111 79 && (hd2 (tl (tl (tl (tl (tl v))))) 114 82 && hd2 (tl (tl (tl (tl (tl (tl v)))))) 116 84))))).
Definition f_import (s : nat) (v : list Z) : option (itv * nat) :=
  if pre_import v then let u := skipn 7 v in let w := scan (no_blank sp) u in f_string (s + 7 + w)%nat (skipn w u) else None.
Lemma import_head : forall s e, text_ok s e ->
  and_then (is_at txt s e 64) (and_then (is_either txt (s + 1) e 105 73) (and_then (is_either txt (s + 2) e 109 77) (and_then (is_either txt (s + 3) e 112 80)
    (and_then (is_either txt (s + 4) e 111 79) (and_then (is_either txt (s + 5) e 114 82) (is_either txt (s + 6) e 116 84)))))) = Ret (pre_import (vis s e)).
Proof. clear sp.
  intros s e H. unfold pre_import, and_then at 1. rewrite (is_at_spec txt s e 64 H). cbn [obind]. destruct (vis s e) as [|c r] eqn:V; [reflexivity|]. cbn [hdz tl]. destruct (c =? 64); [|reflexivity]. cbn [andb]. step H V. replace (s + 1)%nat with (S s) by lia. rewrite <- W.
  apply (and_either (S s) e 105 73 (fun t => hd2 t 109 77 && (hd2 (tl t) 112 80 && (hd2 (tl (tl t)) 111 79 && (hd2 (tl (tl (tl t))) 114 82 && hd2 (tl (tl (tl (tl t)))) 116 84)))) _ T). intros c2 r2 V2. step T V2. replace (s + 2)%nat with (S (S s)) by lia. rewrite <- W0.
  apply (and_either (S (S s)) e 109 77 (fun t => hd2 t 112 80 && (hd2 (tl t) 111 79 && (hd2 (tl (tl t)) 114 82 && hd2 (tl (tl (tl t))) 116 84))) _ T0). intros c3 r3 V3. step T0 V3. replace (s + 3)%nat with (S (S (S s))) by lia. rewrite <- W1.
  apply (and_either (S (S (S s))) e 112 80 (fun t => hd2 t 111 79 && (hd2 (tl t) 114 82 && hd2 (tl (tl t)) 116 84)) _ T1). intros c4 r4 V4. step T1 V4. replace (s + 4)%nat with (S (S (S (S s)))) by lia. rewrite <- W2.
  apply (and_either (S (S (S (S s)))) e 111 79 (fun t => hd2 t 114 82 && hd2 (tl t) 116 84) _ T2). intros c5 r5 V5. step T2 V5. replace (s + 5)%nat with (S (S (S (S (S s))))) by lia. rewrite <- W3.
  apply (and_either (S (S (S (S (S s))))) e 114 82 (fun t => hd2 t 116 84) _ T3). intros c6 r6 V6. step T3 V6. replace (s + 6)%nat with (S (S (S (S (S (S s)))))) by lia. rewrite (is_either_spec _ _ _ _ T4), W4. reflexivity.
Qed.
Lemma import_is : forall s e, text_ok s e -> css_import txt sp s e = Ret (f_import s (vis s e)).
Proof.
  intros s e H. unfold css_import, f_import. rewrite (import_head s e H). cbn [obind]. destruct (pre_import (vis s e)) eqn:P; [|reflexivity].
  assert (L : (7 <= length (vis s e))%nat). { unfold pre_import in P. destruct (vis s e) as [|? [|? [|? [|? [|? [|? [|? ?]]]]]]]; cbn [hd2 hdz tl] in P; try lia. cbn [length]. lia. }
  destruct (vis_skip txt 7 s e H L) as [T W]. pose proof (vis_len s e H) as B.
  assert (LW : length (vis (s + 7) e) = (length (vis s e) - 7)%nat) by (rewrite W; apply skipn_length).
  rewrite (skip_space_spec txt sp) by (auto; lia). cbn [obind]. cbv zeta. rewrite <- W. set (v := ParserSpec.vis txt (s + 7) e) in *. pose proof (scan_le (no_blank sp) v) as SL. set (w := scan (no_blank sp) v) in *.
  destruct (vis_to txt (s + 7) e (s + 7 + w)%nat T) as [T2 W2]. { fold v. lia. } fold v in W2. replace (s + 7 + w - (s + 7))%nat with w in W2 by lia. set (i := (s + 7 + w)%nat) in *.
  pose proof (string_is i e T2) as K. unfold css_string in K. rewrite W2 in K. exact K.
Qed.
Definition pre4 (v : list Z) : bool := hdz v 60 && (hdz (tl v) 33 && (hdz (tl (tl v)) 45 && hdz (tl (tl (tl v))) 45)).
Lemma cdo_is : forall s e, text_ok s e -> css_cdo txt s e = Ret (if pre4 (vis s e) then Some (s + 4)%nat else None).
Proof. clear sp.
  intros s e H. unfold css_cdo, pre4. unfold and_then at 1. rewrite (is_at_spec txt s e 60 H). cbn [obind]. destruct (vis s e) as [|c r] eqn:V; [reflexivity|]. cbn [hdz tl]. destruct (c =? 60); [|reflexivity]. cbn [andb]. step H V.
  rewrite (and3_spec txt (S s) e 33 45 45 T), W. reflexivity.
Qed.
Lemma cdc_is : forall s e, text_ok s e -> css_cdc txt s e = Ret (if pre3 45 45 62 (vis s e) then Some (s + 3)%nat else None).
Proof. clear sp. intros s e H. unfold css_cdc. rewrite (and3_spec txt s e 45 45 62 H). reflexivity. Qed.
End Css.
