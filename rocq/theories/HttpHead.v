(** HTTP parsers: headers. *)
From Coq Require Import ZifyBool ZifyNat.
From Verif Require Import Base StringModel StringSpec StringProofs StringTrim StringProps ParserModel ParserSpec ParserProps HtmlTagModel HtmlTagProps HttpModel HttpSpec HttpProps HttpParams HttpUrlSpec HttpUrl HttpMsgSpec HttpMsg HttpReq HttpReq2.
Ltac Zify.zify_post_hook ::= Z.div_mod_to_equations.

Definition join (v x : option itv) : option itv := match v, x with v, None => v | None, x => x | Some p, Some q => Some (fst p, snd q) end.
Lemma trim_white : forall w i b x, Forall is_white w -> trimmed (i + length w) b x -> trimmed i (w ++ b) x.
Proof.
  intros w i b x W [(F & ->)|(l & m & t & -> & Fl & Ft & A & B & ->)].
  - left. split; auto. apply Forall_app. auto.
  - right. exists (w ++ l), m, t. rewrite <- app_assoc, app_length. split; auto. split; [apply Forall_app; auto|]. split; auto. split; auto. split; auto. f_equal. f_equal; lia.
Qed.
Lemma trim_char : forall c i b x, nonwhite c -> trimmed (S i) b x -> trimmed i (c :: b) (Some (i, match x with Some q => snd q | None => S i end)).
Proof.
  intros c i b x W [(F & ->)|(l & m & t & -> & Fl & Ft & A & B & ->)]; right.
  - exists [], [c], b. cbn [app length]. split; auto. split; auto. split; auto. split; [exists c, []; auto|]. split; [exists c, []; auto|]. f_equal. f_equal; lia.
  - exists [], (c :: l ++ m), t. cbn [app length snd]. split; [rewrite <- app_assoc; reflexivity|]. split; auto. split; auto. split; [eauto|]. split. { destruct B as (d & r & -> & Wd). exists d, (c :: l ++ r). rewrite app_assoc. auto. } rewrite app_length. f_equal. f_equal; lia.
Qed.
Lemma trim_split : forall l m t l' m' t', Forall is_white l -> Forall is_white t -> (exists c r, m = c :: r /\ nonwhite c) -> (exists c r, m = r ++ [c] /\ nonwhite c) ->
  Forall is_white l' -> Forall is_white t' -> (exists c r, m' = c :: r /\ nonwhite c) -> (exists c r, m' = r ++ [c] /\ nonwhite c) -> l ++ m ++ t = l' ++ m' ++ t' -> l = l' /\ m = m'.
Proof.
  intros l m t l' m' t' F1 F2 (c & r & Em & Nc) (d & q & Em2 & Nd) F1' F2' (c' & r' & Em' & Nc') (d' & q' & Em2' & Nd') E.
  assert (L : l = l' /\ m ++ t = m' ++ t').
  { apply app_eq_app in E. destruct E as (x & [(E1 & E2)|(E1 & E2)]).
    - destruct x as [|y x]; [rewrite app_nil_r in E1; cbn [app] in E2; auto|]. rewrite Em' in E2. injection E2 as <- _. rewrite E1 in F1. apply Forall_app in F1. destruct F1 as [_ F1]. inversion F1; subst. destruct (Nc' H1).
    - destruct x as [|y x]; [rewrite app_nil_r in E1; cbn [app] in E2; auto|]. rewrite Em in E2. injection E2 as <- _. rewrite E1 in F1'. apply Forall_app in F1'. destruct F1' as [_ F1']. inversion F1'; subst. destruct (Nc H1). }
  destruct L as [-> E']. split; auto. apply app_eq_app in E'. destruct E' as (x & [(E1 & E2)|(E1 & E2)]).
  - destruct x as [|y x] using rev_ind; [rewrite app_nil_r in E1; auto|]. rewrite E1, app_assoc in Em2. apply app_inj_tail in Em2. destruct Em2 as [_ ->]. rewrite E2 in F2'. rewrite <- app_assoc in F2'. apply Forall_app in F2'. destruct F2' as [_ F2']. inversion F2'; subst. destruct (Nd H1).
  - destruct x as [|y x] using rev_ind; [rewrite app_nil_r in E1; auto|]. rewrite E1, app_assoc in Em2'. apply app_inj_tail in Em2'. destruct Em2' as [_ ->]. rewrite E2 in F2. rewrite <- app_assoc in F2. apply Forall_app in F2. destruct F2 as [_ F2]. inversion F2; subst. destruct (Nd' H1).
Qed.
Lemma trimmed_det : forall i b x x', trimmed i b x -> trimmed i b x' -> x' = x.
Proof.
  intros i b x x' [(F & ->)|(l & m & t & E & Fl & Ft & A & B & ->)] [(F' & ->)|(l' & m' & t' & E' & Fl' & Ft' & A' & B' & ->)]; auto.
  - subst b. apply Forall_app in F. destruct F as [_ F]. apply Forall_app in F. destruct F as [F _]. destruct A' as (c & r & -> & N). inversion F; subst. destruct (N H1).
  - subst b. apply Forall_app in F'. destruct F' as [_ F]. apply Forall_app in F. destruct F as [F _]. destruct A as (c & r & -> & N). inversion F; subst. destruct (N H1).
  - rewrite E in E'. destruct (trim_split _ _ _ _ _ _ Fl Ft A B Fl' Ft' A' B' E') as [-> ->]. auto.
Qed.
Lemma break_white : forall v w r, break_of v w r -> Forall is_white w.
Proof. intros v w r (_ & [-> | ->]); repeat constructor. Qed.
Lemma field_det : forall v b r, field v b r -> forall b' r', field v b' r' -> b' = b /\ r' = r.
Proof.
  intros v b r H. induction H as [|v w r B N|v w c t b r B Fo F IH|c t b r N F IH]; intros b' r' H'; inversion H' as [|? ? ? B' N'|? ? ? ? ? ? B' Fo' F'|? ? ? ? N' F']; subst; auto.
  all: try (exfalso; match goal with X : break_of [] _ _ |- _ => destruct X as (E & [-> | ->]); discriminate end).
  all: try (exfalso; match goal with X : break_of (_ :: _) _ _, N : ~ at_break _ |- _ => destruct (break_at _ _ _ X); tauto end).
  - destruct (break_det _ _ _ _ _ B B'). auto.
  - destruct (break_det _ _ _ _ _ B B') as [_ <-]. tauto.
  - destruct (break_det _ _ _ _ _ B B') as [_ ->]. tauto.
  - destruct (break_det _ _ _ _ _ B B') as [-> E]. injection E as -> ->. destruct (IH _ _ F') as [-> ->]. auto.
  - destruct (IH _ _ F') as [-> ->]. auto.
Qed.
Lemma field_split : forall v b r, field v b r -> v = b ++ r.
Proof.
  intros v b r H. induction H as [|v w r (-> & _) N|v w c t b r (-> & _) Fo F ->|c t b r N F ->]; auto. rewrite <- app_assoc. reflexivity.
Qed.

Section Http.
Set Default Proof Using "Type".
Context (txt : list Z).
Local Notation text_ok := (ParserSpec.text_ok txt).
Local Notation vis := (ParserSpec.vis txt).

Lemma value_loop : forall fuel i e v, text_ok i e -> (length (vis i e) < fuel)%nat ->
  exists b r x, hvalue_loop txt fuel i e v = Ret (join v x, (i + length b)%nat) /\ field (vis i e) b r /\ trimmed i b x.
Proof.
  induction fuel; intros i e v H L; [lia|]. cbn [hvalue_loop]. rewrite (break_is txt i e H). cbn [obind].
  destruct (f_break (vis i e)) as [|k] eqn:B.
  - rewrite (peek_spec txt i e H). cbn [obind]. destruct (vis i e) as [|c r] eqn:V; cbn [hd_error].
    + exists [], [], None. cbn [length]. rewrite Nat.add_0_r. split; [destruct v; auto|]. split; [constructor|]. left. auto.
    + destruct (vis_next txt _ _ _ _ H V) as [T W]. cbn [length] in L. assert (NB : ~ at_break (c :: r)). { intros X. apply break_iff in X. congruence. }
      destruct (isspace c) eqn:Sp.
      * destruct (IHfuel (S i) e v T) as (b & r' & x & -> & F & Tr). { rewrite W. lia. } exists (c :: b), r', x. cbn [length]. replace (i + S (length b))%nat with (S i + length b)%nat by lia. split; auto. rewrite W in F. split; [apply field_char; auto|].
        apply (trim_white [c]). { constructor; auto. apply space_iff. auto. } cbn [length]. replace (i + 1)%nat with (S i) by lia. auto.
      * destruct (IHfuel (S i) e (Some (match v with Some x => fst x | None => i end, S i)) T) as (b & r' & x & -> & F & Tr). { rewrite W. lia. } exists (c :: b), r', (Some (i, match x with Some q => snd q | None => S i end)). cbn [length]. replace (i + S (length b))%nat with (S i + length b)%nat by lia.
        split. { destruct v as [p|], x as [q|]; reflexivity. } rewrite W in F. split; [apply field_char; auto|]. apply trim_char; auto. apply nonspace_iff. rewrite Sp. auto.
  - destruct (break_split (vis i e)) as (w & t & W & Lw). { apply break_iff. congruence. } assert (Ew : vis i e = w ++ t) by apply W. rewrite B in Lw. rewrite Lw. destruct (vis_app txt _ _ _ _ H Ew) as [T V].
    rewrite (break_is txt _ _ T), V. cbn [obind]. rewrite (peek_spec txt _ _ T), V. cbn [obind].
    assert (Stop : ~ folded t -> exists b r x, Ret (v, (i + length w)%nat) = Ret (join v x, (i + length b)%nat) /\ field (vis i e) b r /\ trimmed i b x).
    { intros NF. exists w, t, None. split; [destruct v; auto|]. split; [apply field_stop; auto|]. left. split; auto. apply (break_white _ _ _ W). }
    destruct (f_break t) as [|k2] eqn:B2. 2: { apply Stop. intros (_ & NB). apply NB. apply break_iff. congruence. }
    destruct t as [|c t]; cbn [hd_error]. { apply Stop. intros ((c & t & E & _) & _). discriminate. }
    destruct (isspace c) eqn:Sp. 2: { apply Stop. intros ((c' & t' & E & X) & _). injection E as <- <-. apply space_iff in X. congruence. }
    assert (Fo : folded (c :: t)). { split; [exists c, t; split; auto; apply space_iff; auto|]. intros X. apply break_iff in X. congruence. }
    destruct (vis_next txt _ _ _ _ T V) as [T2 V2]. destruct (IHfuel (S (i + length w)) e v T2) as (b & r & x & -> & F & Tr). { rewrite V2. rewrite Ew, app_length in L. cbn [length] in L. lia. }
    exists (w ++ c :: b), r, x. rewrite app_length. cbn [length]. split; [do 2 f_equal; lia|]. rewrite V2 in F. split; [eapply field_fold; eauto|]. replace (w ++ c :: b) with ((w ++ [c]) ++ b) by (rewrite <- app_assoc; reflexivity). apply trim_white. { apply Forall_app. split; [apply (break_white _ _ _ W)|]. constructor; auto. apply space_iff. auto. }
    rewrite app_length. cbn [length]. replace (i + (length w + 1))%nat with (S (i + length w)) by lia. auto.
Qed.

Lemma name_until : forall (n : list Z) c t, Forall (fun c => nonwhite c /\ c <> 58) n -> is_white c \/ c = 58 -> line_until (fun c => is_white c \/ c = 58) (n ++ c :: t) n (c :: t).
Proof.
  intros n c t F W. split; auto. split. 2: { right. right. exists c, t. auto. }
  intros a d b E. subst n. apply Forall_app in F. destruct F as [_ F]. inversion F as [|? ? Wd Fb]; subst. destruct Wd as [Wd N]. split; [apply not_break_nonwhite; auto|]. intros [X|X]; [apply Wd; auto|auto].
Qed.
Lemma until_name : forall v h r, line_until (fun c => is_white c \/ c = 58) v h r -> v = h ++ r /\ Forall (fun c => nonwhite c /\ c <> 58) h.
Proof. intros v h r (E & A & _). split; auto. apply Forall_forall. intros c I. apply in_split in I. destruct I as (a & b & Eh). destruct (A _ _ _ Eh) as [_ B]. split; [intros X; apply B; auto|intros X; apply B; auto]. Qed.

(** C190 *)
Theorem http_header_spec : forall s e, text_ok s e -> exists r, http_header txt s e = Ret r /\ forall h, r = Some h <-> header_at s (vis s e) h.
Proof.
  intros s e H. unfold http_header. rewrite (break_is txt s e H). cbn [obind]. rewrite (peek_spec txt s e H). cbn [obind].
  (* the name *)
  assert (R0 : forall h, header_at s (vis s e) h -> exists n g u, vis s e = n ++ g ++ 58 :: u /\ Forall (fun c => nonwhite c /\ c <> 58) n /\ Forall is_white g /\ ~ In 10 g /\ (n = [] -> g = [])) by (intros h (n & g & u & b & r & A1 & A2 & A3 & A4 & A5 & _); eauto 9).
  assert (F0 : forall h c t, header_at s (vis s e) h -> vis s e = c :: t -> nonwhite c).
  { intros h c t Q E. destruct (R0 h Q) as (n & g & u & E2 & Fn & _ & _ & G). rewrite E in E2. destruct n as [|d n]. { rewrite G in E2 by auto. cbn [app] in E2. injection E2 as -> _. intros X. discriminate X. } cbn [app] in E2. injection E2 as -> _. inversion Fn; subst. tauto. }
  destruct (f_break (vis s e)) as [|k] eqn:B.
  2: { eexists. split; [reflexivity|]. intros h. split; [discriminate|]. intros Q. exfalso. destruct (vis s e) as [|c t] eqn:V; [discriminate|]. pose proof (F0 h c t Q eq_refl) as W. rewrite f_break_nonwhite in B by auto. discriminate. }
  destruct (match hd_error (vis s e) with Some c => isspace c | None => false end) eqn:Sp.
  { eexists. split; [reflexivity|]. intros h. split; [discriminate|]. intros Q. exfalso. destruct (vis s e) as [|c t] eqn:V; [discriminate|]. cbn [hd_error] in Sp. apply (F0 h c t Q eq_refl). apply space_iff. auto. }
  assert (NS : forall c t, vis s e = c :: t -> nonwhite c). { intros c t E X. rewrite E in Sp. cbn [hd_error] in Sp. apply space_iff in X. congruence. } clear Sp B.
  assert (Hp : forall c, is_white c \/ c = 58 <-> isspace c || (c =? 58) = true). { intros c. rewrite space_iff. destruct (isspace c); lia. }
  destruct (line_all_case txt _ _ Hp s e H) as (n & r & LU & T & V & -> & PP). cbn [obind]. destruct (until_name _ _ _ LU) as [Ev Fn].
  assert (R1 : forall h, header_at s (vis s e) h -> exists g u, r = g ++ 58 :: u /\ Forall is_white g /\ ~ In 10 g).
  { intros h Q. destruct (R0 h Q) as (n' & g & u & E2 & Fn' & Fg & Ng & G). exists g, u. split; auto. assert (LU' : line_until (fun c => is_white c \/ c = 58) (vis s e) n' (g ++ 58 :: u)).
    { rewrite E2. destruct g as [|c g]; cbn [app]; apply name_until; auto. inversion Fg; auto. } destruct (until_det _ _ _ _ _ _ LU LU') as [_ <-]. auto. }
  destruct r as [|c r]. { eexists. split; [reflexivity|]. intros h. split; [discriminate|]. intros Q. destruct (R1 h Q) as (g & u & E & _). destruct g; discriminate. }
  assert (NW58 : nonwhite 58) by (intros X; discriminate X).
  destruct (f_break (c :: r)) as [|k] eqn:B; cbn [Nat.eqb obind].
  2: { eexists. split; [reflexivity|]. intros h. split; [discriminate|]. intros Q. exfalso. destruct (R1 h Q) as (g & u & E & _ & Ng). destruct g as [|d g]. { cbn [app] in E. injection E as -> _. rewrite f_break_nonwhite in B by auto. discriminate. } rewrite E, gap_break in B; auto; discriminate. }
  (* the colon *)
  assert (Fin : forall g u, c :: r = g ++ 58 :: u -> Forall is_white g -> ~ In 10 g -> let j := (s + length n + length g + 1)%nat in text_ok j e /\ vis j e = u /\ exists rr, (let* (v, y) := hvalue_loop txt (S (e - j)) j e None in Ret (Some (HHeader (s, (s + length n)%nat) v y))) = Ret rr /\ forall h, rr = Some h <-> header_at s (vis s e) h).
  { intros g u E Fg Ng j. assert (Ew : vis s e = (n ++ g ++ [58]) ++ u) by (rewrite Ev, E, <- !app_assoc; reflexivity). destruct (vis_app txt _ _ _ _ H Ew) as [Tj Vj]. assert (Ej : (s + length (n ++ g ++ [58%Z]) = j)%nat) by (unfold j; rewrite !app_length; cbn [length]; lia). rewrite Ej in Tj, Vj. split; auto. split; auto.
    destruct (value_loop (S (e - j)) j e None Tj) as (b & t & x & -> & F & Tr). { pose proof (vis_len txt j e Tj). lia. } cbn [obind]. eexists. split; [reflexivity|]. rewrite Vj in F. assert (Eu : u = b ++ t) by (apply field_split; auto).
    assert (Ln : (j + length b = s + length (vis s e) - length t)%nat) by (rewrite Ew, Eu, !app_length; cbn [length]; rewrite !app_length in Ej; cbn [length] in Ej; lia).
    assert (G : n = [] -> g = []). { intros ->. cbn [app] in Ev. destruct g as [|d g]; auto. cbn [app] in E. rewrite E in Ev. exfalso. apply (NS _ _ Ev). inversion Fg; auto. }
    intros h. split.
    - intros Eh. injection Eh as <-. exists n, g, u, b, t. cbn [hh_name hh_value hh_end]. split. { rewrite Ev, E. reflexivity. } split; auto. split; auto. split; auto. split; auto. split; auto. split; auto. split; auto. destruct x; exact Tr.
    - intros (n' & g' & u' & b' & t' & E' & Fn' & Fg' & Ng' & G' & F' & Hn & He & Hv). destruct h as [hn hv he]. cbn [hh_name hh_value hh_end] in *.
      assert (LU' : line_until (fun c => is_white c \/ c = 58) (vis s e) n' (g' ++ 58 :: u')). { rewrite E'. destruct g' as [|d g']; cbn [app]; apply name_until; auto. inversion Fg'; auto. } destruct (until_det _ _ _ _ _ _ LU LU') as [-> E2]. rewrite E in E2.
      assert (LW : line_until nonwhite (g ++ 58 :: u) g (58 :: u)) by (apply white_until; auto). assert (LW' : line_until nonwhite (g ++ 58 :: u) g' (58 :: u')). { rewrite <- E2. apply white_until; auto. } destruct (until_det _ _ _ _ _ _ LW LW') as [-> E3]. injection E3 as ->.
      destruct (field_det _ _ _ F _ _ F') as [-> ->]. rewrite (trimmed_det _ _ _ _ Tr Hv). rewrite Hn, He. unfold join. destruct x; rewrite Ln; auto. }
  specialize (PP eq_refl). cbn beta iota in PP. destruct (isspace c) eqn:Sp.
  - apply space_iff in Sp. destruct (vis_next txt _ _ _ _ T V) as [T1 V1]. destruct (line_all_case txt nonwhite _ nonspace_iff _ e T1) as (g & u & LU2 & T2 & V2 & -> & PP2). cbn [obind]. rewrite V1 in LU2. destruct (until_white _ _ _ LU2) as (E2 & Fg & Ng).
    assert (N10 : c <> 10). { intros ->. cbn [f_break] in B. discriminate. }
    assert (R2 : forall h, header_at s (vis s e) h -> exists x, u = 58 :: x).
    { intros h Q. destruct (R1 h Q) as (g' & x & E & Fg' & Ng'). destruct g' as [|d g']; cbn [app] in E; injection E as Ec E; [exfalso; apply NW58; congruence|]. rewrite Ec in *. clear c Ec. assert (LU' : line_until nonwhite r g' (58 :: x)). { rewrite E. apply white_until; auto. - inversion Fg'; auto. - intros I. apply Ng'. right. auto. } destruct (until_det _ _ _ _ _ _ LU2 LU') as [_ <-]. eauto. }
    destruct u as [|d u]; cbn [obind]. { eexists. split; [reflexivity|]. intros h. split; [discriminate|]. intros Q. destruct (R2 h Q). discriminate. }
    destruct (f_break (d :: u)) as [|k2] eqn:B2; cbn [Nat.eqb obind]. 2: { eexists. split; [reflexivity|]. intros h. split; [discriminate|]. intros Q. destruct (R2 h Q) as (x & E). injection E as -> _. rewrite f_break_nonwhite in B2 by auto. discriminate. }
    destruct (d =? 58) eqn:D58. 2: { eexists. split; [reflexivity|]. intros h. split; [discriminate|]. intros Q. destruct (R2 h Q) as (x & E). injection E as -> _. discriminate. }
    assert (d = 58) by lia. subst d. destruct (Fin (c :: g) u) as (_ & _ & rr & E & R). { rewrite E2. reflexivity. } { constructor; auto. } { intros [X|X]; [congruence|tauto]. }
    cbn [length] in E. replace (s + length n + S (length g) + 1)%nat with (S (S (s + length n) + length g)) in E by lia. rewrite E. eauto.
  - cbn [obind]. assert (c = 58). { destruct PP as [X|X]; auto. apply space_iff in X. congruence. } subst c. destruct (Fin [] r) as (_ & _ & rr & E & R); auto. cbn [length] in E. replace (s + length n + 0 + 1)%nat with (S (s + length n)) in E by lia. rewrite E. eauto.
Qed.
End Http.
