(** Properties C208, C209 and C210: SI references. *)
From Coq Require Import ZifyBool ZifyNat.
From Verif Require Import Base StringModel StringSpec StringProofs ParserModel ParserSpec ParserProps ParserNumModel ParserNumProps ParserPeg ParserInt ParserIpModel ParserIp4 ParserRefModel ParserRefSpec ParserRefNum ParserRef ParserRef2 HttpModel HttpSpec HttpProps SiModel SiSpec SiProofs.
Ltac Zify.zify_post_hook ::= Z.div_mod_to_equations.

Lemma known_is : forall m, known m <-> known_b m = true.
Proof.
  intros m. unfold known, known_b. rewrite existsb_exists. split.
  - intros X. exists m. split; auto. apply Z.eqb_refl.
  - intros (x & X & E). apply Z.eqb_eq in E. subst x. exact X.
Qed.
Lemma sizes_is : forall m ps, sizes_ok m ps <-> sizes_b m ps = true.
Proof.
  intros m ps. unfold sizes_ok, sizes_b. destruct (m =? 12).
  - rewrite forallb_forall, Forall_forall. split; intros X p I; specialize (X p I); cbv beta in *; lia.
  - rewrite Bool.andb_true_iff, forallb_forall, Forall_forall. split; intros [X Y]; (split; [intros p I; specialize (X p I); cbv beta in *; lia|lia]).
Qed.

Section Match.
Context (txt : list Z) (toup : Z -> Z) (sp : option espec) (Gp : o_good txt sp).
Local Notation text_ok := (text_ok txt).
Local Notation vis := (vis txt).
Local Notation spf := (o_f sp).
(** an object in use *)
Definition si_wf (o : si_obj) : Prop := length (si_model o) = 3%nat /\ o_wf sp (si_space o).
Lemma part_ivs_len : forall ps x, length (part_ivs x ps) = length ps.
Proof. induction ps; intros x; cbn [part_ivs length]; auto. Qed.
Lemma zstring2 : forall a b r, is_dec a = true -> is_dec b = true -> zstring (a :: b :: 0 :: r) = [a; b].
Proof. intros a b r A B. unfold zstring, is_dec in *. cbn [take_while]. replace (negb (a =? 0)) with true by lia. replace (negb (b =? 0)) with true by lia. reflexivity. Qed.

(** The head, if there is one *)
Lemma head_spec : forall s e fl (o : si_obj), toup 0 = 0 -> length (si_model o) = 3%nat -> text_ok s e ->
  (exists a b, si_head txt toup e fl s a b /\ text_ok (s + 4) e /\ forall P ks, si_space o = ks ->
     si_match txt toup P o s e fl =
       (let mo := [a; b; 0] in
        if (a =? 57) && (b =? 57) then Ret (Si mo no_iv no_iv no_iv true (s, (s + 4)%nat) ks, true)
        else let* (ks, m) := op_match P ks (s + 4) e fl in
             let x := if m then i_end ks else (s + 4)%nat in
             let* (p, q, r) := si_parts txt x e in
             let y := if iv_ok r then snd r else if iv_ok q then snd q else if iv_ok p then snd p else (s + 4)%nat in
             let* v := si_check txt a b p q r in Ret (Si mo p q r v (s, y) ks, true))) \/
  ((forall a b, ~ si_head txt toup e fl s a b) /\ exists mo, length mo = 3%nat /\ forall P, si_match txt toup P o s e fl = Ret (si_invalidate (Si mo (si_p1 o) (si_p2 o) (si_p3 o) (si_is_valid o) (si_itv o) (si_space o)), false)).
Proof.
  intros s e fl o T0 L H.
  assert (Id : exists ok, (if (e <=? s + 1)%nat then Ret false else let* c := rd txt s in if negb (up toup fl c =? 83) then Ret false else let* c := rd txt (s + 1) in Ret (up toup fl c =? 73)) = Ret ok /\
    if ok then exists a b r, vis s e = a :: b :: r /\ seen toup fl a = 83 /\ seen toup fl b = 73 /\ text_ok (s + 2) e /\ vis (s + 2) e = r else forall a b r, vis s e = a :: b :: r -> seen toup fl a = 83 -> seen toup fl b = 73 -> False).
  { assert (U0 : up toup fl 0 = 0) by (unfold up; destruct (fl_ci fl); auto). destruct (e <=? s + 1)%nat eqn:Ee. { eexists. split; [reflexivity|]. intros a b r V. destruct (vis_end txt s e H) as [X _]. rewrite V in X. cbn [length] in X. lia. }
    destruct (rd_vis txt toup s e H ltac:(lia)) as (c & -> & Z0 & Z1). cbn [obind]. destruct (Z.eq_dec c 0) as [->|N0]. { rewrite U0. eexists. split; [reflexivity|]. intros a b r V. rewrite Z0 in V by auto. discriminate. }
    destruct (Z1 N0) as [r V]. destruct (up toup fl c =? 83) eqn:E82; cbn [negb]. 2:{ eexists. split; [reflexivity|]. intros a b r' V' Q _. rewrite V in V'. injection V' as <- _. change (seen toup fl c) with (up toup fl c) in Q. lia. }
    destruct (vis_cons txt s e c r H V) as (_ & H1 & V1 & _). replace (s + 1)%nat with (S s) by lia. destruct (rd_vis txt toup (S s) e H1 ltac:(lia)) as (c2 & -> & Y0 & Y1). cbn [obind]. destruct (Z.eq_dec c2 0) as [->|N2]. { rewrite U0. eexists. split; [reflexivity|]. intros a b r' V' _ _. rewrite V in V'. injection V' as <- ->. rewrite Y0 in V1 by auto. discriminate. }
    destruct (Y1 N2) as [r2 V2]. assert (Er : r = c2 :: r2) by congruence. rewrite Er in *. clear Er V2. eexists. split; [reflexivity|]. destruct (up toup fl c2 =? 73) eqn:E70.
    - exists c, c2, r2. split; auto. split; [change (up toup fl c = 83); lia|]. split; [change (up toup fl c2 = 73); lia|]. destruct (vis_cons txt (S s) e c2 r2 H1 V1) as (_ & H2 & V2 & _). replace (s + 2)%nat with (S (S s)) by lia. auto.
    - intros a b r' V' _ Q. rewrite V in V'. injection V' as <- <- _. change (seen toup fl c2) with (up toup fl c2) in Q. lia. }
  destruct Id as (ok & Eid & Id). unfold si_match. rewrite Eid. cbn [obind]. clear Eid. destruct ok; cbn [negb].
  2:{ right. split; [|exists (si_model o); auto]. intros a b ((u & v & r & V & Su & Sv) & _). eapply Id; eauto. }
  destruct Id as (u & v & r & V & Su & Sv & H2 & V2). change (model_loop txt) with (check_loop txt). destruct (check_spec txt toup (si_model o) (s + 2) e L H2) as (mo & w & -> & Lm & W). cbn [obind]. destruct w as [x|].
  - left. destruct W as (a & b & t & z & V3 & -> & Da & Db & -> & H4 & V4). exists a, b. replace (s + 2 + 2)%nat with (s + 4)%nat in * by lia. split; [split; auto; exists u, v, t; rewrite V, <- V2, V3; auto|]. split; auto. intros P ks Ek. rewrite Ek. reflexivity.
  - right. split; [|exists mo; auto]. intros a b ((u' & v' & r' & V' & _) & Da & Db). rewrite V in V'. injection V' as _ _ ->. eapply W; eauto.
Qed.
Lemma head_det : forall s e fl a b a' b', si_head txt toup e fl s a b -> si_head txt toup e fl s a' b' -> a' = a /\ b' = b.
Proof. intros s e fl a b a' b' ((u & v & r & V & _) & _) ((u' & v' & r' & V' & _) & _). rewrite V in V'. injection V' as _ _ -> -> _. auto. Qed.

(** what a match does, with the validity as the code computes it *)
Lemma match_full : toup 0 = 0 -> forall o s e fl, si_wf o -> text_ok s e -> exists o' m, si_match txt toup (o_P sp) o s e fl = Ret (o', m) /\ si_wf o' /\
  (m = true <-> exists a b, si_head txt toup e fl s a b) /\
  (forall a b, si_head txt toup e fl s a b -> let ps := si_list txt spf e fl s a b in let ivs := part_ivs (si_from spf e fl s) ps in
     si_holds o' [a; b] ivs (s, last_end (s + 4) ivs) /\ si_is_valid o' = code_ok (model_no a b) ps) /\
  (m = false -> si_holds o' [] [] no_iv /\ si_is_valid o' = false).
Proof.
  intros T0 o s e fl [L W] H. destruct (head_spec s e fl o T0 L H) as [(a & b & Hd & H4 & E)|(Nh & mo & Lm & E)].
  - rewrite (E _ _ eq_refl). clear E. cbv zeta. destruct ((a =? 57) && (b =? 57)) eqn:E99.
    + eexists _, _. split; [reflexivity|]. split; [split; auto|]. split; [split; eauto|]. split; [|discriminate]. intros a' b' Hd'. destruct (head_det _ _ _ _ _ _ _ Hd Hd') as [-> ->]. unfold si_list. rewrite E99. cbn [part_ivs]. split.
      * split; [apply zstring2; apply Hd|]. split; reflexivity.
      * replace a with 57 by lia. replace b with 57 by lia. reflexivity.
    + destruct (ran_o txt sp (si_space o) (s + 4) e fl Gp W H4) as (k1 & -> & W1 & R1). cbn [obind]. assert (Ex : (if found (spf (s + 4)%nat e fl) then i_end k1 else (s + 4)%nat) = si_from spf e fl s) by (unfold si_from, skip_space; destruct (spf (s + 4)%nat e fl); cbn [found]; [tauto|reflexivity]). rewrite Ex. clear Ex R1.
      destruct (skip_ok txt sp Gp (s + 4) e fl H4) as [Hx _]. fold (si_from spf e fl s) in Hx. destruct (parts_spec txt toup _ e Hx) as [-> Pi]. cbn [obind]. set (ps := split_parts 3 (vis (si_from spf e fl s) e)) in *. rewrite (check_spec_si txt toup a b _ ps (proj1 (proj2 Hd)) (proj2 (proj2 Hd)) Pi). cbn [obind].
      eexists _, _. split; [reflexivity|]. split; [split; auto|]. split; [split; eauto|]. split; [|discriminate]. intros a' b' Hd'. destruct (head_det _ _ _ _ _ _ _ Hd Hd') as [-> ->]. unfold si_list. rewrite E99. fold ps. split; [|reflexivity].
      split; [apply zstring2; apply Hd|]. cbn [si_p1 si_p2 si_p3 si_itv]. clearbody ps. destruct ps as [|d [|f [|g [|? ?]]]]; cbn [parts_in] in Pi; try contradiction; cbn [part_ivs nth length Nat.sub repeat app last_end map snd last]; split; try reflexivity; unfold iv_ok, no_iv; cbn [fst snd Nat.leb]; f_equal.
      all: repeat match goal with |- context [(?p <=? ?q)%nat] => replace (p <=? q)%nat with true by lia end; reflexivity.
  - rewrite E. eexists _, _. split; [reflexivity|]. unfold si_invalidate. cbn [si_model si_space]. split; [split; cbn [si_model si_space]; [rewrite set_at_length; auto|auto]|]. split; [split; [discriminate|intros (a & b & X); destruct (Nh _ _ X)]|]. split; [intros a b X; destruct (Nh _ _ X)|]. intros _. split; auto. destruct mo as [|c mo]; [discriminate|]. split; [reflexivity|]. split; reflexivity.
Qed.
(** *** Property C208 *)
Theorem si_reference_match : toup 0 = 0 -> forall o s e fl, si_wf o -> text_ok s e -> exists o' m, si_match txt toup (o_P sp) o s e fl = Ret (o', m) /\ si_wf o' /\
  (m = true <-> exists a b, si_head txt toup e fl s a b) /\
  (forall a b, si_head txt toup e fl s a b -> let ivs := part_ivs (si_from spf e fl s) (si_list txt spf e fl s a b) in si_holds o' [a; b] ivs (s, last_end (s + 4) ivs)) /\
  (m = false -> si_holds o' [] [] no_iv /\ si_is_valid o' = false).
Proof.
  intros T0 o s e fl W H. destruct (match_full T0 o s e fl W H) as (o' & m & E & W' & M & Hd & F). exists o', m. split; auto. split; auto. split; auto. split; auto. intros a b X. apply (Hd a b X).
Qed.
Lemma parts_ne : forall x ps, parts_in txt x ps -> Forall (fun p => p <> []) ps /\ (length ps <= 3)%nat.
Proof. intros x ps P. destruct ps as [|d [|f [|g [|? ?]]]]; cbn [parts_in] in P; try contradiction; cbn [length]; (split; [|lia]); repeat (constructor; try tauto). Qed.
Lemma list_ne : forall s e fl a b, text_ok s e -> si_head txt toup e fl s a b -> Forall (fun p => p <> []) (si_list txt spf e fl s a b) /\ (length (si_list txt spf e fl s a b) <= 3)%nat.
Proof.
  intros s e fl a b H ((u & v & r & V & _) & _). unfold si_list. destruct ((a =? 57) && (b =? 57)); [cbn; split; [constructor|lia]|].
  assert (H4 : text_ok (s + 4) e) by apply (vis_app txt s e [u; v; a; b] r H V). destruct (skip_ok txt sp Gp (s + 4) e fl H4) as [Hx _]. destruct (parts_spec txt toup _ e Hx) as [_ Pi]. eapply parts_ne; eauto.
Qed.
Lemma num_range : forall a b, is_dec a = true -> is_dec b = true -> 0 <= model_no a b <= 99.
Proof. unfold is_dec, model_no. lia. Qed.
(** groups, joined and not *)
Lemma groups_un : forall m ps, groups m ps = option_map (map (@concat Z)) (ugroups m ps).
Proof.
  intros m ps. unfold groups, ugroups. destruct ps as [|p [|q [|r [|? ?]]]]; try reflexivity.
  all: destruct m as [|m|m]; try reflexivity; repeat (destruct m as [m|m|]; try reflexivity); cbn [option_map map concat]; rewrite ?app_nil_r; reflexivity.
Qed.

(** *** Property C209: is_valid, for the models and numbers of parts whose checks are of single parts *)
Lemma check_single : forall g, Forall (fun p => p <> []) g -> (length g <= 1)%nat -> g <> [] -> check_b g = true <-> checks (concat g).
Proof.
  intros [|d [|? ?]] N L Ng; cbn [length] in L; try lia; [congruence|]. cbn [check_b concat]. rewrite app_nil_r. symmetry. apply checks_b. inversion N; auto.
Qed.
(** the groups hold only parts *)
Lemma groups_ne : forall m ps gs, Forall (fun p => p <> []) ps -> ugroups m ps = Some gs -> Forall (fun g => g <> [] /\ Forall (fun p => p <> []) g) gs.
Proof.
  intros m ps gs N E. unfold ugroups in E. destruct ps as [|p [|q [|r [|? ?]]]]; try discriminate.
  all: repeat match goal with X : Forall _ (_ :: _) |- _ => inversion_clear X end.
  all: destruct m as [|m|m]; try discriminate; repeat (destruct m as [m|m|]; try discriminate); injection E as <-; repeat (constructor; try discriminate; auto).
Qed.
Lemma groups_single : forall m ps gs, 0 <= m -> ~ joined m (length ps) -> ugroups m ps = Some gs -> Forall (fun g => (length g <= 1)%nat) gs.
Proof.
  intros m ps gs M J E. unfold ugroups in E. unfold joined in J. destruct ps as [|p [|q [|r [|? ?]]]]; try discriminate; cbn [length] in J.
  all: destruct m as [|m|m]; try discriminate; repeat (destruct m as [m|m|]; try discriminate); injection E as <-; try (exfalso; lia); repeat constructor.
Qed.
Lemma code_single : forall m ps, 0 <= m -> Forall (fun p => p <> []) ps -> ~ joined m (length ps) -> code_ok m ps = true <-> si_ok m ps.
Proof.
  intros m ps M N J. unfold code_ok, si_ok. rewrite groups_un. pose proof (known_is m) as K. destruct (known_b m) eqn:Kb; cbn [negb orb].
  2:{ split; auto. intros _ X. apply K in X. discriminate. }
  assert (Km : known m) by (apply K; auto). destruct (ugroups m ps) as [gs|] eqn:E; cbn [option_map].
  2:{ split; [discriminate|]. intros X. destruct (X Km) as (? & ? & _). discriminate. }
  pose proof (groups_ne _ _ _ N E) as Ng. pose proof (groups_single _ _ _ M J E) as Sg. rewrite Bool.andb_true_iff, <- sizes_is.
  assert (Eq : forallb check_b gs = true <-> Forall checks (map (@concat Z) gs)).
  { clear E. induction gs as [|g gs IH]; [split; auto; constructor|]. inversion_clear Ng as [|? ? [Ng1 Ng2] Ng3]. inversion_clear Sg. cbn [forallb map]. rewrite Bool.andb_true_iff, (check_single g), IH by auto. split; [intros [X Y]; constructor; auto|intros X; inversion X; auto]. }
  rewrite Eq. split.
  - intros [X Y] _. eauto.
  - intros X. destruct (X Km) as (gs' & Eg & Sz & F). injection Eg as <-. auto.
Qed.
Theorem si_reference_valid : toup 0 = 0 -> forall o s e fl a b, si_wf o -> text_ok s e -> si_head txt toup e fl s a b ->
  let ps := si_list txt spf e fl s a b in ~ joined (model_no a b) (length ps) ->
  exists o', si_match txt toup (o_P sp) o s e fl = Ret (o', true) /\ (si_is_valid o' = true <-> si_ok (model_no a b) ps).
Proof.
  intros T0 o s e fl a b W H Hd ps J. destruct (match_full T0 o s e fl W H) as (o' & m & E & W' & M & Hh & F). exists o'. assert (Em : m = true) by (apply M; eauto). rewrite Em in E. split; auto. destruct (Hh a b Hd) as [_ ->]. apply code_single; auto; [apply num_range; apply Hd|]. apply (list_ne s e fl a b H Hd).
Qed.
(** *** Property C210: the checks of joined parts.  They also want the weighted sum not to be a multiple of 11 (the control digit
    would be 0 then), and with three parts look for the control digit in another place. *)
Definition joined_text (m : Z) (ps : list (list Z)) : list Z :=
  match ps with
  | [p; q; r] => if m =? 1 then p ++ q ++ r else if (m =? 6) || (m =? 10) then q ++ r else p ++ q
  | _ => concat ps
  end.
(** the sum of the digits times their weights, without the control digit *)
Definition weighted (l : list Z) : Z := weigh 2 (rev (removelast l)).
Definition three_wrong (p q r : list Z) : Prop :=
  let k := 11 - weighted (p ++ q ++ r) mod 11 in nth (length r - 1) (q ++ 45 :: r) 0 - 48 = if k =? 10 then 0 else k.
Lemma checks_two : forall p q, q <> [] -> checksb (p ++ q) && not_eleven (p ++ q) = true <-> checks (p ++ q) /\ weighted (p ++ q) mod 11 <> 0.
Proof.
  intros p q N. assert (Ne : p ++ q <> []) by (intros X; apply app_eq_nil in X; tauto). rewrite Bool.andb_true_iff, <- (checks_b _ Ne). unfold not_eleven, weighted. rewrite Bool.negb_true_iff, Z.eqb_neq. reflexivity.
Qed.
Lemma third_is : forall p q r, r <> [] -> third_check p q r = true <-> three_wrong p q r.
Proof.
  intros p q r N. unfold third_check, three_wrong, weighted. cbv zeta. rewrite (nth_indep (q ++ 45 :: r) 48 0). 2:{ rewrite app_length. cbn [length]. destruct r; [congruence|cbn [length]; lia]. }
  destruct (11 - weigh 2 (rev (removelast (p ++ q ++ r))) mod 11 =? 10); lia.
Qed.
Lemma code_joined : forall m ps, Forall (fun p => p <> []) ps -> joined m (length ps) -> (length ps <= 3)%nat -> ~ (m = 1 /\ length ps = 3%nat) -> code_ok m ps = true <-> si_ok m ps /\ weighted (joined_text m ps) mod 11 <> 0.
Proof.
  intros m ps N J L3 J3. assert (Km : known_b m = true) by (apply known_is; unfold known, joined in *; cbn [In]; intuition lia). unfold code_ok, si_ok. rewrite Km. cbn [negb orb]. apply known_is in Km. rewrite groups_un.
  assert (X : exists gs, ugroups m ps = Some gs /\ (forallb check_b gs = true <-> Forall checks (map (@concat Z) gs) /\ weighted (joined_text m ps) mod 11 <> 0)).
  { assert (A1 : forall P Q : list Z -> Prop, True) by auto. destruct ps as [|p [|q [|r [|? ?]]]]; cbn [length] in *; try (unfold joined in J; lia).
    - inversion_clear N as [|? ? Np Nq]. inversion_clear Nq as [|? ? Nq' _]. destruct J as [[[-> | ->] _]|[_ J]]; [| |lia]; (eexists; split; [reflexivity|]); cbn [joined_text concat forallb check_b map]; rewrite !app_nil_r, Bool.andb_true_r, checks_two by auto; (split; [intros [X Y]; split; auto; constructor; auto; constructor|intros [X Y]; inversion_clear X; auto]).
    - inversion_clear N as [|? ? Np Nq]. inversion_clear Nq as [|? ? Nq' Nr]. inversion_clear Nr as [|? ? Nr' _]. destruct J as [[[-> | ->] _]|[[-> | [-> | ->]] _]]; [lia| | | |]; (eexists; split; [reflexivity|]); [change (joined_text 9 [p; q; r]) with (p ++ q)|change (joined_text 6 [p; q; r]) with (q ++ r)|change (joined_text 8 [p; q; r]) with (p ++ q)|change (joined_text 10 [p; q; r]) with (q ++ r)]; cbn [concat forallb check_b map]; rewrite !app_nil_r, !Bool.andb_true_r, ?Bool.andb_true_iff; rewrite <- ?Bool.andb_true_iff.
      + rewrite checks_two by auto. split; [intros [X Y]; split; auto; constructor; auto; constructor|intros [X Y]; inversion_clear X; auto].
      + rewrite checks_two by auto. split; [intros [X Y]; split; auto; constructor; auto; constructor|intros [X Y]; inversion_clear X; auto].
      + rewrite Bool.andb_true_iff, checks_two, <- (checks_b r Nr') by auto. split; [intros [[X Y] Z]; split; auto; repeat (constructor; auto)|intros [X Y]; inversion_clear X as [|? ? X1 X2]; inversion_clear X2; auto].
      + rewrite Bool.andb_true_iff, checks_two, <- (checks_b p Np) by auto. split; [intros [X [Y Z]]; split; auto; repeat (constructor; auto)|intros [X Y]; inversion_clear X as [|? ? X1 X2]; inversion_clear X2; auto]. }
  destruct X as (gs & -> & X). cbn [option_map]. rewrite Bool.andb_true_iff, <- sizes_is, X. split.
  - intros (Y & Z & V). split; auto. intros _. eauto.
  - intros (Y & V). destruct (Y Km) as (gs' & Eg & Sz & F). injection Eg as <-. auto.
Qed.
Theorem si_reference_joined_partial : toup 0 = 0 -> forall o s e fl a b, si_wf o -> text_ok s e -> si_head txt toup e fl s a b ->
  let ps := si_list txt spf e fl s a b in let m := model_no a b in joined m (length ps) ->
  exists o', si_match txt toup (o_P sp) o s e fl = Ret (o', true) /\
    (~ (m = 1 /\ length ps = 3%nat) -> si_is_valid o' = true <-> si_ok m ps /\ weighted (joined_text m ps) mod 11 <> 0) /\
    (m = 1 -> forall p q r, ps = [p; q; r] -> si_is_valid o' = true <-> sizes_ok 1 ps /\ three_wrong p q r).
Proof.
  intros T0 o s e fl a b W H Hd ps m J. destruct (match_full T0 o s e fl W H) as (o' & f & E & W' & M & Hh & F). exists o'. assert (Em : f = true) by (apply M; eauto). rewrite Em in E. split; auto. destruct (Hh a b Hd) as [_ ->]. destruct (list_ne s e fl a b H Hd) as [Ne L3]. fold ps in Ne, L3 |- *. fold m. split.
  - intros J3. apply code_joined; auto.
  - intros E1 p q r Ep. rewrite E1, Ep in *. rewrite sizes_is. unfold code_ok. change (known_b 1) with true. cbn [negb orb ugroups forallb check_b]. rewrite Bool.andb_true_r, Bool.andb_true_iff, third_is by (inversion_clear Ne as [|? ? _ X]; inversion_clear X as [|? ? _ Y]; inversion Y; auto). reflexivity.
Qed.

End Match.
