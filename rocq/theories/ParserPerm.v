(** Property C63, continued: permutation, search, string_branch. *)
From Coq Require Import ZifyBool ZifyNat Permutation.
From Verif Require Import Base StringModel StringSpec StringProofs StringTrim StringProps ParserModel ParserSpec ParserProps.
Ltac Zify.zify_post_hook ::= Z.div_mod_to_equations.

Section Perm.
Context (txt : list Z).
Local Notation text_ok := (text_ok txt).
Local Notation vis := (vis txt).
Local Notation element := (element txt).
Local Notation good := (good txt).

(** ** permutation *)
Fixpoint unm (fs : list pfun) (ks : list pst) : list pfun :=
  match fs, ks with f :: fr, k :: kr => if is_valid k then unm fr kr else f :: unm fr kr | _, _ => [] end.
Fixpoint newly (fs : list pfun) (ks ks' : list pst) : list (pfun * (nat * nat)) :=
  match fs, ks, ks' with f :: fr, k :: kr, k' :: kr' => if is_valid k then newly fr kr kr' else (f, iv k') :: newly fr kr kr' | _, _, _ => [] end.
Definition keep (ks ks' : list pst) : Prop := Forall2 (fun k k' => if is_valid k then k' = k else is_valid k' = true) ks ks'.
Definition sim (ks ks' : list pst) : Prop := Forall2 (fun k k' => if is_valid k then k' = k else is_valid k' = false) ks ks'.
Lemma sim_refl : forall ks, sim ks ks.
Proof. induction ks; constructor; auto. destruct (is_valid a) eqn:E; auto. Qed.
Lemma sim_trans : forall a b c, sim a b -> sim b c -> sim a c.
Proof.
  intros a b c H. revert c. induction H as [|x y a b H1 H IH]; intros c K; inversion K as [|? z ? d K1 K2]; subst; constructor; [|apply IH; auto].
  destruct (is_valid x) eqn:E; [subst y; rewrite E in K1; auto|]. rewrite H1 in K1. auto.
Qed.
Lemma keep_sim : forall a b c, sim a b -> keep b c -> keep a c.
Proof.
  intros a b c H. revert c. induction H as [|x y a b H1 H IH]; intros c K; inversion K as [|? z ? d K1 K2]; subst; constructor; [|apply IH; auto].
  destruct (is_valid x) eqn:E; [subst y; rewrite E in K1; auto|]. rewrite H1 in K1. auto.
Qed.
Lemma sim_valid : forall a b, sim a b -> map is_valid a = map is_valid b.
Proof. intros a b H. induction H; cbn [map]; auto. f_equal; auto. destruct (is_valid x) eqn:E; congruence. Qed.
Lemma unm_valid : forall fs a b, map is_valid a = map is_valid b -> unm fs a = unm fs b.
Proof. induction fs as [|f0 fs IHfs]; intros [|x a] [|y b] H; try discriminate; auto. cbn [map] in H. injection H as H1 H2. cbn [unm]. rewrite H1, (IHfs a b) by auto. reflexivity. Qed.
Lemma newly_valid : forall fs a b c, map is_valid a = map is_valid b -> newly fs a c = newly fs b c.
Proof. induction fs as [|f0 fs IHfs]; intros [|x a] [|y b] [|z c] H; try discriminate; auto. cbn [map] in H. injection H as H1 H2. cbn [newly]. rewrite H1, (IHfs a b) by auto. reflexivity. Qed.
Lemma unm_app : forall fs1 ks1 fs2 ks2, length fs1 = length ks1 -> unm (fs1 ++ fs2) (ks1 ++ ks2) = unm fs1 ks1 ++ unm fs2 ks2.
Proof. induction fs1 as [|f0 fs1 IHfs1]; intros [|k ks1] fs2 ks2 L; try discriminate; auto. cbn [app unm]. injection L as L. rewrite IHfs1 by auto. destruct (is_valid k); reflexivity. Qed.
Lemma newly_app : forall fs1 a1 b1 fs2 a2 b2, length fs1 = length a1 -> length a1 = length b1 -> newly (fs1 ++ fs2) (a1 ++ a2) (b1 ++ b2) = newly fs1 a1 b1 ++ newly fs2 a2 b2.
Proof. induction fs1 as [|f0 fs1 IHfs1]; intros [|k a1] [|k' b1] fs2 a2 b2 L M; try discriminate; auto. cbn [app newly]. injection L as L. injection M as M. rewrite IHfs1 by auto. destruct (is_valid k); reflexivity. Qed.
Lemma unm_nil_newly : forall fs a b, unm fs a = [] -> newly fs a b = [].
Proof. induction fs as [|f0 fs IHfs]; intros [|k x] [|k' y] H; auto. cbn [unm newly] in *. destruct (is_valid k); [auto|discriminate]. Qed.
Lemma unm_nil_keep : forall fs a, length fs = length a -> unm fs a = [] -> keep a a.
Proof. induction fs as [|f0 fs IHfs]; intros [|k x] L H; try discriminate; [constructor|]. cbn [unm] in H. destruct (is_valid k) eqn:E; [|discriminate]. constructor; [rewrite E; auto|]. apply IHfs; auto. Qed.

Lemma app_same : forall (a b c d : list pst), a ++ b = c ++ d -> length a = length c -> a = c /\ b = d.
Proof. induction a; intros b [|x c] d E L; try discriminate; auto. injection E as <- E. injection L as L. destruct (IHa b c d E L) as [-> ->]. auto. Qed.

(** the order that is found: the first one, in the order of the collection *)
Fixpoint perm_try (rec : list pfun -> nat -> option nat) (pre post : list pfun) (s e : nat) (fl : pflags) {struct post} : option nat :=
  match post with
  | [] => None
  | f :: r => match (match f s e fl with Some x => rec (pre ++ r) x | None => None end) with
              | Some y => Some y
              | None => perm_try rec (pre ++ [f]) r s e fl
              end
  end.
Fixpoint perm_fn (fuel : nat) (fs : list pfun) (s e : nat) (fl : pflags) : option nat :=
  match fuel with
  | O => None
  | S n => match fs with [] => Some s | _ => perm_try (fun fs' s' => perm_fn n fs' s' e fl) [] fs s e fl end
  end.

Definition post (fs : list pfun) (ks ks' : list pst) (r : option nat) (s e : nat) (fl : pflags) : Prop :=
  match r with
  | Some y => keep ks ks' /\ (s <= y <= s + length (vis s e))%nat /\ exists ord, Permutation ord (newly fs ks ks') /\ ichain ord s y e fl
  | None => sim ks ks' /\ forall ord y, Permutation ord (unm fs ks) -> ~ chain ord s y e fl
  end.
Lemma post_sim : forall fs a b c r s e fl, sim a b -> post fs b c r s e fl -> post fs a c r s e fl.
Proof.
  intros fs a b c r s e fl H P. pose proof (sim_valid a b H) as V. destruct r as [y|]; cbn [post] in *.
  - destruct P as (K & W & ord & P1 & P2). split; [eapply keep_sim; eauto|]. split; auto. exists ord. rewrite (newly_valid fs a b c V). auto.
  - destruct P as (K & N). split; [eapply sim_trans; eauto|]. rewrite (unm_valid fs a b V). auto.
Qed.
Lemma invalid_iv : forall k, iv k = (1, 0)%nat -> is_valid k = false.
Proof. intros k H. injection H as H1 H2. unfold is_valid. rewrite H1, H2. reflexivity. Qed.

Section Loop.
Context (n : nat) (es : list espec) (G : Forall good es) (rec : list pst -> nat -> outcome (list pst * option nat)) (rf : list pfun -> nat -> option nat) (s e : nat) (fl : pflags) (H : text_ok s e).
Hypothesis Hrec : forall ks x, kids_ok es ks -> text_ok x e -> (length (unm (map es_f es) ks) < n)%nat ->
  exists ks' r, rec ks x = Ret (ks', r) /\ kids_ok es ks' /\ post (map es_f es) ks ks' r x e fl /\ r = rf (unm (map es_f es) ks) x.
Lemma perm_loop_spec : forall er ed done kr all, es = ed ++ er -> kids_ok ed done -> kids_ok er kr -> (length (unm (map es_f es) (done ++ kr)) <= n)%nat ->
  (all = true <-> unm (map es_f ed) done = []) ->
  (forall a f b, unm (map es_f ed) done = a ++ f :: b -> forall x ord y, f s e fl = Some x -> Permutation ord (a ++ b ++ unm (map es_f er) kr) -> ~ chain ord x y e fl) ->
  exists ks' r, perm_loop rec (map es_P er) done kr all s e fl = Ret (ks', r) /\ kids_ok es ks' /\ post (map es_f es) (done ++ kr) ks' r s e fl /\
    r = match unm (map es_f es) (done ++ kr) with [] => Some s | _ => perm_try rf (unm (map es_f ed) done) (unm (map es_f er) kr) s e fl end.
Proof.
  induction er as [|p er IH]; intros ed done kr all Ees Kd Kr Ln Hall Dead; inversion Kr as [|? k ? kt W Kt]; subst; cbn [map perm_loop].
  - rewrite !app_nil_r in *. pose proof (kids_len _ _ Kd) as Ld. destruct all.
    + assert (U : unm (map es_f ed) done = []) by (apply Hall; auto). exists done, (Some s). split; auto. split; auto. split; [|rewrite U; reflexivity]. cbn [post]. split; [apply (unm_nil_keep (map es_f ed)); auto; rewrite map_length; auto|]. split; [lia|].
      exists []. rewrite (unm_nil_newly _ _ done U). split; [constructor|reflexivity].
    + exists done, None. split; auto. split; auto. split; [|destruct (unm (map es_f ed) done) eqn:U; [destruct Hall as [_ Hall]; discriminate Hall; auto|reflexivity]]. cbn [post]. split; [apply sim_refl|]. intros ord y Po C. destruct ord as [|f ord].
      * apply Permutation_nil in Po. apply Hall in Po. discriminate.
      * cbn [chain] in C. destruct C as (x & F & C). assert (Hin : In f (unm (map es_f ed) done)) by (eapply Permutation_in; [exact Po|left; auto]). destruct (in_split _ _ Hin) as (a & b & E). rewrite E in Po.
        apply (Dead a f b E x ord y F); auto. cbn [map unm]. rewrite app_nil_r. eapply Permutation_cons_app_inv; eauto.
  - assert (Gp : good p) by (rewrite Forall_app in G; destruct G as [_ G']; inversion G'; auto).
    assert (Ger : Forall good er) by (rewrite Forall_app in G; destruct G as [_ G']; inversion G'; auto).
    pose proof (kids_len _ _ Kd) as Ld. pose proof (kids_len _ _ Kt) as Lt.
    assert (Em : forall q, es_wf p q -> kids_ok (ed ++ [p]) (done ++ [q])). { intros q Hq. apply Forall2_app; [exact Kd|]. constructor; [exact Hq|constructor]. }
    assert (Ua : forall q, unm (map es_f (ed ++ [p])) (done ++ [q]) = unm (map es_f ed) done ++ (if is_valid q then [] else [es_f p])). { intros q. rewrite map_app, unm_app by (rewrite map_length; auto). cbn [map unm]. destruct (is_valid q); reflexivity. }
    destruct (is_valid k) eqn:Vk.
    + destruct (IH (ed ++ [p]) (done ++ [k]) kt all) as (ks' & r & E & K & Po & Er); [rewrite <- app_assoc; reflexivity|apply Em; auto|auto|rewrite <- app_assoc; auto| | |].
      * rewrite Ua, Vk, app_nil_r. auto.
      * rewrite Ua, Vk, app_nil_r. intros a f b E x ord y F Pm. apply (Dead a f b E x ord y F). cbn [map unm]. rewrite Vk. auto.
      * exists ks', r. split; auto. split; auto. rewrite <- app_assoc in Po, Er. split; auto. rewrite Ua, Vk, app_nil_r in Er. cbn [map unm]. rewrite Vk. exact Er.
    + destruct (el_match _ _ _ _ _ Gp k s e fl W H) as (k' & Emm & W' & R). rewrite Emm. cbn [obind]. destruct (es_f p s e fl) as [x|] eqn:F; cbn [found].
      * destruct R as [R _]. assert (Ex : i_end k' = x) by (apply (f_equal snd) in R; exact R). rewrite Ex. pose proof (el_within _ _ _ _ _ Gp s e fl x H F) as Wi. destruct (vis_to txt s e x H Wi) as [Hx Vx].
        assert (Vk' : is_valid k' = true). { injection R as R1 R2. unfold is_valid. rewrite R1, R2. lia. }
        assert (Un : unm (map es_f (ed ++ p :: er)) (done ++ k' :: kt) = unm (map es_f ed) done ++ unm (map es_f er) kt). { rewrite map_app, unm_app by (rewrite map_length; auto). cbn [map unm]. rewrite Vk'. reflexivity. }
        assert (Uo : unm (map es_f (ed ++ p :: er)) (done ++ k :: kt) = unm (map es_f ed) done ++ es_f p :: unm (map es_f er) kt). { rewrite map_app, unm_app by (rewrite map_length; auto). cbn [map unm]. rewrite Vk. reflexivity. }
        destruct (Hrec (done ++ k' :: kt) x) as (ks' & r & E & K & Po & Er); auto. { apply Forall2_app; [assumption|constructor; assumption]. } { rewrite Uo in Ln. rewrite Un. rewrite !app_length in *. cbn [length] in Ln. lia. }
        rewrite Un in Er. assert (Eu : forall Q : option nat, match unm (map es_f (ed ++ p :: er)) (done ++ k :: kt) with [] => Some s | _ => Q end = Q) by (rewrite Uo; intros; destruct (unm (map es_f ed) done); reflexivity). assert (Ur : unm (map es_f (p :: er)) (k :: kt) = es_f p :: unm (map es_f er) kt) by (cbn [map unm]; rewrite Vk; reflexivity).
        rewrite E. cbn [obind]. destruct r as [y|].
        -- exists ks', (Some y). split; auto. split; auto. split; [|change (map es_f (p :: er)) with (es_f p :: map es_f er) in Eu, Ur |- *; rewrite Eu, Ur; cbn [perm_try]; rewrite F, <- Er; reflexivity]. cbn [post] in Po |- *. destruct Po as (Kp & Wy & ord & P1 & P2).
           apply Forall2_app_inv_l in Kp. destruct Kp as (d1 & d2 & Q1 & Q2 & ->). inversion Q2 as [|? k2 ? t2 Q3 Q4]; subst. rewrite Vk' in Q3. subst k2. split.
           { apply Forall2_app; [assumption|]. constructor; [rewrite Vk; auto|assumption]. }
           split; [apply (vis_trans txt s e (i_end k') y); auto|]. exists ((es_f p, iv k') :: ord). split.
           { assert (L1 : length done = length d1) by (clear -Q1; induction Q1; cbn; auto). rewrite map_app in *. cbn [map] in *.
             rewrite newly_app in P1 |- * by (try rewrite map_length; auto). cbn [newly] in P1 |- *. rewrite Vk' in P1. rewrite Vk. apply Permutation_cons_app. exact P1. }
           cbn [ichain]. rewrite R. auto.
        -- cbn [post] in Po. destruct Po as (Sm & Nc). apply Forall2_app_inv_l in Sm. destruct Sm as (d1 & d2 & Q1 & Q2 & ->). inversion Q2 as [|? k2 ? t2 Q3 Q4]; subst. rewrite Vk' in Q3. subst k2.
           assert (L1 : length done = length d1) by (clear -Q1; induction Q1; cbn; auto). rewrite L1. rewrite nth_error_app2 by lia. rewrite Nat.sub_diag. cbn [nth_error].
           rewrite firstn_app, Nat.sub_diag, firstn_all, firstn_O, app_nil_r. replace (skipn (S (length d1)) (d1 ++ k' :: t2)) with t2. 2:{ rewrite skipn_app. rewrite skipn_all2 by lia. replace (S (length d1) - length d1)%nat with 1%nat by lia. reflexivity. }
           apply Forall2_app_inv_l in K. destruct K as (d1' & d2' & K1 & K2 & Eq). assert (d1' = d1 /\ d2' = k' :: t2) as [-> ->]. { apply kids_len in K1. apply app_same in Eq; [|lia]. destruct Eq; auto. }
           inversion K2 as [|? ? ? ? K3 K4]; subst. destruct (el_inval _ _ _ _ _ Gp k' W') as [W2 I2]. assert (V2 : is_valid (p_inval (es_P p) k') = false) by (apply invalid_iv; auto).
           assert (Sd : unm (map es_f ed) d1 = unm (map es_f ed) done) by (apply unm_valid; symmetry; apply sim_valid; auto).
           assert (St : unm (map es_f er) t2 = unm (map es_f er) kt) by (apply unm_valid; symmetry; apply sim_valid; auto).
           assert (Ub : unm (map es_f (ed ++ [p])) (d1 ++ [p_inval (es_P p) k']) = unm (map es_f ed) done ++ [es_f p]). { rewrite map_app, unm_app by (rewrite map_length; lia). cbn [map unm]. rewrite V2, Sd. reflexivity. }
           assert (Sim2 : sim (done ++ k :: kt) (d1 ++ p_inval (es_P p) k' :: t2)). { apply Forall2_app; [assumption|]. constructor; [rewrite Vk; auto|assumption]. }
           destruct (IH (ed ++ [p]) (d1 ++ [p_inval (es_P p) k']) t2 false) as (ks2 & r & E2 & K5 & Po2 & Er2).
           { rewrite <- app_assoc. reflexivity. } { apply Forall2_app; [assumption|]. constructor; [assumption|constructor]. } { auto. } { rewrite <- app_assoc. cbn [app]. rewrite <- (unm_valid _ _ _ (sim_valid _ _ Sim2)). auto. }
           { rewrite Ub. split; [discriminate|]. intros Q. destruct (unm (map es_f ed) done); discriminate. }
           { rewrite Ub, St. intros a f b Eab x' ord y F' Pm. destruct b as [|b0 b] using rev_ind.
             - apply app_inj_tail in Eab. destruct Eab as [<- <-]. rewrite F in F'. injection F' as <-. apply Nc. rewrite Un. exact Pm.
             - clear IHb. rewrite app_comm_cons, app_assoc in Eab. apply app_inj_tail in Eab. destruct Eab as [Eab <-]. apply (Dead a f b Eab x' ord y F'). cbn [map unm]. rewrite Vk. rewrite <- app_assoc in Pm. exact Pm. }
           exists ks2, r. split; auto. split; auto. rewrite <- app_assoc in Po2, Er2. cbn [app] in Po2, Er2. split; [eapply post_sim; eauto|]. rewrite Ub, St, <- (unm_valid _ _ _ (sim_valid _ _ Sim2)), Eu in Er2. rewrite Eu. cbn [unm map]. rewrite Vk. cbn [perm_try]. rewrite F, <- Er. exact Er2.
      * assert (V2 : is_valid k' = false) by (apply invalid_iv; auto). assert (Sim2 : sim (done ++ k :: kt) (done ++ k' :: kt)). { apply Forall2_app; [apply sim_refl|]. constructor; [rewrite Vk; auto|apply sim_refl]. }
        destruct (IH (ed ++ [p]) (done ++ [k']) kt false) as (ks2 & r & E2 & K5 & Po2 & Er2).
        { rewrite <- app_assoc. reflexivity. } { apply Em; auto. } { auto. } { rewrite <- app_assoc. cbn [app]. rewrite <- (unm_valid _ _ _ (sim_valid _ _ Sim2)). auto. }
        { rewrite Ua, V2. split; [discriminate|]. intros Q. destruct (unm (map es_f ed) done); discriminate. }
        { rewrite Ua, V2. intros a f b Eab x' ord y F' Pm. destruct b as [|b0 b] using rev_ind.
          - apply app_inj_tail in Eab. destruct Eab as [_ <-]. congruence.
          - clear IHb. rewrite app_comm_cons, app_assoc in Eab. apply app_inj_tail in Eab. destruct Eab as [Eab <-]. apply (Dead a f b Eab x' ord y F'). cbn [map unm]. rewrite Vk. rewrite <- app_assoc in Pm. exact Pm. }
        exists ks2, r. split; auto. split; auto. rewrite <- app_assoc in Po2, Er2. cbn [app] in Po2, Er2. split; [eapply post_sim; eauto|]. rewrite Ua, V2, <- (unm_valid _ _ _ (sim_valid _ _ Sim2)) in Er2.
        cbn [map unm]. rewrite Vk. cbn [perm_try]. rewrite F. exact Er2.
Qed.
End Loop.

Lemma perm_rec_spec : forall fuel es ks s e fl, Forall good es -> kids_ok es ks -> text_ok s e -> (length (unm (map es_f es) ks) < fuel)%nat ->
  exists ks' r, perm_rec fuel (map es_P es) ks s e fl = Ret (ks', r) /\ kids_ok es ks' /\ post (map es_f es) ks ks' r s e fl /\ r = perm_fn fuel (unm (map es_f es) ks) s e fl.
Proof.
  induction fuel as [|fuel IH]; intros es ks s e fl G K H L; [lia|]. cbn [perm_rec].
  apply (perm_loop_spec fuel es G (fun ks' s' => perm_rec fuel (map es_P es) ks' s' e fl) (fun fs' s' => perm_fn fuel fs' s' e fl) s e fl H (fun ks0 x K0 H0 L0 => IH es ks0 x e fl G K0 H0 L0) es [] [] ks true); auto; [constructor|cbn [app]; lia|split; reflexivity|].
  intros a f b E. destruct a; discriminate.
Qed.
Lemma unm_len : forall fs ks, (length (unm fs ks) <= length fs)%nat.
Proof. induction fs as [|f0 fs IHfs]; intros [|k ks]; cbn [unm length]; try lia. specialize (IHfs ks). destruct (is_valid k); cbn [length]; lia. Qed.
Lemma all_invalid : forall fs ks, length fs = length ks -> Forall (fun k => iv k = (1, 0)%nat) ks -> unm fs ks = fs /\ forall ks', length ks' = length ks -> newly fs ks ks' = combine fs (map iv ks').
Proof.
  induction fs as [|f0 fs IHfs]; intros [|k ks] L F; try discriminate. { split; auto. }
  inversion F; subst. injection L as L. destruct (IHfs ks L H2) as [A B]. cbn [unm newly]. rewrite (invalid_iv k H1), A. split; auto. intros [|k' ks'] L'; [discriminate|]. injection L' as L'. cbn [newly map combine]. rewrite ?(invalid_iv k H1), B by auto. reflexivity.
Qed.
Lemma ichain_chain : forall l s y e fl, ichain l s y e fl -> chain (map fst l) s y e fl.
Proof. induction l as [|[f [a b]] l IH]; intros s y e fl C; cbn [ichain chain map fst] in *; auto. destruct C as (<- & F & C). exists b. auto. Qed.
Lemma map_fst_combine : forall (fs : list pfun) (l : list (nat * nat)), length fs = length l -> map fst (combine fs l) = fs.
Proof. induction fs as [|f0 fs IHfs]; intros [|x l] L; try discriminate; auto. cbn [combine map fst]. injection L as L. rewrite IHfs by auto. reflexivity. Qed.

(** A permutation: matches exactly when the elements match one after another in some order; the intervals of the elements,
    in that order, tile the match. *)
Theorem permutation_spec : forall es, Forall good es ->
  let h := perm_fn (S (length es)) (map es_f es) in
  element (permutation (map es_P es)) (fun st => vals st = [] /\ kids_ok es (kids st)) h no_vals /\
  forall st s e fl, vals st = [] /\ kids_ok es (kids st) -> text_ok s e -> exists st' b, p_match (permutation (map es_P es)) st s e fl = Ret (st', b) /\
   match h s e fl with
   | Some y => exists ord, Permutation ord (combine (map es_f es) (map iv (kids st'))) /\ ichain ord s y e fl
   | None => forall ord y, Permutation ord (map es_f es) -> ~ chain ord s y e fl
   end.
Proof.
  intros es G h.
  assert (Kini : kids_ok es (map p_init (map es_P es))). { clear -G. induction G; cbn [map]; constructor; auto. apply (el_init _ _ _ _ _ H). }
  assert (Key : forall ks s e fl, kids_ok es ks -> text_ok s e -> exists ks', perm_rec (S (length (map es_P es))) (map es_P es) (inval_all (map es_P es) ks) s e fl = Ret (ks', h s e fl) /\ kids_ok es ks' /\
    match h s e fl with
    | Some y => (s <= y <= s + length (vis s e))%nat /\ exists ord, Permutation ord (combine (map es_f es) (map iv ks')) /\ ichain ord s y e fl
    | None => forall ord y, Permutation ord (map es_f es) -> ~ chain ord s y e fl
    end).
  { intros ks s e fl K H. destruct (inval_all_ok txt es ks G K) as [K1 I1]. pose proof (kids_len _ _ K1) as L1. destruct (all_invalid (map es_f es) _ ltac:(rewrite map_length; exact L1) I1) as [U N]. rewrite map_length.
    destruct (perm_rec_spec (S (length es)) es _ s e fl G K1 H) as (ks' & r & E & K2 & P & Er). { pose proof (unm_len (map es_f es) (inval_all (map es_P es) ks)). rewrite map_length in *. lia. }
    rewrite U in Er. fold h in Er. subst r. exists ks'. split; auto. split; auto. destruct (h s e fl) as [y|]; cbn [post] in P.
    - destruct P as (_ & W & ord & P1 & P2). split; auto. exists ord. rewrite N in P1 by (apply kids_len in K2; congruence). auto.
    - destruct P as [_ P]. rewrite U in P. auto. }
  split.
  - split.
    + split; [reflexivity|exact Kini].
    + intros st s e fl [W1 W2] H. destruct (Key (kids st) s e fl W2 H) as (ks' & E & K & C). cbn [permutation p_match]. rewrite E. cbn [obind]. destruct (h s e fl) as [y|]; cbn [found]; (eexists; split; [reflexivity|]; split; [split; auto|]; try split; reflexivity).
    + intros s e fl x H E. destruct (Key _ s e fl Kini H) as (ks' & _ & _ & C). rewrite E in C. tauto.
    + intros st [W1 W2]. split; [|reflexivity]. split; [reflexivity|]. apply inval_all_ok with (txt := txt); auto.
  - intros st s e fl [W1 W2] H. destruct (Key (kids st) s e fl W2 H) as (ks' & E & K & C). cbn [permutation p_match]. rewrite E. cbn [obind]. destruct (h s e fl) as [y|]; (eexists; eexists; split; [reflexivity|]; cbn [kids]; tauto).
Qed.
(** The intervals put in order give an order of the elements. *)
Theorem permutation_complete : forall es s e fl, Forall good es -> text_ok s e ->
  (exists y, perm_fn (S (length es)) (map es_f es) s e fl = Some y) <-> exists ord y, Permutation ord (map es_f es) /\ chain ord s y e fl.
Proof.
  intros es s e fl G H. destruct (permutation_spec es G) as [El Sp].
  destruct (Sp (p_init (permutation (map es_P es))) s e fl (el_init _ _ _ _ _ El) H) as (st' & b & E & C). destruct (perm_fn _ _ s e fl) as [y|] eqn:Q.
  - split; [|eauto]. intros _. destruct C as (ord & P & I). exists (map fst ord), y. split; [|apply ichain_chain; auto].
    apply (Permutation_map fst) in P. rewrite map_fst_combine in P; auto.
    destruct (el_match _ _ _ _ _ El _ s e fl (el_init _ _ _ _ _ El) H) as (st2 & E2 & [_ K2] & _). rewrite E in E2. injection E2 as <- _. apply kids_len in K2. rewrite !map_length. exact K2.
  - split; [intros [y Y]; discriminate|]. intros (ord & y & P & Ch). exfalso. apply (C ord y P Ch).
Qed.

(** ** search *)
(** search: the first position, from start on, where the parser matches; a position at the end of the text is not tried. *)
Theorem search_spec : forall P wf f g, element P wf f g -> forall st s e fl, wf st -> text_ok s e ->
  exists st' b, search txt P st s e fl = Ret (st', b) /\ wf st' /\
   if b then exists i y, (s <= i < s + length (vis s e))%nat /\ f i e fl = Some y /\ iv st' = (i, y) /\ forall j, (s <= j < i)%nat -> f j e fl = None
   else forall j, (s <= j < s + length (vis s e))%nat -> f j e fl = None.
Proof.
  intros P wf f g El. unfold search.
  assert (Loop : forall fuel st s e fl, wf st -> text_ok s e -> (length (vis s e) < fuel)%nat -> exists st' b, search_loop txt fuel P st s e fl = Ret (st', b) /\ wf st' /\
   if b then exists i y, (s <= i < s + length (vis s e))%nat /\ f i e fl = Some y /\ iv st' = (i, y) /\ forall j, (s <= j < i)%nat -> f j e fl = None
   else forall j, (s <= j < s + length (vis s e))%nat -> f j e fl = None).
  { induction fuel as [|fuel IH]; intros st s e fl W H L; [lia|]. cbn [search_loop]. rewrite (peek_spec txt s e H). cbn [obind]. destruct (vis s e) as [|c v] eqn:V; cbn [hd_error].
    - exists st, false. split; auto. split; auto. cbn [length]. intros; lia.
    - destruct (vis_cons txt s e c v H V) as (_ & H' & V' & _). destruct (el_match _ _ _ _ _ El st s e fl W H) as (st1 & E & W1 & R). rewrite E. cbn [obind]. destruct (f s e fl) as [y|] eqn:F; cbn [found].
      + exists st1, true. split; auto. split; auto. exists s, y. cbn [length]. split; [lia|]. split; auto. split; [tauto|]. intros; lia.
      + cbn [length] in L. destruct (IH st1 (S s) e fl W1 H') as (st2 & b & E2 & W2 & C); [rewrite V'; lia|]. exists st2, b. split; auto. split; auto. rewrite V' in C. cbn [length]. destruct b.
        * destruct C as (i & y & C1 & C2 & C3 & C4). exists i, y. split; [lia|]. split; auto. split; auto. intros j Hj. destruct (Nat.eq_dec j s); [subst; auto|apply C4; lia].
        * intros j Hj. destruct (Nat.eq_dec j s); [subst; auto|apply C; lia]. }
  intros st s e fl W H. apply Loop; auto. pose proof (vis_end txt s e H). lia.
Qed.

(** ** string_branch from a block of strings *)
Lemma split_z_spec : forall l fuel tail, Forall (fun x => x <> [] /\ Forall (fun c => c <> 0) x) l -> (length l < fuel)%nat -> (tail = [] \/ exists r, tail = 0 :: r) ->
  split_z fuel (flat_map (fun x => x ++ [0]) l ++ tail) = Ret l.
Proof.
  induction l as [|x l IH]; intros fuel tail F L T; destruct fuel as [|fuel]; cbn [length] in L; try lia; cbn [flat_map app split_z].
  - destruct T as [->|[r ->]]; [reflexivity|]. cbn [Z.eqb]. reflexivity.
  - inversion F as [|? ? [F1 F2] F3]; subst. destruct x as [|c x]; [congruence|]. rewrite <- !app_assoc. cbn [app]. inversion F2; subst. replace (c =? 0) with false by lia.
    set (rest := flat_map _ l ++ tail). assert (E : strnlen (c :: x ++ 0 :: rest) (length (c :: x ++ 0 :: rest)) = Ret (length (c :: x))).
    { rewrite strnlen_zstr by (left; lia). f_equal. change (c :: x ++ 0 :: rest) with ((c :: x) ++ 0 :: rest). rewrite zstr_app0; auto; [|rewrite app_length; cbn [length]; lia].
      intros d Hd. rewrite Forall_forall in F2. auto. }
    rewrite E. cbn [obind length]. change (c :: x ++ 0 :: rest) with ((c :: x) ++ 0 :: rest). change (S (length x)) with (length (c :: x)).
    rewrite firstn_app, Nat.sub_diag, firstn_all, firstn_O, app_nil_r. rewrite skipn_app, skipn_all2 by (cbn [length]; lia). replace (S (length (c :: x)) - length (c :: x))%nat with 1%nat by lia. cbn [skipn app].
    unfold rest. rewrite IH by (auto; lia). reflexivity.
Qed.
Section SB.
Context (tolow : Z -> Z).
(** A string_branch made from a block of non-empty strings is a branch over exactly those strings, in that order. *)
Theorem string_branch_spec : forall l tail, Forall (fun x => x <> [] /\ Forall (fun c => c <> 0) x) l -> (tail = [] \/ exists r, tail = 0 :: r) ->
  string_branch txt tolow (flat_map (fun x => x ++ [0]) l ++ tail) = Ret (branch (map (string_p txt tolow) l)).
Proof.
  intros l tail F T. unfold string_branch. rewrite split_z_spec; auto. rewrite app_length.
  assert (length l <= length (flat_map (fun x : list Z => x ++ [0%Z]) l))%nat; [|lia]. clear. induction l; cbn [flat_map length]; [lia|]. rewrite !app_length. cbn [length]. lia.
Qed.
End SB.
End Perm.
