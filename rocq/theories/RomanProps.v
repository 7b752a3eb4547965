(** Roman numerals (property C112). *)
From Coq Require Import ZifyBool ZifyNat.
From Verif Require Import Base StringModel StringSpec StringProofs ParserModel ParserSpec ParserProps ParserNumModel ParserNumProps ParserPeg RomanSpec.
Ltac Zify.zify_post_hook ::= Z.div_mod_to_equations.

(** ** tokens *)
Definition flat (ts : list token) : list Z := flat_map tok_digits ts.
Definition total (ts : list token) : Z := fold_right (fun t v => tok_value t + v) 0 ts.
Definition last_value (ts : list token) : Z := nth 0 (map tok_value (rev ts)) smax.
Lemma flat_snoc : forall ts t, flat (ts ++ [t]) = flat ts ++ tok_digits t.
Proof. intros. unfold flat. rewrite flat_map_app. cbn [flat_map]. rewrite app_nil_r. reflexivity. Qed.
Lemma total_snoc : forall ts t, total (ts ++ [t]) = total ts + tok_value t.
Proof. induction ts as [|u ts IH]; intros t; cbn [app total fold_right]; [lia|]. unfold total in IH. rewrite IH. lia. Qed.
Lemma last_value_snoc : forall ts t, last_value (ts ++ [t]) = tok_value t.
Proof. intros. unfold last_value. rewrite rev_app_distr. reflexivity. Qed.
Lemma chain_snoc : forall ts t, chain (ts ++ [t]) <-> chain ts /\ (ts = [] \/ tok_big t <= last_value ts).
Proof.
  induction ts as [|u ts IH]; intros t; cbn [app chain]; [tauto|]. destruct ts as [|w ts].
  - cbn [app chain last_value rev map nth]. split; intros H; [|]; intuition (auto; try discriminate). 
  - cbn [app] in *. cbn [chain] in *. rewrite IH. replace (last_value (u :: w :: ts)) with (last_value (w :: ts)).
    + intuition (auto; try discriminate).
    + unfold last_value. cbn [rev]. rewrite <- app_assoc. destruct (rev ts) as [|a l] eqn:E; cbn [app map nth]; reflexivity.
Qed.
Lemma digit_cases : forall d, In d roman_digits -> d = 1 \/ d = 5 \/ d = 10 \/ d = 50 \/ d = 100 \/ d = 500 \/ d = 1000 \/ d = 5000 \/ d = 10000.
Proof. intros d H. cbn in H. intuition lia. Qed.
Lemma two_cases : forall a b, tok_ok (Two a b) -> (a = 1 \/ a = 10 \/ a = 100 \/ a = 1000) /\ (b = 5 * a \/ b = 10 * a).
Proof. intros a b [H1 H2]. cbn in H1. split; [intuition lia|auto]. Qed.
Lemma pair_iff : forall a b, roman_pair a b = true <-> tok_ok (Two a b).
Proof. intros a b. split; [intros H; unfold roman_pair in H; split; [cbn; lia|lia]|intros H; apply two_cases in H; unfold roman_pair; lia]. Qed.
Lemma tok_pos : forall t, tok_ok t -> 1 <= tok_value t <= tok_big t /\ tok_big t <= 10000.
Proof. intros [d|a b] H; cbn [tok_value tok_big]; [apply digit_cases in H|apply two_cases in H]; lia. Qed.
(** a token with the value of a digit is that digit *)
Lemma tok_digit : forall t, tok_ok t -> In (tok_value t) roman_digits -> t = One (tok_value t).
Proof. intros [d|a b] H D; cbn [tok_value] in *; auto. apply two_cases in H. apply digit_cases in D. lia. Qed.
Lemma flat_head : forall t ts, exists d r, flat (t :: ts) = d :: r /\ (t = One d /\ r = flat ts \/ exists b, t = Two d b /\ r = b :: flat ts).
Proof. intros [d|a b] ts; do 2 eexists; (split; [reflexivity|]); [left|right]; eauto. Qed.
Lemma head_big : forall t, tok_ok t -> hd 0 (tok_digits t) <= tok_big t.
Proof. intros [d|a b] H; cbn [tok_digits hd tok_big]; [lia|]. apply two_cases in H. lia. Qed.
Lemma one_two : forall d b ts r, tok_ok (Two d b) -> Forall tok_ok ts -> chain (One d :: ts) -> flat ts = b :: r -> False.
Proof.
  intros d b ts r H F C E. destruct ts as [|t ts]; [discriminate|]. inversion F as [|? ? Ft _]; subst. pose proof (head_big t Ft) as Hb. assert (hd 0 (tok_digits t) = b) as <-. { destruct t; cbn in E; injection E; auto. }
  cbn [chain tok_value] in C. destruct C as [C _]. apply two_cases in H. lia.
Qed.
Lemma tokens_unique : forall ts us, Forall tok_ok ts -> Forall tok_ok us -> chain ts -> chain us -> flat ts = flat us -> ts = us.
Proof.
  induction ts as [|t ts IH]; intros [|u us] Ft Fu Ct Cu E; auto.
  - destruct (flat_head u us) as (d & r & E' & _). rewrite E' in E. discriminate.
  - destruct (flat_head t ts) as (d & r & E' & _). rewrite E' in E. discriminate.
  - inversion Ft as [|? ? Ht Ft']; inversion Fu as [|? ? Hu Fu']; subst.
    assert (Ct' : chain ts) by (destruct ts; cbn [chain] in *; tauto). assert (Cu' : chain us) by (destruct us; cbn [chain] in *; tauto).
    destruct (flat_head t ts) as (d & r & E1 & C1). destruct (flat_head u us) as (d' & r' & E2 & C2). rewrite E1, E2 in E. injection E as <- <-.
    destruct C1 as [[-> R1]|(b & -> & R1)], C2 as [[-> R2]|(b' & -> & R2)].
    + f_equal. apply IH; auto. congruence.
    + exfalso. eapply one_two; [exact Hu|exact Ft'|exact Ct|]. rewrite <- R1, R2. reflexivity.
    + exfalso. eapply one_two; [exact Ht|exact Fu'|exact Cu|]. rewrite <- R2, R1. reflexivity.
    + rewrite R1 in R2. injection R2 as -> R2. f_equal. apply IH; auto.
Qed.
(** the tokens' values add up to the number read *)
Lemma total_value : forall ts, Forall tok_ok ts -> chain ts -> roman_value (flat ts) = total ts.
Proof.
  induction ts as [|t ts IH]; intros F C; [reflexivity|]. inversion F as [|? ? Ht F']; subst. assert (C' : chain ts) by (destruct ts; cbn [chain] in *; tauto). specialize (IH F' C').
  assert (Nx : match flat ts with [] => True | c :: _ => c <= tok_value t end).
  { destruct ts as [|u us]; [exact I|]. destruct C as [C _]. inversion F' as [|? ? Hu _]; subst. pose proof (head_big u Hu). destruct u; cbn [flat flat_map tok_digits app hd] in *; lia. }
  cbn [flat flat_map total fold_right]. fold (flat ts). fold (total ts). rewrite <- IH. clear IH. destruct t as [d|a b]; cbn [tok_digits app tok_value] in *.
  - cbn [roman_value]. destruct (flat ts) as [|c r]; [cbn; lia|]. destruct (d <? c) eqn:E; lia.
  - apply two_cases in Ht. cbn [roman_value]. destruct (a <? b) eqn:E; [|lia]. destruct (flat ts) as [|c r]; [cbn; lia|]. destruct (b <? c) eqn:E2; lia.
Qed.
Lemma total_bound : forall ts, Forall tok_ok ts -> 0 <= total ts <= 10000 * Z.of_nat (length (flat ts)) /\ (ts <> [] -> 1 <= total ts).
Proof.
  induction ts as [|t ts IH]; intros F; [cbn; split; [lia|congruence]|]. inversion F as [|? ? Ht F']; subst. specialize (IH F'). pose proof (tok_pos t Ht). cbn [flat flat_map total fold_right]. fold (flat ts). fold (total ts). rewrite app_length. destruct t; cbn [tok_digits length tok_value tok_big] in *; lia.
Qed.

(** ** one step of the parser *)
Definition back (k : nat) (ts : list token) : Z := nth k (map tok_value (rev ts)) smax.
Definition reads (ds : list Z) (ts : list token) : Prop := ds = flat ts /\ Forall tok_ok ts /\ chain ts /\ no_four ds.
Lemma snoc_case : forall (ts : list token), ts = [] \/ exists u t, ts = u ++ [t].
Proof. intros ts. destruct ts as [|a ts]; auto. right. destruct (exists_last (l := a :: ts)) as (u & t & E); [discriminate|]. eauto. Qed.
Lemma back_snoc : forall k ts t, back (S k) (ts ++ [t]) = back k ts.
Proof. intros. unfold back. rewrite rev_app_distr. reflexivity. Qed.
Lemma back0_snoc : forall ts t, back 0 (ts ++ [t]) = tok_value t.
Proof. intros. apply last_value_snoc. Qed.
Lemma back_nil : forall k, back k [] = smax.
Proof. intros [|k]; reflexivity. Qed.
Lemma small_smax : forall d, In d roman_digits -> d < smax.
Proof. intros d H. apply digit_cases in H. unfold smax. lia. Qed.

(** not the next digit *)
Lemma not_roman : forall ds ts d, reads ds ts -> In d roman_digits -> back 0 ts < d -> (roman_pair (back 0 ts) d = false \/ back 1 ts < d) -> ~ roman (ds ++ [d]).
Proof.
  intros ds ts d (E & F & C & N) D L P (us & E' & F' & C' & N'). fold (flat us) in E'. destruct (snoc_case us) as [->|(u & t & ->)]; [destruct ds; discriminate|].
  rewrite flat_snoc in E'. apply Forall_app in F' as [Fu Ft]. assert (Ht : tok_ok t) by (inversion Ft; auto). apply chain_snoc in C' as [Cu Cl]. destruct t as [d'|a b]; cbn [tok_digits tok_big] in *.
  - apply app_inj_tail in E' as [E' <-]. rewrite E in E'. assert (ts = u) by (apply tokens_unique; auto). subst u. pose proof (small_smax d D). destruct Cl as [->|Cl]; [rewrite back_nil in L; lia|]. unfold back in L. unfold last_value in Cl. lia.
  - change [a; b] with ([a] ++ [b]) in E'. rewrite app_assoc in E'. apply app_inj_tail in E' as [E' <-]. pose proof (two_cases a d Ht) as T2.
    assert (ts = u ++ [One a]). { apply tokens_unique; auto. - apply Forall_app. split; auto. constructor; auto. cbn. intuition lia. - apply chain_snoc. split; auto. destruct Cl as [->|Cl]; auto. right. cbn [tok_big]. lia. - rewrite flat_snoc. cbn [tok_digits]. congruence. }
    subst ts. rewrite back0_snoc, back_snoc in *. cbn [tok_value] in *. destruct P as [P|P]; [apply pair_iff in Ht; congruence|]. pose proof (small_smax d D). destruct Cl as [->|Cl]; [rewrite back_nil in P; lia|]. unfold back in P. unfold last_value in Cl. lia.
Qed.
(** four in a row *)
Lemma three_tokens : forall ts d, Forall tok_ok ts -> In d roman_digits -> back 0 ts = d -> back 1 ts = d -> back 2 ts = d -> exists u, ts = u ++ [One d; One d; One d].
Proof.
  intros ts d F D B0 B1 B2. pose proof (small_smax d D).
  destruct (snoc_case ts) as [->|(u & t & ->)]; [rewrite back_nil in B0; lia|]. rewrite back0_snoc in B0. rewrite back_snoc in B1, B2.
  destruct (snoc_case u) as [->|(u2 & t2 & ->)]; [rewrite back_nil in B1; lia|]. rewrite back0_snoc in B1. rewrite back_snoc in B2.
  destruct (snoc_case u2) as [->|(u3 & t3 & ->)]; [rewrite back_nil in B2; lia|]. rewrite back0_snoc in B2.
  apply Forall_app in F as [F F0]. apply Forall_app in F as [F F1]. apply Forall_app in F as [_ F2]. 
  assert (X : forall x, Forall tok_ok [x] -> tok_value x = d -> x = One d). { intros x Fx Ex. rewrite <- Ex. apply tok_digit; [inversion Fx; auto|rewrite Ex; auto]. }
  exists u3. rewrite <- !app_assoc. cbn [app]. rewrite (X t F0 B0), (X t2 F1 B1), (X t3 F2 B2). reflexivity.
Qed.
Lemma four_not : forall ds ts d, reads ds ts -> In d roman_digits -> back 0 ts = d -> back 1 ts = d -> back 2 ts = d -> d <> hd 0 (ds ++ [d]) -> ~ roman (ds ++ [d]).
Proof.
  intros ds ts d (E & F & C & N) D B0 B1 B2 H (us & _ & _ & _ & N'). destruct (three_tokens ts d F D B0 B1 B2) as (u & ->). apply H. apply (N' (flat u) d []). rewrite E. unfold flat. rewrite flat_map_app. cbn [flat_map tok_digits app]. rewrite <- app_assoc. reflexivity.
Qed.
(** the last three digits equal: so are the last three tokens *)
Lemma last_three : forall ts p d, Forall tok_ok ts -> chain ts -> flat ts = p ++ [d; d; d] -> back 0 ts = d /\ back 1 ts = d /\ back 2 ts = d.
Proof.
  intros ts p d F C E. destruct (snoc_case ts) as [->|(u & t & ->)]; [destruct p; discriminate|]. rewrite flat_snoc in E. apply Forall_app in F as [F Ft]. assert (Ht : tok_ok t) by (inversion Ft; auto). apply chain_snoc in C as [C _].
  change [d; d; d] with ([d; d] ++ [d]) in E. rewrite app_assoc in E. destruct t as [x|a b]; cbn [tok_digits] in E.
  2:{ change [a; b] with ([a] ++ [b]) in E. rewrite app_assoc in E. apply app_inj_tail in E as [E ->]. change [d; d] with ([d] ++ [d]) in E. rewrite app_assoc in E. apply app_inj_tail in E as [_ ->]. apply two_cases in Ht. lia. }
  apply app_inj_tail in E as [E ->]. rewrite back0_snoc, !back_snoc. split; [reflexivity|].
  destruct (snoc_case u) as [->|(u2 & t2 & ->)]; [destruct p; discriminate|]. rewrite flat_snoc in E. apply Forall_app in F as [F Ft2]. assert (Ht2 : tok_ok t2) by (inversion Ft2; auto). apply chain_snoc in C as [C Cl].
  change [d; d] with ([d] ++ [d]) in E. rewrite app_assoc in E. destruct t2 as [x|a b]; cbn [tok_digits] in E.
  2:{ change [a; b] with ([a] ++ [b]) in E. rewrite app_assoc in E. apply app_inj_tail in E as [E ->]. apply app_inj_tail in E as [_ ->]. apply two_cases in Ht2. lia. }
  apply app_inj_tail in E as [E ->]. rewrite back0_snoc, !back_snoc. split; [reflexivity|]. cbn [tok_big] in Cl.
  destruct (snoc_case u2) as [->|(u3 & t3 & ->)]; [destruct p; discriminate|]. rewrite flat_snoc in E. apply Forall_app in F as [F Ft3]. assert (Ht3 : tok_ok t3) by (inversion Ft3; auto). rewrite back0_snoc. rewrite last_value_snoc in Cl. destruct Cl as [Cl|Cl]; [destruct u3; discriminate|].
  destruct t3 as [x|a b]; cbn [tok_digits tok_value] in *; [apply app_inj_tail in E as [_ ->]; reflexivity|].
  change [a; b] with ([a] ++ [b]) in E. rewrite app_assoc in E. apply app_inj_tail in E as [_ ->]. apply two_cases in Ht3. lia.
Qed.
Lemma no_four_snoc : forall ds d, no_four ds -> (forall p, ds = p ++ [d; d; d] -> d = hd 0 (ds ++ [d])) -> no_four (ds ++ [d]).
Proof.
  intros ds d N H p x q E. destruct q as [|y q] using rev_ind; [|clear IHq].
  - change (p ++ [x; x; x; x]) with (p ++ [x; x; x] ++ [x]) in E. rewrite app_assoc in E. apply app_inj_tail in E as [-> ->]. apply (H p). reflexivity.
  - replace (p ++ x :: x :: x :: x :: q ++ [y]) with ((p ++ x :: x :: x :: x :: q) ++ [y]) in E by (rewrite <- app_assoc; reflexivity). apply app_inj_tail in E as [E ->]. specialize (N p x q E). rewrite N at 1. subst ds. destruct p; reflexivity.
Qed.
Lemma add_digit : forall ds ts d, reads ds ts -> In d roman_digits -> d <= back 0 ts -> ~ (back 2 ts = back 1 ts /\ back 1 ts = back 0 ts /\ back 0 ts = d /\ d <> hd 0 (ds ++ [d])) -> reads (ds ++ [d]) (ts ++ [One d]).
Proof.
  intros ds ts d (E & F & C & N) D L Nf. split; [rewrite flat_snoc, E; reflexivity|]. split; [apply Forall_app; split; auto|]. split; [apply chain_snoc; split; auto|].
  apply no_four_snoc; auto. intros p Ep. destruct (Z.eq_dec d (hd 0 (ds ++ [d]))) as [|Ne]; auto. destruct Nf. rewrite E in Ep. destruct (last_three ts p d F C Ep) as (-> & -> & ->). auto.
Qed.
Lemma pair_digit : forall ds ts d, reads ds ts -> In d roman_digits -> roman_pair (back 0 ts) d = true -> d <= back 1 ts -> exists u a, ts = u ++ [One a] /\ back 0 ts = a /\ reads (ds ++ [d]) (u ++ [Two a d]).
Proof.
  intros ds ts d (E & F & C & N) D P L. apply pair_iff in P. pose proof (two_cases _ _ P) as T2. destruct (snoc_case ts) as [->|(u & t & ->)]; [rewrite back_nil in T2; unfold smax in T2; lia|].
  rewrite back0_snoc, back_snoc in *. apply Forall_app in F as [F Ft]. assert (Ht : tok_ok t) by (inversion Ft; auto). assert (t = One (tok_value t)) as Et. { apply tok_digit; auto. cbn. intuition lia. } destruct t as [a|]; [|discriminate]. cbn [tok_value] in *. exists u, a. split; auto. split; auto.
  apply chain_snoc in C as [C Cl]. split; [rewrite E, !flat_snoc, <- app_assoc; reflexivity|]. split; [apply Forall_app; split; auto|]. split; [apply chain_snoc; split; auto|].
  apply no_four_snoc; auto. intros p Ep. exfalso. rewrite E, flat_snoc in Ep. cbn [tok_digits] in Ep. change (p ++ [d; d; d]) with (p ++ [d; d] ++ [d]) in Ep. rewrite app_assoc in Ep. apply app_inj_tail in Ep as [_ Ep]. lia.
Qed.

(** ** the parser *)
Section Roman.
Context (txt : list Z).
Local Notation text_ok := (text_ok txt).
Local Notation vis := (vis txt).
Local Notation good := (good txt).

(** digit parsers with the digits they stand for *)
Definition r_Ps (es : list (Z * espec)) : list (Z * pcls) := map (fun p => (fst p, es_P (snd p))) es.
Definition r_fs (es : list (Z * espec)) : list pfun := map (fun p => es_f (snd p)) es.
Definition r_val (es : list (Z * espec)) (i : nat) : Z := nth i (map fst es) 0.
Lemma roman_digit_spec : forall es ks x e fl, Forall (fun p => good (snd p)) es -> kids_ok (map snd es) ks -> text_ok x e ->
  exists ks', roman_digit (r_Ps es) ks x e fl = Ret (ks', option_map (fun y => (r_val es (first_fn (r_fs es) x e fl), y)) (branch_fn (r_fs es) x e fl)) /\ kids_ok (map snd es) ks'.
Proof.
  induction es as [|[d p] es IH]; intros ks x e fl G K H; inversion K as [|? k ? kr W Kr]; subst; cbn [map r_Ps r_fs roman_digit branch_fn first_fn fst snd].
  - eexists. split; [reflexivity|constructor].
  - inversion G as [|? ? Gp Ge]; subst. cbn [snd] in Gp. destruct (el_match _ _ _ _ _ Gp k x e fl W H) as (k' & E & W' & R). rewrite E. cbn [obind]. destruct (es_f p x e fl) as [y|] eqn:F; cbn [found option_map].
    + destruct R as [R _]. injection R as _ R. rewrite R. eexists. split; [reflexivity|]. constructor; auto.
    + destruct (IH kr x e fl Ge Kr H) as (kr' & E' & K'). fold (r_Ps es). fold (r_fs es). rewrite E'. cbn [obind]. eexists. split; [|constructor; eauto]. do 2 f_equal.
Qed.
Lemma r_val_digit : forall es s e fl x, Forall (fun p => In (fst p) roman_digits) es -> branch_fn (r_fs es) s e fl = Some x -> In (r_val es (first_fn (r_fs es) s e fl)) roman_digits.
Proof.
  induction es as [|[d p] es IH]; intros s e fl x F B; cbn [r_fs map branch_fn first_fn snd] in *; [discriminate|]. inversion F; subst. destruct (es_f p s e fl); [cbn; auto|]. apply (IH s e fl x); auto.
Qed.
Definition vals_of (es : list (Z * espec)) (is : list nat) : list Z := map (r_val es) is.
(** the next digit, if any, does not carry the numeral on *)
Definition roman_stop (es : list (Z * espec)) (ds : list Z) (y e : nat) (fl : pflags) : Prop :=
  forall z, branch_fn (r_fs es) y e fl = Some z -> ~ roman (ds ++ [r_val es (first_fn (r_fs es) y e fl)]).
Definition r_ok (es : list (Z * espec)) : Prop :=
  Forall (fun p => good (snd p)) es /\ Forall (fun p => advances txt (es_f (snd p))) es /\ Forall (fun p => In (fst p) roman_digits) es.
Lemma r_within : forall es s e fl x, r_ok es -> text_ok s e -> branch_fn (r_fs es) s e fl = Some x -> (s < x <= s + length (vis s e))%nat.
Proof.
  intros es s e fl x (G & A & _) H B. replace (r_fs es) with (map es_f (map snd es)) in B by (unfold r_fs; rewrite map_map; reflexivity). apply (branch_within txt (map snd es) s e fl x); auto; apply Forall_map; auto.
Qed.
Lemma u64_add : forall v d, u64 (u64 v + d) = u64 (v + d).
Proof. intros. unfold u64. rewrite Z.add_mod_idemp_l by lia. reflexivity. Qed.
Lemma u64_sub : forall v d, u64 (u64 v - d) = u64 (v - d).
Proof. intros. unfold u64. rewrite Zminus_mod_idemp_l. reflexivity. Qed.
Lemma roman_loop_spec : forall fuel es ts ds ks x e fl, r_ok es -> reads ds ts -> Forall (fun d => In d roman_digits) ds -> kids_ok (map snd es) ks -> text_ok x e -> (length (vis x e) < fuel)%nat ->
  exists ks' y is ts', roman_loop txt fuel (r_Ps es) ks (back 0 ts) (back 1 ts) (back 2 ts) (hd smax ds) x (u64 (total ts)) e fl = Ret (ks', y, u64 (total ts')) /\ kids_ok (map snd es) ks' /\
    digits_read (r_fs es) is x y e fl /\ reads (ds ++ vals_of es is) ts' /\ roman_stop es (ds ++ vals_of es is) y e fl /\ (x <= y <= x + length (vis x e))%nat /\ (is = [] <-> y = x).
Proof.
  induction fuel as [|fuel IH]; intros es ts ds ks x e fl R Rd Fd K H L; [lia|]. cbn [roman_loop]. rewrite (peek_spec txt x e H). cbn [obind].
  assert (Stop : forall ks1, kids_ok (map snd es) ks1 -> roman_stop es ds x e fl -> exists ks' y is ts', Ret (ks1, x, u64 (total ts)) = Ret (ks', y, u64 (total ts')) /\ kids_ok (map snd es) ks' /\
    digits_read (r_fs es) is x y e fl /\ reads (ds ++ vals_of es is) ts' /\ roman_stop es (ds ++ vals_of es is) y e fl /\ (x <= y <= x + length (vis x e))%nat /\ (is = [] <-> y = x)).
  { intros ks1 K1 S1. exists ks1, x, [], ts. cbn [vals_of map digits_read]. rewrite app_nil_r. split; auto. split; auto. split; auto. split; auto. split; auto. split; [lia|tauto]. }
  destruct (vis x e) as [|c r] eqn:V; cbn [hd_error].
  - apply Stop; auto. intros z B. apply r_within in B; auto. rewrite V in B. cbn [length] in B. lia.
  - destruct R as (G & A & Dg). assert (R : r_ok es) by (repeat split; auto). destruct (roman_digit_spec es ks x e fl G K H) as (ks1 & E & K1). rewrite E. cbn [obind]. destruct (branch_fn (r_fs es) x e fl) as [y|] eqn:B; cbn [option_map].
    2:{ apply Stop; auto. intros z Bz. congruence. }
    pose proof (r_within es x e fl y R H B) as Wy. rewrite V in Wy. destruct (vis_to txt x e y H ltac:(rewrite V; lia)) as [Hy Vy].
    pose proof (r_val_digit es x e fl y Dg B) as Hd. set (i := first_fn (r_fs es) x e fl) in *. set (d := r_val es i) in *.
    assert (Stop' : ~ roman (ds ++ [d]) -> roman_stop es ds x e fl) by (intros N z _; exact N).
    assert (Go : forall ts1, reads (ds ++ [d]) ts1 -> exists ks' y' is ts', roman_loop txt fuel (r_Ps es) ks1 (back 0 ts1) (back 1 ts1) (back 2 ts1) (hd smax (ds ++ [d])) y (u64 (total ts1)) e fl = Ret (ks', y', u64 (total ts')) /\ kids_ok (map snd es) ks' /\
       digits_read (r_fs es) is x y' e fl /\ reads (ds ++ vals_of es is) ts' /\ roman_stop es (ds ++ vals_of es is) y' e fl /\ (x <= y' <= x + length (c :: r))%nat /\ (is = [] <-> y' = x)).
    { intros ts1 R1. destruct (IH es ts1 (ds ++ [d]) ks1 y e fl R R1) as (ks' & y' & is & ts' & E' & K' & D' & R' & S' & W' & N'); auto.
      - apply Forall_app; auto.
      - rewrite Vy, skipn_length, V. lia.
      - rewrite Vy, skipn_length, V in W'. exists ks', y', (i :: is), ts'. split; auto. split; auto. cbn [digits_read vals_of map]. fold d. fold (vals_of es is). rewrite <- app_assoc in R', S'. split; [exists y; auto|]. split; auto. split; auto. split; [lia|]. split; [discriminate|lia]. }
    assert (Hh : (if hd smax ds =? smax then d else hd smax ds) = hd 0 (ds ++ [d]) /\ hd smax (ds ++ [d]) = hd 0 (ds ++ [d])).
    { destruct ds as [|d' ds']; cbn [hd app]; [auto|]. inversion Fd; subst. pose proof (small_smax d' H2). split; auto. destruct (d' =? smax) eqn:Q; [lia|auto]. }
    destruct Hh as [-> Hh]. rewrite Hh in Go. clear Hh.
    destruct ((back 2 ts =? back 1 ts) && (back 1 ts =? back 0 ts) && (back 0 ts =? d) && negb (d =? hd 0 (ds ++ [d]))) eqn:Four.
    { apply Stop; auto. apply Stop'. apply four_not with (ts := ts); auto; lia. }
    destruct (d <=? back 0 ts) eqn:Le.
    { specialize (Go (ts ++ [One d])). rewrite total_snoc, back0_snoc, !back_snoc in Go. cbn [tok_value] in Go. rewrite u64_add. apply Go. apply add_digit; auto; lia. }
    destruct (roman_pair (back 0 ts) d) eqn:P; [|apply Stop; auto; apply Stop'; apply not_roman with (ts := ts); auto; lia].
    destruct (back 1 ts <? d) eqn:L2; [apply Stop; auto; apply Stop'; apply not_roman with (ts := ts); auto; lia|].
    destruct (pair_digit ds ts d Rd Hd P ltac:(lia)) as (u & a & -> & Ea & R1). specialize (Go _ R1). rewrite total_snoc, !back0_snoc, !back_snoc in *. cbn [tok_value] in *. rewrite u64_sub, u64_add. replace (total u + a - a + (d - a)) with (total u + (d - a)) by lia. apply Go.
Qed.
Definition roman_wf (es : list (Z * espec)) (st : pst) : Prop := (exists z, vals st = [z]) /\ kids_ok (map snd es) (kids st).
Lemma first_roman : forall d, In d roman_digits -> roman [d].
Proof.
  intros d H. exists [One d]. split; [reflexivity|]. split; [auto|]. split; [exact I|]. intros [|? [|? ?]] x q E; discriminate.
Qed.
Lemma reads_roman : forall ds ts, reads ds ts -> roman ds.
Proof. intros ds ts (E & F & C & N). exists ts. auto. Qed.
Lemma digits_len : forall es is s y e fl, r_ok es -> text_ok s e -> digits_read (r_fs es) is s y e fl -> (length is <= length (vis s e))%nat.
Proof.
  induction is as [|i is IH]; intros s y e fl R H D; cbn [length digits_read] in *; [lia|]. destruct D as (x & B & _ & D). pose proof (r_within es s e fl x R H B) as W. destruct (vis_to txt s e x H ltac:(lia)) as [Hx Vx]. specialize (IH x y e fl R Hx D). rewrite Vx, skipn_length in IH. lia.
Qed.
Lemma tok_prefix : forall ts p x, Forall tok_ok ts -> chain ts -> flat ts = p ++ [x] -> exists us, p = flat us /\ Forall tok_ok us /\ chain us.
Proof.
  intros ts p x F C E. destruct (snoc_case ts) as [->|(u & t & ->)]; [destruct p; discriminate|]. rewrite flat_snoc in E. apply Forall_app in F as [F Ft]. apply chain_snoc in C as [C Cl]. assert (Ht : tok_ok t) by (inversion Ft; auto). destruct t as [d|a b]; cbn [tok_digits] in E.
  - apply app_inj_tail in E as [<- _]. exists u. auto.
  - change [a; b] with ([a] ++ [b]) in E. rewrite app_assoc in E. apply app_inj_tail in E as [<- ->]. apply two_cases in Ht. exists (u ++ [One a]). rewrite flat_snoc. split; auto. split; [apply Forall_app; split; auto; constructor; auto; cbn; intuition lia|]. apply chain_snoc. split; auto. destruct Cl as [|Cl]; auto. right. cbn [tok_big] in *. lia.
Qed.
Lemma roman_prefix : forall q p, roman (p ++ q) -> roman p.
Proof.
  induction q as [|x q IH] using rev_ind; intros p H; [rewrite app_nil_r in H; auto|]. apply IH. rewrite app_assoc in H. destruct H as (ts & E & F & C & N). destruct (tok_prefix ts (p ++ q) x F C (eq_sym E)) as (us & E' & F' & C'). exists us. split; auto. split; auto. split; auto.
  intros a d b Eb. specialize (N a d (b ++ [x])). rewrite Eb in N |- *. rewrite N at 1; [destruct a; reflexivity|]. rewrite <- app_assoc. reflexivity.
Qed.
Lemma digits_read_app : forall fs is s y e fl js z, digits_read fs is s y e fl -> digits_read fs js y z e fl -> digits_read fs (is ++ js) s z e fl.
Proof. induction is as [|i is IH]; intros s y e fl js z D D'; cbn [app digits_read] in *; [subst; auto|]. destruct D as (x & B & F & D). exists x. eauto. Qed.
(** two readings of the same text: one goes on from the other *)
Lemma digits_cmp : forall fs is js s y z e fl, digits_read fs is s y e fl -> digits_read fs js s z e fl -> (exists k, js = is ++ k /\ digits_read fs k y z e fl) \/ (exists k, is = js ++ k /\ digits_read fs k z y e fl).
Proof.
  induction is as [|i is IH]; intros js s y z e fl D D'; cbn [digits_read] in D.
  - subst y. left. exists js. auto.
  - destruct js as [|j js]; cbn [digits_read] in D'; [subst z; right; exists (i :: is); split; auto|]. destruct D as (x & B & F & D), D' as (x' & B' & F' & D'). assert (x = x') by congruence. subst x'. destruct (IH js x y z e fl D D') as [(k & -> & Dk)|(k & -> & Dk)]; [left|right]; exists k; split; auto; cbn [app]; congruence.
Qed.
Lemma longest_unique : forall es is js s y z e fl, digits_read (r_fs es) is s y e fl -> roman (vals_of es is) -> roman_stop es (vals_of es is) y e fl ->
  digits_read (r_fs es) js s z e fl -> roman (vals_of es js) -> roman_stop es (vals_of es js) z e fl -> is = js /\ y = z.
Proof.
  assert (X : forall es is k s y z e fl, digits_read (r_fs es) is s y e fl -> roman_stop es (vals_of es is) y e fl -> digits_read (r_fs es) k y z e fl -> roman (vals_of es (is ++ k)) -> k = []).
  { intros es is [|j k] s y z e fl D S_ Dk R; auto. exfalso. cbn [digits_read] in Dk. destruct Dk as (x & B & F & _). apply (S_ x B). apply roman_prefix with (q := vals_of es k). unfold vals_of in *. rewrite map_app in R. cbn [map] in R. rewrite <- F in R. rewrite <- app_assoc. exact R. }
  intros es is js s y z e fl D R S_ D' R' S'. destruct (digits_cmp _ _ _ _ _ _ _ _ D D') as [(k & -> & Dk)|(k & -> & Dk)].
  - pose proof (X es is k s y z e fl D S_ Dk R') as ->. rewrite app_nil_r. cbn [digits_read] in Dk. auto.
  - pose proof (X es js k s z y e fl D' S' Dk R) as ->. rewrite app_nil_r. cbn [digits_read] in Dk. auto.
Qed.
(** The Roman numeral parser matches the longest row of digits that is a numeral - at least one digit - and its value is what
    the numeral reads as. *)
Theorem roman_spec : forall es, r_ok es -> Z.of_nat (length txt) * 10000 < M64 ->
  exists f g, element txt (roman_numeral txt (r_Ps es)) (roman_wf es) f g /\ advances txt f /\
  forall s e fl, text_ok s e ->
   match f s e fl with
   | Some y => exists is, is <> [] /\ digits_read (r_fs es) is s y e fl /\ roman (vals_of es is) /\ roman_stop es (vals_of es is) y e fl /\ g s e fl = [roman_value (vals_of es is)]
   | None => branch_fn (r_fs es) s e fl = None
   end.
Proof.
  intros es R Len.
  set (Q := fun s e fl (r : option (nat * list Z)) => match r with
     | Some (y, v) => exists is, is <> [] /\ digits_read (r_fs es) is s y e fl /\ roman (vals_of es is) /\ roman_stop es (vals_of es is) y e fl /\ v = [roman_value (vals_of es is)]
     | None => branch_fn (r_fs es) s e fl = None end).
  destruct (element_of txt (roman_numeral txt (r_Ps es)) (roman_wf es) Q) as (f & g & El & Sp).
  - split; [eexists; reflexivity|]. cbn [roman_numeral p_init kids new_pst]. unfold r_Ps. rewrite map_map. cbn [snd]. destruct R as (G & _). clear -G. induction G; cbn [map]; constructor; auto. apply (el_init _ _ _ _ _ H).
  - intros st s e fl [_ W] H. cbn [roman_numeral p_match].
    destruct (roman_loop_spec (S (e - s)) es [] [] (kids st) s e fl R) as (ks' & y & is & ts & E & K & D & Rd & S_ & Wi & Z); auto.
    + repeat split; auto. intros [|? ?] ? ? E; discriminate.
    + pose proof (vis_end txt s e H). lia.
    + change (back 0 []) with smax in E. change (back 1 []) with smax in E. change (back 2 []) with smax in E. change (hd smax []) with smax in E. change (u64 (total [])) with 0 in E. rewrite E. cbn [obind app] in *.
      pose proof (digits_len es is s y e fl R H D) as Ln. destruct Rd as (Ed & Ft & Ch & Nf). pose proof (total_bound ts Ft) as [Tb Tp]. pose proof (total_value ts Ft Ch) as Tv. rewrite <- Ed in Tv, Tb.
      assert (length (vis s e) <= length txt)%nat by (pose proof (vis_end txt s e H); lia).
      assert (Hu : u64 (total ts) = total ts). { unfold u64. apply Z.mod_small. unfold vals_of in Tb. rewrite map_length in Tb. lia. }
      rewrite Hu. destruct is as [|i is].
      * assert (ts = []) by (destruct ts as [|t ts]; auto; destruct (flat_head t ts) as (? & ? & E' & _); rewrite E' in Ed; discriminate). subst ts. cbn [total fold_right Z.eqb negb]. eexists; exists None. split; [reflexivity|]. split; [split; [eexists; reflexivity|auto]|]. split; [|reflexivity].
        destruct Z as [Z _]. specialize (Z eq_refl). subst y. cbn [Q]. destruct (branch_fn (r_fs es) s e fl) as [z|] eqn:B; auto. exfalso. apply (S_ z B). apply first_roman. destruct R as (_ & _ & Dg). apply (r_val_digit es s e fl z Dg B).
      * assert (ts <> []) by (intros ->; discriminate). replace (total ts =? 0) with false by lia. cbn [negb]. exists (Pst s y [total ts] ks'), (Some (y, [total ts])). split; auto. split; [split; [eexists; reflexivity|auto]|]. split; [|repeat split; auto; lia].
        exists (i :: is). split; [discriminate|]. split; auto. split; [exists ts; auto|]. split; auto. congruence.
  - intros s e fl [[y v]|] [[y' v']|] H R1 R2; cbn in R1, R2; auto.
    + destruct R1 as (is & _ & D & Rm & N & ->), R2 as (is' & _ & D' & Rm' & N' & ->). destruct (longest_unique es is is' s y y' e fl D Rm N D' Rm' N') as [-> ->]. reflexivity.
    + destruct R1 as (ds & Z & D & _). destruct ds as [|d ds]; [congruence|]. cbn [digits_read] in D. destruct D as (x & B & _). congruence.
    + destruct R2 as (ds & Z & D & _). destruct ds as [|d ds]; [congruence|]. cbn [digits_read] in D. destruct D as (x & B & _). congruence.
  - intros st [_ W]. split; [split; [eexists; reflexivity|exact W]|reflexivity].
  - exists f, g. split; auto. assert (Sp' : forall s e fl, text_ok s e -> match f s e fl with
   | Some y => exists is, is <> [] /\ digits_read (r_fs es) is s y e fl /\ roman (vals_of es is) /\ roman_stop es (vals_of es is) y e fl /\ g s e fl = [roman_value (vals_of es is)]
   | None => branch_fn (r_fs es) s e fl = None end). { intros s e fl H. specialize (Sp s e fl H). destruct (f s e fl) as [y|]; exact Sp. }
    split; auto. intros s e fl y H E. specialize (Sp' s e fl H). rewrite E in Sp'. destruct Sp' as (is & N & D & _). destruct is as [|i is]; [congruence|]. cbn [digits_read] in D. destruct D as (x & B & _ & D). pose proof (r_within es s e fl x R H B). pose proof (el_within _ _ _ _ _ El s e fl y H E).
    assert (x <= y)%nat; [|lia]. clear -R D H B. destruct (vis_to txt s e x H) as [Hx _]. { pose proof (r_within es s e fl x R H B). lia. } clear H B. revert x Hx D. induction is as [|j is IH]; intros x Hx D; cbn [digits_read] in D; [lia|]. destruct D as (z & B & _ & D). pose proof (r_within es x e fl z R Hx B). destruct (vis_to txt x e z Hx ltac:(lia)) as [Hz _]. specialize (IH z Hz D). lia.
Qed.
End Roman.
