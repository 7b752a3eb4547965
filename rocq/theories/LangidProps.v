(** Properties C235-C239: language codes and names. *)
From Coq Require Import ZifyBool ZifyNat Sorted.
From Verif Require Import Base StringModel LangidTable LangidModel.

(** ** Specification *)
(** the same character but for the case of ASCII letters; all ASCII punctuation is the same *)
Definition lower (c : Z) : Z := if (65 <=? c) && (c <=? 90) then c + 32 else c.
Definition punct (c : Z) : Prop := 33 <= c <= 47 \/ 58 <= c <= 64 \/ 91 <= c <= 96 \/ 123 <= c <= 126.
Definition same_char (a b : Z) : Prop := lower a = lower b \/ punct a /\ punct b.
Definition same_name (a b : list Z) : Prop := Forall2 same_char a b.
(** the value of the first entry of a table with a key *)
Inductive first_entry {K V} (same : K -> K -> Prop) (k : K) : list (K * V) -> V -> Prop :=
| fe_here : forall k' v l, same k' k -> first_entry same k ((k', v) :: l) v
| fe_next : forall k' v v' l, ~ same k' k -> first_entry same k l v' -> first_entry same k ((k', v) :: l) v'.

(** ** Search trees *)
Section Map.
Context {K V : Type} (less : K -> K -> outcome bool) (P : K -> Prop) (cmp : K -> K -> comparison).
Hypothesis LESS : forall a b, P a -> P b -> less a b = Ret (match cmp a b with Lt => true | _ => false end).
Hypothesis ANTI : forall a b, cmp b a = CompOpp (cmp a b).
Hypothesis TRANS : forall a b c, cmp a b = Lt -> cmp b c = Lt -> cmp a c = Lt.
Hypothesis EQL : forall a b c, cmp a b = Eq -> cmp a c = cmp b c.
Definition before (a b : K * V) : Prop := cmp (fst a) (fst b) = Lt.
Definition good (l : list (K * V)) : Prop := StronglySorted before l /\ Forall (fun e => P (fst e)) l.

Lemma eqr : forall a b c, cmp a b = Eq -> cmp c a = cmp c b.
Proof. intros a b c H. rewrite (ANTI a c), (ANTI b c), (EQL a b c H). reflexivity. Qed.
Lemma sorted_app : forall (l r : list (K * V)) e, StronglySorted before (l ++ e :: r) <->
  StronglySorted before l /\ StronglySorted before r /\ Forall (fun x => before x e) l /\ Forall (before e) r.
Proof.
  intros l r e. split.
  - induction l as [|x l IH]; cbn [app]; intros H.
    + apply StronglySorted_inv in H as [H1 H2]. repeat split; auto; constructor.
    + apply StronglySorted_inv in H as [H1 H2]. destruct (IH H1) as (A & B & C & D). apply Forall_app in H2 as [H2 H3]. inversion H3; subst. repeat split; auto; constructor; auto.
  - intros (A & B & C & D). induction A as [|x l A IH Fx]; cbn [app]; [constructor; auto|]. inversion C; subst. constructor; auto. apply Forall_app. split; auto. constructor; auto. eapply Forall_impl; [|exact D]. intros y Hy. eapply TRANS; eauto.
Qed.
(** the entries after an insertion *)
Lemma insert_spec : forall t k v, good (entries t) -> P k -> exists t', map_insert less t k v = Ret t' /\ good (entries t') /\
  forall e, In e (entries t') <-> In e (entries t) \/ (e = (k, v) /\ Forall (fun x => cmp (fst x) k <> Eq) (entries t)).
Proof.
  induction t as [|l IHl k' v' r IHr]; intros k v [So Pa] Pk.
  - exists (Node Leaf k v Leaf). split; auto. cbn [entries app]. split. { split; repeat constructor; auto. } intros e. cbn. intuition.
  - cbn [entries] in So, Pa. apply sorted_app in So as (Sl & Sr & Bl & Br). apply Forall_app in Pa as [Pl Pr]. inversion Pr as [|x y Pk' Pr']; subst. cbn [fst] in Pk'.
    cbn [map_insert]. rewrite LESS by auto. cbn [obind]. destruct (cmp k k') eqn:C.
    + rewrite LESS by auto. rewrite (ANTI k k'), C. cbn [CompOpp obind]. exists (Node l k' v' r). split; auto. cbn [entries]. split. { split; [apply sorted_app; auto|apply Forall_app; auto]. }
      intros e. split; auto. intros [H|[-> H]]; auto. exfalso. rewrite Forall_forall in H. apply (H (k', v')); [apply in_or_app; right; left; auto|]. cbn [fst]. rewrite ANTI, C. reflexivity.
    + destruct (IHl k v (conj Sl Pl) Pk) as (l' & E & [Sl' Pl'] & In'). rewrite E. cbn [obind]. exists (Node l' k' v' r). split; auto. cbn [entries].
      assert (Bl' : Forall (fun x => before x (k', v')) (entries l')). { apply Forall_forall. intros e H. apply In' in H as [H|[-> _]]; [rewrite Forall_forall in Bl; auto|exact C]. }
      split. { split; [apply sorted_app; auto|apply Forall_app; auto]. }
      assert (X : Forall (fun x => cmp (fst x) k <> Eq) ((k', v') :: entries r)).
      { constructor; [cbn [fst]; rewrite ANTI, C; discriminate|]. eapply Forall_impl; [|exact Br]. intros x Hx Q. unfold before in Hx. cbn [fst] in Hx. rewrite (eqr _ _ k' Q), (ANTI k k'), C in Hx. discriminate. }
      intros e. rewrite !in_app_iff, In', Forall_app. cbn [In]. tauto.
    + rewrite LESS by auto. rewrite (ANTI k k'), C. cbn [CompOpp obind]. destruct (IHr k v (conj Sr Pr') Pk) as (r' & E & [Sr' Pr2] & In'). rewrite E. cbn [obind]. exists (Node l k' v' r'). split; auto. cbn [entries].
      assert (Br' : Forall (before (k', v')) (entries r')). { apply Forall_forall. intros e H. apply In' in H as [H|[-> _]]; [rewrite Forall_forall in Br; auto|]. unfold before. cbn [fst]. rewrite ANTI, C. reflexivity. }
      split. { split; [apply sorted_app; auto|apply Forall_app; auto]. }
      assert (X : Forall (fun x => cmp (fst x) k <> Eq) (entries l)).
      { eapply Forall_impl; [|exact Bl]. intros x Hx Q. unfold before in Hx. cbn [fst] in Hx. rewrite (EQL _ _ k' Q) in Hx. congruence. }
      assert (Y : cmp k' k <> Eq) by (rewrite ANTI, C; discriminate).
      intros e. rewrite !in_app_iff. cbn [In]. rewrite In', Forall_app, Forall_cons_iff. cbn [fst]. tauto.
Qed.
Lemma build_spec : forall l t, good (entries t) -> Forall (fun e => P (fst e)) l -> exists t', map_build less t l = Ret t' /\ good (entries t') /\
  forall k v, P k -> ((exists k', In (k', v) (entries t') /\ cmp k' k = Eq) <->
    ((exists k', In (k', v) (entries t) /\ cmp k' k = Eq) \/ (Forall (fun x => cmp (fst x) k <> Eq) (entries t) /\ first_entry (fun a b => cmp a b = Eq) k l v))).
Proof.
  induction l as [|[k0 v0] l IH]; intros t G F.
  - exists t. split; auto. split; auto. intros k v _. split; auto. intros [H|[_ H]]; auto. inversion H.
  - inversion F; subst. cbn [fst] in *. destruct (insert_spec t k0 v0 G H1) as (t1 & E & G1 & In1). destruct (IH t1 G1 H2) as (t' & E' & G' & In'). exists t'. cbn [map_build]. rewrite E. cbn [obind]. split; auto. split; auto.
    intros k v Pk. rewrite (In' k v Pk). split.
    + intros [(k' & H & Q)|[H Q]].
      * apply In1 in H as [H|[H Z]]; [left; eauto|]. injection H as -> ->. right. split; [|constructor; auto]. eapply Forall_impl; [|exact Z]. intros x Hx Y. apply Hx. rewrite (eqr _ _ (fst x) Q). exact Y.
      * assert (A : Forall (fun x => cmp (fst x) k <> Eq) (entries t)). { apply Forall_forall. intros x Hx. rewrite Forall_forall in H. apply H, In1. auto. }
        right. split; auto. apply fe_next; auto. intros Y.
        assert (B : In (k0, v0) (entries t1)). { apply In1. right. split; auto. eapply Forall_impl; [|exact A]. intros x Hx Z. apply Hx. rewrite <- (eqr _ _ (fst x) Y). exact Z. }
        rewrite Forall_forall in H. exact (H _ B Y).
    + intros [(k' & H & Q)|[H Q]].
      * left. exists k'. split; auto. apply In1. auto.
      * inversion Q as [? ? ? Y|? ? ? ? N Y]; subst.
        -- left. exists k0. split; auto. apply In1. right. split; auto. eapply Forall_impl; [|exact H]. intros x Hx Z. apply Hx. rewrite <- (eqr _ _ (fst x) Y). exact Z.
        -- right. split; auto. apply Forall_forall. intros x Hx. apply In1 in Hx as [Hx|[-> _]]; auto. rewrite Forall_forall in H. auto.
Qed.
(** what the search finds *)
Definition reached (k : K) (x : K * V) : bool := match cmp (fst x) k with Lt => false | _ => true end.
Lemma find_app : forall (f : K * V -> bool) l r, find f (l ++ r) = match find f l with Some e => Some e | None => find f r end.
Proof. induction l; intros r; cbn; auto. destruct (f a); auto. Qed.
Lemma find_none_all : forall k l, Forall (fun x => cmp (fst x) k = Lt) l -> find (reached k) l = None.
Proof. intros k l H. induction H; auto. cbn [find]. unfold reached at 1. rewrite H. exact IHForall. Qed.
Lemma lower_spec : forall t k y, good (entries t) -> P k -> lower_bound less t k y = Ret (match find (reached k) (entries t) with Some e => Some e | None => y end).
Proof.
  induction t as [|l IHl k' v' r IHr]; intros k y [So Pa] Pk; auto.
  cbn [entries] in *. apply sorted_app in So as (Sl & Sr & Bl & Br). apply Forall_app in Pa as [Pl Pr]. inversion Pr as [|a b Pk' Pr']; subst. cbn [fst] in Pk'.
  cbn [lower_bound]. rewrite LESS by auto. cbn [obind]. rewrite find_app. cbn [find]. unfold reached at 2. cbn [fst]. destruct (cmp k' k) eqn:C.
  - rewrite IHl by (auto; split; auto). destruct (find _ _); auto.
  - rewrite IHr by (auto; split; auto). rewrite (find_none_all k (entries l)); auto. eapply Forall_impl; [|exact Bl]. intros x Hx. eapply TRANS; [exact Hx|exact C].
  - rewrite IHl by (auto; split; auto). destruct (find _ _); auto.
Qed.
Lemma find_split : forall k l e, find (reached k) l = Some e -> exists a b, l = a ++ e :: b /\ Forall (fun x => cmp (fst x) k = Lt) a /\ cmp (fst e) k <> Lt.
Proof.
  induction l as [|x l IH]; intros e H; [discriminate|]. cbn [find] in H. unfold reached at 1 in H. destruct (cmp (fst x) k) eqn:C.
  - injection H as <-. exists [], l. repeat split; auto. congruence.
  - destruct (IH e H) as (a & b & -> & F & N). exists (x :: a), b. repeat split; auto.
  - injection H as <-. exists [], l. repeat split; auto. congruence.
Qed.
Lemma find_spec : forall t k, good (entries t) -> P k -> exists o, map_find less t k = Ret o /\
  match o with Some v => exists k', In (k', v) (entries t) /\ cmp k' k = Eq | None => Forall (fun x => cmp (fst x) k <> Eq) (entries t) end.
Proof.
  intros t k G Pk. unfold map_find. rewrite lower_spec by auto. cbn [obind]. destruct (find (reached k) (entries t)) as [[k' v']|] eqn:F.
  - destruct (find_split _ _ _ F) as (a & b & E & A & N). cbn [fst] in N. destruct G as [So Pa]. rewrite E in So, Pa. apply sorted_app in So as (_ & _ & _ & B). apply Forall_app in Pa as [_ Pa]. inversion Pa; subst. cbn [fst] in *.
    rewrite LESS by auto. cbn [obind]. eexists. split; [reflexivity|]. rewrite ANTI. destruct (cmp k' k) eqn:C; try contradiction; cbn [CompOpp].
    + exists k'. split; auto. rewrite E. apply in_or_app. right. left. auto.
    + rewrite E. apply Forall_app. split; [eapply Forall_impl; [|exact A]; cbv beta; intros; congruence|]. constructor; [cbn [fst]; congruence|]. eapply Forall_impl; [|exact B]. intros x Hx Q. unfold before in Hx. cbn [fst] in Hx. rewrite (eqr _ _ k' Q) in Hx. congruence.
  - eexists. split; [reflexivity|]. apply Forall_forall. intros x Hx Q. pose proof (find_none _ _ F _ Hx) as X. unfold reached in X. rewrite Q in X. discriminate.
Qed.
(** a map of a table, in any tree: the first entry with the key *)
Theorem map_spec : forall (table : list (K * V)) t, Forall (fun e => P (fst e)) table -> (exists t0, map_build less Leaf table = Ret t0 /\ entries t = entries t0) ->
  forall k, P k -> exists o, map_find less t k = Ret o /\
    match o with Some v => first_entry (fun a b => cmp a b = Eq) k table v | None => forall v : V, ~ first_entry (fun a b => cmp a b = Eq) k table v end.
Proof.
  intros table t F (t0 & B & E) k Pk. destruct (build_spec table Leaf) as (t1 & B1 & G & S1); auto. { split; constructor. }
  rewrite B in B1. injection B1 as <-. rewrite <- E in *. destruct (find_spec t k G Pk) as (o & Fo & H). exists o. split; auto. destruct o as [v|].
  - apply (S1 k v Pk) in H. destruct H as [(k' & [] & _)|[_ H]]. exact H.
  - intros v Hv. assert (X : exists k', In (k', v) (entries t) /\ cmp k' k = Eq). { apply S1; auto. right. split; auto. constructor. }
    destruct X as (k' & X & Q). rewrite Forall_forall in H. exact (H _ X Q).
Qed.
End Map.

(** ** Names *)
Definition ckey (c : Z) : Z := if ispunct (tolower c) then -1000 else tolower c.
Fixpoint lexc (a b : list Z) : comparison :=
  match a, b with
  | [], [] => Eq
  | [], _ => Lt
  | _, [] => Gt
  | x :: a, y :: b => match x ?= y with Eq => lexc a b | o => o end
  end.
Fixpoint cut (m : list Z) : list Z := match m with [] => [] | c :: m => if c =? 0 then [] else c :: cut m end.
Definition ncmp (a b : list Z) : comparison := lexc (map ckey (cut a)) (map ckey (cut b)).
(** a name in memory: chars, a zero, whatever follows *)
Definition chars (n : list Z) : Prop := Forall (fun c => -128 <= c < 128 /\ c <> 0) n.
Definition named (m : list Z) : Prop := exists n junk, chars n /\ m = n ++ 0 :: junk.
Lemma cut_named : forall n junk, chars n -> cut (n ++ 0 :: junk) = n.
Proof. intros n junk H. induction H as [|c n [_ H] F IH]; auto. cbn [app cut]. replace (c =? 0) with false by lia. congruence. Qed.
Lemma lexc_eq : forall a b, lexc a b = Eq <-> a = b.
Proof.
  induction a as [|x a IH]; intros [|y b]; cbn [lexc]; split; try discriminate; auto.
  - destruct (Z.compare_spec x y); try discriminate. subst. intros E. apply IH in E. congruence.
  - intros E. injection E as -> ->. rewrite Z.compare_refl. apply IH. reflexivity.
Qed.
Lemma lexc_anti : forall a b, lexc b a = CompOpp (lexc a b).
Proof. induction a as [|x a IH]; intros [|y b]; cbn [lexc]; auto. rewrite (Z.compare_antisym x y). destruct (x ?= y); cbn [CompOpp]; auto. Qed.
Lemma lexc_trans : forall a b c, lexc a b = Lt -> lexc b c = Lt -> lexc a c = Lt.
Proof.
  induction a as [|x a IH]; intros [|y b] [|z c]; cbn [lexc]; try discriminate; auto.
  destruct (Z.compare_spec x y), (Z.compare_spec y z); try discriminate; intros A B; subst.
  - rewrite Z.compare_refl. eauto.
  - destruct (Z.compare_spec y z); auto; lia.
  - destruct (Z.compare_spec x z); auto; lia.
  - destruct (Z.compare_spec x z); auto; lia.
Qed.
Lemma ncmp_anti : forall a b, ncmp b a = CompOpp (ncmp a b).
Proof. intros. apply lexc_anti. Qed.
Lemma ncmp_trans : forall a b c, ncmp a b = Lt -> ncmp b c = Lt -> ncmp a c = Lt.
Proof. intros a b c. apply lexc_trans. Qed.
Lemma ncmp_eql : forall a b c, ncmp a b = Eq -> ncmp a c = ncmp b c.
Proof. intros a b c H. apply lexc_eq in H. unfold ncmp. rewrite H. reflexivity. Qed.

Lemma tolower_range : forall c, -128 <= c < 128 -> -128 <= tolower c < 128 /\ tolower c = lower c.
Proof.
  intros c H. assert (K : exists k, (k < 256)%nat /\ c = Z.of_nat k - 128) by (exists (Z.to_nat (c + 128)); lia). destruct K as (k & L & ->).
  assert (A : forallb (fun k => let c := Z.of_nat k - 128 in (-128 <=? tolower c) && (tolower c <? 128) && (tolower c =? lower c)) (seq 0 256) = true) by (vm_compute; reflexivity).
  rewrite forallb_forall in A. specialize (A k ltac:(apply in_seq; lia)). cbv zeta in A. lia.
Qed.
Lemma ispunct_iff : forall c, ispunct c = true <-> punct c.
Proof. intros. unfold ispunct, punct. lia. Qed.
Lemma ckey_same : forall a b, -128 <= a < 128 -> -128 <= b < 128 -> (ckey a = ckey b <-> same_char a b).
Proof.
  intros a b A B. destruct (tolower_range a A) as [A1 A2], (tolower_range b B) as [B1 B2]. unfold ckey, same_char. rewrite <- A2, <- B2.
  assert (L : forall c, -128 <= c < 128 -> (ispunct (tolower c) = true <-> punct c)).
  { intros c C. rewrite ispunct_iff. destruct (tolower_range c C) as [_ ->]. unfold lower, punct. destruct ((65 <=? c) && (c <=? 90)) eqn:E; lia. }
  pose proof (L a A) as LA. pose proof (L b B) as LB. destruct (ispunct (tolower a)) eqn:PA, (ispunct (tolower b)) eqn:PB.
  - split; auto. intros _. right. split; [apply LA|apply LB]; reflexivity.
  - split; intros X; [lia|]. destruct X as [X|[_ X]]; [rewrite X, PB in PA; discriminate|]. apply LB in X. discriminate.
  - split; intros X; [lia|]. destruct X as [X|[X _]]; [rewrite X, PB in PA; discriminate|]. apply LA in X. discriminate.
  - split; intros X; auto. destruct X as [X|[X _]]; auto. apply LA in X. discriminate.
Qed.
Lemma keys_same : forall a b, chars a -> chars b -> (map ckey a = map ckey b <-> same_name a b).
Proof.
  intros a b H. revert b. induction H as [|c a [R N] F IH]; intros b Hb.
  - split; intros X; [destruct b; [constructor|discriminate]|inversion X; auto].
  - destruct b as [|d b]; [split; intros X; [discriminate|inversion X]|]. inversion Hb as [|? ? [R2 N2] F2]; subst. split; intros X.
    + injection X as X1 X2. constructor; [apply ckey_same; auto|apply IH; auto].
    + inversion X; subst. cbn [map]. f_equal; [apply ckey_same; auto|apply IH; auto].
Qed.
Lemma rd_at : forall (p l : list Z) c, rd (p ++ c :: l) (length p) = Ret c.
Proof. intros. unfold rd. rewrite nth_error_app2, Nat.sub_diag by lia. reflexivity. Qed.
Lemma lower_zero : forall c, -128 <= c < 128 -> c <> 0 -> tolower c <> 0.
Proof. intros c R N. destruct (tolower_range c R) as [_ ->]. unfold lower. destruct (_ && _) eqn:E; lia. Qed.
Lemma less_spec : forall fuel n1 n2 p1 p2 j1 j2, chars n1 -> chars n2 -> length p1 = length p2 -> (length n1 < fuel)%nat ->
  less_loop fuel (p1 ++ n1 ++ 0 :: j1) (p2 ++ n2 ++ 0 :: j2) (length p1) = Ret (match lexc (map ckey n1) (map ckey n2) with Lt => true | _ => false end).
Proof.
  induction fuel; intros n1 n2 p1 p2 j1 j2 H1 H2 L F; [lia|]. cbn [less_loop].
  destruct n1 as [|a n1], n2 as [|b n2]; cbn [app map lexc].
  - rewrite rd_at, L, rd_at. reflexivity.
  - inversion H2 as [|? ? [R N] F2]; subst. rewrite rd_at, L, rd_at. cbn [obind]. change (tolower 0) with 0. pose proof (lower_zero b R N). replace (tolower b =? 0) with false by lia. reflexivity.
  - inversion H1 as [|? ? [R N] F2]; subst. rewrite rd_at, L, rd_at. cbn [obind]. change (tolower 0) with 0. pose proof (lower_zero a R N). replace (tolower a =? 0) with false by lia. reflexivity.
  - inversion H1 as [|? ? [R1 N1] F1]; inversion H2 as [|? ? [R2 N2] F2]; subst. rewrite rd_at. cbn [obind]. rewrite L, rd_at. cbn [obind]. rewrite <- L.
    pose proof (lower_zero a R1 N1). pose proof (lower_zero b R2 N2). replace (tolower a =? 0) with false by lia. replace (tolower b =? 0) with false by lia. cbn [andb].
    assert (IH : less_loop fuel (p1 ++ a :: n1 ++ 0 :: j1) (p2 ++ b :: n2 ++ 0 :: j2) (S (length p1)) = Ret (match lexc (map ckey n1) (map ckey n2) with Lt => true | _ => false end)).
    { specialize (IHfuel n1 n2 (p1 ++ [a]) (p2 ++ [b]) j1 j2 F1 F2). rewrite <- !app_assoc, !app_length in IHfuel. cbn [app length] in IHfuel. rewrite (Nat.add_1_r (length p1)) in IHfuel. apply IHfuel; cbn [length] in F; lia. }
    destruct (tolower_range a R1) as [A _], (tolower_range b R2) as [B _]. change (ckey a) with (if ispunct (tolower a) then -1000 else tolower a). change (ckey b) with (if ispunct (tolower b) then -1000 else tolower b). destruct (ispunct (tolower a)), (ispunct (tolower b)); cbn [andb].
    + exact IH.
    + replace (-1000 ?= tolower b) with Lt by (symmetry; apply Z.compare_lt_iff; lia). reflexivity.
    + replace (tolower a ?= -1000) with Gt by (symmetry; apply Z.compare_gt_iff; lia). reflexivity.
    + destruct (Z.compare_spec (tolower a) (tolower b)) as [E|E|E].
      * rewrite E, Z.ltb_irrefl. exact IH.
      * replace (tolower b <? tolower a) with false by lia. replace (tolower a <? tolower b) with true by lia. reflexivity.
      * replace (tolower b <? tolower a) with true by lia. reflexivity.
Qed.
Lemma less_named : forall a b, named a -> named b -> stricmp_less a b = Ret (match ncmp a b with Lt => true | _ => false end).
Proof.
  intros a b (n1 & j1 & C1 & ->) (n2 & j2 & C2 & ->). unfold ncmp. rewrite !cut_named by auto. unfold stricmp_less.
  apply (less_spec _ n1 n2 [] [] j1 j2); auto. rewrite app_length. lia.
Qed.

(** C235: the comparator is a strict weak order, as std::map requires; its equivalence is the equality of names *)
Theorem stricmp_less_order : forall a b c ja jb jc, chars a -> chars b -> chars c -> exists ab ba bc ac,
  stricmp_less (a ++ 0 :: ja) (b ++ 0 :: jb) = Ret ab /\ stricmp_less (b ++ 0 :: jb) (a ++ 0 :: ja) = Ret ba /\
  stricmp_less (b ++ 0 :: jb) (c ++ 0 :: jc) = Ret bc /\ stricmp_less (a ++ 0 :: ja) (c ++ 0 :: jc) = Ret ac /\
  (ab = true -> ba = false) /\ (ab = true -> bc = true -> ac = true) /\ ((ab = false /\ ba = false) <-> same_name a b) /\ (same_name a b -> bc = ac).
Proof.
  intros a b c ja jb jc A B C. assert (N : forall n j, chars n -> named (n ++ 0 :: j)) by (intros n j H; exists n, j; auto).
  do 4 eexists. rewrite !less_named by auto. do 4 (split; [reflexivity|]). unfold ncmp. rewrite !cut_named by auto. rewrite (lexc_anti (map ckey a) (map ckey b)).
  pose proof (lexc_trans (map ckey a) (map ckey b) (map ckey c)) as T. pose proof (lexc_eq (map ckey a) (map ckey b)) as Q. pose proof (keys_same a b A B) as S.
  split; [destruct (lexc (map ckey a) (map ckey b)); cbn; congruence|]. split. { destruct (lexc (map ckey a) (map ckey b)); try discriminate. destruct (lexc (map ckey b) (map ckey c)); try discriminate. intros _ _. rewrite T; auto. }
  split. { rewrite <- S, <- Q. destruct (lexc (map ckey a) (map ckey b)); cbn; intuition congruence. }
  intros X. apply S in X. rewrite X. reflexivity.
Qed.

Lemma fe_map : forall {V} (same : list Z -> list Z -> Prop) (same' : list Z -> list Z -> Prop) (f : list Z -> list Z) k k' (l : list (list Z * V)) v,
  Forall (fun e => same (f (fst e)) k <-> same' (fst e) k') l -> (first_entry same k (map (fun e => (f (fst e), snd e)) l) v <-> first_entry same' k' l v).
Proof.
  intros V same same' f k k' l v H. induction H as [|[x y] l I F IH]; cbn [map fst snd] in *.
  - split; intros X; inversion X.
  - split; intros X; inversion X; subst; [apply fe_here|apply fe_next|apply fe_here|apply fe_next]; tauto.
Qed.
Lemma fe_in : forall {K V} (same : K -> K -> Prop) k (l : list (K * V)) v, first_entry same k l v -> exists k', In (k', v) l /\ same k' k.
Proof. intros K V same k l v H. induction H; [exists k'; split; auto; left; auto|destruct IHfirst_entry as (x & A & B); exists x; split; auto; right; auto]. Qed.
Lemma fe_fun : forall {K V} (same : K -> K -> Prop) k (l : list (K * V)) v w, first_entry same k l v -> first_entry same k l w -> v = w.
Proof. intros K V same k l v w H. induction H; intros X; inversion X; subst; auto; contradiction. Qed.

(** the table, as the test of each character shows *)
Definition char_ok (c : Z) : bool := (-128 <=? c) && (c <? 128) && negb (c =? 0).
Lemma chars_ok : forall n, forallb char_ok n = true -> chars n.
Proof. intros n H. apply Forall_forall. intros c I. rewrite forallb_forall in H. specialize (H c I). unfold char_ok in H. lia. Qed.
Lemma names_ok : Forall (fun e => chars (fst e) /\ 0 <= snd e < 65536) lang_names.
Proof.
  assert (A : forallb (fun e => forallb char_ok (fst e) && (0 <=? snd e) && (snd e <? 65536)) lang_names = true) by (vm_compute; reflexivity).
  rewrite forallb_forall in A. apply Forall_forall. intros e I. specialize (A e I). apply andb_true_iff in A as [A1 A2]. apply andb_true_iff in A1 as [A0 A1]. split; [apply chars_ok; auto|lia].
Qed.
(** the maps: any tree with the entries, in order *)
Definition names_map (t : tree (list Z) Z) : Prop := exists t0, map_build stricmp_less Leaf lang_literals = Ret t0 /\ entries t = entries t0.
Definition codes_map (t : tree Z (list Z)) : Prop := exists t0, map_build int_less Leaf lang_codes = Ret t0 /\ entries t = entries t0.

(** C236: the code of a name is that of the first entry with this name, but for case and kind of punctuation; 0x7f where there is none *)
Theorem langid_from_spec : forall t, names_map t -> forall n junk, chars n -> exists v, langid_from_rfc1766 t (n ++ 0 :: junk) = Ret v /\
  (first_entry same_name n lang_names v \/ (v = 127 /\ forall w, ~ first_entry same_name n lang_names w)).
Proof.
  intros t M n junk C. assert (Pn : named (n ++ 0 :: junk)) by (exists n, junk; auto).
  assert (F : Forall (fun e => named (fst e)) lang_literals).
  { unfold lang_literals. apply Forall_map. eapply Forall_impl; [|exact names_ok]. intros e [H _]. exists (fst e), []. auto. }
  destruct (map_spec stricmp_less named ncmp less_named ncmp_anti ncmp_trans ncmp_eql lang_literals t F M _ Pn) as (o & E & S).
  unfold langid_from_rfc1766. rewrite E. cbn [obind].
  assert (R : forall v, first_entry (fun a b => ncmp a b = Eq) (n ++ 0 :: junk) lang_literals v <-> first_entry same_name n lang_names v).
  { intros v. apply fe_map with (f := fun x => x ++ [0]). eapply Forall_impl; [|exact names_ok]. intros e [H _]. unfold ncmp. rewrite !cut_named by auto. rewrite lexc_eq. apply keys_same; auto. }
  destruct o as [v|].
  - apply R in S. exists v. split; auto. destruct (fe_in _ _ _ _ S) as (k & I & _). pose proof names_ok as O. rewrite Forall_forall in O. destruct (O _ I) as [_ B]. cbn [snd] in B. rewrite Z.mod_small by lia. reflexivity.
  - exists 127. split; auto. right. split; auto. intros w W. apply R in W. exact (S w W).
Qed.

(** C237: the name of a code is that of the table; the fallback where there is none *)
Theorem rfc1766_from_spec : forall t, codes_map t -> forall c, exists o, rfc1766_from_langid t c = Ret o /\
  match o with Some n => In (c, n) lang_codes | None => forall n, ~ In (c, n) lang_codes end.
Proof.
  intros t M c. assert (F : Forall (fun e : Z * list Z => True) lang_codes) by (apply Forall_forall; auto).
  destruct (map_spec (V := list Z) int_less (fun _ => True) Z.compare) with (table := lang_codes) (t := t) (k := c) as (o & E & S); auto.
  - intros a b. apply Z.compare_antisym.
  - intros a b d. rewrite !Z.compare_lt_iff. lia.
  - intros a b d H. apply Z.compare_eq in H. subst. reflexivity.
  - exists o. split; auto. destruct o as [n|].
    + destruct (fe_in _ _ _ _ S) as (k & I & Q). apply Z.compare_eq in Q. subst. exact I.
    + intros n I. clear E F. induction lang_codes as [|[a b] l IH]; [contradiction|]. destruct (Z.eq_dec a c) as [->|N].
      * apply (S b). apply fe_here. apply Z.compare_refl.
      * destruct I as [I|I]; [congruence|]. apply IH; auto. intros v Hv. apply (S v). apply fe_next; auto. intros Q. apply Z.compare_eq in Q. auto.
Qed.
Lemma codes_unique : NoDup (map fst lang_codes).
Proof.
  assert (A : (fix nd l := match l with [] => true | x :: l => negb (existsb (Z.eqb x) l) && nd l end) (map fst lang_codes) = true) by (vm_compute; reflexivity).
  induction (map fst lang_codes) as [|x l IH]; [constructor|]. apply andb_true_iff in A as [A1 A2]. constructor; auto. intros I. apply negb_true_iff in A1. assert (existsb (Z.eqb x) l = true) by (apply existsb_exists; exists x; split; auto; lia). congruence.
Qed.
(** ** Round trips *)
Lemma maps_exist : exists t1 t2, names_map t1 /\ codes_map t2.
Proof.
  assert (F : Forall (fun e => named (fst e)) lang_literals).
  { unfold lang_literals. apply Forall_map. eapply Forall_impl; [|exact names_ok]. intros e [H _]. exists (fst e), []. auto. }
  destruct (build_spec stricmp_less named ncmp less_named ncmp_anti ncmp_trans ncmp_eql lang_literals Leaf) as (t1 & E1 & _); auto. { split; constructor. }
  destruct (build_spec (V := list Z) int_less (fun _ => True) Z.compare) with (l := lang_codes) (t := @Leaf Z (list Z)) as (t2 & E2 & _); auto.
  - intros a b. apply Z.compare_antisym.
  - intros a b d. rewrite !Z.compare_lt_iff. lia.
  - intros a b d H. apply Z.compare_eq in H. subst. reflexivity.
  - split; constructor.
  - apply Forall_forall. auto.
  - exists t1, t2. split; [exists t1|exists t2]; auto.
Qed.
Definition leqb (a b : list Z) : bool := if list_eq_dec Z.eq_dec a b then true else false.
Lemma leqb_eq : forall a b, leqb a b = true -> a = b.
Proof. intros a b H. unfold leqb in H. destruct (list_eq_dec Z.eq_dec a b); auto. discriminate. Qed.
Lemma tables_inverse : forall n v, In (n, v) lang_names <-> In (v, n) lang_codes.
Proof.
  assert (A : forallb (fun e => existsb (fun d => (fst d =? snd e) && leqb (snd d) (fst e)) lang_codes) lang_names = true) by (vm_compute; reflexivity).
  assert (B : forallb (fun d => existsb (fun e => (fst d =? snd e) && leqb (snd d) (fst e)) lang_names) lang_codes = true) by (vm_compute; reflexivity).
  rewrite forallb_forall in A, B. intros n v. split; intros H.
  - apply A in H. apply existsb_exists in H as ([a b] & I & E). cbn [fst snd] in E. apply andb_true_iff in E as [E1 E2]. apply leqb_eq in E2. subst. replace v with a by lia. exact I.
  - apply B in H. apply existsb_exists in H as ([a b] & I & E). cbn [fst snd] in E. apply andb_true_iff in E as [E1 E2]. apply leqb_eq in E2. subst. replace v with b by lia. exact I.
Qed.
(** C238: every name that has a code is, but for case and punctuation, the name of its code *)
Theorem name_round_trip : forall t1 t2 n junk, names_map t1 -> codes_map t2 -> chars n -> (exists k v, In (k, v) lang_names /\ same_name k n) ->
  exists v n', langid_from_rfc1766 t1 (n ++ 0 :: junk) = Ret v /\ rfc1766_from_langid t2 v = Ret (Some n') /\ same_name n' n.
Proof.
  intros t1 t2 n junk M1 M2 C (k & w & I & Sa). destruct (langid_from_spec t1 M1 n junk C) as (v & E & [F|[_ N]]).
  - destruct (fe_in _ _ _ _ F) as (k' & I' & S'). destruct (rfc1766_from_spec t2 M2 v) as (o & E2 & H). apply tables_inverse in I'. destruct o as [n'|]; [|exfalso; eapply H; eauto].
    exists v, n'. repeat split; auto. pose proof codes_unique as U. enough (n' = k') by (subst; auto). clear -U H I'. revert H I'. induction lang_codes as [|[a b] l IH]; [intros []|]. cbn [map] in U. inversion U; subst. cbn [fst] in *. intros [A|A] [B|B]; try congruence; auto; exfalso; apply H1; [injection A as -> ->; apply (in_map fst) in B|injection B as -> ->; apply (in_map fst) in A]; auto.
  - exfalso. assert (X : exists v, first_entry same_name n lang_names v); [|destruct X as (x & X); exact (N x X)].
    clear -I Sa C. pose proof names_ok as O. revert O I. induction lang_names as [|[a b] l IH]; [intros _ []|]. intros O [A|A].
    + injection A as -> ->. exists w. constructor; auto.
    + inversion O as [|? ? [O1 _] O2]; subst. destruct (IH O2 A) as (x & X). cbn [fst] in O1. destruct (list_eq_dec Z.eq_dec (map ckey a) (map ckey n)) as [E|E]; rewrite (keys_same a n O1 C) in E; [exists b; constructor; auto|exists x; apply fe_next; auto].
Qed.
(** C239.  Refuted: 34 codes are not those of their names.  0x804, Chinese in China, has the name zh-CN, which has code 0x7804. *)
Definition shadowed : list Z := [2052; 3076; 2068; 31764; 25626; 26650; 27674; 28698; 30746; 31770; 31784; 2092; 30764; 2094; 28731; 29755; 30779; 31803; 2115; 31811;
  2118; 2128; 30800; 2137; 31836; 2141; 30813; 2143; 30815; 2151; 31848; 31878; 140; 31890].
Definition first_code (n : list Z) : option Z := match find (fun e => leqb (map ckey (fst e)) (map ckey n)) lang_names with Some e => Some (snd e) | None => None end.
Lemma first_code_spec : forall n, chars n -> forall v, first_code n = Some v <-> first_entry same_name n lang_names v.
Proof.
  intros n C. pose proof names_ok as O. unfold first_code. induction O as [|[a b] l [O1 _] O2 IH]; intros v; cbn [find fst snd].
  - split; intros X; [discriminate|inversion X].
  - cbn [fst] in O1. pose proof (keys_same a n O1 C) as K. unfold leqb at 1. destruct (list_eq_dec Z.eq_dec (map ckey a) (map ckey n)) as [E|E]; rewrite K in E; cbn [snd].
    + split; intros X; [injection X as ->; constructor; auto|]. inversion X; subst; auto. contradiction.
    + rewrite IH. split; intros X; [apply fe_next; auto|]. inversion X; subst; auto. contradiction.
Qed.
Theorem code_round_trip_partial : forall t1 t2 c n, names_map t1 -> codes_map t2 -> rfc1766_from_langid t2 c = Ret (Some n) ->
  exists v, langid_from_rfc1766 t1 (n ++ [0]) = Ret v /\ (v = c <-> ~ In c shadowed) /\ rfc1766_from_langid t2 v = Ret (Some n).
Proof.
  intros t1 t2 c n M1 M2 R. destruct (rfc1766_from_spec t2 M2 c) as (o & E & H). rewrite R in E. injection E as <-.
  assert (I : In (n, c) lang_names) by (apply tables_inverse; auto). pose proof names_ok as O. rewrite Forall_forall in O. destruct (O _ I) as [C _]. cbn [fst] in C.
  destruct (langid_from_spec t1 M1 n [] C) as (v & E & F). exists v. split; auto.
  assert (A : forallb (fun e => match first_code (fst e) with Some v => Bool.eqb (v =? snd e) (negb (existsb (Z.eqb (snd e)) shadowed)) && existsb (fun d => (snd d =? v) && leqb (fst d) (fst e)) lang_names | None => false end) lang_names = true) by (vm_compute; reflexivity).
  rewrite forallb_forall in A. specialize (A _ I). cbn [fst snd] in A. destruct (first_code n) as [w|] eqn:W; [|discriminate]. apply (first_code_spec n C) in W.
  assert (v = w). { destruct F as [F|[_ F]]; [eapply fe_fun; eauto|exfalso; exact (F w W)]. } subst w. apply andb_true_iff in A as [A1 A2]. apply eqb_prop in A1. split.
  - split; intros X.
    + intros Y. assert (Z1 : existsb (Z.eqb c) shadowed = true) by (apply existsb_exists; exists c; split; auto; lia). rewrite Z1 in A1. cbn [negb] in A1. lia.
    + assert (Z1 : existsb (Z.eqb c) shadowed = false). { apply not_true_iff_false. intros Y. apply existsb_exists in Y as (x & Y1 & Y2). apply X. replace c with x by lia. exact Y1. } rewrite Z1 in A1. cbn [negb] in A1. lia.
  - apply existsb_exists in A2 as ([a b] & I2 & Q). cbn [fst snd] in Q. apply andb_true_iff in Q as [Q1 Q2]. apply leqb_eq in Q2. subst a. replace b with v in I2 by lia. apply tables_inverse in I2.
    destruct (rfc1766_from_spec t2 M2 v) as (o & E2 & H2). rewrite E2. f_equal. destruct o as [n'|]; [|exfalso; eapply H2; eauto]. f_equal.
    pose proof codes_unique as U. clear -U H2 I2. revert H2 I2. induction lang_codes as [|[a b] l IH]; [intros []|]. cbn [map] in U. inversion U; subst. cbn [fst] in *. intros [A|A] [B|B]; try congruence; auto; exfalso; apply H1; [injection A as -> ->; apply (in_map fst) in B|injection B as -> ->; apply (in_map fst) in A]; auto.
Qed.
Theorem code_round_trip_refuted : forall t1 t2, names_map t1 -> codes_map t2 ->
  rfc1766_from_langid t2 2052 = Ret (Some [122; 104; 45; 67; 78]) /\ langid_from_rfc1766 t1 [122; 104; 45; 67; 78; 0] = Ret 30724.
Proof.
  intros t1 t2 M1 M2. assert (R : rfc1766_from_langid t2 2052 = Ret (Some [122; 104; 45; 67; 78])).
  { destruct (rfc1766_from_spec t2 M2 2052) as (o & E & H). rewrite E. f_equal.
    assert (A : forallb (fun d => negb (fst d =? 2052) || leqb (snd d) [122; 104; 45; 67; 78]) lang_codes = true) by (vm_compute; reflexivity). assert (B : existsb (fun d => fst d =? 2052) lang_codes = true) by (vm_compute; reflexivity). destruct o as [n|].
    - rewrite forallb_forall in A. specialize (A _ H). apply leqb_eq in A. cbn [snd] in A. subst. reflexivity.
    - exfalso. apply existsb_exists in B as ([a b] & I & Q). cbn [fst] in Q. apply (H b). replace 2052 with a by lia. exact I. }
  split; auto. assert (C : chars [122; 104; 45; 67; 78]) by (apply chars_ok; reflexivity). destruct (langid_from_spec t1 M1 _ [] C) as (v & E & F). cbn [app] in E. rewrite E. f_equal.
  assert (W : first_entry same_name [122; 104; 45; 67; 78] lang_names 30724) by (apply first_code_spec; auto; vm_compute; reflexivity). destruct F as [F|[_ F]]; [eapply fe_fun; eauto|exfalso; exact (F _ W)].
Qed.
(** C240: the parts of a code *)
Theorem langid_parts : forall lang, 0 <= lang < 65536 -> primary_langid lang = lang mod 1024 /\ sub_langid lang = 1024 * (lang / 1024) /\ primary_langid lang + sub_langid lang = lang.
Proof.
  intros lang H. unfold primary_langid, sub_langid. assert (A : Z.land lang 1023 = lang mod 1024) by (apply (Z.land_ones lang 10); lia).
  assert (B : Z.land lang 64512 = 1024 * (lang / 1024)).
  { change 64512 with (Z.shiftl 63 10). rewrite Z.mul_comm. change 1024 with (2 ^ 10). rewrite <- Z.shiftr_div_pow2, <- Z.shiftl_mul_pow2 by lia. apply Z.bits_inj'. intros i Hi.
    rewrite Z.land_spec, !Z.shiftl_spec by lia. destruct (Z.ltb_spec i 10).
    - rewrite !(Z.testbit_neg_r _ (i - 10)) by lia. apply andb_false_r.
    - rewrite Z.shiftr_spec by lia. replace (i - 10 + 10) with i by lia. change 63 with (Z.ones 6). destruct (Z.ltb_spec i 16).
      + rewrite Z.ones_spec_low by lia. apply andb_true_r.
      + rewrite Z.ones_spec_high by lia. rewrite andb_false_r. symmetry. destruct (Z.eq_dec lang 0) as [->|N]; [apply Z.bits_0|]. apply Z.bits_above_log2; [lia|]. apply Z.log2_lt_pow2; [lia|]. assert (2 ^ 16 <= 2 ^ i) by (apply Z.pow_le_mono_r; lia). lia. }
  rewrite A, B. pose proof (Z.div_mod lang 1024). lia.
Qed.
(** not vacuous: names in other cases and with other marks, and one that is not there *)
Example langid_ex : forall t, names_map t -> langid_from_rfc1766 t [83; 76; 95; 115; 105; 0; 7] = Ret 1060 /\ langid_from_rfc1766 t [120; 120; 0] = Ret 127.
Proof.
  intros t M. split.
  - assert (C : chars [83; 76; 95; 115; 105]) by (apply chars_ok; reflexivity). destruct (langid_from_spec t M _ [7] C) as (v & E & F). cbn [app] in E. rewrite E. f_equal.
    assert (W : first_entry same_name [83; 76; 95; 115; 105] lang_names 1060) by (apply first_code_spec; auto; vm_compute; reflexivity). destruct F as [F|[_ F]]; [eapply fe_fun; eauto|exfalso; exact (F _ W)].
  - assert (C : chars [120; 120]) by (apply chars_ok; reflexivity). destruct (langid_from_spec t M _ [] C) as (v & E & F). cbn [app] in E. rewrite E. f_equal. destruct F as [F|[F _]]; auto. exfalso. apply first_code_spec in F; auto. revert F. vm_compute. discriminate.
Qed.
