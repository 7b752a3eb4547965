(** HTML documents: C144-C148. *)
From Coq Require Import ZifyBool ZifyNat.
From Verif Require Import Base StringModel StringSpec StringProofs ParserModel ParserSpec ParserProps HtmlTagModel HtmlTagSpec HtmlTagProps HtmlTagMore HtmlElemModel HtmlElemSpec HtmlElemProps HtmlDocModel HtmlDocSpec.
Ltac Zify.zify_post_hook ::= Z.div_mod_to_equations.

(** ** Lists of extents *)
Lemma ordered_app : forall l1 l2 lo mid hi, ordered lo mid l1 -> ordered mid hi l2 -> ordered lo hi (l1 ++ l2).
Proof.
  induction l1 as [|[a b] l1 IH]; intros l2 lo mid hi H1 H2; cbn [app ordered] in *.
  - destruct l2 as [|[a b] l2]; cbn [ordered] in *; [lia|]. destruct H2. split; [lia|auto]. - destruct H1. split; [lia|]. eapply IH; eauto.
Qed.
Lemma ordered_hi : forall l lo hi hi', ordered lo hi l -> (hi <= hi')%nat -> ordered lo hi' l.
Proof. induction l as [|[a b] l IH]; intros lo hi hi' H L; cbn [ordered] in *; [lia|]. destruct H. split; [lia|]. eapply IH; eauto. Qed.
Lemma tiles_app : forall l1 l2 lo mid hi, tiles lo mid l1 -> tiles mid hi l2 -> tiles lo hi (l1 ++ l2).
Proof. induction l1 as [|[a b] l1 IH]; intros l2 lo mid hi H1 H2; cbn [app tiles] in *. - subst. auto. - destruct H1 as (-> & L & H1). repeat split; auto. eapply IH; eauto. Qed.
Lemma map_extent_link : forall seqs k l, map extent (set_link seqs k l) = map extent seqs.
Proof. induction seqs as [|q r IH]; intros [|k] l; cbn [set_link map]; auto. f_equal; auto. Qed.

(** ** Links *)
Lemma set_link_nth : forall seqs k l j, nth_error (set_link seqs k l) j = option_map (fun q => if (j =? k)%nat then relink q l else q) (nth_error seqs j).
Proof.
  induction seqs as [|q r IH]; intros k l j; cbn [set_link]. { destruct j; reflexivity. }
  destruct k, j; cbn [nth_error option_map]; auto. - destruct (nth_error r j); reflexivity. - rewrite IH. reflexivity.
Qed.
Lemma set_link_length : forall seqs k l, length (set_link seqs k l) = length seqs.
Proof. induction seqs as [|q r IH]; intros [|k] l; cbn [set_link length]; auto. Qed.
(** [seqs'] is [seqs] where the ones in [P] got the link [me] *)
Definition relinked (P : list nat) (me : nat) (seqs seqs' : list sq) : Prop :=
  forall k, nth_error seqs' k = option_map (fun q => if existsb (Nat.eqb k) P then relink q (Some me) else q) (nth_error seqs k).
Lemma relinked_nil : forall me seqs, relinked [] me seqs seqs.
Proof. intros me seqs k. cbn [existsb]. destruct (nth_error seqs k); reflexivity. Qed.
Lemma relinked_one : forall s me seqs, relinked [s] me seqs (set_link seqs s (Some me)).
Proof. intros s me seqs k. rewrite set_link_nth. cbn [existsb]. destruct (nth_error seqs k); cbn [option_map]; auto. rewrite orb_false_r. reflexivity. Qed.
Lemma existsb_in : forall k P, existsb (Nat.eqb k) P = true <-> In k P.
Proof. intros k P. rewrite existsb_exists. split. - intros (x & I & E). apply Nat.eqb_eq in E. subst. auto. - intros I. exists k. split; auto. apply Nat.eqb_refl. Qed.
Lemma relinked_other : forall P me seqs seqs' k q, relinked P me seqs seqs' -> ~ In k P -> nth_error seqs k = Some q -> nth_error seqs' k = Some q.
Proof. intros P me seqs seqs' k q R N E. rewrite (R k), E. cbn [option_map]. destruct (existsb (Nat.eqb k) P) eqn:X; auto. apply existsb_in in X. contradiction. Qed.
Lemma relinked_in : forall P me seqs seqs' k q, relinked P me seqs seqs' -> In k P -> nth_error seqs k = Some q -> nth_error seqs' k = Some (relink q (Some me)).
Proof. intros P me seqs seqs' k q R N E. rewrite (R k), E. cbn [option_map]. apply existsb_in in N. rewrite N. reflexivity. Qed.
Lemma relinked_length : forall P me seqs seqs', relinked P me seqs seqs' -> length seqs' = length seqs.
Proof.
  intros P me seqs seqs' R. apply Nat.le_antisymm; apply Nat.nlt_ge; intros L.
  - pose proof (R (length seqs)) as E. rewrite (proj2 (nth_error_None seqs (length seqs))) in E by lia. cbn [option_map] in E. apply nth_error_None in E. lia.
  - pose proof (R (length seqs')) as E. rewrite (proj2 (nth_error_None seqs' (length seqs'))) in E by lia. destruct (nth_error seqs (length seqs')) eqn:Q; [discriminate|]. apply nth_error_None in Q. lia.
Qed.
Lemma nth_at_end : forall (l : list sq) x k q, nth_error (l ++ [x]) k = Some q -> (k < length l)%nat /\ nth_error l k = Some q \/ k = length l /\ q = x.
Proof.
  intros l x k q H. destruct (Nat.lt_ge_cases k (length l)) as [L|L]. { rewrite nth_error_app1 in H by auto. auto. }
  rewrite nth_error_app2 in H by auto. destruct (k - length l)%nat eqn:E; cbn [nth_error] in H. - right. split; [lia|congruence]. - destruct n; discriminate.
Qed.
Lemma nth_keep : forall (l : list sq) x k q, nth_error l k = Some q -> nth_error (l ++ [x]) k = Some q.
Proof. intros l x k q H. rewrite nth_error_app1; auto. apply nth_error_Some. congruence. Qed.
Lemma nth_lt : forall (l : list sq) k q, nth_error l k = Some q -> (k < length l)%nat.
Proof. intros l k q H. apply nth_error_Some. congruence. Qed.
(** an element on the stack: started, not ended *)
Definition started (seqs : list sq) (s : nat) : Prop := exists q, nth_error seqs s = Some q /\ q_type q = SStart /\ q_link q = None /\ span (q_code q) <> immediate.
Definition closes (x : sq) (k : nat) (q : sq) : Prop := q_type x = SEnd /\ q_link x = Some k \/ is_element (q_type x) /\ may_contain (q_code q) (q_code x) = false.
Lemma nested_push : forall seqs P seqs' x, nested seqs -> relinked P (length seqs) seqs seqs' -> (forall k, In k P -> started seqs k /\ forall q, nth_error seqs k = Some q -> closes x k q) -> item_ok (seqs' ++ [x]) (length seqs) x -> nested (seqs' ++ [x]).
Proof.
  intros seqs P seqs' x N R C X k q K. pose proof (relinked_length _ _ _ _ R) as LL. apply nth_at_end in K. destruct K as [[L K]|[-> ->]]; [|rewrite LL; auto]. rewrite LL in L.
  destruct (nth_error seqs k) as [q0|] eqn:K0. 2: { apply nth_error_None in K0. lia. } pose proof (N k q0 K0) as [I1 I2 I3].
  assert (NW : forall p qp, nth_error seqs p = Some qp -> exists qp', nth_error (seqs' ++ [x]) p = Some qp' /\ q_type qp' = q_type qp /\ q_code qp' = q_code qp /\ q_parent qp' = q_parent qp /\ (q_link qp' = q_link qp \/ q_link qp' = Some (length seqs) /\ q_link qp = None /\ q_type qp = SStart)).
  { intros p qp E. destruct (in_dec Nat.eq_dec p P) as [IP|IP].
    - exists (relink qp (Some (length seqs))). split; [apply nth_keep; eapply relinked_in; eauto|]. cbn. destruct (C p IP) as [(q' & E' & T & LN & _) _]. assert (q' = qp) by congruence. subst q'. auto 12.
    - exists qp. split; [apply nth_keep; eapply relinked_other; eauto|]. auto 6. }
  assert (OP : forall p j, (j < length seqs)%nat -> open_at seqs p j -> open_at (seqs' ++ [x]) p j).
  { intros p j J (qp & E & A1 & A2 & A3 & A4). destruct (NW p qp E) as (qp' & E' & T & CD & _ & LK). exists qp'. split; auto. split; auto. rewrite T, CD. split; auto. split; auto. destruct LK as [->|(-> & _)]; auto. right. exists (length seqs). auto. }
  destruct (in_dec Nat.eq_dec k P) as [IP|IP].
  - rewrite (relinked_in _ _ _ _ _ _ R IP K0) in K. injection K as <-. destruct (C k IP) as [(q' & E' & T & LN & SP) CL]. assert (q' = q0) by congruence. subst q'. specialize (CL q0 K0). constructor; cbn [q_parent q_type q_link q_code relink].
    + intros p EP. destruct (I1 p EP) as [O M]. split; [apply OP; auto|]. intros EL. destruct (M EL) as (qp & E & MC). destruct (NW p qp E) as (qp' & E2 & _ & CD & _). exists qp'. rewrite CD. auto.
    + intros _ m Q. injection Q as <-. right. split; auto. exists x. split; [rewrite nth_error_app2, LL, Nat.sub_diag by lia; reflexivity|]. exact CL.
    + intros TE. congruence.
  - rewrite (relinked_other _ _ _ _ _ _ R IP K0) in K. injection K as <-. constructor.
    + intros p EP. destruct (I1 p EP) as [O M]. split; [apply OP; auto|]. intros EL. destruct (M EL) as (qp & E & MC). destruct (NW p qp E) as (qp' & E2 & _ & CD & _). exists qp'. rewrite CD. auto.
    + intros T m EM. destruct (I2 T m EM) as [I|[L2 (e & E & CL)]]; auto. right. split; auto. destruct (NW m e E) as (e' & E2 & T2 & CD & _ & LK). exists e'. split; auto. rewrite T2, CD. destruct CL as [[A B]|CL]; auto. left. split; auto. destruct LK as [->|(_ & LN & _)]; congruence.
    + intros T s ES. destruct (I3 T s ES) as (L2 & b & E & TB & LB & PB & CB). split; auto. destruct (NW s b E) as (b' & E2 & T2 & CD & PP & LK). exists b'. split; auto. rewrite T2, CD, PP. split; auto. split; auto. destruct LK as [->|(_ & LN & _)]; congruence.
Qed.

(** ** The stack of started elements *)
Fixpoint stack_ok (seqs : list sq) (stack : list nat) : Prop :=
  match stack with
  | [] => True
  | s :: rest => started seqs s /\ (forall q, nth_error seqs s = Some q -> q_parent q = hd_error rest) /\ (forall r, In r rest -> (r < s)%nat) /\ stack_ok seqs rest
  end.
Lemma stack_ok_ext : forall seqs seqs' stack, (forall s q, In s stack -> nth_error seqs s = Some q -> nth_error seqs' s = Some q) -> stack_ok seqs stack -> stack_ok seqs' stack.
Proof.
  intros seqs seqs' stack. induction stack as [|s rest IH]; intros H K; cbn [stack_ok] in *; auto. destruct K as ((q & E & K1) & K2 & K3 & K4). pose proof (H s q ltac:(left; auto) E) as E'.
  split; [exists q; auto|]. split; [intros q' Q; assert (q' = q) by congruence; subst; auto|]. split; auto. apply IH; auto. intros s' q' I Q. apply H; auto. right. auto.
Qed.
Lemma stack_app : forall seqs s1 s2, stack_ok seqs (s1 ++ s2) -> stack_ok seqs s2 /\ (forall s, In s s1 -> started seqs s /\ ~ In s s2).
Proof.
  intros seqs s1 s2. induction s1 as [|s s1 IH]; intros H; cbn [app stack_ok] in *. { split; auto. intros s []. }
  destruct H as (H1 & H2 & H3 & H4). destruct (IH H4) as [A B]. split; auto. intros x [<-|I]; auto. split; auto. intros Q. specialize (H3 s ltac:(apply in_or_app; auto)). lia.
Qed.
Lemma started_open : forall seqs seqs' P me x p, relinked P me seqs seqs' -> started seqs p -> ~ In p P -> open_at (seqs' ++ [x]) p (length seqs).
Proof. intros seqs seqs' P me x p R (q & E & T & L & S) N. exists q. split; [apply nth_keep; eapply relinked_other; eauto|]. split; [eapply nth_lt; eauto|]. auto. Qed.
Lemma close_spec : forall stack seqs code me parent seqs' stack' parent', stack_ok seqs stack -> (stack = [] -> parent = None) -> close_loop seqs stack code me parent = Ret (seqs', stack', parent') ->
  exists P, stack = P ++ stack' /\ relinked P me seqs seqs' /\ (forall k q, In k P -> nth_error seqs k = Some q -> may_contain (q_code q) code = false) /\ parent' = hd_error stack' /\ map extent seqs' = map extent seqs /\
    (forall p q, parent' = Some p -> nth_error seqs p = Some q -> may_contain (q_code q) code = true).
Proof.
  induction stack as [|s rest IH]; intros seqs code me parent seqs' stack' parent' S EP H; cbn [close_loop] in H.
  - injection H as <- <- <-. exists []. rewrite EP by auto. split; auto. split; [apply relinked_nil|]. split; [intros k q []|]. split; auto. split; auto. discriminate.
  - cbn [stack_ok] in S. destruct S as (S1 & S2 & S3 & S4). destruct (nth_error seqs s) as [q|] eqn:E; [|discriminate]. destruct (may_contain (q_code q) code) eqn:M.
    + injection H as <- <- <-. exists []. split; auto. split; [apply relinked_nil|]. split; [intros k q' []|]. split; auto. split; auto. intros p q' Q E'. injection Q as <-. congruence.
    + assert (NX : forall k q', nth_error (set_link seqs s (Some me)) k = Some q' -> exists q0, nth_error seqs k = Some q0 /\ q_code q' = q_code q0). { intros k q' Q. rewrite set_link_nth in Q. destruct (nth_error seqs k) as [q0|]; [|discriminate]. exists q0. split; auto. cbn [option_map] in Q. injection Q as <-. destruct (k =? s)%nat; reflexivity. }
      apply IH in H.
      * destruct H as (P & EQ & R & MC & EP' & EX & MP). exists (s :: P). split; [rewrite EQ; reflexivity|]. split.
        { intros k. rewrite (R k). rewrite set_link_nth. destruct (nth_error seqs k) as [q0|]; cbn [option_map existsb]; auto. f_equal. destruct (k =? s)%nat; cbn [orb]; auto. destruct (existsb (Nat.eqb k) P); reflexivity. }
        split. { intros k q0 [<-|I] Q. - congruence. - destruct (nth_error (set_link seqs s (Some me)) k) as [q'|] eqn:Q'. 2: { rewrite set_link_nth, Q in Q'. discriminate. } destruct (NX k q' Q') as (q1 & E1 & C1). assert (q1 = q0) by congruence. subst q1. rewrite <- C1. eapply MC; eauto. }
        split; auto. split; [rewrite EX; apply map_extent_link|]. intros p q0 Q Q0. destruct (nth_error (set_link seqs s (Some me)) p) as [q'|] eqn:Q'. 2: { rewrite set_link_nth, Q0 in Q'. discriminate. } destruct (NX p q' Q') as (q1 & E1 & C1). assert (q1 = q0) by congruence. subst q1. rewrite <- C1. eapply MP; eauto.
      * apply (stack_ok_ext seqs); auto. intros s' q' I Q. rewrite set_link_nth, Q. cbn [option_map]. specialize (S3 s' I). replace (s' =? s)%nat with false by lia. reflexivity.
      * intros ->. rewrite (S2 q eq_refl). reflexivity.
Qed.
Lemma close_returns : forall stack seqs code me parent, stack_ok seqs stack -> exists r, close_loop seqs stack code me parent = Ret r.
Proof.
  induction stack as [|s rest IH]; intros seqs code me parent S; cbn [close_loop]; [eauto|]. cbn [stack_ok] in S. destruct S as ((q & E & _) & S2 & S3 & S4). rewrite E. destruct (may_contain (q_code q) code); [eauto|]. apply IH. apply (stack_ok_ext seqs); auto. intros s' q' I Q. rewrite set_link_nth, Q. cbn [option_map]. specialize (S3 s' I). replace (s' =? s)%nat with false by lia. reflexivity.
Qed.
Lemma end_spec : forall src stack seqs code name r, stack_ok seqs stack -> end_loop src seqs stack code name = Ret r ->
  match r with None => True | Some (s, rest) => exists P q, stack = P ++ s :: rest /\ nth_error seqs s = Some q /\ q_code q = code end.
Proof.
  induction stack as [|s rest IH]; intros seqs code name r S H; cbn [end_loop] in H. { injection H as <-. auto. }
  cbn [stack_ok] in S. destruct S as ((q & E & _) & S2 & S3 & S4). rewrite E in H. destruct ((q_code q =? code) || _) eqn:C.
  - injection H as <-. exists [], q. split; auto. split; auto. destruct (q_code q =? code) eqn:C1; [lia|]. cbn [orb] in C. destruct (q_code q =? e_unknown) eqn:C2; [|discriminate]. destruct (code =? e_unknown) eqn:C3; [|discriminate]. lia.
  - apply IH in H; auto. destruct r as [[s' rest']|]; auto. destruct H as (P & q' & -> & E' & C'). exists (s :: P), q'. auto.
Qed.
Lemma end_returns : forall src stack seqs code name, stack_ok seqs stack -> exists r, end_loop src seqs stack code name = Ret r.
Proof. induction stack as [|s rest IH]; intros seqs code name S; cbn [end_loop]; [eauto|]. cbn [stack_ok] in S. destruct S as ((q & E & _) & S2 & S3 & S4). rewrite E. destruct (_ || _); eauto. Qed.
