From Verif Require Import Base VectorQueueModel VectorQueueSpec.
From Coq Require Import ZifyBool ZifyNat.

Section P.
Context {T : Type}.

Lemma mod_wrap : forall h p c, 0 <= h < c -> 0 <= p < c ->
  (h + p) mod c = if h + p <? c then h + p else h + p - c.
Proof.
  intros h p c Hh Hp. destruct (h + p <? c) eqn:E.
  - apply Z.mod_small. lia.
  - symmetry. apply Z.mod_unique with (q := 1); lia.
Qed.

Definition idx (q : vq T) (i : Z) : Z :=
  if vq_head q + i <? vq_max q then vq_head q + i else vq_head q + i - vq_max q.

Record R (cap : Z) (q : vq T) (l : list T) : Prop := mkR {
  R_cap : vq_max q = cap;
  R_capb : 1 <= cap <= 9223372036854775808;
  R_head : 0 <= vq_head q < cap;
  R_count : vq_count q = Z.of_nat (length l);
  R_le : Z.of_nat (length l) <= cap;
  R_data : forall i v, nth_error l i = Some v -> vq_data q (idx q (Z.of_nat i)) = v }.

Lemma vq_abs_ok : forall cap q l p, R cap q l -> 0 <= p < cap -> vq_abs q p = Ret (idx q p).
Proof.
  intros cap q l p H Hp. destruct H. unfold vq_abs, idx. rewrite R_cap0 in *.
  destruct (Z.eqb_spec cap 0); [lia|]. f_equal.
  rewrite (u64_small p) by lia. rewrite u64_small by lia.
  apply mod_wrap; lia.
Qed.

Lemma idx_range : forall cap q l p, R cap q l -> 0 <= p < cap -> 0 <= idx q p < cap.
Proof.
  intros cap q l p H Hp. destruct H. unfold idx. rewrite R_cap0.
  destruct (vq_head q + p <? cap) eqn:E; lia.
Qed.

Lemma vq_get_ok : forall cap q l i, R cap q l -> 0 <= i < cap -> vq_get q i = Ret (vq_data q i).
Proof.
  intros cap q l i H Hi. destruct H. unfold vq_get. rewrite R_cap0.
  replace ((0 <=? i) && (i <? cap)) with true by lia. reflexivity.
Qed.

Lemma vq_put_ok : forall cap q l i v, R cap q l -> 0 <= i < cap ->
  vq_put q i v = Ret (mkvq (upd (vq_data q) i v) (vq_head q) (vq_count q) (vq_max q)).
Proof.
  intros cap q l i v H Hi. destruct H. unfold vq_put. rewrite R_cap0.
  replace ((0 <=? i) && (i <? cap)) with true by lia. reflexivity.
Qed.

Lemma nth_error_lt : forall (l : list T) i v, nth_error l i = Some v -> (i < length l)%nat.
Proof. intros. apply nth_error_Some. congruence. Qed.

Lemma R_new : forall junk cap, 1 <= cap <= 9223372036854775808 -> R cap (vq_new junk cap) [].
Proof.
  intros. constructor; simpl; try lia. intros i v Hn. destruct i; discriminate.
Qed.

Lemma removelast_length : forall (l : list T), length (removelast l) = pred (length l).
Proof.
  induction l as [|a l IH]; [reflexivity|]. destruct l; [reflexivity|].
  change (removelast (a :: t :: l)) with (a :: removelast (t :: l)).
  simpl length in *. rewrite IH. reflexivity.
Qed.

Lemma nth_error_removelast : forall (l : list T) i v,
  nth_error (removelast l) i = Some v -> nth_error l i = Some v.
Proof.
  induction l as [|a l IH]; intros i v H; [destruct i; discriminate|].
  destruct l as [|b l]; [destruct i; discriminate|].
  change (removelast (a :: b :: l)) with (a :: removelast (b :: l)) in H.
  destruct i; [exact H|]. simpl in H. change (nth_error (b :: l) i = Some v). apply IH. exact H.
Qed.

Lemma step_push_back : forall cap q l v, R cap q l ->
  exists q' pos, vq_push_back q v = Ret (q', pos) /\ R cap q' (spec_push_back cap l v) /\
    0 <= pos < cap /\ vq_data q' pos = v.
Proof.
  intros cap q l v H. pose proof H as H0. destruct H0 as [Hm Hb Hh Hc Hl Hd].
  unfold vq_push_back, spec_push_back. rewrite Hc, Hm.
  destruct (Z.of_nat (length l) <? cap) eqn:E.
  - rewrite (vq_abs_ok _ _ _ _ H) by lia. simpl.
    pose proof (idx_range _ _ _ (Z.of_nat (length l)) H ltac:(lia)) as Hi.
    rewrite (vq_put_ok _ _ _ _ _ H) by lia. simpl.
    eexists _, _. split; [reflexivity|]. split; [|split; [exact Hi|]].
    + constructor; simpl; try lia.
      * rewrite app_length. simpl. rewrite u64_small by lia. lia.
      * rewrite app_length. simpl. lia.
      * intros i w Hn. pose proof (nth_error_lt _ _ _ Hn) as Hil. rewrite app_length in Hil; simpl in Hil.
        unfold upd, idx; simpl. unfold idx. rewrite Hm.
        destruct (Nat.eq_dec i (length l)) as [->|Hne].
        -- rewrite nth_error_app2 in Hn by lia. rewrite Nat.sub_diag in Hn. injection Hn as Hn; subst w.
           rewrite Z.eqb_refl. reflexivity.
        -- rewrite nth_error_app1 in Hn by lia.
           specialize (Hd _ _ Hn). unfold idx in Hd. rewrite Hm in Hd.
           match goal with |- (if ?a =? ?b then _ else _) = _ => destruct (Z.eqb_spec a b) end; [|exact Hd].
           exfalso. destruct (vq_head q + Z.of_nat i <? cap) eqn:?;
             destruct (vq_head q + Z.of_nat (length l) <? cap) eqn:?; lia.
    + simpl. unfold upd. rewrite Z.eqb_refl. reflexivity.
  - rewrite (vq_put_ok _ _ _ _ _ H) by lia. simpl.
    set (q1 := mkvq _ _ _ _).
    assert (Hcap : Z.of_nat (length l) = cap) by lia.
    unfold vq_abs. simpl. rewrite Hm. destruct (Z.eqb_spec cap 0); [lia|]. simpl.
    eexists _, _. split; [reflexivity|]. split; [|split; [lia|]].
    + assert (Hnew : u64 (vq_head q + u64 1) mod cap = if vq_head q + 1 <? cap then vq_head q + 1 else 0).
      { rewrite (u64_small 1) by lia. rewrite u64_small by lia.
        destruct (vq_head q + 1 <? cap) eqn:E1; [apply Z.mod_small; lia|].
        replace (vq_head q + 1) with cap by lia. apply Z.mod_same; lia. }
      rewrite Hnew.
      destruct l as [|a l]; [simpl in Hcap; lia|]. simpl tl.
      assert (Hlen : length (l ++ [v]) = length (a :: l)) by (rewrite app_length; simpl; lia).
      constructor; simpl; rewrite ?Hlen; try (dif; lia).
      * intros i w Hn. pose proof (nth_error_lt _ _ _ Hn) as Hil. rewrite Hlen in Hil.
        unfold upd, idx. simpl. rewrite Hm.
        destruct (Nat.eq_dec i (length l)) as [->|Hne].
        -- rewrite nth_error_app2 in Hn by lia. rewrite Nat.sub_diag in Hn. injection Hn as Hn; subst w.
           simpl length in Hcap.
           match goal with |- (if ?a =? ?b then _ else _) = _ => destruct (Z.eqb_spec a b) as [|Hx] end; [reflexivity|].
           exfalso. apply Hx. clear Hx.
           dif; lia.
        -- simpl length in *. rewrite nth_error_app1 in Hn by lia.
           specialize (Hd (S i) w Hn). unfold idx in Hd. rewrite Hm in Hd.
           match goal with |- (if ?a =? ?b then _ else _) = _ => destruct (Z.eqb_spec a b) as [Hx|Hx] end.
           ++ exfalso. revert Hx.
              dif; lia.
           ++ rewrite <- Hd. f_equal. clear Hx.
              dif; lia.
    + simpl. unfold upd. rewrite Z.eqb_refl. reflexivity.
Qed.

Lemma step_pop_back : forall cap q l, R cap q l ->
  (l = [] /\ vq_pop_back q = Throw) \/
  (l <> [] /\ exists q', vq_pop_back q = Ret q' /\ R cap q' (removelast l)).
Proof.
  intros cap q l H. pose proof H as [Hm Hb Hh Hc Hl Hd]. unfold vq_pop_back. rewrite Hc.
  destruct l as [|a l].
  - left. split; reflexivity.
  - right. split; [discriminate|]. destruct (Z.eqb_spec (Z.of_nat (length (a :: l))) 0) as [E|E]; [simpl in E; lia|].
    eexists. split; [reflexivity|]. constructor; cbn [set_count vq_max vq_head vq_count]; try assumption; try lia.
    + rewrite removelast_length. rewrite u64_small by (simpl length in *; lia). simpl length. lia.
    + rewrite removelast_length. simpl length in *. lia.
    + intros i w Hn. apply nth_error_removelast in Hn. exact (Hd _ _ Hn).
Qed.

Lemma step_pop_front : forall cap q l, R cap q l ->
  (l = [] /\ vq_pop_front q = Throw) \/
  (exists a r, l = a :: r /\ exists q', vq_pop_front q = Ret q' /\ R cap q' r).
Proof.
  intros cap q l H. pose proof H as [Hm Hb Hh Hc Hl Hd]. unfold vq_pop_front. rewrite Hc.
  destruct l as [|a l].
  - left. split; reflexivity.
  - right. exists a, l. split; [reflexivity|]. simpl length in *.
    destruct (Z.eqb_spec (Z.of_nat (S (length l))) 0) as [E|E]; [lia|].
    unfold vq_abs. rewrite Hm. destruct (Z.eqb_spec cap 0); [lia|]. simpl.
    assert (Hnew : u64 (vq_head q + u64 1) mod cap = if vq_head q + 1 <? cap then vq_head q + 1 else 0).
    { rewrite (u64_small 1) by lia. rewrite u64_small by lia.
      destruct (vq_head q + 1 <? cap) eqn:E1; [apply Z.mod_small; lia|].
      replace (vq_head q + 1) with cap by lia. apply Z.mod_same; lia. }
    rewrite Hnew. eexists. split; [reflexivity|]. constructor; simpl; try lia.
    + rewrite u64_small by lia. lia.
    + intros i w Hn. pose proof (nth_error_lt _ _ _ Hn) as Hil.
      specialize (Hd (S i) w Hn). unfold idx in *. simpl. rewrite Hm in *. rewrite <- Hd. f_equal.
      dif; lia.
Qed.

(** push_front is right as long as the wrapped head -1 lands on cap-1. *)
Lemma step_push_front : forall cap q l v, R cap q l ->
  (vq_head q <> 0 \/ (M64 - 1) mod cap = cap - 1) ->
  exists q' pos, vq_push_front q v = Ret (q', pos) /\ R cap q' (spec_push_front cap l v) /\
    0 <= pos < cap /\ vq_data q' pos = v.
Proof.
  intros cap q l v H Hwrap. pose proof H as [Hm Hb Hh Hc Hl Hd].
  unfold vq_push_front, spec_push_front, vq_abs. rewrite Hm. destruct (Z.eqb_spec cap 0); [lia|]. simpl obind.
  assert (Hnew : u64 (vq_head q + u64 (-1)) mod cap = if vq_head q =? 0 then cap - 1 else vq_head q - 1).
  { change (u64 (-1)) with (M64 - 1).
    destruct (Z.eqb_spec (vq_head q) 0) as [E|E].
    - rewrite E. rewrite u64_small by lia. rewrite Z.add_0_l. destruct Hwrap; lia.
    - unfold u64. replace (vq_head q + (M64 - 1)) with (vq_head q - 1 + 1 * M64) by lia.
      rewrite Z.mod_add by lia. rewrite (Z.mod_small _ M64) by lia. apply Z.mod_small. lia. }
  rewrite Hnew.
  set (h := if vq_head q =? 0 then cap - 1 else vq_head q - 1) in *.
  assert (Hhr : 0 <= h < cap) by (subst h; destruct (vq_head q =? 0) eqn:?; lia).
  simpl set_head. rewrite Hc, Hm. cbn [vq_count vq_max].
  assert (Hidx : forall i, 0 <= i < cap - 1 ->
     (if h + (i + 1) <? cap then h + (i + 1) else h + (i + 1) - cap) =
     (if vq_head q + i <? cap then vq_head q + i else vq_head q + i - cap)).
  { intros i Hi. subst h. destruct (vq_head q =? 0) eqn:?;
     dif; lia. }
  clearbody h.
  destruct (Z.of_nat (length l) <? cap) eqn:E; unfold vq_put; simpl; rewrite ?Hm;
    replace ((0 <=? h) && (h <? cap)) with true by lia; simpl;
    eexists _, _; (split; [reflexivity|]); (split; [|split; [lia|simpl; unfold upd; rewrite Z.eqb_refl; reflexivity]]).
  - constructor; simpl; try lia.
    + rewrite u64_small by lia. lia.
    + intros i w Hn. unfold upd, idx. simpl. destruct i as [|i].
      * simpl in Hn. injection Hn as Hn; subst w. replace (if h + Z.of_nat 0 <? cap then h + Z.of_nat 0 else h + Z.of_nat 0 - cap) with h by (dif; lia).
        rewrite Z.eqb_refl. reflexivity.
      * simpl in Hn. pose proof (nth_error_lt _ _ _ Hn) as Hil. specialize (Hd _ _ Hn). unfold idx in Hd. rewrite Hm in Hd.
        replace (Z.of_nat (S i)) with (Z.of_nat i + 1) by lia.
        rewrite <- Hidx in Hd by lia.
        match goal with |- (if ?a =? ?b then _ else _) = _ => destruct (Z.eqb_spec a b) as [Hx|Hx] end; [|exact Hd].
        exfalso. revert Hx. dif; lia.
  - destruct l as [|a0 l0]; [simpl in *; lia|]. set (l := a0 :: l0) in *.
    match goal with |- R _ ?q' _ => change (R cap q' (v :: removelast l)) end.
    assert (Hlen : length (v :: removelast l) = length l).
    { cbn [length]. rewrite removelast_length. subst l; simpl; lia. }
    constructor; cbn [vq_max vq_head vq_count]; rewrite ?Hlen; try lia.
    + intros i w Hn. unfold upd, idx. simpl. destruct i as [|i].
      * simpl in Hn. injection Hn as Hn; subst w. replace (if h + Z.of_nat 0 <? cap then h + Z.of_nat 0 else h + Z.of_nat 0 - cap) with h by (dif; lia).
        rewrite Z.eqb_refl. reflexivity.
      * pose proof (nth_error_lt _ _ _ Hn) as Hil. rewrite Hlen in Hil. change (nth_error (removelast l) i = Some w) in Hn.
        apply nth_error_removelast in Hn. specialize (Hd _ _ Hn). unfold idx in Hd. rewrite Hm in Hd.
        replace (Z.of_nat (S i)) with (Z.of_nat i + 1) by lia.
        rewrite <- Hidx in Hd by lia.
        match goal with |- (if ?a =? ?b then _ else _) = _ => destruct (Z.eqb_spec a b) as [Hx|Hx] end; [|exact Hd].
        exfalso. revert Hx. dif; lia.
Qed.

Lemma at_ok : forall cap q l pos, R cap q l -> 0 <= pos < M64 ->
  lift_val q (vq_at q pos) = (q, spec_at l pos).
Proof.
  intros cap q l pos H Hp. pose proof H as [Hm Hb Hh Hc Hl Hd]. unfold vq_at, spec_at. rewrite Hc.
  destruct (Z.of_nat (length l) <=? pos) eqn:E.
  - replace ((0 <=? pos) && (pos <? Z.of_nat (length l))) with false by lia. reflexivity.
  - replace ((0 <=? pos) && (pos <? Z.of_nat (length l))) with true by lia.
    rewrite (vq_abs_ok _ _ _ _ H) by lia. simpl.
    rewrite (vq_get_ok _ _ _ _ H) by (apply (idx_range _ _ _ _ H); lia).
    destruct (nth_error l (Z.to_nat pos)) as [w|] eqn:En.
    + specialize (Hd _ _ En). rewrite Z2Nat.id in Hd by lia. simpl. congruence.
    + apply nth_error_None in En. lia.
Qed.

Lemma back_ok : forall cap q l, R cap q l ->
  lift_val q (vq_back q) = (q, match rev l with [] => RThrow | v :: _ => RVal v end).
Proof.
  intros cap q l H. pose proof H as [Hm Hb Hh Hc Hl Hd]. unfold vq_back, vq_tail. rewrite Hc.
  destruct l as [|a0 l0] eqn:El using rev_ind.
  - reflexivity.
  - clear IHl0. rewrite rev_app_distr. simpl. rewrite app_length in *. simpl length in *.
    destruct (Z.eqb_spec (Z.of_nat (length l0 + 1)) 0); [lia|].
    rewrite u64_small by lia. rewrite (vq_abs_ok _ _ _ _ H) by lia. simpl.
    rewrite (vq_get_ok _ _ _ _ H) by (apply (idx_range _ _ _ _ H); lia).
    simpl. f_equal. f_equal.
    replace (Z.of_nat (length l0 + 1) - 1) with (Z.of_nat (length l0)) by lia.
    apply Hd. rewrite nth_error_app2 by lia. rewrite Nat.sub_diag. reflexivity.
Qed.

Definition wrap_ok (cap : Z) : Prop := (M64 - 1) mod cap = cap - 1.

Lemma step_refines : forall cap q l o, R cap q l ->
  (forall p, o = At p -> 0 <= p < M64) ->
  ((forall v, o <> PushFront v) \/ wrap_ok cap) ->
  exists q', fst (vq_step q o) = q' /\ R cap q' (fst (spec_step cap l o)) /\
             snd (vq_step q o) = snd (spec_step cap l o).
Proof.
  intros cap q l o H Ha Hpf. eexists. split; [reflexivity|]. pose proof H as [Hm Hb Hh Hc Hl Hd].
  destruct o as [v|v| | | |pos| | | |]; simpl.
  - destruct (step_push_back _ _ _ v H) as (q' & pos & E & HR & _). rewrite E. simpl. auto.
  - destruct Hpf as [Hpf|Hpf]; [exfalso; apply (Hpf v); reflexivity|].
    destruct (step_push_front _ _ _ v H (or_intror Hpf)) as (q' & pos & E & HR & _). rewrite E. simpl. auto.
  - destruct (step_pop_back _ _ _ H) as [[-> E]|[Hne (q' & E & HR)]]; rewrite E; simpl; auto.
    destruct l; [congruence|]. simpl. auto.
  - destruct (step_pop_front _ _ _ H) as [[-> E]|(a & r & -> & q' & E & HR)]; rewrite E; simpl; auto.
  - split; [|reflexivity]. constructor; simpl; try lia. intros i v Hn; destruct i; discriminate.
  - rewrite (at_ok _ _ _ _ H) by (apply Ha; reflexivity). simpl. auto.
  - assert (E : lift_val q (vq_front q) = (q, match l with [] => RThrow | v :: _ => RVal v end)).
    { unfold vq_front. rewrite Hc. destruct l as [|a l]; [reflexivity|]. simpl.
      rewrite (vq_get_ok _ _ _ _ H) by lia. simpl. f_equal. f_equal.
      specialize (Hd O a eq_refl). unfold idx in Hd. simpl in Hd. rewrite Hm in Hd.
      replace (if vq_head q + Z.of_nat 0 <? cap then vq_head q + Z.of_nat 0 else vq_head q + Z.of_nat 0 - cap)
        with (vq_head q) in Hd by (dif; lia). exact Hd. }
    rewrite E. simpl. auto.
  - rewrite (back_ok _ _ _ H). simpl. auto.
  - split; [exact H|]. unfold vq_size. rewrite Hc. reflexivity.
  - split; [exact H|]. unfold vq_empty. rewrite Hc. destruct l; reflexivity.
Qed.

Lemma run_refines : forall cap ops q l, R cap q l -> args_ok ops ->
  (no_push_front ops \/ wrap_ok cap) ->
  vq_run q ops = spec_run cap l ops /\ R cap (vq_exec q ops) (spec_exec cap l ops).
Proof.
  intros cap ops. induction ops as [|o ops IH]; intros q l H Ha Hpf; simpl; [auto|].
  destruct (step_refines cap q l o H) as (q' & E1 & HR & E2).
  - intros p ->. apply Ha. left; reflexivity.
  - destruct Hpf as [Hpf|]; [left|auto]. intros v ->. apply (Hpf v). left; reflexivity.
  - destruct (vq_step q o) as [q1 r1]. destruct (spec_step cap l o) as [l1 r2]. simpl in *. subst.
    destruct (IH q' l1 HR) as [IH1 IH2].
    + intros p Hp. apply Ha. right; exact Hp.
    + destruct Hpf as [Hpf|]; [left|auto]. intros v Hv. apply (Hpf v). right; exact Hv.
    + rewrite IH1. auto.
Qed.

Lemma R_visible : forall cap q l, R cap q l -> visible q = map Ret l.
Proof.
  intros cap q l H. pose proof H as [Hm Hb Hh Hc Hl Hd]. unfold visible, vq_size. rewrite Hc, Nat2Z.id.
  assert (G : forall k m, (forall i, (i < m)%nat -> vq_at q (Z.of_nat (k + i)) =
             match nth_error (skipn k l) i with Some v => Ret v | None => Throw end) ->
             length (skipn k l) = m ->
             map (fun i => vq_at q (Z.of_nat i)) (seq k m) = map Ret (skipn k l)).
  { intros k m. revert k. induction m; intros k Hk Hlen.
    - destruct (skipn k l); [reflexivity|discriminate].
    - simpl. destruct (skipn k l) as [|a r] eqn:Es; [discriminate|]. simpl.
      pose proof (Hk 0%nat ltac:(lia)) as H0. rewrite Nat.add_0_r in H0. simpl in H0. rewrite H0. f_equal.
      assert (Es' : skipn (S k) l = r).
      { assert (K : forall k (l : list T), skipn (S k) l = tl (skipn k l)).
        { clear. induction k; intros l; [destruct l; reflexivity|]. destruct l; [reflexivity|]. apply (IHk l). }
        rewrite K, Es. reflexivity. }
      rewrite <- Es'. apply IHm.
      + intros i Hi. specialize (Hk (S i) ltac:(lia)). simpl in Hk. rewrite Es'.
        replace (S k + i)%nat with (k + S i)%nat by lia. exact Hk.
      + rewrite Es'. simpl in Hlen. lia. }
  specialize (G O (length l)). simpl skipn in G. apply G; [|reflexivity].
  intros i Hi. simpl. pose proof (at_ok cap q l (Z.of_nat i) H ltac:(lia)) as Hat.
  unfold spec_at in Hat. replace ((0 <=? Z.of_nat i) && (Z.of_nat i <? Z.of_nat (length l))) with true in Hat by lia.
  rewrite Nat2Z.id in Hat. destruct (nth_error l i) as [w|] eqn:En.
  - unfold lift_val in Hat. destruct (vq_at q (Z.of_nat i)); congruence.
  - apply nth_error_None in En. lia.
Qed.

Lemma copy_loop_ok : forall cap src l, R cap src l -> forall n i dst,
  (i + n = length l)%nat ->
  vq_max dst = cap -> vq_head dst = vq_head src -> vq_count dst = vq_count src ->
  (forall j v, (j < i)%nat -> nth_error l j = Some v -> vq_data dst (idx src (Z.of_nat j)) = v) ->
  exists q', vq_copy_loop n (Z.of_nat i) dst src = Ret q' /\ R cap q' l.
Proof.
  intros cap src l H. pose proof H as [Hm Hb Hh Hc Hl Hd].
  induction n as [|n IH]; intros i dst Hi H1 H2 H3 H4.
  - simpl. eexists. split; [reflexivity|]. constructor; try lia.
    intros j v Hn. unfold idx. rewrite H1, H2, <- Hm. apply (H4 j v); [|exact Hn].
    apply nth_error_lt in Hn. lia.
  - simpl. assert (Habs : vq_abs dst (Z.of_nat i) = Ret (idx src (Z.of_nat i))).
    { rewrite <- (vq_abs_ok _ _ _ _ H) by lia. unfold vq_abs. rewrite H1, H2, Hm. reflexivity. }
    rewrite Habs. simpl.
    pose proof (idx_range _ _ _ (Z.of_nat i) H ltac:(lia)) as Hr.
    rewrite (vq_get_ok _ _ _ _ H) by lia. simpl.
    unfold vq_put. rewrite H1. replace ((0 <=? idx src (Z.of_nat i)) && (idx src (Z.of_nat i) <? cap)) with true by lia.
    simpl. replace (Z.of_nat i + 1) with (Z.of_nat (S i)) by lia.
    apply IH; simpl; try assumption; try lia.
    intros j v Hj Hn. unfold upd. destruct (Z.eqb_spec (idx src (Z.of_nat j)) (idx src (Z.of_nat i))) as [E|E].
    + rewrite <- E. apply (Hd _ _ Hn).
    + apply (H4 j v); [|exact Hn]. destruct (Nat.eq_dec j i); [subst; congruence|lia].
Qed.

Lemma copy_ok : forall cap junk src l, R cap src l ->
  exists q', vq_copy junk src = Ret q' /\ R cap q' l.
Proof.
  intros cap junk src l H. pose proof H as [Hm Hb Hh Hc Hl Hd]. unfold vq_copy.
  apply (copy_loop_ok _ _ _ H _ O); simpl; try lia; try reflexivity.
Qed.

Lemma reachable_R : forall cap junk ops, 1 <= cap <= 9223372036854775808 -> args_ok ops ->
  (no_push_front ops \/ wrap_ok cap) ->
  R cap (vq_exec (vq_new junk cap) ops) (spec_exec cap [] ops).
Proof. intros. apply run_refines; auto using R_new. Qed.

(** Every well-formed state represents some list, also after a push_front gone wrong. *)
Lemma WF_R : forall cap q, vq_max q = cap -> 1 <= cap <= 9223372036854775808 ->
  0 <= vq_head q < cap -> 0 <= vq_count q <= cap -> exists l, R cap q l.
Proof.
  intros cap q H1 H2 H3 H4.
  exists (map (fun i => vq_data q (idx q (Z.of_nat i))) (seq 0 (Z.to_nat (vq_count q)))).
  assert (Hl : length (map (fun i => vq_data q (idx q (Z.of_nat i))) (seq 0 (Z.to_nat (vq_count q)))) = Z.to_nat (vq_count q))
    by (rewrite map_length, seq_length; reflexivity).
  constructor; rewrite ?Hl; try lia.
  intros i v Hn. pose proof (nth_error_lt _ _ _ Hn) as Hi. rewrite Hl in Hi.
  rewrite nth_error_map in Hn.
  assert (Hs : nth_error (seq 0 (Z.to_nat (vq_count q))) i = Some i).
  { rewrite nth_error_nth' with (d := O) by (rewrite seq_length; lia). rewrite seq_nth by lia. reflexivity. }
  rewrite Hs in Hn. simpl in Hn. injection Hn as Hn. exact Hn.
Qed.

Lemma push_front_R : forall cap q l v, R cap q l ->
  exists q' pos l', vq_push_front q v = Ret (q', pos) /\ R cap q' l' .
Proof.
  intros cap q l v H. pose proof H as [Hm Hb Hh Hc Hl Hd].
  unfold vq_push_front, vq_abs. rewrite Hm. destruct (Z.eqb_spec cap 0); [lia|]. simpl obind.
  pose proof (Z.mod_pos_bound (u64 (vq_head q + u64 (-1))) cap ltac:(lia)) as Hr.
  set (h := u64 (vq_head q + u64 (-1)) mod cap) in *. clearbody h.
  simpl set_head. rewrite Hc, Hm. cbn [vq_count vq_max].
  destruct (Z.of_nat (length l) <? cap) eqn:E; unfold vq_put; simpl; rewrite ?Hm;
    replace ((0 <=? h) && (h <? cap)) with true by lia; simpl;
    match goal with |- exists q' pos l', Ret (?a, ?b) = _ /\ _ =>
      destruct (WF_R cap a) as [l' HR]; [simpl; lia|lia|simpl; lia|simpl; rewrite ?u64_small by lia; lia|exists a, b, l'] end;
    (split; [reflexivity|assumption]).
Qed.

Lemma exec_R : forall cap ops q l, R cap q l -> args_ok ops -> exists l', R cap (vq_exec q ops) l'.
Proof.
  intros cap ops. induction ops as [|o ops IH]; intros q l H Ha; simpl; [eauto|].
  assert (HR : exists l1, R cap (fst (vq_step q o)) l1).
  { assert (Hd : (forall v, o <> PushFront v) \/ exists v, o = PushFront v)
      by (destruct o; try (left; discriminate); right; eauto).
    destruct Hd as [Hd|[v ->]].
    { destruct (step_refines cap q l o H) as (q' & E1 & HR & E2); [|left; exact Hd|rewrite E1; eauto].
      intros p ->. apply Ha. left. reflexivity. }
    destruct (push_front_R cap q l v H) as (q' & pos & l' & E & HR). simpl. rewrite E. simpl. eauto. }
  destruct HR as [l1 HR]. apply (IH _ l1 HR). intros p Hp. apply Ha. right. exact Hp.
Qed.

Lemma copy_visible : forall cap (junk junk2 : Z -> T) ops, 1 <= cap <= 9223372036854775808 -> args_ok ops ->
  exists q', vq_copy junk2 (vq_exec (vq_new junk cap) ops) = Ret q' /\
     visible q' = visible (vq_exec (vq_new junk cap) ops) /\
     vq_capacity q' = cap /\
     (forall ops', args_ok ops' -> no_push_front ops' \/ wrap_ok cap ->
        vq_run q' ops' = vq_run (vq_exec (vq_new junk cap) ops) ops').
Proof.
  intros cap junk junk2 ops Hc Ha.
  destruct (exec_R cap ops _ _ (R_new junk cap Hc) Ha) as [l HR].
  destruct (copy_ok cap junk2 _ l HR) as (q' & E & HR').
  exists q'. split; [exact E|]. split; [rewrite (R_visible _ _ _ HR), (R_visible _ _ _ HR'); reflexivity|].
  split; [apply HR'|].
  intros ops' Ha' Hp. rewrite (proj1 (run_refines cap ops' _ _ HR' Ha' Hp)).
  symmetry. apply (run_refines cap ops' _ _ HR Ha' Hp).
Qed.

End P.

Lemma pow2_wrap_ok : forall k, 0 <= k <= 63 -> wrap_ok (2 ^ k).
Proof.
  intros k Hk. unfold wrap_ok.
  assert (Hp : 0 < 2 ^ k) by (apply Z.pow_pos_nonneg; lia).
  assert (E : M64 = 2 ^ (64 - k) * 2 ^ k) by (rewrite <- Z.pow_add_r by lia; replace (64 - k + k) with 64 by lia; reflexivity).
  symmetry. apply Z.mod_unique with (q := 2 ^ (64 - k) - 1); [lia|]. rewrite E. ring.
Qed.
