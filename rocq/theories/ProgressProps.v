(** C58-C60 and the other progress indicators. *)
From Coq Require Import ZifyBool ZifyNat.
From Verif Require Import Base ProgressModel.
Ltac Zify.zify_post_hook ::= Z.div_mod_to_equations.

(** ** lazy_progress *)
(** A history of set_range(s, e) and, at time t, set(v). *)
Inductive lop : Type := LRange (s e : Z) | LSet (t v : Z).
(** The reports made: time, value, and whether the value was an end of the range then. *)
Fixpoint lazy_run (timeout : Z) (p : lazy) (ops : list lop) : lazy * list (Z * Z * bool) :=
  match ops with
  | [] => (p, [])
  | LRange s e :: r => lazy_run timeout (lazy_set_range p s e) r
  | LSet t v :: r =>
      let (p', b) := lazy_set timeout p t v in
      let (q, l) := lazy_run timeout p' r in
      (q, if b then (t, v, (v =? lz_start p) || (v =? lz_end p)) :: l else l)
  end.
Fixpoint spaced (timeout last value : Z) (l : list (Z * Z * bool)) : Prop :=
  match l with
  | [] => True
  | (t, v, is_end) :: r => (is_end = false -> timeout <= t - last /\ v <> value) /\ spaced timeout t v r
  end.

(** A value strictly inside the range is reported only when the timeout has passed since the report
    before it, and when it differs from that; *)
Theorem lazy_reports_spaced : forall timeout ops p, spaced timeout (lz_last p) (lz_value p) (snd (lazy_run timeout p ops)).
Proof.
  intros timeout ops. induction ops as [|[s e|t v] ops IH]; intros p; cbn [lazy_run]; [exact I|apply (IH (lazy_set_range p s e))|].
  unfold lazy_set. destruct ((v =? lz_start p) || (v =? lz_end p)) eqn:E1.
  - specialize (IH (Lz (lz_start p) (lz_end p) v t)). destruct (lazy_run timeout _ ops). cbn [snd spaced] in *. split; [discriminate|exact IH].
  - destruct (Z.eqb_spec v (lz_value p)) as [E2|E2].
    + specialize (IH p). destruct (lazy_run timeout p ops). exact IH.
    + destruct (Z.ltb_spec (t - lz_last p) timeout) as [E3|E3].
      * specialize (IH p). destruct (lazy_run timeout p ops). exact IH.
      * specialize (IH (Lz (lz_start p) (lz_end p) v t)). destruct (lazy_run timeout _ ops). cbn [snd spaced] in *. split; auto.
Qed.
(** the ends of the range are always reported; *)
Theorem lazy_ends_reported : forall timeout p t v, v = lz_start p \/ v = lz_end p -> snd (lazy_set timeout p t v) = true.
Proof. intros timeout p t v H. unfold lazy_set. replace ((v =? lz_start p) || (v =? lz_end p)) with true by lia. reflexivity. Qed.
(** and a new value inside it is reported once the timeout has passed. *)
Theorem lazy_eventually_reported : forall timeout p t v, v <> lz_value p -> timeout <= t - lz_last p -> snd (lazy_set timeout p t v) = true.
Proof.
  intros timeout p t v H L. unfold lazy_set. destruct (_ || _); [reflexivity|].
  destruct (Z.eqb_spec v (lz_value p)); [contradiction|]. destruct (Z.ltb_spec (t - lz_last p) timeout); [lia|reflexivity].
Qed.
Example lazy_ex : snd (lazy_run 500 lazy_init [LRange 0 100; LSet 1000 0; LSet 1100 1; LSet 1600 2; LSet 1700 3; LSet 1750 100]) =
  [(1000, 0, true); (1600, 2, false); (1750, 100, true)].
Proof. reflexivity. Qed.

(** ** timeout_progress *)
Theorem timeout_cancel_iff : forall host deadline now, timeout_cancel host deadline now = true <-> host = Some true \/ deadline < now.
Proof. intros [[]|] deadline now; unfold timeout_cancel; cbn; rewrite ?Z.ltb_lt; intuition (discriminate || auto). Qed.

(** ** global_progress *)
Definition good_range (i : Z * Z) : Prop := 0 <= fst i /\ fst i <= snd i /\ snd i < M64.

Lemma isize_good : forall i, good_range i -> isize i = snd i - fst i.
Proof. intros i H. unfold isize, good_range, u64 in *. destruct (Z.leb_spec (fst i) (snd i)); [rewrite Z.mod_small; lia|lia]. Qed.

(** C60: within its range a value is mapped into the section, linearly (rounded down), ... *)
Theorem global_progress_maps : forall lo sec v, good_range lo -> good_range sec -> fst lo < snd lo -> fst lo <= v <= snd lo ->
  (v - fst lo) * (snd sec - fst sec) < M64 ->
  exists r, global_set lo sec v = Some r /\ fst sec <= r <= snd sec /\
    (r - fst sec) * (snd lo - fst lo) <= (v - fst lo) * (snd sec - fst sec) < (r - fst sec + 1) * (snd lo - fst lo).
Proof.
  intros lo sec v Hl Hs Hlt Hv Hm. unfold global_set. rewrite !isize_good by auto.
  destruct (Z.eqb_spec (snd lo - fst lo) 0); [lia|]. eexists. split; [reflexivity|].
  destruct lo as [a b], sec as [c d]. unfold good_range in *; cbn [fst snd] in *.
  rewrite (u64_small (v - a)) by lia. rewrite (u64_small ((v - a) * (d - c))) by nia.
  set (q := (v - a) * (d - c) / (b - a)).
  assert (Hq : (b - a) * q <= (v - a) * (d - c) < (b - a) * (q + 1)).
  { subst q. pose proof (Z.mul_div_le ((v - a) * (d - c)) (b - a) ltac:(lia)). pose proof (Z.mul_succ_div_gt ((v - a) * (d - c)) (b - a) ltac:(lia)). nia. }
  assert (0 <= q <= d - c) by nia.
  rewrite u64_small by lia. split; [lia|]. split; nia.
Qed.
(** ... monotonically, start to start and end to end. *)
Theorem global_progress_monotone : forall lo sec v w r q, good_range lo -> good_range sec -> fst lo < snd lo -> fst lo <= v <= w -> w <= snd lo ->
  (w - fst lo) * (snd sec - fst sec) < M64 -> global_set lo sec v = Some r -> global_set lo sec w = Some q -> r <= q.
Proof.
  intros lo sec v w r q Hl Hs Hlt H1 H2 Hm Er Eq. 
  assert (0 <= snd sec - fst sec) by (unfold good_range in Hs; lia).
  destruct (global_progress_maps lo sec v) as (r' & Er' & A1 & A2); auto; [lia|nia|].
  destruct (global_progress_maps lo sec w) as (q' & Eq' & B1 & B2); auto; [lia|].
  rewrite Er in Er'. rewrite Eq in Eq'. injection Er' as <-. injection Eq' as <-. nia.
Qed.
Theorem global_progress_ends : forall lo sec, good_range lo -> good_range sec -> fst lo < snd lo ->
  (snd lo - fst lo) * (snd sec - fst sec) < M64 ->
  global_set lo sec (fst lo) = Some (fst sec) /\ global_set lo sec (snd lo) = Some (snd sec).
Proof.
  intros lo sec Hl Hs Hlt Hm. 
  assert (0 <= snd sec - fst sec) by (unfold good_range in Hs; lia).
  destruct (global_progress_maps lo sec (fst lo)) as (r' & Er' & A1 & A2); auto; [lia|nia|].
  destruct (global_progress_maps lo sec (snd lo)) as (q' & Eq' & B1 & B2); auto; [lia|].
  rewrite Er', Eq'. split; f_equal; nia.
Qed.
(** When the product does not fit 64 bits none of this holds: progress goes back. *)
Theorem global_progress_overflow_refuted : exists lo sec v w r q, good_range lo /\ good_range sec /\ fst lo < snd lo /\
  fst lo <= v < w /\ w <= snd lo /\ global_set lo sec v = Some r /\ global_set lo sec w = Some q /\ q < r.
Proof.
  exists (0, 2 ^ 33), (0, 2 ^ 33), (2 ^ 31 - 1), (2 ^ 31). eexists. eexists. unfold good_range. cbn [fst snd].
  repeat (split; [first [lia|vm_compute; reflexivity]|]). vm_compute. reflexivity.
Qed.
(** An empty range reports nothing (no division by zero). *)
Theorem global_progress_empty : forall lo sec v, snd lo <= fst lo -> global_set lo sec v = None.
Proof. intros lo sec v H. unfold global_set, isize. destruct (Z.leb_spec (fst lo) (snd lo)); [replace (snd lo - fst lo) with 0 by lia|]; reflexivity. Qed.
Example global_ex : global_set (0, 200) (1000, 1100) 50 = Some 1025.
Proof. reflexivity. Qed.

(** ** progress_switcher: properly nested lifetimes restore the current indicator *)
Inductive nested : list (bool * Z) -> Prop :=      (* true: constructed, false: destroyed *)
| ne_nil : nested []
| ne_one : forall k l, nested l -> ~ In (true, k) l -> ~ In (false, k) l -> nested ((true, k) :: l ++ [(false, k)])
| ne_app : forall l m, nested l -> nested m -> nested (l ++ m).
Definition sw_do (s : switching) (op : bool * Z) : switching := if fst op then sw_construct s (snd op) else sw_destroy s (snd op).
Definition sw_run (ops : list (bool * Z)) (s : switching) : switching := fold_left sw_do ops s.

Lemma sw_other : forall ops s k, ~ In (true, k) ops -> ~ In (false, k) ops -> host_of (sw_run ops s) k = host_of s k.
Proof.
  unfold sw_run. induction ops as [|[b j] ops IH]; intros s k H1 H2; auto. cbn [fold_left].
  rewrite IH by (intros X; first [apply H1; right; exact X|apply H2; right; exact X]).
  assert (k <> j) by (intros ->; destruct b; [apply H1|apply H2]; left; reflexivity).
  destruct b; cbn; destruct (Z.eqb_spec k j); congruence.
Qed.
Theorem switcher_restores : forall ops, nested ops -> forall s, current (sw_run ops s) = current s.
Proof.
  induction 1; intros s; auto.
  - unfold sw_run in *. cbn [fold_left]. rewrite fold_left_app. cbn [fold_left sw_do fst snd].
    change (host_of (sw_run l (sw_construct s k)) k = current s). rewrite sw_other by auto. cbn. rewrite Z.eqb_refl. reflexivity.
  - unfold sw_run in *. rewrite fold_left_app. rewrite IHnested2. auto.
Qed.
(** While a switcher is the current indicator, it reports to the one that was current before. *)
Theorem switcher_reports_to_previous : forall s k, current (sw_construct s k) = k /\ host_of (sw_construct s k) k = current s.
Proof. intros. cbn. rewrite Z.eqb_refl. auto. Qed.
Example nested_ex : nested [(true, 1); (true, 2); (false, 2); (true, 3); (false, 3); (false, 1)].
Proof.
  apply (ne_one 1 [(true, 2); (false, 2); (true, 3); (false, 3)]).
  - apply (ne_app [(true, 2); (false, 2)] [(true, 3); (false, 3)]); [apply (ne_one 2 [])|apply (ne_one 3 [])]; try constructor; intros [].
  - cbn. intuition congruence.
  - cbn. intuition congruence.
Qed.

(** ** aggregate_progress *)
Fixpoint sum (f : nat -> Z) (n : nat) : Z := match n with O => 0 | S k => sum f k + f k end.
Definition w_start (x : Z * Z * Z) := fst (fst x).
Definition w_end (x : Z * Z * Z) := snd (fst x).
Definition w_value (x : Z * Z * Z) := snd x.

Lemma sum_ext : forall n f g, (forall i, (i < n)%nat -> f i = g i) -> sum f n = sum g n.
Proof. induction n; intros f g H; cbn; auto. rewrite (IHn f g) by (intros; apply H; lia). rewrite H by lia. reflexivity. Qed.
Lemma sum_upd : forall n f g i, (i < n)%nat -> (forall j, j <> i -> g j = f j) -> sum g n = sum f n + (g i - f i).
Proof.
  induction n; intros f g i H E; [lia|]. cbn. destruct (Nat.eq_dec i n) as [->|Ne].
  - rewrite (sum_ext n g f) by (intros; apply E; lia). lia.
  - rewrite (IHn f g i) by (auto; lia). rewrite (E n) by auto. lia.
Qed.
Lemma aset_eq : forall A (f : nat -> A) i x, aset f i x i = x.
Proof. intros. unfold aset. rewrite Nat.eqb_refl. reflexivity. Qed.
Lemma aset_ne : forall A (f : nat -> A) i j x, j <> i -> aset f i x j = f j.
Proof. intros. unfold aset. destruct (Nat.eqb_spec j i); [contradiction|reflexivity]. Qed.

Section Aggregate.
Variables (n : nat) (h0 : Z).

Definition sums_ok (a : aggr) : Prop :=
  g_value a = u64 (sum (fun i => w_value (g_w a i)) n) /\
  g_start a = u64 (sum (fun i => w_start (g_w a i)) n) /\
  g_end a = u64 (sum (fun i => w_end (g_w a i)) n).

Lemma add_delta : forall (p : Z * Z * Z -> Z) w i y g, (i < n)%nat -> g = u64 (sum (fun j => p (w j)) n) ->
  u64 (g + u64 (p y - p (w i))) = u64 (sum (fun j => p (aset w i y j)) n).
Proof.
  intros p w i y g Hi ->. rewrite (sum_upd n (fun j => p (w j)) (fun j => p (aset w i y j)) i) by (auto; intros j Hj; rewrite aset_ne by auto; reflexivity).
  rewrite aset_eq. unfold u64. rewrite <- Zplus_mod. reflexivity.
Qed.
Lemma keep_sum : forall (p : Z * Z * Z -> Z) w i y, (i < n)%nat -> p y = p (w i) -> sum (fun j => p (aset w i y j)) n = sum (fun j => p (w j)) n.
Proof. intros p w i y Hi E. apply sum_ext. intros j _. unfold aset. destruct (Nat.eqb_spec j i); congruence. Qed.

(** C58: at every moment the aggregated values are the sums of what the workers have set (modulo
    2^64), whatever calls are running. *)
Theorem aggregate_sums : forall a, areach n h0 a -> sums_ok a.
Proof.
  induction 1 as [|a b R IH S].
  - unfold sums_ok, aggr_init. cbn [g_value g_start g_end g_w]. assert (Z : forall m, sum (fun _ => 0) m = 0) by (induction m; cbn; lia).
    unfold w_value, w_start, w_end. cbn [fst snd]. rewrite Z. auto.
  - destruct IH as (A & B & C). destruct S; unfold sums_ok; cbv zeta; cbn [g_value g_start g_end g_w] in *; auto.
    + split; [|split].
      * apply (add_delta w_value w i (fst (w i), x)); auto.
      * rewrite (keep_sum w_start) by auto. auto.
      * rewrite (keep_sum w_end) by auto. auto.
    + split; [|split].
      * rewrite (keep_sum w_value) by auto. auto.
      * apply (add_delta w_start w i (a, snd (fst (w i)), snd (w i))); auto.
      * rewrite (keep_sum w_end) by auto. auto.
    + split; [|split].
      * rewrite (keep_sum w_value) by auto. auto.
      * rewrite (keep_sum w_start) by auto. auto.
      * apply (add_delta w_end w i (fst (fst (w i)), b, snd (w i))); auto.
Qed.
(** So with sums below 2^64 they are the sums. *)
Corollary aggregate_value : forall a, areach n h0 a -> 0 <= sum (fun i => w_value (g_w a i)) n < M64 ->
  g_value a = sum (fun i => w_value (g_w a i)) n.
Proof. intros a R H. destruct (aggregate_sums a R) as (-> & _). apply u64_small. auto. Qed.

(** While a detach or an attach runs no worker is in a call of the host, and after a detach the old
    host is not called any more. *)
Theorem aggregate_detached : forall a b, areach n h0 a -> g_host a = 0 -> g_main a = MIdle -> astep n a b -> g_calls b = g_calls a.
Proof. intros a b R E M S. inversion S; subst; cbn [g_host g_calls g_main] in *; auto; try discriminate; contradiction. Qed.
Theorem aggregate_exclusive : forall a, areach n h0 a -> g_main a <> MIdle -> no_reader n a.
Proof.
  induction 1 as [|a b R IH S]; [cbn; congruence|].
  destruct S; cbn [g_main] in *; intros M; try congruence; unfold no_reader in *; cbv zeta; cbn [g_th] in *;
    try (intros j Hj; specialize (IH M j Hj); destruct (Nat.eq_dec j i) as [->|]; [rewrite aset_eq; exact Logic.I|rewrite aset_ne by auto; exact IH]; fail);
    auto; apply IH; discriminate.
Qed.
End Aggregate.

(** With one worker the last reported value is the current one whenever the worker is idle. *)
Definition last_set (l : list hcall) : option Z :=
  fold_left (fun r c => match c with HSet _ v => Some v | _ => r end) l None.
Lemma last_set_snoc : forall l c, last_set (l ++ [c]) = match c with HSet _ v => Some v | _ => last_set l end.
Proof. intros. unfold last_set. rewrite fold_left_app. reflexivity. Qed.

Definition one_ok (a : aggr) : Prop :=
  g_host a <> 0 -> g_main a = MIdle ->
  match g_th a 0 with
  | ASet c => c = g_value a
  | _ => last_set (g_calls a) = Some (g_value a)
  end.
Definition one_th (a : aggr) : Prop := match g_th a 0 with ASet c => c = g_value a | _ => True end.
Theorem aggregate_one_worker : forall h0 a, areach 1 h0 a -> g_host a <> 0 -> g_main a = MIdle -> g_th a 0 = AIdle ->
  last_set (g_calls a) = Some (g_value a).
Proof.
  intros h0 a R. assert (H : one_ok a /\ one_th a); [|intros A B C; destruct H as [H _]; specialize (H A B); rewrite C in H; exact H].
  induction R as [|a b R [IH IT] S].
  - split; [|exact I]. unfold one_ok, aggr_init. cbn. intros H _. destruct (Z.eqb_spec h0 0); [contradiction|reflexivity].
  - destruct S; unfold one_ok, one_th in *; cbv zeta; cbn [g_host g_main g_th g_calls g_value] in *;
      try (assert (i = 0%nat) by lia; subst i; rewrite ?aset_eq, ?H0 in *); rewrite ?last_set_snoc; auto.
    + split; auto. intros _ _. subst c. reflexivity.
    + split; auto. intros. contradiction.
    + split; auto. intros Hh Hm. destruct (Z.eqb_spec h' 0); [contradiction|discriminate].
    + split; auto. discriminate.
    + split; auto. intros _ _. destruct (th 0%nat) eqn:E; auto. 
    + split; auto. intros X. contradiction.
Qed.

Tactic Notation "ago" constr(n) uconstr(L) := lazymatch goal with H : areach n 1 ?a |- _ =>
  let S := fresh in let b := fresh in evar (b : aggr);
  assert (S : astep n a b) by (subst b; eapply L; first [reflexivity|lia]);
  apply (ar_step _ _ _ _ H) in S; subst b; clear H; rename S into H;
  cbv zeta in H; cbn [g_host g_start g_end g_value g_w g_th g_main g_calls fst snd app aset Nat.eqb] in H end.

(** C59 is false with two workers: they set 3 and 4, the sum is 7, and the last value the host is told
    is 3; nobody is running any more. *)
Theorem aggregate_last_report_refuted : exists a, areach 2 1 a /\ (forall i, g_th a i = AIdle) /\
  g_value a = 7 /\ last_set (g_calls a) = Some 3.
Proof.
  pose proof (ar_init 2 1) as H. unfold aggr_init in H. cbn [Z.eqb] in H.
  ago 2%nat (ag_set 2 1 0 0 0 _ _ _ _ 0%nat 3). ago 2%nat (ag_set 2 1 0 0 _ _ _ _ _ 1%nat 4).
  ago 2%nat (ag_set_call 2 1 0 0 _ _ _ _ 1%nat). ago 2%nat (ag_set_done 2 1 0 0 _ _ _ _ _ 1%nat).
  ago 2%nat (ag_set_call 2 1 0 0 _ _ _ _ 0%nat). ago 2%nat (ag_set_done 2 1 0 0 _ _ _ _ _ 0%nat).
  eexists. split; [exact H|]. split; [|split; reflexivity]. intros [|[|i]]; reflexivity.
Qed.
(** The host's set is called by two threads at the same time. *)
Theorem aggregate_host_concurrency_refuted : exists a, areach 2 1 a /\ g_th a 0 = AInSet 1 3 /\ g_th a 1 = AInSet 1 7.
Proof.
  pose proof (ar_init 2 1) as H. unfold aggr_init in H. cbn [Z.eqb] in H.
  ago 2%nat (ag_set 2 1 0 0 0 _ _ _ _ 0%nat 3). ago 2%nat (ag_set 2 1 0 0 _ _ _ _ _ 1%nat 4).
  ago 2%nat (ag_set_call 2 1 0 0 _ _ _ _ 1%nat). ago 2%nat (ag_set_call 2 1 0 0 _ _ _ _ 0%nat).
  eexists. split; [exact H|]. split; reflexivity.
Qed.

Print Assumptions lazy_reports_spaced.
Print Assumptions lazy_ends_reported.
Print Assumptions lazy_eventually_reported.
Print Assumptions timeout_cancel_iff.
Print Assumptions global_progress_maps.
Print Assumptions global_progress_monotone.
Print Assumptions global_progress_ends.
Print Assumptions global_progress_overflow_refuted.
Print Assumptions global_progress_empty.
Print Assumptions switcher_restores.
Print Assumptions aggregate_sums.
Print Assumptions aggregate_value.
Print Assumptions aggregate_detached.
Print Assumptions aggregate_exclusive.
Print Assumptions aggregate_one_worker.
Print Assumptions aggregate_last_report_refuted.
Print Assumptions aggregate_host_concurrency_refuted.
