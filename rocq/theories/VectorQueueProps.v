(** Final theorems about stdex::vector_queue: properties C01, C02, C03. *)
From Verif Require Import Base VectorQueueModel VectorQueueSpec VectorQueueProofs.

(** C01.  Every history without push_front shows exactly the results of a bounded FIFO list. *)
Theorem vector_queue_fifo : forall (T : Type) (junk : Z -> T) (cap : Z) (ops : list (vq_op T)),
  1 <= cap <= 2 ^ 63 -> args_ok ops -> no_push_front ops ->
  vq_run (vq_new junk cap) ops = spec_run cap [] ops.
Proof.
  intros T junk cap ops Hc Ha Hp. change (2 ^ 63) with 9223372036854775808 in Hc.
  apply run_refines; auto using R_new.
Qed.

(** The hypotheses are met and the run is not trivial: overflow of a queue of capacity 3. *)
Example vector_queue_fifo_ex :
  vq_run (vq_new (fun _ => 0) 3)
    [PushBack 1; PushBack 2; PushBack 3; PushBack 4; Size; At 0; Back; PopFront; At 0; At 2; PopBack; PopBack; PopBack; Empty]
  = [RUnit; RUnit; RUnit; RUnit; RNum 3; RVal 2; RVal 4; RUnit; RVal 3; RThrow; RUnit; RUnit; RThrow; RBool true].
Proof. vm_compute. reflexivity. Qed.

(** C01 (second half).  push_back returns a storage position at which at_abs gives the value. *)
Theorem vector_queue_push_back_pos : forall (T : Type) (junk : Z -> T) (cap : Z) (ops : list (vq_op T)) (v : T),
  1 <= cap <= 2 ^ 63 -> args_ok ops ->
  exists q' pos, vq_push_back (vq_exec (vq_new junk cap) ops) v = Ret (q', pos) /\ vq_at_abs q' pos = Ret v.
Proof.
  intros T junk cap ops v Hc Ha. change (2 ^ 63) with 9223372036854775808 in Hc.
  destruct (exec_R cap ops _ _ (R_new junk cap Hc) Ha) as [l HR].
  destruct (step_push_back _ _ _ v HR) as (q' & pos & E & HR' & Hp & Hv).
  exists q', pos. split; [exact E|]. unfold vq_at_abs.
  destruct (Z.leb_spec (vq_max q') pos) as [Hx|Hx]; [destruct HR'; lia|].
  rewrite (vq_get_ok _ _ _ _ HR') by lia. congruence.
Qed.

(** C02 is violated: with capacity 3, prepending to a one-element queue overwrites the element. *)
Theorem vector_queue_push_front_refuted :
  exists (cap : Z) (ops : list (vq_op Z)),
    1 <= cap <= 2 ^ 63 /\ args_ok ops /\
    vq_run (vq_new (fun _ => 0) cap) ops <> spec_run cap [] ops.
Proof.
  exists 3, [PushBack 1; PushFront 2; At 0; At 1].
  split; [vm_compute; split; discriminate|]. split.
  - intros p H. simpl in H. destruct H as [H|[H|[H|[H|[]]]]]; inversion H; lia.
  - vm_compute. discriminate.
Qed.

(** C02, what holds: when the capacity is a power of two the queue is a bounded deque,
    push_front included. *)
Theorem vector_queue_push_front_partial : forall (T : Type) (junk : Z -> T) (k : Z) (ops : list (vq_op T)),
  0 <= k <= 63 -> args_ok ops ->
  vq_run (vq_new junk (2 ^ k)) ops = spec_run (2 ^ k) [] ops.
Proof.
  intros T junk k ops Hk Ha.
  assert (H : 1 <= 2 ^ k <= 9223372036854775808).
  { change 9223372036854775808 with (2 ^ 63). change 1 with (2 ^ 0) at 1.
    split; apply Z.pow_le_mono_r; lia. }
  apply run_refines; auto using R_new. right. apply pow2_wrap_ok. exact Hk.
Qed.

Example vector_queue_push_front_ex :
  vq_run (vq_new (fun _ => 0) (2 ^ 1)) [PushBack 1; PushFront 2; PushFront 3; At 0; At 1; Size]
  = [RUnit; RUnit; RUnit; RVal 3; RVal 2; RNum 2].
Proof. vm_compute. reflexivity. Qed.

(** C03.  A copy of any reachable queue has the same capacity, shows the same elements, and
    keeps answering like the original; it does not depend on what fresh storage contains. *)
Theorem vector_queue_copy : forall (T : Type) (junk junk2 : Z -> T) (cap : Z) (ops : list (vq_op T)),
  1 <= cap <= 2 ^ 63 -> args_ok ops ->
  let q := vq_exec (vq_new junk cap) ops in
  exists q', vq_copy junk2 q = Ret q' /\ visible q' = visible q /\ vq_capacity q' = cap /\
    (forall ops', args_ok ops' -> no_push_front ops' -> vq_run q' ops' = vq_run q ops').
Proof.
  intros T junk junk2 cap ops Hc Ha q. change (2 ^ 63) with 9223372036854775808 in Hc.
  destruct (copy_visible cap junk junk2 ops Hc Ha) as (q' & E & Hv & Hcap & Hr).
  exists q'. repeat split; auto.
Qed.

(** Copy assignment likewise, whatever the target held before. *)
Theorem vector_queue_assign : forall (T : Type) (junk junk2 : Z -> T) (cap : Z) (ops : list (vq_op T)) (target : vq T),
  1 <= cap <= 2 ^ 63 -> args_ok ops ->
  let q := vq_exec (vq_new junk cap) ops in
  exists q', vq_assign junk2 target q = Ret q' /\ visible q' = visible q /\ vq_capacity q' = cap /\
    (forall ops', args_ok ops' -> no_push_front ops' -> vq_run q' ops' = vq_run q ops').
Proof.
  intros T junk junk2 cap ops target Hc Ha q. exact (vector_queue_copy T junk junk2 cap ops Hc Ha).
Qed.

(** Move: the target continues exactly like the source would have; the source is empty with
    capacity 0. *)
Theorem vector_queue_move : forall (T : Type) (junk junk2 : Z -> T) (cap : Z) (ops ops' : list (vq_op T)),
  let q := vq_exec (vq_new junk cap) ops in
  let r := vq_move junk2 q in
  vq_run (fst r) ops' = vq_run q ops' /\ visible (snd r) = [] /\ vq_size (snd r) = 0 /\ vq_capacity (snd r) = 0.
Proof. intros. repeat split. Qed.

Example vector_queue_copy_ex :
  let q := vq_exec (vq_new (fun _ => 0) 3) [PushBack 1; PushBack 2; PushBack 3; PushBack 4] in
  visible q = [Ret 2; Ret 3; Ret 4] /\
  match vq_copy (fun _ => 99) q with Ret q' => visible q' = [Ret 2; Ret 3; Ret 4] | _ => False end.
Proof. vm_compute. split; reflexivity. Qed.

Print Assumptions vector_queue_fifo.
Print Assumptions vector_queue_push_back_pos.
Print Assumptions vector_queue_push_front_refuted.
Print Assumptions vector_queue_push_front_partial.
Print Assumptions vector_queue_copy.
Print Assumptions vector_queue_assign.
Print Assumptions vector_queue_move.
