(** What a user expects of vector_queue: a deque of at most [cap] elements, oldest first. *)
From Verif Require Import Base VectorQueueModel.

Section Spec.
Context {T : Type}.

(** Appending to a full queue drops the oldest element. *)
Definition spec_push_back (cap : Z) (l : list T) (v : T) : list T :=
  if Z.of_nat (length l) <? cap then l ++ [v] else tl (l ++ [v]).
(** Prepending to a full queue drops the last element. *)
Definition spec_push_front (cap : Z) (l : list T) (v : T) : list T :=
  if Z.of_nat (length l) <? cap then v :: l else removelast (v :: l).

Definition spec_at (l : list T) (pos : Z) : vq_res T :=
  if (0 <=? pos) && (pos <? Z.of_nat (length l)) then
    match nth_error l (Z.to_nat pos) with Some v => RVal v | None => RThrow end
  else RThrow.

Definition spec_step (cap : Z) (l : list T) (o : vq_op T) : list T * vq_res T :=
  match o with
  | PushBack v => (spec_push_back cap l v, RUnit)
  | PushFront v => (spec_push_front cap l v, RUnit)
  | PopBack => match l with [] => (l, RThrow) | _ => (removelast l, RUnit) end
  | PopFront => match l with [] => (l, RThrow) | _ :: r => (r, RUnit) end
  | Clear => ([], RUnit)
  | At pos => (l, spec_at l pos)
  | Front => (l, match l with [] => RThrow | v :: _ => RVal v end)
  | Back => (l, match rev l with [] => RThrow | v :: _ => RVal v end)
  | Size => (l, RNum (Z.of_nat (length l)))
  | Empty => (l, RBool (match l with [] => true | _ => false end))
  end.

Fixpoint spec_run (cap : Z) (l : list T) (ops : list (vq_op T)) : list (vq_res T) :=
  match ops with
  | [] => []
  | o :: ops' => let (l', r) := spec_step cap l o in r :: spec_run cap l' ops'
  end.

Fixpoint spec_exec (cap : Z) (l : list T) (ops : list (vq_op T)) : list T :=
  match ops with
  | [] => l
  | o :: ops' => spec_exec cap (fst (spec_step cap l o)) ops'
  end.

Definition no_push_front (ops : list (vq_op T)) : Prop :=
  forall v, ~ In (PushFront v) ops.

(** size_t arguments *)
Definition args_ok (ops : list (vq_op T)) : Prop :=
  forall p, In (At p) ops -> 0 <= p < M64.

(** The elements a caller sees with at(0), at(1), ..., at(size()-1). *)
Definition visible (q : vq T) : list (outcome T) :=
  map (fun i => vq_at q (Z.of_nat i)) (seq 0 (Z.to_nat (vq_size q))).

End Spec.
