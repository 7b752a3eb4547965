(** Model of stdex::vector_queue<T> (include/stdex/vector_queue.hpp). *)
From Verif Require Import Base.

Section VQ.
Context {T : Type}.

(** vector_queue.hpp:411-415  members m_data, m_head, m_count, m_size_max.
    Simplification: the array is a total function; every access is checked against
    the capacity ([UB] outside), so the values outside are never observed.  A moved-from
    object has m_data = NULL, m_size_max = 0: every access is then [UB]. *)
Record vq : Type := mkvq {
  vq_data : Z -> T;
  vq_head : Z;
  vq_count : Z;
  vq_max : Z }.

Definition upd (f : Z -> T) (i : Z) (v : T) : Z -> T :=
  fun j => if Z.eqb j i then v else f j.

(** vector_queue.hpp:57-62.  [junk] is what default-initialised storage holds. *)
Definition vq_new (junk : Z -> T) (size_max : Z) : vq := mkvq junk 0 0 size_max.

(** vector_queue.hpp:406-409  abs: (m_head + pos) % m_size_max in size_t; %0 is UB. *)
Definition vq_abs (q : vq) (pos : Z) : outcome Z :=
  if Z.eqb (vq_max q) 0 then UB
  else Ret (Z.modulo (u64 (vq_head q + u64 pos)) (vq_max q)).

(** Array accesses m_data[i]. *)
Definition vq_get (q : vq) (i : Z) : outcome T :=
  if (0 <=? i) && (i <? vq_max q) then Ret (vq_data q i) else UB.
Definition vq_put (q : vq) (i : Z) (v : T) : outcome vq :=
  if (0 <=? i) && (i <? vq_max q)
  then Ret (mkvq (upd (vq_data q) i v) (vq_head q) (vq_count q) (vq_max q)) else UB.

(** vector_queue.hpp:158-161 *)
Definition vq_size (q : vq) : Z := vq_count q.
(** vector_queue.hpp:166-169 *)
Definition vq_capacity (q : vq) : Z := vq_max q.
(** vector_queue.hpp:174-177 *)
Definition vq_clear (q : vq) : vq := mkvq (vq_data q) (vq_head q) 0 (vq_max q).
(** vector_queue.hpp:182-185 *)
Definition vq_empty (q : vq) : bool := Z.eqb (vq_count q) 0.

(** vector_queue.hpp:192-196, 203-207 (and const versions 214-229) *)
Definition vq_at (q : vq) (pos : Z) : outcome T :=
  if vq_count q <=? pos then Throw
  else let* i := vq_abs q pos in vq_get q i.

(** vector_queue.hpp:238-242 *)
Definition vq_at_abs (q : vq) (pos : Z) : outcome T :=
  if vq_max q <=? pos then Throw else vq_get q pos.

Definition set_count (q : vq) (c : Z) : vq := mkvq (vq_data q) (vq_head q) c (vq_max q).
Definition set_head (q : vq) (h : Z) : vq := mkvq (vq_data q) h (vq_count q) (vq_max q).

(** vector_queue.hpp:264-277 (and the rvalue version 286-299) *)
Definition vq_push_back (q : vq) (v : T) : outcome (vq * Z) :=
  if vq_count q <? vq_max q then
    let* pos := vq_abs q (vq_count q) in
    let* q1 := vq_put q pos v in
    Ret (set_count q1 (u64 (vq_count q1 + 1)), pos)
  else
    let pos := vq_head q in
    let* q1 := vq_put q pos v in
    let* h := vq_abs q1 1 in
    Ret (set_head q1 h, pos).

(** vector_queue.hpp:304-308 *)
Definition vq_pop_back (q : vq) : outcome vq :=
  if Z.eqb (vq_count q) 0 then Throw else Ret (set_count q (u64 (vq_count q - 1))).

(** vector_queue.hpp:317-324 (and the rvalue version 333-340): abs(-1), i.e. (size_t)-1 *)
Definition vq_push_front (q : vq) (v : T) : outcome (vq * Z) :=
  let* h := vq_abs q (-1) in
  let q1 := set_head q h in
  let q2 := if vq_count q1 <? vq_max q1 then set_count q1 (u64 (vq_count q1 + 1)) else q1 in
  let* q3 := vq_put q2 (vq_head q2) v in
  Ret (q3, vq_head q3).

(** vector_queue.hpp:345-350 *)
Definition vq_pop_front (q : vq) : outcome vq :=
  if Z.eqb (vq_count q) 0 then Throw
  else let* h := vq_abs q 1 in
       Ret (set_count (set_head q h) (u64 (vq_count q - 1))).

(** vector_queue.hpp:355-368 *)
Definition vq_front (q : vq) : outcome T :=
  if Z.eqb (vq_count q) 0 then Throw else vq_get q (vq_head q).

(** vector_queue.hpp:397-401 *)
Definition vq_tail (q : vq) : outcome Z :=
  if Z.eqb (vq_count q) 0 then Throw else vq_abs q (u64 (vq_count q - 1)).

(** vector_queue.hpp:373-384 *)
Definition vq_back (q : vq) : outcome T :=
  let* t := vq_tail q in vq_get q t.

(** The element copying loop of the copy constructor and copy assignment,
    vector_queue.hpp:76-79 and 123-126; [n] iterations starting at index [i]. *)
Fixpoint vq_copy_loop (n : nat) (i : Z) (dst src : vq) : outcome vq :=
  match n with
  | O => Ret dst
  | S n' =>
      let* il := vq_abs dst i in
      let* x := vq_get src il in
      let* dst' := vq_put dst il x in
      vq_copy_loop n' (i + 1) dst' src
  end.

(** vector_queue.hpp:69-80.  [junk]: freshly allocated storage. *)
Definition vq_copy (junk : Z -> T) (other : vq) : outcome vq :=
  vq_copy_loop (Z.to_nat (vq_count other)) 0
    (mkvq junk (vq_head other) (vq_count other) (vq_max other)) other.

(** vector_queue.hpp:113-130 (assignment to a distinct object; the old content of the
    target is only freed, so the result does not depend on it). *)
Definition vq_assign (junk : Z -> T) (this other : vq) : outcome vq :=
  vq_copy_loop (Z.to_nat (vq_count other)) 0
    (mkvq junk (vq_head other) (vq_count other) (vq_max other)) other.

(** vector_queue.hpp:95-106 and 137-153: (new target, new source).
    Simplification: the storage of a move-assignment target, which the code leaks,
    is not represented. *)
Definition vq_move (junk : Z -> T) (other : vq) : vq * vq :=
  (other, mkvq junk 0 0 0).

(** One API call and what the caller sees of it. *)
Inductive vq_op : Type :=
| PushBack (v : T) | PushFront (v : T) | PopBack | PopFront | Clear
| At (pos : Z) | Front | Back | Size | Empty.

Inductive vq_res : Type :=
| RUnit | RVal (v : T) | RNum (n : Z) | RBool (b : bool) | RThrow | RUB.

Definition lift_unit (q : vq) (o : outcome vq) : vq * vq_res :=
  match o with Ret q' => (q', RUnit) | Throw => (q, RThrow) | UB => (q, RUB) end.
Definition lift_val (q : vq) (o : outcome T) : vq * vq_res :=
  match o with Ret v => (q, RVal v) | Throw => (q, RThrow) | UB => (q, RUB) end.

(** The returned storage position of push_back/push_front is not part of this trace
    (see [vq_push_back_pos]). *)
Definition vq_step (q : vq) (o : vq_op) : vq * vq_res :=
  match o with
  | PushBack v => lift_unit q (let* r := vq_push_back q v in Ret (fst r))
  | PushFront v => lift_unit q (let* r := vq_push_front q v in Ret (fst r))
  | PopBack => lift_unit q (vq_pop_back q)
  | PopFront => lift_unit q (vq_pop_front q)
  | Clear => (vq_clear q, RUnit)
  | At pos => lift_val q (vq_at q pos)
  | Front => lift_val q (vq_front q)
  | Back => lift_val q (vq_back q)
  | Size => (q, RNum (vq_size q))
  | Empty => (q, RBool (vq_empty q))
  end.

Fixpoint vq_run (q : vq) (ops : list vq_op) : list vq_res :=
  match ops with
  | [] => []
  | o :: ops' => let (q', r) := vq_step q o in r :: vq_run q' ops'
  end.

Fixpoint vq_exec (q : vq) (ops : list vq_op) : vq :=
  match ops with
  | [] => q
  | o :: ops' => vq_exec (fst (vq_step q o)) ops'
  end.

End VQ.

Arguments vq T : clear implicits.
Arguments vq_op T : clear implicits.
Arguments vq_res T : clear implicits.
