(** Model of stdex::spinlock (include/stdex/spinlock.hpp:21-76), with the memory orders it uses.

    Any number of threads.  m_lock is an atomic<bool>: an exchange reads the latest value; a relaxed
    load may read any value, old or new (more than C++ allows).  What one thread knows about the
    memory written by others is given by a view, as in the release/acquire fragment of the C++20
    memory model: [seen i] is how much of the history of a plain (non-atomic) variable thread i is
    bound to see; store(false, release) attaches the thread's view to the value stored; an exchange
    with acquire order takes over the view attached to the value it reads, and, being a
    read-modify-write, leaves that view attached (it continues the release sequence).

    What the threads do between lock and unlock: they increment a plain variable, by a read that may
    give any value not older than the thread's view, and a write.
    Not modelled: the pause instruction; unlock by a thread that does not hold the lock. *)
From Verif Require Import Base.

Inductive tstate : Type :=
| TOut            (* not using the lock *)
| TExch           (* lock(): before the exchange (line 34) *)
| TSpin           (* lock(): before the load (line 38) *)
| TTry            (* try_lock(): between the load and the exchange (lines 64-65) *)
| TIn             (* holds the lock *)
| TRead (v : nat) (* holds the lock and has read v from the variable *).

Record st : Type := St {
  locked : bool;          (* m_lock (line 24) *)
  rel : nat;              (* the view attached to m_lock's value *)
  th : nat -> tstate;
  seen : nat -> nat;      (* per thread: index in [hist] of the oldest write it may still read *)
  hist : list nat }.      (* all values the variable has had *)

Definition upd {A} (f : nat -> A) (i : nat) (x : A) : nat -> A := fun j => if (j =? i)%nat then x else f j.

(** Nothing is locked; the variable is 0. *)
Definition spin_init : st := St false 0 (fun _ => TOut) (fun _ => 0%nat) [0%nat].

(** m_lock.exchange(true, acquire) by thread i, going on to [won] or [lost] *)
Definition exchange (s : st) (i : nat) (won lost : tstate) : st :=
  St true (rel s) (upd (th s) i (if locked s then lost else won)) (upd (seen s) i (Nat.max (seen s i) (rel s))) (hist s).

(** [step i s s']: a step of thread i *)
Inductive step (i : nat) (s : st) : st -> Prop :=
| s_lock : th s i = TOut -> step i s (St (locked s) (rel s) (upd (th s) i TExch) (seen s) (hist s))
  (* spinlock.hpp:34-35 *)
| s_exch : th s i = TExch -> step i s (exchange s i TIn TSpin)
  (* spinlock.hpp:38: the load gives any b *)
| s_spin : forall b : bool, th s i = TSpin ->
    step i s (St (locked s) (rel s) (upd (th s) i (if b then TSpin else TExch)) (seen s) (hist s))
  (* try_lock: spinlock.hpp:63-65 *)
| s_try : forall b : bool, th s i = TOut ->
    step i s (St (locked s) (rel s) (upd (th s) i (if b then TOut else TTry)) (seen s) (hist s))
| s_tryx : th s i = TTry -> step i s (exchange s i TIn TOut)
  (* the user's critical section *)
| s_read : forall k v, th s i = TIn -> (seen s i <= k)%nat -> nth_error (hist s) k = Some v ->
    step i s (St (locked s) (rel s) (upd (th s) i (TRead v)) (seen s) (hist s))
| s_write : forall v, th s i = TRead v ->
    step i s (St (locked s) (rel s) (upd (th s) i TIn) (upd (seen s) i (length (hist s))) (hist s ++ [S v]))
  (* unlock: spinlock.hpp:73 *)
| s_unlock : th s i = TIn ->
    step i s (St false (seen s i) (upd (th s) i TOut) (seen s) (hist s)).

Inductive reachable : st -> Prop :=
| reach_init : reachable spin_init
| reach_step : forall i s s', reachable s -> step i s s' -> reachable s'.
