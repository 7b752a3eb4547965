(** Model of stdex::pool (include/stdex/pool.hpp:19-108): any number of threads calling pop, push and
    clear.

    A critical section (of m_mutex in numa_entry, of an entry's spinlock in pop, push and for each
    entry in clear) is one step: mutual exclusion of the spinlock is SpinlockProps.v, that of
    std::mutex is taken for granted.  clear holds m_mutex from its beginning to its end, so
    numa_entry has to wait for it.  The entry found by numa_entry stays valid (a std::map does not
    move its nodes, and no entry is ever removed).
    Not modelled: numa_node() (any node id may be passed), exceptions of T's move constructor,
    destruction of the pool. *)
From Verif Require Import Base.

Section Pool.
Context {T : Type}.

Inductive pthread : Type :=
| PoOut
| PoPop0 (n : Z)              (* pop(n): before numa_entry (line 72) *)
| PoPop (n : Z)               (* pop(n): before the spinlock (line 73) *)
| PoPush0 (n : Z) (x : T)     (* push(x, n): before numa_entry (line 90) *)
| PoPush (n : Z) (x : T)      (* push(x, n): before the spinlock (line 91) *)
| PoClear0                    (* clear(): before m_mutex (line 100) *)
| PoClear (rest : list Z).    (* clear(): entries still to be emptied (line 101) *)

(** What has happened, oldest first. *)
Inductive pevent : Type :=
| EvPush (n : Z) (x : T)
| EvPop (n : Z) (r : option T)           (* None: the default value T() was returned *)
| EvClearBegin (i : nat)                 (* thread i's clear has got m_mutex *)
| EvDropped (n : Z) (xs : list T)        (* clear has removed xs *)
| EvClearEnd (i : nat).

Record pool : Type := Pl {
  mutex : bool;               (* m_mutex is held (by a clear) *)
  keys : list Z;              (* the nodes having an entry in m_available *)
  items : Z -> list T;        (* their lists *)
  pth : nat -> pthread;
  plog : list pevent }.

Definition set {A} (f : nat -> A) (i : nat) (x : A) : nat -> A := fun j => if (j =? i)%nat then x else f j.
Definition setz {A} (f : Z -> A) (i : Z) (x : A) : Z -> A := fun j => if j =? i then x else f j.

Definition pool_init : pool := Pl false [] (fun _ => []) (fun _ => PoOut) [].

(** m_available[numa] (pool.hpp:59): makes an empty entry when there is none *)
Definition with_key (ks : list Z) (n : Z) : list Z := if existsb (Z.eqb n) ks then ks else n :: ks.

Inductive pstep (i : nat) (s : pool) : pool -> Prop :=
| ps_call : forall t, pth s i = PoOut -> match t with PoPop0 _ | PoPush0 _ _ | PoClear0 => True | _ => False end ->
    pstep i s (Pl (mutex s) (keys s) (items s) (set (pth s) i t) (plog s))
  (* numa_entry: pool.hpp:56-60 *)
| ps_pop_entry : forall n, pth s i = PoPop0 n -> mutex s = false ->
    pstep i s (Pl (mutex s) (with_key (keys s) n) (items s) (set (pth s) i (PoPop n)) (plog s))
| ps_push_entry : forall n x, pth s i = PoPush0 n x -> mutex s = false ->
    pstep i s (Pl (mutex s) (with_key (keys s) n) (items s) (set (pth s) i (PoPush n x)) (plog s))
  (* pop: pool.hpp:73-79 *)
| ps_pop : forall n, pth s i = PoPop n ->
    pstep i s (Pl (mutex s) (keys s) (setz (items s) n (tl (items s n))) (set (pth s) i PoOut)
                  (plog s ++ [EvPop n (hd_error (items s n))]))
  (* push: pool.hpp:91-92 *)
| ps_push : forall n x, pth s i = PoPush n x ->
    pstep i s (Pl (mutex s) (keys s) (setz (items s) n (x :: items s n)) (set (pth s) i PoOut)
                  (plog s ++ [EvPush n x]))
  (* clear: pool.hpp:98-106 *)
| ps_clear_begin : pth s i = PoClear0 -> mutex s = false ->
    pstep i s (Pl true (keys s) (items s) (set (pth s) i (PoClear (keys s))) (plog s ++ [EvClearBegin i]))
| ps_clear_entry : forall n rest, pth s i = PoClear (n :: rest) ->
    pstep i s (Pl (mutex s) (keys s) (setz (items s) n []) (set (pth s) i (PoClear rest))
                  (plog s ++ [EvDropped n (items s n)]))
| ps_clear_end : pth s i = PoClear [] ->
    pstep i s (Pl false (keys s) (items s) (set (pth s) i PoOut) (plog s ++ [EvClearEnd i])).

Inductive preach : pool -> Prop :=
| pr_init : preach pool_init
| pr_step : forall i s s', preach s -> pstep i s s' -> preach s'.
End Pool.
