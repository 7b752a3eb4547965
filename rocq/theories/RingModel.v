(** Model of stdex::ring<T, N_cap> (include/stdex/ring.hpp) used by one producer thread, one
    consumer thread, any number of threads calling quit() and any number of extra threads
    calling only sync().

    Every critical section of the code (the part executed with m_mutex held) is one atomic step;
    accesses to the elements of the region handed out by back()/front(), which the code does
    outside the mutex, are one step per element; every condition_variable notification, which
    the code does after releasing the mutex, is a step of its own; a thread in
    condition_variable::wait is either asleep (in the wait set) or awake (notified, or woken
    spuriously) and then re-evaluates its predicate under the mutex.
    Simplification: N_cap <= 2^63, so the size_t sum m_head + m_size does not wrap. *)
From Verif Require Import Base.

Section Ring.
Context {T : Type}.
Variable N : Z.   (* N_cap *)

(** The producer thread. *)
Inductive pstate : Type :=
| PIdle                                  (* between calls *)
| PAsleepB | PAwakeB                     (* in back(), waiting on m_head_moved, ring.hpp:47 *)
| PGotNull                               (* back() returned {nullptr, 0} *)
| PHas (t n : Z) (ws : list T)           (* back() returned {&m_data[t], n}; ws already written *)
| PNotify                                (* in push(), before notify_one, ring.hpp:70 *)
| PAsleepS | PAwakeS.                    (* in sync(), waiting on m_head_moved, ring.hpp:128 *)

(** The consumer thread. *)
Inductive cstate : Type :=
| CIdle
| CAsleep | CAwake                       (* in front(), waiting on m_tail_moved, ring.hpp:82 *)
| CGotNull
| CHas (h n : Z) (rs : list T)           (* front() returned {&m_data[h], n}; rs already read *)
| CNotify.                               (* in pop(), before notify_one, ring.hpp:106 *)

(** An extra thread calling sync(). *)
Inductive sstate : Type := SIdle | SAsleep | SAwake | SDone.

(** ring.hpp:149-153 members, plus thread states and two ghost logs: everything ever pushed and
    everything ever popped. *)
Record state : Type := mkst {
  head : Z; size : Z; quit : bool; data : Z -> T;
  prod : pstate; cons : cstate;
  q1 : nat;                              (* threads in quit() before ring.hpp:118 *)
  q2 : nat;                              (* threads in quit() before ring.hpp:119 *)
  syncers : list sstate;
  pushed : list T; popped : list T }.

(** ring.hpp:32-36; m_data is not initialised. *)
Definition init (junk : Z -> T) (n_syncers : nat) : state :=
  mkst 0 0 false junk PIdle CIdle 0 0 (repeat SIdle n_syncers) [] [].

(** ring.hpp:132-136 *)
Definition wrap (idx : Z) : Z := idx mod N.
(** ring.hpp:138-141 *)
Definition space (s : state) : Z := N - size s.
(** ring.hpp:143-146 *)
Definition empty (s : state) : bool := size s =? 0.

(** ring.hpp:51-52 *)
Definition back_region (s : state) : pstate :=
  let tail := wrap (head s + size s) in
  PHas tail (if head s <=? tail then N - tail else head s - tail) [].

(** ring.hpp:45-52, from the call up to sleeping or returning. *)
Definition back_enter (s : state) : pstate :=
  if space s =? 0 then
    if quit s || negb (space s =? 0)
    then (if quit s then PGotNull else back_region s)
    else PAsleepB
  else back_region s.

(** ring.hpp:47-52, after a wake-up. *)
Definition back_resume (s : state) : pstate :=
  if quit s || negb (space s =? 0)
  then (if quit s then PGotNull else back_region s)
  else PAsleepB.

(** ring.hpp:86-87 *)
Definition front_region (s : state) : cstate :=
  let tail := wrap (head s + size s) in
  CHas (head s) (if head s <? tail then size s else N - head s) [].

(** ring.hpp:80-87 *)
Definition front_resume (s : state) : cstate :=
  if quit s || negb (empty s)
  then (if quit s && empty s then CGotNull else front_region s)
  else CAsleep.
Definition front_enter (s : state) : cstate :=
  if empty s then front_resume s else front_region s.

(** ring.hpp:127-128: predicate of sync() *)
Definition sync_done (s : state) : bool := quit s || empty s.

Definition upd (f : Z -> T) (i : Z) (v : T) : Z -> T := fun j => if Z.eqb j i then v else f j.

Definition set_prod (s : state) (p : pstate) : state :=
  mkst (head s) (size s) (quit s) (data s) p (cons s) (q1 s) (q2 s) (syncers s) (pushed s) (popped s).
Definition set_cons (s : state) (c : cstate) : state :=
  mkst (head s) (size s) (quit s) (data s) (prod s) c (q1 s) (q2 s) (syncers s) (pushed s) (popped s).
Definition set_q (s : state) (a b : nat) : state :=
  mkst (head s) (size s) (quit s) (data s) (prod s) (cons s) a b (syncers s) (pushed s) (popped s).
Definition set_syncers (s : state) (l : list sstate) : state :=
  mkst (head s) (size s) (quit s) (data s) (prod s) (cons s) (q1 s) (q2 s) l (pushed s) (popped s).

(** m_tail_moved.notify_one(): only the consumer ever waits on m_tail_moved. *)
Definition notify_tail (s : state) : state :=
  match cons s with CAsleep => set_cons s CAwake | _ => s end.

Definition prod_asleep (s : state) : Prop := prod s = PAsleepB \/ prod s = PAsleepS.

Fixpoint set_nth (l : list sstate) (i : nat) (x : sstate) : list sstate :=
  match l, i with
  | [], _ => []
  | _ :: r, O => x :: r
  | a :: r, S i' => a :: set_nth r i' x
  end.

(** m_head_moved.notify_one(): wakes one sleeping thread, any of them; no effect if there is none. *)
Inductive notify_head : state -> state -> Prop :=
| nh_back : forall s, prod s = PAsleepB -> notify_head s (set_prod s PAwakeB)
| nh_sync : forall s, prod s = PAsleepS -> notify_head s (set_prod s PAwakeS)
| nh_syncer : forall s i, nth_error (syncers s) i = Some SAsleep ->
    notify_head s (set_syncers s (set_nth (syncers s) i SAwake))
| nh_none : forall s, ~ prod_asleep s -> ~ In SAsleep (syncers s) -> notify_head s s.

Inductive step : state -> state -> Prop :=
(* producer *)
| st_back : forall s, prod s = PIdle -> step s (set_prod s (back_enter s))
| st_back_wake : forall s, prod s = PAwakeB -> step s (set_prod s (back_resume s))
| st_back_spurious : forall s, prod s = PAsleepB -> step s (set_prod s PAwakeB)
| st_null_ack : forall s, prod s = PGotNull -> step s (set_prod s PIdle)
| st_write : forall s t n ws x, prod s = PHas t n ws -> Z.of_nat (length ws) < n ->
    step s (mkst (head s) (size s) (quit s) (upd (data s) (t + Z.of_nat (length ws)) x)
              (PHas t n (ws ++ [x])) (cons s) (q1 s) (q2 s) (syncers s) (pushed s) (popped s))
  (* push(k), ring.hpp:60-71, for any k not above what was written *)
| st_push : forall s t n ws k, prod s = PHas t n ws -> (k <= length ws)%nat ->
    step s (mkst (head s) (size s + Z.of_nat k) (quit s) (data s)
              PNotify (cons s) (q1 s) (q2 s) (syncers s) (pushed s ++ firstn k ws) (popped s))
| st_push_notify : forall s, prod s = PNotify -> step s (set_prod (notify_tail s) PIdle)
  (* sync() called by the producer, ring.hpp:125-129 *)
| st_sync : forall s, prod s = PIdle -> step s (set_prod s (if sync_done s then PIdle else PAsleepS))
| st_sync_wake : forall s, prod s = PAwakeS -> step s (set_prod s (if sync_done s then PIdle else PAsleepS))
| st_sync_spurious : forall s, prod s = PAsleepS -> step s (set_prod s PAwakeS)
(* consumer *)
| st_front : forall s, cons s = CIdle -> step s (set_cons s (front_enter s))
| st_front_wake : forall s, cons s = CAwake -> step s (set_cons s (front_resume s))
| st_front_spurious : forall s, cons s = CAsleep -> step s (set_cons s CAwake)
| st_cnull_ack : forall s, cons s = CGotNull -> step s (set_cons s CIdle)
| st_read : forall s h n rs, cons s = CHas h n rs -> Z.of_nat (length rs) < n ->
    step s (set_cons s (CHas h n (rs ++ [data s (h + Z.of_nat (length rs))])))
  (* pop(k), ring.hpp:95-107, for any k not above what was read *)
| st_pop : forall s h n rs k, cons s = CHas h n rs -> (k <= length rs)%nat ->
    step s (mkst (wrap (head s + Z.of_nat k)) (size s - Z.of_nat k) (quit s) (data s)
              (prod s) CNotify (q1 s) (q2 s) (syncers s) (pushed s) (popped s ++ firstn k rs))
| st_pop_notify : forall s s', cons s = CNotify -> notify_head s s' -> step s (set_cons s' CIdle)
(* quit(), ring.hpp:112-120 *)
| st_quit : forall s,
    step s (mkst (head s) (size s) true (data s) (prod s) (cons s) (S (q1 s)) (q2 s)
              (syncers s) (pushed s) (popped s))
| st_quit_head : forall s s' m, q1 s = S m -> notify_head s s' -> step s (set_q s' m (S (q2 s)))
| st_quit_tail : forall s m, q2 s = S m -> step s (set_q (notify_tail s) (q1 s) m)
(* sync() called by an extra thread *)
| st_syncer : forall s i, nth_error (syncers s) i = Some SIdle \/ nth_error (syncers s) i = Some SAwake ->
    step s (set_syncers s (set_nth (syncers s) i (if sync_done s then SDone else SAsleep)))
| st_syncer_spurious : forall s i, nth_error (syncers s) i = Some SAsleep ->
    step s (set_syncers s (set_nth (syncers s) i SAwake)).

Inductive reachable (junk : Z -> T) (n_syncers : nat) : state -> Prop :=
| reach_init : reachable junk n_syncers (init junk n_syncers)
| reach_step : forall s s', reachable junk n_syncers s -> step s s' -> reachable junk n_syncers s'.

End Ring.

Arguments pstate T : clear implicits.
Arguments cstate T : clear implicits.
Arguments state T : clear implicits.
