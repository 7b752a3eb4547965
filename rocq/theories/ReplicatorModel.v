(** Model of stdex::stream::replicator (include/stdex/stream.hpp:1084-1243): the thread that calls
    the replicator and one worker thread per attached sink.

    A worker holds its mutex from the moment it sees an operation until it has performed it on its
    sink and cleared it (1184-1201), so that is one step; posting an operation, and checking for its
    completion, are the critical sections of the calling thread.  A condition_variable wait is a
    sleeping state that ends by a notification or spuriously; the notifications, which the code sends
    after unlocking, are steps of their own, and either thread may be the one waiting on the
    worker's condition variable.

    Sinks are distinct streams with states of type S and operations given by [D], [d_close],
    [d_flush] (1:1 with the virtual functions).  Not modelled: the data buffer is a value (the
    caller is blocked in write while it is used), std::system_error when a thread cannot be made. *)
From Verif Require Import Base StreamModel.

Section Replicator.
Context {S : Type} (D : dev S) (d_close d_flush : S -> S).

(** stream.hpp:1208-1214 *)
Inductive op : Type := ONoop | OQuit | OWrite (d : list Z) | OClose | OFlush.
Definition is_call (o : op) : Prop := match o with ONoop | OQuit => False | _ => True end.

(** Where a worker thread is: before taking the lock in 1184; asleep in 1185; after 1201, before the
    notification in 1202; returned. *)
Inductive wpc : Type := WLock | WSleep | WNote | WExit.
(** stream.hpp:1207-1219 *)
Record worker : Type := Wk { w_src : S; w_op : op; w_nw : nat; w_pc : wpc }.

(** stream.hpp:1186-1199: the sink and num_written after the operation *)
Definition perform (o : op) (s : S) (nw : nat) : S * nat :=
  match o with
  | OWrite d => d_write D s d
  | OClose => (d_close s, nw)
  | OFlush => (d_flush s, nw)
  | ONoop | OQuit => (s, nw)
  end.

(** Where the calling thread is.  [o] is the operation of the call, [i] the position of the worker
    it is dealing with, [n] and [st] are num_written and m_state. *)
Inductive mpc : Type :=
| MIdle                                          (* between calls *)
| MPost (o : op) (i : nat)                       (* before the lock in 1135 / 1227 (1092 for the destructor) *)
| MNote (o : op) (i : nat)                       (* before the notification in 1140 / 1230 (1095) *)
| MWait (o : op) (i : nat) (n : nat) (st : sstate)  (* before checking the predicate in 1147 / 1236 *)
| MSleep (o : op) (i : nat) (n : nat) (st : sstate) (* asleep there *)
| MJoin (i : nat)                                (* 1098, destructor *)
| MRemoveNote (i : nat) | MRemoveJoin (i : nat)   (* 1117-1123 *)
| MGone.

(** What the caller has done and been told. *)
Inductive event : Type :=
| EPush (s : S)
| ERemove (i : nat)
| ECall (o : op) (n : nat) (st : sstate).

Record state : Type := St { ws : list worker; main : mpc; hist : list event }.
Definition init : state := St [] MIdle [].

Fixpoint set_nth {A} (l : list A) (i : nat) (x : A) : list A :=
  match l, i with
  | [], _ => []
  | _ :: r, O => x :: r
  | a :: r, Datatypes.S i' => a :: set_nth r i' x
  end.
Fixpoint del_nth {A} (l : list A) (i : nat) : list A :=
  match l, i with
  | [], _ => []
  | _ :: r, O => r
  | a :: r, Datatypes.S i' => a :: del_nth r i'
  end.

Definition set_op (w : worker) (o : op) : worker := Wk (w_src w) o (w_nw w) (w_pc w).
Definition set_pc (w : worker) (p : wpc) : worker := Wk (w_src w) (w_op w) (w_nw w) p.

(** cv.notify_one() of worker i: wakes one of the threads asleep on it; [notify i a b] with a, b the
    workers and the position of the calling thread before and after. *)
Inductive notify (i : nat) : list worker * mpc -> list worker * mpc -> Prop :=
| nt_worker : forall l m w, nth_error l i = Some w -> w_pc w = WSleep ->
    notify i (l, m) (set_nth l i (set_pc w WLock), m)
| nt_main : forall l o n st, notify i (l, MSleep o i n st) (l, MWait o i n st)
| nt_none : forall l m, (forall w, nth_error l i = Some w -> w_pc w <> WSleep) ->
    (forall o n st, m <> MSleep o i n st) -> notify i (l, m) (l, m).

(** What a call starts with: stream.hpp:1142-1143 (write), 1232; num_written plays no role in close and flush *)
Definition start_n (o : op) : nat := match o with OWrite d => length d | _ => O end.
(** stream.hpp:1148-1149 *)
Definition next_n (o : op) (n nw : nat) : nat :=
  match o with OWrite _ => if (nw <? n)%nat then nw else n | _ => n end.
(** stream.hpp:1150-1151 for write, 1237-1238 for close and flush *)
Definition next_st (o : op) (st src : sstate) : sstate :=
  match o with
  | OWrite _ => if is_ok st && negb (is_ok src) then src else st
  | _ => if is_ok st then src else st
  end.

(** Steps: the caller begins a call or makes a change; a thread is woken without a notification;
    anything else. *)
Inductive kind : Type := KStart | KSpurious | KWork.

Inductive step : kind -> state -> state -> Prop :=
(* worker k: process_op, stream.hpp:1181-1204 *)
| sp_sleep : forall l m h k w, nth_error l k = Some w -> w_pc w = WLock -> w_op w = ONoop ->
    step KWork (St l m h) (St (set_nth l k (set_pc w WSleep)) m h)
| sp_run : forall l m h k w s' nw', nth_error l k = Some w -> w_pc w = WLock -> is_call (w_op w) ->
    perform (w_op w) (w_src w) (w_nw w) = (s', nw') ->
    step KWork (St l m h) (St (set_nth l k (Wk s' ONoop nw' WNote)) m h)
| sp_quit : forall l m h k w, nth_error l k = Some w -> w_pc w = WLock -> w_op w = OQuit ->
    step KWork (St l m h) (St (set_nth l k (set_pc w WExit)) m h)
| sp_note : forall l m h k w l' m', nth_error l k = Some w -> w_pc w = WNote ->
    notify k (set_nth l k (set_pc w WLock), m) (l', m') ->
    step KWork (St l m h) (St l' m' h)
| sp_spur_w : forall l m h k w, nth_error l k = Some w -> w_pc w = WSleep ->
    step KSpurious (St l m h) (St (set_nth l k (set_pc w WLock)) m h)
(* write, close, flush: stream.hpp:1129-1164, 1222-1240; the destructor posts to all: 1089-1096 *)
| sp_call : forall l h o, o <> ONoop -> step KStart (St l MIdle h) (St l (MPost o 0) h)
| sp_post : forall l h o i w, nth_error l i = Some w ->
    step KWork (St l (MPost o i) h) (St (set_nth l i (set_op w o)) (MNote o i) h)
| sp_post_note : forall l h o i l' m', notify i (l, MPost o (i + 1)) (l', m') ->
    step KWork (St l (MNote o i) h) (St l' m' h)
| sp_posted : forall l h o, is_call o ->
    step KWork (St l (MPost o (length l)) h) (St l (MWait o 0 (start_n o) StOk) h)
| sp_wait : forall l h o i n st w, nth_error l i = Some w -> w_op w = ONoop ->
    step KWork (St l (MWait o i n st) h)
      (St l (MWait o (i + 1) (next_n o n (w_nw w)) (next_st o st (d_state D (w_src w)))) h)
| sp_wait_sleep : forall l h o i n st w, nth_error l i = Some w -> w_op w <> ONoop ->
    step KWork (St l (MWait o i n st) h) (St l (MSleep o i n st) h)
| sp_spur_m : forall l h o i n st, step KSpurious (St l (MSleep o i n st) h) (St l (MWait o i n st) h)
| sp_return : forall l h o n st,
    step KWork (St l (MWait o (length l) n st) h) (St l MIdle (h ++ [ECall o n st]))
(* the destructor joins: stream.hpp:1097-1098 *)
| sp_dtor : forall l h, step KWork (St l (MPost OQuit (length l)) h) (St l (MJoin 0) h)
| sp_join : forall l h i w, nth_error l i = Some w -> w_pc w = WExit ->
    step KWork (St l (MJoin i) h) (St l (MJoin (i + 1)) h)
| sp_gone : forall l h, step KWork (St l (MJoin (length l)) h) (St l MGone h)
(* push_back: stream.hpp:1104-1107 with the constructor 1170-1178 *)
| sp_push : forall l h s,
    step KStart (St l MIdle h) (St (l ++ [Wk s ONoop 0 WLock]) MIdle (h ++ [EPush s]))
(* remove, for the worker i found by the loop in 1114-1116: stream.hpp:1117-1124 *)
| sp_remove : forall l h i w, nth_error l i = Some w ->
    step KStart (St l MIdle h) (St (set_nth l i (set_op w OQuit)) (MRemoveNote i) h)
| sp_remove_note : forall l h i l' m', notify i (l, MRemoveJoin i) (l', m') ->
    step KWork (St l (MRemoveNote i) h) (St l' m' h)
| sp_remove_join : forall l h i w, nth_error l i = Some w -> w_pc w = WExit ->
    step KWork (St l (MRemoveJoin i) h) (St (del_nth l i) MIdle (h ++ [ERemove i])).

Inductive reachable : state -> Prop :=
| reach_init : reachable init
| reach_step : forall k a b, reachable a -> step k a b -> reachable b.

End Replicator.
Arguments EPush {S}. Arguments ERemove {S}. Arguments ECall {S}. Arguments state S : clear implicits.
