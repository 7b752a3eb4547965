(** Model of stdex::stream::async_reader and async_writer (include/stdex/stream.hpp:1247-1384): the
    thread using the converter and its worker thread, communicating by a ring<uint8_t, N_cap>.

    The ring is the one of RingModel.v, step for step: the [ring] component of a state moves by the
    steps of that model (critical sections, element accesses, notifications, sleeping and waking).
    What is added is which of its steps each thread takes and when, the source stream, and the
    caller's calls.  An operation of the source stream is one step (only one thread uses the
    source at a time; where the code breaks that, see async_writer::flush, a theorem says so).

    memcpy of a block is one step per byte, interleaved with the other thread's steps.
    Not modelled: N_cap > 2^63; exceptions thrown by the source in the worker (they would end the
    process); a source whose read or write never returns. *)
From Verif Require Import Base StreamModel.
From Verif Require RingModel.

Notation rstate := (RingModel.state Z).
Notation prod := RingModel.prod. Notation cons_ := RingModel.cons.
Notation data := RingModel.data. Notation head := RingModel.head. Notation size := RingModel.size.
Notation pushed := RingModel.pushed. Notation popped := RingModel.popped. Notation rquit := RingModel.quit.
Notation syncers := RingModel.syncers. Notation q1 := RingModel.q1. Notation q2 := RingModel.q2.
Notation set_prod := RingModel.set_prod. Notation set_cons := RingModel.set_cons.

(** The pieces of the ring's operations, as functions of the ring state (ring.hpp). *)
(** ring.hpp: writing the next element of the region from back() *)
Definition r_write (r : rstate) (t n : Z) (ws : list Z) (x : Z) : rstate :=
  RingModel.mkst (head r) (size r) (rquit r) (RingModel.upd (data r) (t + Z.of_nat (length ws)) x)
    (RingModel.PHas t n (ws ++ [x])) (cons_ r) (q1 r) (q2 r) (syncers r) (pushed r) (popped r).
(** ring.hpp:60-69: push(k), up to the notification *)
Definition r_push (r : rstate) (ws : list Z) (k : nat) : rstate :=
  RingModel.mkst (head r) (size r + Z.of_nat k) (rquit r) (data r)
    RingModel.PNotify (cons_ r) (q1 r) (q2 r) (syncers r) (pushed r ++ firstn k ws) (popped r).
(** reading the next element of the region from front() *)
Definition r_read (r : rstate) (h n : Z) (rs : list Z) : rstate :=
  set_cons r (RingModel.CHas h n (rs ++ [data r (h + Z.of_nat (length rs))])).
(** ring.hpp:95-105: pop(k), up to the notification *)
Definition r_pop (N : Z) (r : rstate) (rs : list Z) (k : nat) : rstate :=
  RingModel.mkst (RingModel.wrap N (head r + Z.of_nat k)) (size r - Z.of_nat k) (rquit r) (data r)
    (prod r) RingModel.CNotify (q1 r) (q2 r) (syncers r) (pushed r) (popped r ++ firstn k rs).
(** ring.hpp:112-117: quit(), up to the notifications *)
Definition r_quit (r : rstate) : rstate :=
  RingModel.mkst (head r) (size r) true (data r) (prod r) (cons_ r) (S (q1 r)) (q2 r)
    (syncers r) (pushed r) (popped r).

(** Steps: the caller begins a call (or the destructor); a thread is woken without a notification;
    anything else. *)
Inductive kind : Type := KStart | KSpurious | KWork.

Section Reader.
Context {St : Type} (D : dev St) (N : Z).

(** The worker, async_reader::process (stream.hpp:1293-1307).  Inside back() its position is that of
    the ring's producer. *)
Inductive rwork : Type :=
| WTop                        (* before 1297 *)
| WBack                       (* in back(), or just returned from it *)
| WCopy (rest : list Z)       (* source->read (1300) is storing its bytes; [rest] are still to come *)
| WPush                       (* in push (1301), before its notification *)
| WCheck                      (* before 1302 *)
| WQuit                       (* before quit() in 1303 *)
| WQuit1 | WQuit2             (* in quit(), before its first, second notification *)
| WDone.                      (* returned *)

(** The caller.  [acc] is what was stored in the buffer of this read(length). *)
Inductive ruser : Type :=
| UIdle
| UTop (length : nat) (acc : list Z)      (* before front() in 1274 *)
| UFront (length : nat) (acc : list Z)    (* in front(), or copying the region it returned (1281) *)
| UPop (length : nat) (acc : list Z)      (* in pop (1282), before its notification *)
| UQuit1 | UQuit2                         (* in quit() called by the destructor (1263) *)
| UJoin                                   (* 1264 *)
| UGone.

(** [log]: the reads that returned: what was asked for, the bytes, the state then. *)
Record reader : Type := Rd { rring : rstate; rsrc : St; rw : rwork; ru : ruser; rlog : list (nat * list Z * sstate) }.

(** stream.hpp:1256-1259 *)
Definition reader_init (junk : Z -> Z) (s : St) : reader := Rd (RingModel.init junk 0) s WTop UIdle [].

Inductive reader_step : kind -> reader -> reader -> Prop :=
(* worker *)
| rs_back : forall r s u l, prod r = RingModel.PIdle ->
    reader_step KWork (Rd r s WTop u l) (Rd (set_prod r (RingModel.back_enter N r)) s WBack u l)
| rs_back_wake : forall r s u l, prod r = RingModel.PAwakeB ->
    reader_step KWork (Rd r s WBack u l) (Rd (set_prod r (RingModel.back_resume N r)) s WBack u l)
| rs_back_spurious : forall r s u l, prod r = RingModel.PAsleepB ->
    reader_step KSpurious (Rd r s WBack u l) (Rd (set_prod r RingModel.PAwakeB) s WBack u l)
| rs_null : forall r s u l, prod r = RingModel.PGotNull ->
    reader_step KWork (Rd r s WBack u l) (Rd r s WDone u l)
| rs_read : forall r s u l t n s' b, prod r = RingModel.PHas t n [] ->
    d_read D s (Z.to_nat n) = (s', b) ->
    reader_step KWork (Rd r s WBack u l) (Rd r s' (WCopy b) u l)
| rs_copy : forall r s u l t n ws x rest, prod r = RingModel.PHas t n ws ->
    reader_step KWork (Rd r s (WCopy (x :: rest)) u l) (Rd (r_write r t n ws x) s (WCopy rest) u l)
| rs_push : forall r s u l t n ws, prod r = RingModel.PHas t n ws ->
    reader_step KWork (Rd r s (WCopy []) u l) (Rd (r_push r ws (length ws)) s WPush u l)
| rs_push_notify : forall r s u l, prod r = RingModel.PNotify ->
    reader_step KWork (Rd r s WPush u l) (Rd (set_prod (RingModel.notify_tail r) RingModel.PIdle) s WCheck u l)
| rs_check : forall r s u l,
    reader_step KWork (Rd r s WCheck u l) (Rd r s (if d_ok D s then WTop else WQuit) u l)
| rs_quit : forall r s u l, reader_step KWork (Rd r s WQuit u l) (Rd (r_quit r) s WQuit1 u l)
| rs_quit_head : forall r r' s u l m, q1 r = S m -> RingModel.notify_head r r' ->
    reader_step KWork (Rd r s WQuit1 u l) (Rd (RingModel.set_q r' m (S (q2 r))) s WQuit2 u l)
| rs_quit_tail : forall r s u l m, q2 r = S m ->
    reader_step KWork (Rd r s WQuit2 u l) (Rd (RingModel.set_q (RingModel.notify_tail r) (q1 r) m) s WDone u l)
(* read(length): stream.hpp:1268-1290 *)
| rs_call : forall r s w l len, reader_step KStart (Rd r s w UIdle l) (Rd r s w (UTop len []) l)
| rs_front : forall r s w l len acc, cons_ r = RingModel.CIdle ->
    reader_step KWork (Rd r s w (UTop len acc) l) (Rd (set_cons r (RingModel.front_enter N r)) s w (UFront len acc) l)
| rs_front_wake : forall r s w l len acc, cons_ r = RingModel.CAwake ->
    reader_step KWork (Rd r s w (UFront len acc) l) (Rd (set_cons r (RingModel.front_resume N r)) s w (UFront len acc) l)
| rs_front_spurious : forall r s w l len acc, cons_ r = RingModel.CAsleep ->
    reader_step KSpurious (Rd r s w (UFront len acc) l) (Rd (set_cons r RingModel.CAwake) s w (UFront len acc) l)
  (* 1275-1278: to_read < length when something was read before *)
| rs_end : forall r s w l len acc, cons_ r = RingModel.CGotNull ->
    reader_step KWork (Rd r s w (UFront len acc) l)
      (Rd (set_cons r RingModel.CIdle) s w UIdle
         (l ++ [(len, acc, if (0 <? length acc)%nat || (len =? 0)%nat then StOk else d_state D s)]))
| rs_take : forall r s w l len acc h n rs, cons_ r = RingModel.CHas h n rs ->
    (length rs < Nat.min (Z.to_nat n) (len - length acc))%nat ->
    reader_step KWork (Rd r s w (UFront len acc) l) (Rd (r_read r h n rs) s w (UFront len acc) l)
| rs_pop : forall r s w l len acc h n rs, cons_ r = RingModel.CHas h n rs ->
    length rs = Nat.min (Z.to_nat n) (len - length acc) ->
    reader_step KWork (Rd r s w (UFront len acc) l) (Rd (r_pop N r rs (length rs)) s w (UPop len (acc ++ rs)) l)
| rs_pop_notify : forall r r' s w l len acc, cons_ r = RingModel.CNotify -> RingModel.notify_head r r' ->
    reader_step KWork (Rd r s w (UPop len acc) l)
      (if (len - length acc =? 0)%nat
       then Rd (set_cons r' RingModel.CIdle) s w UIdle (l ++ [(len, acc, StOk)])
       else Rd (set_cons r' RingModel.CIdle) s w (UTop len acc) l)
(* destructor: stream.hpp:1261-1265 *)
| rs_dtor : forall r s w l, reader_step KStart (Rd r s w UIdle l) (Rd (r_quit r) s w UQuit1 l)
| rs_dtor_head : forall r r' s w l m, q1 r = S m -> RingModel.notify_head r r' ->
    reader_step KWork (Rd r s w UQuit1 l) (Rd (RingModel.set_q r' m (S (q2 r))) s w UQuit2 l)
| rs_dtor_tail : forall r s w l m, q2 r = S m ->
    reader_step KWork (Rd r s w UQuit2 l) (Rd (RingModel.set_q (RingModel.notify_tail r) (q1 r) m) s w UJoin l)
| rs_join : forall r s l, reader_step KWork (Rd r s WDone UJoin l) (Rd r s WDone UGone l).

Inductive reader_reach (junk : Z -> Z) (s0 : St) : reader -> Prop :=
| rr_init : reader_reach junk s0 (reader_init junk s0)
| rr_step : forall k a b, reader_reach junk s0 a -> reader_step k a b -> reader_reach junk s0 b.

End Reader.

Section Writer.
Context {St : Type} (D : dev St) (d_flush : St -> St) (N : Z).

(** The worker, async_writer::process (stream.hpp:1365-1379).  Inside front() its position is that of
    the ring's consumer. *)
Inductive wwork : Type :=
| VTop                        (* before 1369 *)
| VFront                      (* in front(), or source->write (1372) is reading the region it returned *)
| VWrote (k : nat)            (* source->write has returned k *)
| VPop                        (* in pop (1373), before its notification *)
| VCheck                      (* before 1374 *)
| VQuit                       (* before quit() in 1375 *)
| VQuit1 | VQuit2
| VDone.

(** The caller.  [rest] is what is still to be written of the data [d] of this write. *)
Inductive wuser : Type :=
| XIdle
| XTop (d rest : list Z)        (* before back() in 1340 *)
| XBack (d rest : list Z)       (* in back(), or copying to the region it returned (1347) *)
| XPush (d rest : list Z)       (* in push (1348), before its notification *)
| XSync                                   (* in ring::sync, called by flush (1360) *)
| XFlush                                  (* before source->flush() in 1361 (1073) *)
| XQuit1 | XQuit2                         (* in quit() called by the destructor (1330) *)
| XJoin                                   (* 1331 *)
| XGone.

(** What the caller has been told: a write of the data [d] took [n] bytes and left a state; a flush. *)
Inductive wevent : Type := EvWrite (d : list Z) (n : nat) (st : sstate) | EvFlush (st : sstate).

(** [failed]: a source->write or source->flush has left the source in a state other than ok (not a
    variable of the code). *)
Record writer : Type := Wr { wring : rstate; wsrc : St; ww : wwork; wu : wuser; wlog : list wevent; failed : bool }.

Definition writer_init (junk : Z -> Z) (s : St) : writer := Wr (RingModel.init junk 0) s VTop XIdle [] false.

Inductive writer_step : kind -> writer -> writer -> Prop :=
(* worker *)
| ws_front : forall r s u l f, cons_ r = RingModel.CIdle ->
    writer_step KWork (Wr r s VTop u l f) (Wr (set_cons r (RingModel.front_enter N r)) s VFront u l f)
| ws_front_wake : forall r s u l f, cons_ r = RingModel.CAwake ->
    writer_step KWork (Wr r s VFront u l f) (Wr (set_cons r (RingModel.front_resume N r)) s VFront u l f)
| ws_front_spurious : forall r s u l f, cons_ r = RingModel.CAsleep ->
    writer_step KSpurious (Wr r s VFront u l f) (Wr (set_cons r RingModel.CAwake) s VFront u l f)
| ws_null : forall r s u l f, cons_ r = RingModel.CGotNull ->
    writer_step KWork (Wr r s VFront u l f) (Wr r s VDone u l f)
| ws_take : forall r s u l f h n rs, cons_ r = RingModel.CHas h n rs -> Z.of_nat (length rs) < n ->
    writer_step KWork (Wr r s VFront u l f) (Wr (r_read r h n rs) s VFront u l f)
| ws_write : forall r s u l f h n rs s' k, cons_ r = RingModel.CHas h n rs -> Z.of_nat (length rs) = n ->
    d_write D s rs = (s', k) ->
    writer_step KWork (Wr r s VFront u l f) (Wr r s' (VWrote k) u l (f || negb (d_ok D s')))
| ws_pop : forall r s u l f h n rs k, cons_ r = RingModel.CHas h n rs ->
    writer_step KWork (Wr r s (VWrote k) u l f) (Wr (r_pop N r rs k) s VPop u l f)
| ws_pop_notify : forall r r' s u l f, cons_ r = RingModel.CNotify -> RingModel.notify_head r r' ->
    writer_step KWork (Wr r s VPop u l f) (Wr (set_cons r' RingModel.CIdle) s VCheck u l f)
| ws_check : forall r s u l f,
    writer_step KWork (Wr r s VCheck u l f) (Wr r s (if d_ok D s then VTop else VQuit) u l f)
| ws_quit : forall r s u l f, writer_step KWork (Wr r s VQuit u l f) (Wr (r_quit r) s VQuit1 u l f)
| ws_quit_head : forall r r' s u l f m, q1 r = S m -> RingModel.notify_head r r' ->
    writer_step KWork (Wr r s VQuit1 u l f) (Wr (RingModel.set_q r' m (S (q2 r))) s VQuit2 u l f)
| ws_quit_tail : forall r s u l f m, q2 r = S m ->
    writer_step KWork (Wr r s VQuit2 u l f) (Wr (RingModel.set_q (RingModel.notify_tail r) (q1 r) m) s VDone u l f)
(* write(data, length): stream.hpp:1334-1356 *)
| ws_call : forall r s w l f d, writer_step KStart (Wr r s w XIdle l f) (Wr r s w (XTop d d) l f)
| ws_back : forall r s w l f d0 d, prod r = RingModel.PIdle ->
    writer_step KWork (Wr r s w (XTop d0 d) l f) (Wr (set_prod r (RingModel.back_enter N r)) s w (XBack d0 d) l f)
| ws_back_wake : forall r s w l f d0 d, prod r = RingModel.PAwakeB ->
    writer_step KWork (Wr r s w (XBack d0 d) l f) (Wr (set_prod r (RingModel.back_resume N r)) s w (XBack d0 d) l f)
| ws_back_spurious : forall r s w l f d0 d, prod r = RingModel.PAsleepB ->
    writer_step KSpurious (Wr r s w (XBack d0 d) l f) (Wr (set_prod r RingModel.PAwakeB) s w (XBack d0 d) l f)
| ws_fail : forall r s w l f d0 d, prod r = RingModel.PGotNull ->
    writer_step KWork (Wr r s w (XBack d0 d) l f)
      (Wr (set_prod r RingModel.PIdle) s w XIdle (l ++ [EvWrite d0 (length d0 - length d) StFail]) f)
| ws_copy : forall r s w l f d0 d t n ws x, prod r = RingModel.PHas t n ws ->
    (length ws < Nat.min (Z.to_nat n) (length d))%nat -> nth_error d (length ws) = Some x ->
    writer_step KWork (Wr r s w (XBack d0 d) l f) (Wr (r_write r t n ws x) s w (XBack d0 d) l f)
| ws_push : forall r s w l f d0 d t n ws, prod r = RingModel.PHas t n ws ->
    length ws = Nat.min (Z.to_nat n) (length d) ->
    writer_step KWork (Wr r s w (XBack d0 d) l f)
      (Wr (r_push r ws (length ws)) s w (XPush d0 (skipn (length ws) d)) l f)
| ws_push_notify : forall r s w l f d0 d, prod r = RingModel.PNotify ->
    writer_step KWork (Wr r s w (XPush d0 d) l f)
      (match d with
       | [] => Wr (set_prod (RingModel.notify_tail r) RingModel.PIdle) s w XIdle (l ++ [EvWrite d0 (length d0) StOk]) f
       | _ :: _ => Wr (set_prod (RingModel.notify_tail r) RingModel.PIdle) s w (XTop d0 d) l f
       end)
(* flush(): stream.hpp:1358-1362, with ring::sync and converter::flush (1071-1075) *)
| ws_sync : forall r s w l f, prod r = RingModel.PIdle ->
    writer_step KStart (Wr r s w XIdle l f)
      (Wr (set_prod r (if RingModel.sync_done r then RingModel.PIdle else RingModel.PAsleepS)) s w XSync l f)
| ws_sync_wake : forall r s w l f, prod r = RingModel.PAwakeS ->
    writer_step KWork (Wr r s w XSync l f)
      (Wr (set_prod r (if RingModel.sync_done r then RingModel.PIdle else RingModel.PAsleepS)) s w XSync l f)
| ws_sync_spurious : forall r s w l f, prod r = RingModel.PAsleepS ->
    writer_step KSpurious (Wr r s w XSync l f) (Wr (set_prod r RingModel.PAwakeS) s w XSync l f)
| ws_synced : forall r s w l f, prod r = RingModel.PIdle ->
    writer_step KWork (Wr r s w XSync l f) (Wr r s w XFlush l f)
| ws_flush : forall r s w l f,
    writer_step KWork (Wr r s w XFlush l f)
      (Wr r (d_flush s) w XIdle (l ++ [EvFlush (d_state D (d_flush s))]) (f || negb (d_ok D (d_flush s))))
(* destructor: stream.hpp:1328-1332 *)
| ws_dtor : forall r s w l f, writer_step KStart (Wr r s w XIdle l f) (Wr (r_quit r) s w XQuit1 l f)
| ws_dtor_head : forall r r' s w l f m, q1 r = S m -> RingModel.notify_head r r' ->
    writer_step KWork (Wr r s w XQuit1 l f) (Wr (RingModel.set_q r' m (S (q2 r))) s w XQuit2 l f)
| ws_dtor_tail : forall r s w l f m, q2 r = S m ->
    writer_step KWork (Wr r s w XQuit2 l f) (Wr (RingModel.set_q (RingModel.notify_tail r) (q1 r) m) s w XJoin l f)
| ws_join : forall r s l f, writer_step KWork (Wr r s VDone XJoin l f) (Wr r s VDone XGone l f).

Inductive writer_reach (junk : Z -> Z) (s0 : St) : writer -> Prop :=
| wr_init : writer_reach junk s0 (writer_init junk s0)
| wr_step : forall k a b, writer_reach junk s0 a -> writer_step k a b -> writer_reach junk s0 b.

End Writer.
