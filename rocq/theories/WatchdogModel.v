(** Model of stdex::watchdog (include/stdex/watchdog.hpp:20-101): its thread, any number of threads
    calling reset(), and the destructor; time passes between any two steps.

    A critical section of m_mutex is one step.  wait_for(lk, timeout, pred) is
      [while (!pred()) if (wait_until(lk, begin + timeout) == timeout) return pred();  return true;]
    as the standard defines it; waiting ends by a notification, by the deadline or for no reason.
    Not modelled: exceptions of the callback, a callback that does not return or that destroys the
    watchdog, destruction while a reset() is running (undefined), clocks that go backwards. *)
From Verif Require Import Base.

Inductive wkind : Type := KStart | KSpurious | KTick | KWork.

(** The watchdog's thread: run() (lines 67-91).  p is its variable phase, dl the deadline of
    wait_for. *)
Inductive wpos : Type :=
| WTop                                (* before line 72 *)
| WAsleep (p dl : Z)                  (* waiting in line 74 *)
| WAwake (p dl : Z) (expired : bool)  (* the wait has ended, m_mutex not yet taken again *)
| WFire (p : Z)                       (* before line 82 *)
| WCall (p : Z)                       (* in the callback *)
| WTop2 (p : Z)                       (* before line 85 *)
| WAsleep2 (p : Z)                    (* waiting in line 86 *)
| WAwake2 (p : Z)
| WDone.

(** The destructor (lines 41-50): not called yet; before notify_one; before join; returned. *)
Inductive dpos : Type := DAlive | DNotify | DJoin | DGone.

(** What a user sees: reset() has counted, the callback is called. *)
Inductive wevent : Type := Reset | Call.

Record wdog : Type := Wd {
  phase : Z;                     (* m_phase, a size_t *)
  wquit : bool;                  (* m_quit *)
  now : Z;                       (* the clock *)
  pos : wpos;
  resets_pending : nat;          (* reset() calls before their notify_one *)
  dtor : dpos;
  events : list (Z * wevent) }.  (* with their times, oldest first *)

(** m_cv.notify_one(): only the watchdog's thread ever waits *)
Definition wake (w : wpos) : wpos :=
  match w with WAsleep p dl => WAwake p dl false | WAsleep2 p => WAwake2 p | _ => w end.

Section Watchdog.
Variable timeout : Z.

(** watchdog.hpp:30-36 *)
Definition wdog_init (t : Z) : wdog := Wd 0 false t WTop 0 DAlive [].

(** lines 72-74, up to the wait *)
Definition top (q : bool) (ph t : Z) : wpos := if q then WDone else WAsleep ph (t + timeout).
(** after waking in line 74 *)
Definition resume (q : bool) (ph p dl : Z) (expired : bool) : wpos :=
  if q || negb (p =? ph) then if q then WDone else WTop
  else if expired then WFire p else WAsleep p dl.
(** lines 85-88: before the wait, and after waking *)
Definition top2 (q : bool) (ph p : Z) : wpos :=
  if q || negb (p =? ph) then if q then WDone else WTop else WAsleep2 p.

Inductive wstep : wkind -> wdog -> wdog -> Prop :=
| wd_tick : forall ph q t w n d l dt, 0 < dt -> wstep KTick (Wd ph q t w n d l) (Wd ph q (t + dt) w n d l)
  (* reset: watchdog.hpp:57-64 *)
| wd_reset : forall ph q t w n l,
    wstep KStart (Wd ph q t w n DAlive l) (Wd (u64 (ph + 1)) q t w (S n) DAlive (l ++ [(t, Reset)]))
| wd_reset_notify : forall ph q t w n d l, wstep KWork (Wd ph q t w (S n) d l) (Wd ph q t (wake w) n d l)
  (* destructor: watchdog.hpp:41-50 *)
| wd_dtor : forall ph q t w l, wstep KStart (Wd ph q t w 0 DAlive l) (Wd ph true t w 0 DNotify l)
| wd_dtor_notify : forall ph q t w n l, wstep KWork (Wd ph q t w n DNotify l) (Wd ph q t (wake w) n DJoin l)
| wd_join : forall ph q t n l, wstep KWork (Wd ph q t WDone n DJoin l) (Wd ph q t WDone n DGone l)
  (* run: watchdog.hpp:67-91 *)
| wd_top : forall ph q t n d l, wstep KWork (Wd ph q t WTop n d l) (Wd ph q t (top q ph t) n d l)
| wd_expire : forall ph q t n d l p dl, dl <= t -> wstep KWork (Wd ph q t (WAsleep p dl) n d l) (Wd ph q t (WAwake p dl true) n d l)
| wd_spurious : forall ph q t n d l p dl, wstep KSpurious (Wd ph q t (WAsleep p dl) n d l) (Wd ph q t (WAwake p dl false) n d l)
  (* woken and found to be late as well *)
| wd_late : forall ph q t n d l p dl, dl <= t -> wstep KWork (Wd ph q t (WAwake p dl false) n d l) (Wd ph q t (WAwake p dl true) n d l)
| wd_resume : forall ph q t n d l p dl e, wstep KWork (Wd ph q t (WAwake p dl e) n d l) (Wd ph q t (resume q ph p dl e) n d l)
| wd_call : forall ph q t n d l p, wstep KWork (Wd ph q t (WFire p) n d l) (Wd ph q t (WCall p) n d (l ++ [(t, Call)]))
| wd_return : forall ph q t n d l p, wstep KWork (Wd ph q t (WCall p) n d l) (Wd ph q t (WTop2 p) n d l)
| wd_top2 : forall ph q t n d l p, wstep KWork (Wd ph q t (WTop2 p) n d l) (Wd ph q t (top2 q ph p) n d l)
| wd_spurious2 : forall ph q t n d l p, wstep KSpurious (Wd ph q t (WAsleep2 p) n d l) (Wd ph q t (WAwake2 p) n d l)
| wd_resume2 : forall ph q t n d l p, wstep KWork (Wd ph q t (WAwake2 p) n d l) (Wd ph q t (top2 q ph p) n d l).

Inductive wreach (t0 : Z) : wdog -> Prop :=
| wr_init : wreach t0 (wdog_init t0)
| wr_step : forall k a b, wreach t0 a -> wstep k a b -> wreach t0 b.
End Watchdog.
