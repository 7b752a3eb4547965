(** Model of the ownership of descriptors: basic_sys_object (include/stdex/system.hpp:140-203, POSIX) with the traits of
    sys_object (92-135) and of stdex::socket (include/stdex/socket.hpp:36-58), and stream::socket (include/stdex/stream.hpp:
    2360-2406, 2474-2481).

    A world has the objects that live, by number, with m_h of each, and the descriptors that are open.  An operation carries the
    answers of the system calls it makes: a descriptor or none for dup, whether close succeeds.  Simplification: close(2)
    releases the descriptor also when it fails, as Linux does; EBADF, which the traits take for success, is a close of a
    descriptor that is not open. *)
From Verif Require Import Base.

Definition invalid_handle : Z := -1.
Record world : Type := World { objs : nat -> option Z; opened : list Z }.
Definition put (f : nat -> option Z) (i : nat) (x : option Z) : nat -> option Z := fun j => if (j =? i)%nat then x else f j.
(** what an operation does: it ends, it throws, it ends the program (a throw in a noexcept function) *)
Inductive res : Type := Done | Raised | Terminated.

Inductive op : Type :=
| ONew (i : nat) (h : Z)                       (* from a descriptor just opened, or none *)
| OCopy (i j : nat) (dup : option Z)           (* a new object i, a copy of j *)
| OAssign (i j : nat) (closed : bool) (dup : option Z)
| OMove (i j : nat)                            (* a new object i, j moved *)
| OMoveAssign (i j : nat) (closed : bool)
| OClose (i : nat) (closed : bool)
| ODestroy (i : nat) (closed : bool).

(** the descriptors after close(h) *)
Definition close_fd (l : list Z) (h : Z) : list Z := filter (fun x => negb (x =? h)) l.

Section Step.
(** does the class report a failing close?  basic_sys_object with the traits does, stream::socket does not *)
Context (reports : bool).
Definition m_h (w : world) (i : nat) : Z := match objs w i with Some h => h | None => invalid_handle end.
Definition step (w : world) (o : op) : world * res :=
  match o with
  (* system.hpp:144; stream.hpp:2363-2366 *)
  | ONew i h => (World (put (objs w) i (Some h)) (if h =? invalid_handle then opened w else h :: opened w), Done)
  (* system.hpp:146 *)
  | OCopy i j dup =>
      if m_h w j =? invalid_handle then (World (put (objs w) i (Some invalid_handle)) (opened w), Done)
      else match dup with
           | Some n => (World (put (objs w) i (Some n)) (n :: opened w), Done)
           | None => (w, Raised)
           end
  (* system.hpp:148-156 *)
  | OAssign i j closed dup =>
      if (i =? j)%nat then (w, Done)
      else
        let old := m_h w i in
        let '(l, thrown) := if old =? invalid_handle then (opened w, false) else (close_fd (opened w) old, reports && negb closed) in
        if thrown then (World (objs w) l, Raised)
        else if m_h w j =? invalid_handle then (World (put (objs w) i (Some invalid_handle)) l, Done)
        else match dup with
             | Some n => (World (put (objs w) i (Some n)) (n :: l), Done)
             | None => (World (objs w) l, Raised)
             end
  (* system.hpp:158-161; stream.hpp:2372-2375 *)
  | OMove i j => (World (put (put (objs w) i (Some (m_h w j))) j (Some invalid_handle)) (opened w), Done)
  (* system.hpp:163-172; stream.hpp:2377-2386 *)
  | OMoveAssign i j closed =>
      if (i =? j)%nat then (w, Done)
      else
        let old := m_h w i in
        let '(l, thrown) := if old =? invalid_handle then (opened w, false) else (close_fd (opened w) old, reports && negb closed) in
        if thrown then (World (objs w) l, Terminated)
        else (World (put (put (objs w) i (Some (m_h w j))) j (Some invalid_handle)) l, Done)
  (* system.hpp:183-189; stream.hpp:2474-2481 *)
  | OClose i closed =>
      let old := m_h w i in
      if old =? invalid_handle then (w, Done)
      else
        let l := close_fd (opened w) old in
        if reports && negb closed then (World (objs w) l, Raised)
        else (World (put (objs w) i (Some invalid_handle)) l, Done)
  (* system.hpp:174-178; stream.hpp:2402-2406; the object is gone also when its destructor throws *)
  | ODestroy i closed =>
      let old := m_h w i in
      if old =? invalid_handle then (World (put (objs w) i None) (opened w), Done)
      else (World (put (objs w) i None) (close_fd (opened w) old), if reports && negb closed then Raised else Done)
  end.
Fixpoint run (w : world) (l : list op) : world := match l with [] => w | o :: l => run (fst (step w o)) l end.
End Step.
Definition nothing : world := World (fun _ => None) [].
