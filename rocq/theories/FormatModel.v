(** Model of the printf family of include/stdex/string.hpp (lines 2630-2810), non-Windows branches: vsnprintf wrappers,
    vappendf, appendf, vsprintf, sprintf, for char (1024 units on the stack) and wchar_t (256 units).

    What format and arguments stand for is the C library's business: the formatted text is a parameter [t], without its
    terminator.  What is modelled is how stdex gets hold of it.  errno is a Z that the C library may or may not set. *)
From Verif Require Import Base.

(** errno values (Linux) *)
Definition e_ILSEQ : Z := 84.
Definition e_INVAL : Z := 22.
Definition e_OVERFLOW : Z := 75.

(** One call of the C library with a buffer of [cap] units: the count returned, the cells of the buffer, errno after it *)
Record call : Type := Call { c_count : Z; c_buf : list Z; c_errno : Z }.
(** [x] and the rest of a buffer of [cap] cells *)
Definition cells_of (cap : nat) (x : list Z) : list Z := firstn cap (x ++ repeat 0 cap).
(** vsnprintf (C11 7.21.6.12): as much as there is room for and a terminator; returns the length of the whole text; this is no
    error, errno stays *)
Definition c_narrow (t : list Z) (cap : nat) (errno : Z) : call :=
  Call (Z.of_nat (length t)) (cells_of cap (firstn (cap - 1) t ++ [0])) errno.
(** vswprintf (C11 7.29.2.7): a negative number when there is no room for the text and its terminator; [err] is what errno is
    then (glibc since 2.37: EOVERFLOW; before: unchanged) *)
Definition c_wide (err : Z -> Z) (t : list Z) (cap : nat) (errno : Z) : call :=
  if (length t <? cap)%nat then Call (Z.of_nat (length t)) (cells_of cap (t ++ [0])) errno
  else Call (-1) (cells_of cap (firstn (cap - 1) t ++ [0])) (err errno).

(** string.hpp:2701-2714: from the switch on; [fuel] bounds the turns, [cap] is the capacity of this turn.  [UB] stands for
    another turn, that is, for not having ended. *)
Fixpoint retry (vsn : nat -> Z -> call) (fuel : nat) (str : list Z) (cap : nat) (errno : Z) : outcome (list Z * nat) :=
  match fuel with
  | O => UB
  | S f =>
      if errno =? e_OVERFLOW then
        let r := vsn cap errno in
        if (0 <=? c_count r) && (c_count r <=? Z.of_nat cap) then Ret (str ++ firstn (Z.to_nat (c_count r)) (c_buf r), Z.to_nat (c_count r))
        else retry vsn f str (2 * cap) (c_errno r)
      else Throw
  end.
(** string.hpp:2669-2716; [stack] is _countof(buf), 1024 / sizeof(T).  2 * 1024 / sizeof(T) is 2 * stack. *)
Definition vappendf (vsn : nat -> Z -> call) (fuel stack : nat) (str : list Z) (errno : Z) : outcome (list Z * nat) :=
  let r := vsn stack errno in
  if (0 <=? c_count r) && (c_count r <=? Z.of_nat stack) then Ret (str ++ firstn (Z.to_nat (c_count r)) (c_buf r), Z.to_nat (c_count r))
  else retry vsn fuel str (2 * stack) (c_errno r).
(** string.hpp:2743-2747, 2757-2764: vsprintf and sprintf clear the string first *)
Definition vsprintf (vsn : nat -> Z -> call) (fuel stack : nat) (str : list Z) (errno : Z) : outcome (list Z) :=
  let* r := vappendf vsn fuel stack [] errno in Ret (fst r).

(** The instances: char and wchar_t; the number of turns is bounded by the length of the text (FormatProps.v) *)
Definition appendf_char (t str : list Z) (errno : Z) : outcome (list Z * nat) := vappendf (c_narrow t) (S (length t)) 1024 str errno.
Definition appendf_wchar (err : Z -> Z) (t str : list Z) (errno : Z) : outcome (list Z * nat) := vappendf (c_wide err t) (S (length t)) 256 str errno.
Definition sprintf_char (t str : list Z) (errno : Z) : outcome (list Z) := vsprintf (c_narrow t) (S (length t)) 1024 str errno.
Definition sprintf_wchar (err : Z -> Z) (t str : list Z) (errno : Z) : outcome (list Z) := vsprintf (c_wide err t) (S (length t)) 256 str errno.
