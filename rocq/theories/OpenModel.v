(** Model of opening files: file::open (include/stdex/stream.hpp:2747-2810), basic_sys::close (2312-2321),
    cached_file's choice of the mode (3155, 3187), and the times of a file (2980-3071), as compiled for Linux.

    The operating system has files by name and open descriptors by number; its answers that the code cannot foresee are arguments:
    whether close succeeds, whether it allows the access, the number of the new descriptor.  Simplifications: the file can be
    sought in; the descriptor returned by open is not -1. *)
From Verif Require Import Base StreamModel SysModel.

(** stream.hpp:2679-2708 *)
Definition mode_for_reading : Z := 1.
Definition mode_for_writing : Z := 2.
Definition mode_for_chmod : Z := 4.
Definition mode_open_existing : Z := 0.
Definition mode_truncate_existing : Z := 8.
Definition mode_preserve_existing : Z := 16.
Definition mode_create_new : Z := 24.
Definition mode_create : Z := 32.
Definition mode_disposition_mask : Z := 56.
Definition mode_append : Z := 64.
Definition share_none : Z := 0.
Definition hint_write_thru : Z := 4096.
Definition hint_no_buffering : Z := 8192.
(** the flags of open(2) *)
Definition O_WRONLY : Z := 1.
Definition O_RDWR : Z := 2.
Definition O_CREAT : Z := 64.
Definition O_EXCL : Z := 128.
Definition O_TRUNC : Z := 512.
Definition O_DSYNC : Z := 4096.
Definition O_RSYNC : Z := 1052672.

(** An open descriptor: its file, position, what it allows *)
Record ofd : Type := Ofd { of_name : nat; of_pos : Z; of_rd : bool; of_wr : bool }.
Record os : Type := Os { files : nat -> option (list Z); table : Z -> option ofd }.
Definition set_file (f : nat -> option (list Z)) (n : nat) (c : list Z) : nat -> option (list Z) := fun k => if (k =? n)%nat then Some c else f k.
Definition set_fd (t : Z -> option ofd) (h : Z) (x : option ofd) : Z -> option ofd := fun k => if k =? h then x else t k.
Definition has (flags bit : Z) : bool := negb (Z.land flags bit =? 0).

(** open(2) *)
Definition sys_open (allowed : bool) (newfd : Z) (o : os) (name : nat) (flags : Z) : os * Z :=
  if negb allowed then (o, -1)
  else
    let acc := Z.land flags 3 in
    let go c := (Os (set_file (files o) name c) (set_fd (table o) newfd (Some (Ofd name 0 (negb (acc =? O_WRONLY)) (negb (acc =? 0))))), newfd) in
    match files o name with
    | None => if has flags O_CREAT then go [] else (o, -1)
    | Some c => if has flags O_CREAT && has flags O_EXCL then (o, -1) else if has flags O_TRUNC then go [] else go c
    end.
(** lseek(h, 0, SEEK_END) *)
Definition sys_seek_end (o : os) (h : Z) : os :=
  match table o h with
  | Some d => match files o (of_name d) with
              | Some c => Os (files o) (set_fd (table o) h (Some (Ofd (of_name d) (Z.of_nat (length c)) (of_rd d) (of_wr d))))
              | None => o
              end
  | None => o
  end.
(** a file: m_h and m_state *)
Record fobj : Type := Fobj { f_h : Z; f_st : sstate }.

(** stream.hpp:2312-2321 with system.hpp:183-189 *)
Definition f_close (ok : bool) (o : os) (f : fobj) : os * fobj :=
  if f_h f =? -1 then (o, Fobj (-1) StOk)
  else (Os (files o) (set_fd (table o) (f_h f) None), if ok then Fobj (-1) StOk else Fobj (f_h f) StFail).
(** stream.hpp:2779-2797 *)
Definition open_flags (mode : Z) : outcome Z :=
  let flags := 0 in
  let acc := Z.land mode (Z.lor mode_for_reading mode_for_writing) in
  let flags := if acc =? mode_for_reading then flags else if acc =? mode_for_writing then Z.lor flags O_WRONLY
               else if acc =? Z.lor mode_for_reading mode_for_writing then Z.lor flags O_RDWR else flags in
  let d := Z.land mode mode_disposition_mask in
  let* flags :=
    if d =? mode_open_existing then Ret flags
    else if d =? mode_truncate_existing then Ret (Z.lor flags O_TRUNC)
    else if d =? mode_preserve_existing then Ret (Z.lor flags O_CREAT)
    else if d =? mode_create_new then Ret (Z.lor flags (Z.lor O_CREAT O_EXCL))
    else if d =? mode_create then Ret (Z.lor flags (Z.lor O_CREAT O_TRUNC))
    else Throw in
  let flags := if has mode hint_write_thru then Z.lor flags O_DSYNC else flags in
  let flags := if has mode hint_no_buffering then Z.lor flags O_RSYNC else flags in
  Ret flags.
(** stream.hpp:2747-2810; the last component: did it throw? *)
Definition f_open (close_ok allowed : bool) (newfd : Z) (o : os) (f : fobj) (name : nat) (mode : Z) : os * fobj * bool :=
  let '(o, f) := if f_h f =? -1 then (o, f) else f_close close_ok o f in
  match open_flags mode with
  | Ret flags =>
      let '(o, h) := sys_open allowed newfd o name flags in
      if negb (h =? -1) then ((if has mode mode_append then sys_seek_end o h else o), Fobj h StOk, false)
      else (o, Fobj h StFail, false)
  | _ => (o, f, true)
  end.
(** stream.hpp:3155, 3187 *)
Definition cached_mode (mode : Z) : Z := if has mode mode_for_writing then Z.lor mode mode_for_reading else mode.

(** ** Times.  A time_point has nanoseconds since 1970 (std::chrono::system_clock of libstdc++); a file has seconds and nanoseconds
    for both of its times, in nanoseconds here. *)
Record times : Type := Times { t_atime : Z; t_mtime : Z }.
Definition giga : Z := 1000000000.
(** clock::from_time_t *)
Definition from_time_t (s : Z) : Z := s * giga.
(** stream.hpp:2990-3016; None: fstat fails, time_point::min() *)
Definition f_atime (t : option times) : Z := match t with Some t => from_time_t (t_atime t / giga) | None => -9223372036854775808 end.
Definition f_mtime (t : option times) : Z := match t with Some t => from_time_t (t_mtime t / giga) | None => -9223372036854775808 end.
(** a struct timespec for futimens: None is UTIME_OMIT *)
Definition futimens (ok : bool) (t : times) (ts : option (Z * Z) * option (Z * Z)) : outcome times :=
  if ok then Ret (Times (match fst ts with Some (s, n) => s * giga + n | None => t_atime t end) (match snd ts with Some (s, n) => s * giga + n | None => t_mtime t end)) else Throw.
(** stream.hpp:3033-3051, 3053-3071 *)
Definition f_set_atime (ok : bool) (t : times) (date : Z) : outcome times := futimens ok t (Some (date, 0), None).
Definition f_set_mtime (ok : bool) (t : times) (date : Z) : outcome times := futimens ok t (None, Some (date, 0)).

(** ** Socket streams (stream.hpp:2354-2484): m_h and m_state; moving makes m_state anew (2372-2375) or keeps the target's (2377-2386) *)
Record sobj : Type := Sobj { s_h : Z; s_st : sstate }.
Definition sock_move (other : sobj) : sobj * sobj := (Sobj (s_h other) StOk, Sobj (-1) (s_st other)).
Definition sock_move_assign (this other : sobj) : sobj * sobj := (Sobj (s_h other) (s_st this), Sobj (-1) (s_st other)).
(** stream.hpp:2425-2450, 2452-2472; [conn] is the connection: recv is os_read, send os_write; block_size is 0x10000000 *)
Section Socket.
Context {S : Type} (conn : osfd S) (block_size : nat).
Fixpoint sock_read_loop (fuel : nat) (s : S) (length_ to_read : nat) (acc : list Z) : outcome (S * sstate * list Z) :=
  match fuel with
  | O => UB
  | Datatypes.S f =>
      let '(s', num_read) := os_read conn s (Nat.min to_read block_size) in
      match num_read with
      | None => Ret (s', if (to_read <? length_)%nat then StOk else StFail, acc)
      | Some [] => Ret (s', if (to_read <? length_)%nat || (length_ =? 0)%nat then StOk else StEof, acc)
      | Some b =>
          let to_read := (to_read - length b)%nat in
          if (to_read =? 0)%nat then Ret (s', StOk, acc ++ b) else sock_read_loop f s' length_ to_read (acc ++ b)
      end
  end.
Fixpoint sock_write_loop (fuel : nat) (s : S) (data : list Z) (num : nat) : outcome (S * sstate * nat) :=
  match fuel with
  | O => UB
  | Datatypes.S f =>
      let '(s', num_written) := os_write conn s (firstn (Nat.min (length data) block_size) data) in
      match num_written with
      | None => Ret (s', StFail, num)
      | Some k => if (length data - k =? 0)%nat then Ret (s', StOk, (num + length data)%nat) else sock_write_loop f s' (skipn k data) (num + k)
      end
  end.
(** a socket stream; that the fuel suffices is proved ([socket_total]) *)
Definition sock_dev : dev (S * sstate) := {|
  d_read := fun c n => match sock_read_loop (n + 1) (fst c) n n [] with Ret (s', st, b) => ((s', st), b) | _ => (c, []) end;
  d_write := fun c b => match sock_write_loop (length b + 1) (fst c) b 0 with Ret (s', st, k) => ((s', st), k) | _ => (c, 0%nat) end;
  d_state := snd;
  d_set := fun c st => (fst c, st) |}.
End Socket.
