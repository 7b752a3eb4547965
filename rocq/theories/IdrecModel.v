(** Model of include/stdex/idrec.hpp over stdex::stream::basic_file (the std::iostream overloads, which
    have the same text with other stream calls, are not modelled).

    The file is an arbitrary [fdev] F (FileConvModel) with a state flag that can be set ([fset]).  T_id
    has [wi] bytes, T_size is an unsigned type of [ws] bytes, N_align is [align].  Positions are nat
    (fpos_t is taken not to wrap).  [None] for a position limit is fpos_max. *)
From Verif Require Import Base StreamModel ConvModel MemFileModel FileConvModel.

Section Idrec.
Context {S : Type} (F : fdev S) (fset : S -> sstate -> S) (wi ws : nat) (align : Z).

Definition file_dev : dev S := {| d_read := f_read F; d_write := f_write F; d_state := f_state F; d_set := fset |}.
(** conversion to T_size *)
Definition tsize (v : Z) : Z := v mod 256 ^ Z.of_nat ws.
(** idrec.hpp:66-69 *)
Definition padding (size : Z) : Z := (align - size mod align) mod align.
Definition below (limit : option nat) (s : S) : bool := match limit with None => true | Some e => (f_tell F s <? e)%nat end.

(** idrec.hpp:47-56 (41-45 is the istream version): the id and whether it was read *)
Definition read_id (s : S) (limit : option nat) : outcome (S * Z * bool) :=
  if below limit s then let* (s', v) := read_data file_dev s wi [] in Ret (s', v, is_ok (f_state F s'))
  else Ret (s, 0, false).
(** stream.hpp:863-868, for amounts below 2^63: a file skips by seeking *)
Definition skip_file (s : S) (amount : Z) : S := f_seek F s (f_tell F s + Z.to_nat amount).
(** idrec.hpp:105-119 *)
Definition ignore (s : S) : outcome (S * bool) :=
  let* (s1, size) := read_data file_dev s ws [] in
  if negb (is_ok (f_state F s1)) then Ret (s1, false)
  else let s2 := skip_file s1 (tsize (size + padding size)) in Ret (s2, is_ok (f_state F s2)).
(** idrec.hpp:159-173; the result of ignore is not used.  [UB]: still looping after [fuel] rounds *)
Fixpoint find (fuel : nat) (s : S) (id : Z) (limit : option nat) : outcome (S * bool) :=
  match fuel with
  | O => UB
  | Datatypes.S f =>
      if below limit s then
        let* (s1, v) := read_data file_dev s wi [] in
        if negb (is_ok (f_state F s1)) then Ret (s1, false)
        else if v =? id then Ret (s1, true)
        else let* (s2, _) := ignore s1 in find f s2 id limit
      else Ret (s, false)
  end.
(** idrec.hpp:209-220: the position of the record *)
Definition open (s : S) (id : Z) : outcome (S * nat) :=
  let start := f_tell F s in
  let* s1 := write_data file_dev s wi id in
  let* s2 := write_data file_dev s1 ws 0 in
  Ret (s2, start).
(** idrec.hpp:262-284; None: fpos_max *)
Definition close (s : S) (start : nat) : outcome (S * option nat) :=
  let e := f_tell F s in
  let size := tsize (Z.of_nat e - Z.of_nat start - Z.of_nat wi - Z.of_nat ws) in
  let remainder := padding size in
  let* (s1, e1) :=
    if negb (remainder =? 0) then
      let* (s1, _) := write_array file_dev s (repeat 0 (Z.to_nat remainder)) 1 (Z.to_nat remainder) in
      Ret (s1, (e + Z.to_nat remainder)%nat)
    else Ret (s, e) in
  if negb (is_ok (f_state F s1)) then Ret (s1, None)
  else
    let s2 := f_seek F s1 (start + wi) in
    let* s3 := write_data file_dev s2 ws size in
    Ret (f_seek F s3 e1, Some e1).

(** operator<< of a record whose data are written by the function [user]: idrec.hpp:438-448 *)
Definition write_record (s : S) (id : Z) (user : S -> S) : outcome S :=
  let* (s1, start) := open s id in
  if negb (is_ok (f_state F s1)) then Ret s1
  else let* (s2, _) := close (user s1) start in Ret s2.

(** A reader of the record's data, using the limiter with any calls read(n), one after another; the
    bytes it got *)
Fixpoint limited_reads (c : limiter) (ns : list nat) : limiter * list Z :=
  match ns with
  | [] => (c, [])
  | n :: r => let '(c1, b) := limiter_read file_dev c n in let '(c2, bs) := limited_reads c1 r in (c2, b ++ bs)
  end.
(** operator>> of a record: idrec.hpp:507-527 *)
Definition read_record (s : S) (ns : list nat) : outcome (S * list Z) :=
  let* (s1, size) := read_data file_dev s ws [] in
  if negb (is_ok (f_state F s1)) then Ret (s1, [])
  else
    let start := f_tell F s1 in
    let '(c, bs) := limited_reads (limiter_new file_dev s1 size 0) ns in
    match lm_st c with
    | StFail => Ret (lm_src c, bs)
    | _ => Ret (f_seek F (lm_src c) (start + Z.to_nat (tsize (size + padding size))), bs)
    end.
End Idrec.
