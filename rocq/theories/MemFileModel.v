(** Model of stream::memory_file (include/stdex/stream.hpp:3218-4080), of the file operations of
    stream::basic_file it inherits (814-1012), and of write_charset (585-593).

    The buffer m_data is a list of m_reserved cells; a cell is [None] when nothing was ever stored in
    it (its value is indeterminate).  memcpy and member access outside the buffer are [UB]; copying 0
    bytes never is.  Sizes and positions are size_t values in Z, arithmetic wraps modulo 2^64.
    Whether the allocator grants a request is decided by the boolean [g] of the call (any history of
    such decisions is covered); requests above PTRDIFF_MAX are never granted (malloc(3)).
    CHECK_STREAM_STATE is 1 and SET_FILE_OP_TIMES is 0 (the defaults, stream.hpp:34-40).  Not
    modelled: load and save (file system), alignment of the accesses through T*. *)
From Verif Require Import Base StreamModel.

(** stream.hpp:4056-4061 *)
Record mfile : Type := MFile {
  mf_mem : list (option Z); mf_manage : bool; mf_off : Z; mf_size : Z; mf_state : sstate }.
Definition mf_reserved (s : mfile) : Z := Z.of_nat (length (mf_mem s)).
Definition ptrdiff_max : Z := 2 ^ 63 - 1.

Definition with_state (s : mfile) (st : sstate) : mfile := MFile (mf_mem s) (mf_manage s) (mf_off s) (mf_size s) st.
Definition with_off (s : mfile) (o : Z) : mfile := MFile (mf_mem s) (mf_manage s) o (mf_size s) (mf_state s).

(** memory accesses *)
Definition mem_read (m : list (option Z)) (off len : Z) : outcome (list (option Z)) :=
  if len =? 0 then Ret []
  else if off + len <=? Z.of_nat (length m) then Ret (firstn (Z.to_nat len) (skipn (Z.to_nat off) m)) else UB.
Definition mem_write (m : list (option Z)) (off : Z) (b : list Z) : outcome (list (option Z)) :=
  if (length b =? 0)%nat then Ret m
  else if off + Z.of_nat (length b) <=? Z.of_nat (length m)
       then Ret (firstn (Z.to_nat off) m ++ map Some b ++ skipn (Z.to_nat off + length b) m) else UB.
(** realloc: the old content up to the new size, the rest indeterminate *)
Definition resize (m : list (option Z)) (n : nat) : list (option Z) := firstn n m ++ repeat None (n - length m).

(** stream.hpp:3220-3232: an empty file; 3264-3278: a file over existing data *)
Definition mf_new : mfile := MFile [] true 0 0 StOk.
Definition mf_over (data : list Z) (reserved : nat) (manage : bool) : mfile :=
  MFile (map Some data ++ repeat None (reserved - length data)) manage 0 (Z.of_nat (length data)) StOk.

(** stream.hpp:3314-3333: the copy constructor.  The virtual base class basic is not in its initialiser
    list, so it is default-constructed: the state of the copy is ok whatever the original's. *)
Definition mf_copy (g : bool) (s : mfile) : outcome mfile :=
  if negb g then Throw
  else let* b := mem_read (mf_mem s) 0 (mf_size s) in Ret (MFile b true (mf_off s) (mf_size s) StOk).
(** stream.hpp:3340-3363: assignment, which copies the state too.  False: an exception (bad_alloc); the
    old buffer is gone (m_data is null), but m_size, m_offset and m_reserved keep their values (the
    last is not shown by this model, where it is the length of the buffer). *)
Definition mf_assign (g : bool) (dst src : mfile) : outcome (mfile * bool) :=
  if negb g then Ret (MFile [] (mf_manage dst) (mf_off dst) (mf_size dst) StFail, false)
  else let* b := mem_read (mf_mem src) 0 (mf_size src) in Ret (MFile b true (mf_off src) (mf_size src) (mf_state src), true).
(** stream.hpp:3370-3395: the move constructor: the moved-to file and what is left of the other *)
Definition mf_move (s : mfile) : mfile * mfile := (with_state s StOk, mf_new).

(** stream.hpp:3450: the size to allocate *)
Definition grow_size (required : Z) : Z := u64 (u64 (required + required / 4 + 65535) / 65536 * 65536).
(** stream.hpp:3440-3461 *)
Definition mf_reserve (g : bool) (required : Z) (tight : bool) (s : mfile) : mfile :=
  if (required <=? mf_reserved s) && (negb tight || (mf_reserved s <=? required)) then with_state s StOk
  else if negb (mf_manage s) then with_state s StFail
  else
    let reserved := if tight then required else grow_size required in
    if negb (g && (reserved <=? ptrdiff_max)) && negb (reserved =? 0) then with_state s StFail
    else MFile (resize (mf_mem s) (Z.to_nat reserved)) (mf_manage s) (mf_off s)
               (if reserved <? mf_size s then reserved else mf_size s) StOk.

(** stream.hpp:3551-3573 *)
Definition mf_read (len : Z) (s : mfile) : outcome (mfile * list (option Z)) :=
  let available := u64 (mf_size s - mf_off s) in
  if len <=? available then
    let* b := mem_read (mf_mem s) (mf_off s) len in
    Ret (with_state (with_off s (u64 (mf_off s + len))) StOk, b)
  else if negb (len =? 0) && (available =? 0) then Ret (with_state s StEof, [])
  else
    let* b := mem_read (mf_mem s) (mf_off s) available in
    Ret (with_state (with_off s (u64 (mf_off s + available))) StOk, b).

(** The common part of 3661-3680 (write), 3685-3701 (write_byte), 3717-3737 (write_data) and 3755-3829
    (write_str): make room, store, advance.  None: there was no room. *)
Definition mf_put (g : bool) (b : list Z) (s : mfile) : outcome (mfile * bool) :=
  let end_offset := u64 (mf_off s + Z.of_nat (length b)) in
  let s1 := if mf_reserved s <? end_offset then mf_reserve g end_offset false s else s in
  if (mf_reserved s <? end_offset) && negb (is_ok (mf_state s1)) then Ret (s1, false)
  else
    let* m := mem_write (mf_mem s1) (mf_off s1) b in
    Ret (MFile m (mf_manage s1) end_offset (if mf_size s1 <? end_offset then end_offset else mf_size s1) (mf_state s1), true).
(** stream.hpp:3661-3680; the number of bytes written *)
Definition mf_write (g : bool) (b : list Z) (s : mfile) : outcome (mfile * Z) :=
  let* (s', done) := mf_put g b s in
  if done then Ret (with_state s' StOk, Z.of_nat (length b)) else Ret (s', 0).
(** stream.hpp:3685-3701 *)
Definition mf_write_byte (g : bool) (byte : Z) (amount : nat) (s : mfile) : outcome mfile :=
  let* (s', done) := mf_put g (repeat byte amount) s in
  if done then Ret (with_state s' StOk) else Ret s'.
(** stream.hpp:3717-3737 *)
Definition mf_write_data (g : bool) (width : nat) (v : Z) (s : mfile) : outcome mfile :=
  if negb (is_ok (mf_state s)) then Ret s
  else let* (s', _) := mf_put g (le_bytes width v) s in Ret s'.
(** stream.hpp:3755-3829; both overloads.  The string is stored after its length. *)
Definition mf_write_str (g : bool) (width : nat) (str : list Z) (s : mfile) : outcome mfile :=
  if negb (is_ok (mf_state s)) then Ret s
  else if 4294967295 <? Z.of_nat (length str) then Throw
  else let* (s', _) := mf_put g (le_bytes 4 (Z.of_nat (length str)) ++ flat_map (le_bytes width) str) s in Ret s'.

(** a value made of cells; indeterminate cells make an indeterminate value *)
Fixpoint all_some (l : list (option Z)) : option (list Z) :=
  match l with
  | [] => Some []
  | Some x :: r => match all_some r with Some y => Some (x :: y) | None => None end
  | None :: _ => None
  end.
Definition cells_value (l : list (option Z)) : option Z := option_map le_value (all_some l).
(** stream.hpp:3589-3612; the value stored in data *)
Definition mf_read_data (width : nat) (s : mfile) : outcome (mfile * option Z) :=
  if negb (is_ok (mf_state s)) then Ret (s, Some 0)
  else
    let end_offset := u64 (mf_off s + Z.of_nat width) in
    if end_offset <=? mf_size s then
      let* b := mem_read (mf_mem s) (mf_off s) (Z.of_nat width) in Ret (with_off s end_offset, cells_value b)
    else Ret (with_state (with_off s (mf_size s)) StEof, Some 0).
(** stream.hpp:3629-3659; [data] is what the string held before, the result what it holds after.  The
    second test of end_offset can never succeed, so it is left out. *)
Definition mf_read_str (width : nat) (data : list (option Z)) (s : mfile) : outcome (mfile * list (option Z)) :=
  if negb (is_ok (mf_state s)) then Ret (s, [])
  else
    let end_offset := u64 (mf_off s + 4) in
    let too_short (_ : unit) := Ret (with_state (with_off s (mf_size s)) StEof, data) in
    if end_offset <=? mf_size s then
      let* b := mem_read (mf_mem s) (mf_off s) 4 in
      match cells_value b with
      | None => UB
      | Some n =>
          if M64 <=? n * Z.of_nat width then Throw
          else if M64 <=? end_offset + n * Z.of_nat width then Throw
          else
            let end2 := end_offset + n * Z.of_nat width in
            if end2 <=? mf_size s then
              let* c := mem_read (mf_mem s) end_offset (n * Z.of_nat width) in
              Ret (with_off s end2, map (fun k => cells_value (firstn width (skipn (k * width) c))) (seq 0 (Z.to_nat n)))
            else too_short tt
      end
    else too_short tt.

(** stream.hpp:3886-3898 *)
Definition mf_close (s : mfile) : mfile := mf_new.
(** stream.hpp:3900-3914; None: an exception, nothing changed *)
Inductive seek_from : Type := FromBeg | FromCur | FromEnd.
Definition mf_seek (offset : Z) (how : seek_from) (s : mfile) : outcome (mfile * option Z) :=
  let base := match how with FromBeg => 0 | FromCur => i64 (mf_off s) | FromEnd => i64 (mf_size s) end in
  let o := base + offset in
  if (o <? - 2 ^ 63) || (2 ^ 63 <=? o) then UB
  else if o <? 0 then Ret (s, None)
  else Ret (with_state (with_off s o) StOk, Some o).
(** stream.hpp:863-868: None: an exception *)
Definition mf_skip (amount : Z) (s : mfile) : outcome (mfile * option Z) :=
  if ptrdiff_max <? amount then Ret (s, None) else mf_seek amount FromCur s.
(** stream.hpp:3926-3933 *)
Definition mf_truncate (g : bool) (s : mfile) : mfile :=
  mf_reserve g (mf_off s) false (MFile (mf_mem s) (mf_manage s) (mf_off s) (mf_off s) (mf_state s)).

(** stream.hpp:3976-3984 and 4010-4018.  [debug]: the assertions are compiled in; a failed assertion
    aborts the program, shown as [Throw]. *)
Definition mf_set (debug : bool) (off : Z) (width : nat) (v : Z) (s : mfile) : outcome mfile :=
  if debug && negb (u64 (off + Z.of_nat width) <? mf_size s) then Throw
  else let* m := mem_write (mf_mem s) off (le_bytes width v) in Ret (MFile m (mf_manage s) (mf_off s) (mf_size s) (mf_state s)).
Definition mf_get (debug : bool) (off : Z) (width : nat) (s : mfile) : outcome (option Z) :=
  if debug && negb (u64 (off + Z.of_nat width) <? mf_size s) then Throw
  else let* b := mem_read (mf_mem s) off (Z.of_nat width) in Ret (cells_value b).

(** stream.hpp:3836-3884.  The source E reads straight into the buffer. *)
Fixpoint mf_copy_exact {B} (E : dev B) (fuel : nat) (b : B) (s : mfile) (dst_offset num_copied to_write : Z) : outcome (mfile * B * Z * Z) :=
  match fuel with
  | O => UB
  | S f =>
      if to_write =? 0 then Ret (s, b, dst_offset, num_copied)
      else
        let '(b', data) := d_read E b (Z.to_nat to_write) in
        let* m := mem_write (mf_mem s) dst_offset data in
        let k := Z.of_nat (length data) in
        let s1 := MFile m (mf_manage s) (mf_off s) (mf_size s) (mf_state s) in
        match d_state E b' with
        | StOk => mf_copy_exact E f b' s1 (dst_offset + k) (num_copied + k) (to_write - k)
        | StEof => Ret (s1, b', dst_offset + k, num_copied + k)
        | StFail => Ret (with_state s1 StFail, b', dst_offset + k, num_copied + k)
        end
  end.
Fixpoint mf_copy_all {B} (E : dev B) (fuel : nat) (gs : nat -> bool) (b : B) (s : mfile) (dst_offset dst_size num_copied to_write : Z) : outcome (mfile * B * Z * Z) :=
  match fuel with
  | O => UB
  | S f =>
      if to_write =? 0 then Ret (s, b, dst_offset, num_copied)
      else
        let block := Z.min to_write 65536 in
        if M64 <=? dst_size + block then Throw
        else
          let s1 := mf_reserve (gs fuel) (dst_size + block) false s in
          if negb (is_ok (mf_state s1)) then Ret (s1, b, dst_offset, num_copied)
          else
            let '(b', data) := d_read E b (Z.to_nat block) in
            let* m := mem_write (mf_mem s1) dst_offset data in
            let k := Z.of_nat (length data) in
            let s2 := MFile m (mf_manage s1) (mf_off s1) (mf_size s1) (mf_state s1) in
            match d_state E b' with
            | StOk => mf_copy_all E f gs b' s2 (dst_offset + k) (dst_offset + k) (num_copied + k) (to_write - k)
            | StEof => Ret (s2, b', dst_offset + k, num_copied + k)
            | StFail => Ret (with_state s2 StFail, b', dst_offset + k, num_copied + k)
            end
  end.
Definition mf_write_stream {B} (E : dev B) (fuel : nat) (gs : nat -> bool) (b : B) (amount : Z) (s : mfile) : outcome (mfile * B * Z) :=
  let finish (r : mfile * B * Z * Z) : outcome (mfile * B * Z) :=
    let '(s', b', dst, n) := r in
    Ret (MFile (mf_mem s') (mf_manage s') dst (if mf_size s' <? dst then dst else mf_size s') (mf_state s'), b', n) in
  if negb (amount =? M64 - 1) then
    if M64 <=? mf_off s + amount then Throw
    else
      let s1 := mf_reserve (gs 0%nat) (mf_off s + amount) false s in
      if negb (is_ok (mf_state s1)) then Ret (s1, b, 0)
      else let* r := mf_copy_exact E fuel b s1 (mf_off s) 0 amount in finish r
  else let* r := mf_copy_all E fuel gs b (with_state s StOk) (mf_off s) (mf_off s) 0 amount in finish r.

(** ** Histories of calls *)
Inductive mf_op : Type :=
| MRead (len : nat) | MWrite (b : list Z) | MWriteByte (byte : Z) (amount : nat)
| MReadData (width : nat) | MWriteData (width : nat) (v : Z)
| MReadStr (width : nat) (before : list Z) | MWriteStr (width : nat) (str : list Z)
| MSeek (offset : Z) (how : seek_from) | MSkip (amount : Z) | MTruncate | MReserve (required : nat) (tight : bool) | MClose | MCopy.
(** what a call gives back *)
Inductive mf_res : Type :=
| RNone | RBytes (b : list (option Z)) | RCount (n : Z) | RValue (v : option Z) | RStr (s : list (option Z)) | RPos (p : Z) | RThrow.
Definition of_seek (r : outcome (mfile * option Z)) : outcome (mfile * mf_res) :=
  let* (s', p) := r in Ret (s', match p with Some x => RPos x | None => RThrow end).
Definition mf_step (g : bool) (op : mf_op) (s : mfile) : outcome (mfile * mf_res) :=
  match op with
  | MRead n => let* (s', b) := mf_read (Z.of_nat n) s in Ret (s', RBytes b)
  | MWrite b => let* (s', n) := mf_write g b s in Ret (s', RCount n)
  | MWriteByte x n => let* s' := mf_write_byte g x n s in Ret (s', RNone)
  | MReadData w => let* (s', v) := mf_read_data w s in Ret (s', RValue v)
  | MWriteData w v => let* s' := mf_write_data g w v s in Ret (s', RNone)
  | MReadStr w before => let* (s', d) := mf_read_str w (map Some before) s in Ret (s', RStr d)
  | MWriteStr w str => let* s' := mf_write_str g w str s in Ret (s', RNone)
  | MSeek o how => of_seek (mf_seek o how s)
  | MSkip a => of_seek (mf_skip a s)
  | MTruncate => Ret (mf_truncate g s, RNone)
  | MReserve r tight => Ret (mf_reserve g (Z.of_nat r) tight s, RNone)
  | MClose => Ret (mf_close s, RNone)
  | MCopy => match mf_copy g s with Throw => Ret (s, RThrow) | Ret c => Ret (c, RNone) | UB => UB end
  end.
Fixpoint mf_run (ops : list (mf_op * bool)) (s : mfile) : outcome (mfile * list mf_res) :=
  match ops with
  | [] => Ret (s, [])
  | (op, g) :: r => let* (s1, x) := mf_step g op s in let* (s2, y) := mf_run r s1 in Ret (s2, x :: y)
  end.

(** memory_file seen as a stream (StreamModel.dev); undefined behaviour shows as no data *)
Definition mf_dev (g : bool) : dev mfile := {|
  d_read := fun s n => match mf_read (Z.of_nat n) s with
                       | Ret (s', b) => match all_some b with Some l => (s', l) | None => (s', []) end
                       | _ => (s, []) end;
  d_write := fun s b => match mf_write g b s with Ret (s', n) => (s', Z.to_nat n) | _ => (s, 0%nat) end;
  d_state := mf_state;
  d_set := with_state |}.

(** stream.hpp:984-1011 read_charset over a memory_file; the charset is the number of bytes per unit
    (32, 16, 8) or the default (0).  An uninitialised id keeps [junk]. *)
Definition at_start (s : mfile) : mfile := with_state (with_off s 0) StOk.
Definition mf_read_charset (junk : list Z) (s : mfile) : outcome (mfile * Z) :=
  let try (width : nat) (init : list Z) (bom : list Z) : outcome (mfile * bool) :=
    let* (s', b, _) := read_array (mf_dev true) (at_start s) width 1 in
    Ret (s', is_ok (mf_state s') && (if list_eq_dec Z.eq_dec (firstn width (b ++ skipn (length b) init)) bom then true else false)) in
  let* (s1, r1) := try 4%nat junk [255; 254; 0; 0] in
  if r1 then Ret (s1, 32)
  else let* (s2, r2) := try 2%nat junk [255; 254] in
       if r2 then Ret (s2, 16)
       else let* (s3, r3) := try 3%nat [0; 0; 0] [239; 187; 191] in
            if r3 then Ret (s3, 8) else Ret (at_start s, 0).
(** stream.hpp:585-593 *)
Definition mf_write_charset (g : bool) (charset : Z) (s : mfile) : outcome mfile :=
  if charset =? 32 then mf_write_data g 4 0xfeff s
  else if charset =? 16 then mf_write_data g 2 0xfeff s
  else if charset =? 8 then let* (s', _) := mf_write g [239; 187; 191] s in Ret s'
  else Ret s.
