(** Model of basic_sys (include/stdex/stream.hpp:2208-2332) and file (2715-3132) as compiled for POSIX.

    The operating system's descriptor is a parameter: [osfd] has one operation per system call, in an arbitrary state.  The
    state of the stream object is the descriptor's state and m_state.  The Windows variants and attributes
    are not modelled; opening and file times are in OpenModel.  off64_t and fpos_t arithmetic: positions are Z and nat that do not wrap (files below 2^63 bytes). *)
From Verif Require Import Base StreamModel MemFileModel FileConvModel.

(** The system calls: read(2) and write(2) give None for -1; lseek64 gives -1 for an error; ftruncate64 and lockf64 give
    whether the result is >= 0 *)
Record osfd (S : Type) : Type := OsFd {
  os_read : S -> nat -> S * option (list Z);
  os_write : S -> list Z -> S * option nat;
  os_lseek : S -> Z -> seek_from -> S * Z;
  os_ftruncate : S -> Z -> S * bool;
  os_lockf : S -> bool -> Z -> S * bool;
  os_fsync : S -> S * bool }.
Arguments os_read {S}. Arguments os_write {S}. Arguments os_lseek {S}. Arguments os_ftruncate {S}. Arguments os_lockf {S}. Arguments os_fsync {S}.

Section Sys.
Context {S : Type} (fd : osfd S) (block_size : nat). (* SSIZE_MAX *)

(** stream.hpp:2231-2263; [acc] are the bytes stored so far, length - to_read many *)
Fixpoint sys_read_loop (fuel : nat) (s : S) (length_ to_read : nat) (acc : list Z) : outcome (S * sstate * list Z) :=
  match fuel with
  | O => UB
  | Datatypes.S f =>
      let '(s', r) := os_read fd s (Nat.min to_read block_size) in
      match r with
      | None => Ret (s', if (to_read <? length_)%nat then StOk else StFail, acc)
      | Some [] => Ret (s', if (to_read <? length_)%nat || (length_ =? 0)%nat then StOk else StEof, acc)
      | Some b =>
          let to_read' := (to_read - length b)%nat in
          if (to_read' =? 0)%nat then Ret (s', StOk, acc ++ b) else sys_read_loop f s' length_ to_read' (acc ++ b)
      end
  end.
Definition sys_read (fuel : nat) (s : S) (n : nat) := sys_read_loop fuel s n n [].
(** stream.hpp:2281-2310; the number returned *)
Fixpoint sys_write_loop (fuel : nat) (s : S) (data : list Z) (num : nat) : outcome (S * sstate * nat) :=
  match fuel with
  | O => UB
  | Datatypes.S f =>
      let '(s', r) := os_write fd s (firstn (Nat.min (length data) block_size) data) in
      match r with
      | None => Ret (s', StFail, num)
      | Some k => if (length data - k =? 0)%nat then Ret (s', StOk, (num + length data)%nat) else sys_write_loop f s' (skipn k data) (num + k)
      end
  end.
Definition sys_write (fuel : nat) (s : S) (data : list Z) := sys_write_loop fuel s data 0.
(** stream.hpp:2324-2331 *)
Definition sys_flush (c : S * sstate) : S * sstate := let '(s', b) := os_fsync fd (fst c) in (s', if b then StOk else StFail).
(** basic_sys as a stream; that the fuel suffices is proved ([sys_read_total], [sys_write_total]) *)
Definition sys_dev : dev (S * sstate) := {|
  d_read := fun c n => match sys_read (n + 1) (fst c) n with Ret (s', st, b) => ((s', st), b) | _ => (c, []) end;
  d_write := fun c b => match sys_write (length b + 1) (fst c) b with Ret (s', st, k) => ((s', st), k) | _ => (c, 0%nat) end;
  d_state := snd;
  d_set := fun c st => (fst c, st) |}.

(** stream.hpp:2825-2844; None is fpos_max *)
Definition sf_seek (c : S * sstate) (offset : Z) (how : seek_from) : (S * sstate) * option Z :=
  let '(s', r) := os_lseek fd (fst c) offset how in if 0 <=? r then ((s', StOk), Some r) else ((s', StFail), None).
(** stream.hpp:2846-2862 with a valid handle; the descriptor's state is given too, as lseek64 might change it *)
Definition sf_tell (c : S * sstate) : (S * sstate) * option Z :=
  let '(s', r) := os_lseek fd (fst c) 0 FromCur in ((s', snd c), if 0 <=? r then Some r else None).
(** stream.hpp:2864-2889; the exceptions for an offset or a length of 2^63 and more *)
Definition sf_lock (c : S * sstate) (offset length_ : Z) : outcome (S * sstate) :=
  let '(s1, orig) := os_lseek fd (fst c) 0 FromCur in
  if orig <? 0 then Ret (s1, StFail)
  else if 9223372036854775807 <? offset then Throw
  else if 9223372036854775807 <? length_ then Throw
  else
    let '(s2, r) := os_lseek fd s1 offset FromBeg in
    let '(s3, b) := if 0 <=? r then os_lockf fd s2 true length_ else (s2, false) in
    let st := if b then StOk else StFail in (* line 2884 *)
    let '(s4, _) := os_lseek fd s3 orig FromBeg in
    let st := StOk in (* line 2886 *)
    Ret (s4, st).
(** stream.hpp:2891-2918 *)
Definition sf_unlock (c : S * sstate) (offset length_ : Z) : outcome (S * sstate) :=
  let '(s1, orig) := os_lseek fd (fst c) 0 FromCur in
  if orig <? 0 then Ret (s1, StFail)
  else if 9223372036854775807 <? offset then Throw
  else if 9223372036854775807 <? length_ then Throw
  else
    let '(s2, r) := os_lseek fd s1 offset FromBeg in
    let '(s3, b) := if 0 <=? r then os_lockf fd s2 false length_ else (s2, false) in
    let '(s4, _) := os_lseek fd s3 orig FromBeg in
    Ret (s4, if b then StOk else StFail).
(** stream.hpp:2920-2938; None is fsize_max *)
Definition sf_size (c : S * sstate) : (S * sstate) * option Z :=
  let '(s1, orig) := os_lseek fd (fst c) 0 FromCur in
  if orig <? 0 then ((s1, snd c), None)
  else
    let '(s2, len) := os_lseek fd s1 0 FromEnd in
    let '(s3, _) := os_lseek fd s2 orig FromBeg in
    ((s3, snd c), if 0 <=? len then Some len else None).
(** stream.hpp:2940-2954 *)
Definition sf_truncate (c : S * sstate) : S * sstate :=
  let '(s1, len) := os_lseek fd (fst c) 0 FromCur in
  if 0 <=? len then let '(s2, b) := os_ftruncate fd s1 len in (s2, if b then StOk else StFail) else (s1, StFail).

(** [file] as the converters see it; a failing tell or size is not distinguished here (0) *)
Definition sys_file : fdev (S * sstate) := {|
  f_read := d_read sys_dev;
  f_write := d_write sys_dev;
  f_seek := fun c p => fst (sf_seek c (Z.of_nat p) FromBeg);
  f_tell := fun c => match snd (sf_tell c) with Some p => Z.to_nat p | None => 0%nat end;
  f_size := fun c => match snd (sf_size c) with Some p => Z.to_nat p | None => 0%nat end;
  f_truncate := sf_truncate;
  f_state := snd |}.
End Sys.

(** ** diag_file (stream.hpp:4184-4347)
    The files are machines of one type of state (a sum of several types is one); the compared operations are given by
    [exec]: the new state of the file, the value the operation gives (bytes read; a count; a position; nothing) and the
    state of the stream afterwards.  The buffers are not modelled: that bytes are compared over the count read is
    (memcmp over result bytes after the counts agree). *)
Inductive dop : Type := DRead (n : nat) | DWrite (b : list Z) | DSeek (o : Z) (how : seek_from) | DFlush | DClose | DTruncate
  | DLock (o l : Z) | DUnlock (o l : Z) | DTell | DSize.
Inductive dres : Type := RBytes (b : list Z) | RNum (z : Z) | RNone.
Definition dres_eqb (a b : dres) : bool :=
  match a, b with
  | RBytes x, RBytes y => (length x =? length y)%nat && forallb (fun p => fst p =? snd p) (combine x y)
  | RNum x, RNum y => x =? y
  | RNone, RNone => true
  | _, _ => false
  end.
Definition sstate_eqb (a b : sstate) : bool := match a, b with StOk, StOk | StEof, StEof | StFail, StFail => true | _, _ => false end.
(* tell and size do not look at the states *)
Definition is_query (op : dop) : bool := match op with DTell | DSize => true | _ => false end.
Section Diag.
Context {S : Type} (exec : S -> dop -> S * dres * sstate).
(** the loops over the files from 1: the files as they are left, and whether it came to the end *)
Fixpoint diag_rest (op : dop) (result : dres) (st : sstate) (files : list S) : list S * bool :=
  match files with
  | [] => ([], true)
  | f :: r =>
      let '(f', res, st') := exec f op in
      if negb (dres_eqb res result) then (f' :: r, false)
      else if negb (is_query op) && negb (sstate_eqb st' st) then (f' :: r, false)
      else let '(r', b) := diag_rest op result st r in (f' :: r', b)
  end.
(** the object: the files and m_state.  With no files: 4198-4201 etc. (fail and 0, fpos_max, fsize_max); flush and close are ok;
    lock, unlock and truncate go on to m_files[0] (4294-4296, 4307-4309, 4331-4333). *)
Inductive dout : Type := DRet (r : dres) | DThrow | DUB.
Definition diag (c : list S * sstate) (op : dop) : list S * sstate * dout :=
  match fst c with
  | [] => match op with
          | DRead _ => ([], StFail, DRet (RBytes [])) | DWrite _ => ([], StFail, DRet (RNum 0))
          | DSeek _ _ => ([], StFail, DRet (RNum (M64 - 1)))
          | DFlush | DClose => ([], StOk, DRet RNone)
          | DTell | DSize => ([], snd c, DRet (RNum (M64 - 1)))
          | DTruncate | DLock _ _ | DUnlock _ _ => ([], StFail, DUB)
          end
  | f :: r =>
      let '(f', res, st') := exec f op in
      let st := if is_query op then snd c else st' in
      let '(r', b) := diag_rest op res st' r in
      (f' :: r', st, if b then DRet res else DThrow)
  end.
End Diag.
