(** Model of what is left of the converters over files and of small owners: cached_file's open, close and destruction
    (include/stdex/stream.hpp:3163-3190, 1827-1840, 1851-1863, 1988-1995, 2140-2149), lock and unlock of file_window (1760-1778) and
    of cache (2039-2049), buffered_sys (2337-2354), scoped_executor (scoped_executor.hpp:16-45) and sanitizing_allocator
    (memory.hpp:71-115).

    Opening, closing and locking the source are parameters: functions of the source's state (lock may throw).  Positions are nat, as
    in FileConvModel. *)
From Verif Require Import Base StreamModel MemFileModel FileConvModel ConvModel.

Section Cached.
Context {S : Type} (F : fdev S).

(** stream.hpp:2140-2149 *)
Definition invalidate_cache (c : @cache S) : @cache S :=
  match ca_status c with
  | CDirty =>
      if (ca_start c <? ca_end c)%nat then let c := write_cache F c in if negb (is_ok (ca_st c)) then c else ca_mark c CEmpty
      else ca_mark (ca_set c StOk) CEmpty
  | _ => ca_mark (ca_set c StOk) CEmpty
  end.
(** another source state *)
Definition ca_on (c : @cache S) (src : S) : @cache S := Cache src (ca_st c) (ca_off c) (ca_cap c) (ca_status c) (ca_start c) (ca_end c) (ca_data c).
(** stream.hpp:1811-1825 *)
Definition cache_init (c : @cache S) : @cache S := ca_go (ca_set c (f_state F (ca_src c))) (f_tell F (ca_src c)).
(** stream.hpp:3175-3190; [reopen] is m_source.open(filename, mode) *)
Definition cached_open (reopen : S -> S) (c : @cache S) : @cache S :=
  let c := invalidate_cache c in
  if negb (is_ok (ca_st c)) then ca_set c StFail
  else
    let c := ca_on c (reopen (ca_src c)) in
    if is_ok (f_state F (ca_src c)) then cache_init c else ca_set c StFail.
(** stream.hpp:1988-1995; the second component: did it throw? *)
Definition cached_close (src_close : S -> S) (c : @cache S) : @cache S * bool :=
  let c := invalidate_cache c in
  if negb (is_ok (ca_st c)) then (c, true)
  else let c := ca_on c (src_close (ca_src c)) in (ca_set c (f_state F (ca_src c)), false).
(** stream.hpp:3163-3166 with 1827-1840, 1851-1863: the destructor throws out of done() before m_source is null; then the member
    m_source is destroyed, and ~cache goes on to use it *)
Definition cached_destroy (c : @cache S) : outcome S :=
  let c := flush_cache F c in
  if negb (is_ok (ca_st c)) then UB else Ret (f_seek F (ca_src c) (ca_off c)).

(** lock and unlock of the source: [true] is lock *)
Context (src_lock : bool -> S -> nat -> nat -> outcome S).
(** stream.hpp:1760-1768, 1770-1778 *)
Definition fw_lock (lk : bool) (c : @fwindow S) (offset length_ : nat) : outcome (@fwindow S) :=
  if fw_contains c offset then
    let* s := src_lock lk (fw_src c) (fw_start c + offset) (Nat.min length_ (fw_end c - offset)) in
    Ret (FWindow s (f_state F s) (fw_off c) (fw_start c) (fw_end c))
  else Ret (FWindow (fw_src c) StFail (fw_off c) (fw_start c) (fw_end c)).
(** stream.hpp:2039-2043, 2045-2049 *)
Definition cache_lock (lk : bool) (c : @cache S) (offset length_ : nat) : outcome (@cache S) :=
  let* s := src_lock lk (ca_src c) offset length_ in
  let c := ca_on c s in Ret (ca_set c (f_state F s)).
End Cached.

(** stream.hpp:2347-2350 with 1401-1406 and the destructor of the member basic_sys ([close]): the base's destructor has no source
    any more *)
Definition buffered_destroy {S : Type} (D : dev S) (close : S -> S) (c : @buffer S) : S := close (buffer_done D c).

(** ** scoped_executor.hpp:16-45 *)
Inductive event : Type := Init | Body | Done.
(** [temporary]: [done] is a temporary, as a lambda written in the call; m_done refers to it, and it is gone at the end of the
    declaration.  The events, and how the scope is left. *)
Definition scoped (temporary init_throws body_throws : bool) : list event * outcome unit :=
  if init_throws then ([Init], Throw)
  else
    let out := if body_throws then Throw else Ret tt in
    if temporary then ([Init; Body], UB) else ([Init; Body; Done], out).

(** ** memory.hpp:71-115.  The heap: the blocks that are allocated, by address, and the bytes of the blocks that were given back. *)
Record heap : Type := Heap { blocks : list (nat * list Z); returned : list Z }.
Definition find_block (h : heap) (p : nat) : option (list Z) := option_map snd (find (fun b => (fst b =? p)%nat) (blocks h)).
Definition set_block (h : heap) (p : nat) (d : list Z) : heap := Heap (map (fun b => if (fst b =? p)%nat then (p, d) else b) (blocks h)) (returned h).
(** std::allocator: a new block has whatever the memory held *)
Definition std_allocate (h : heap) (p : nat) (junk : list Z) : heap := Heap ((p, junk) :: blocks h) (returned h).
Definition std_deallocate (h : heap) (p : nat) : heap :=
  match find_block h p with
  | Some d => Heap (filter (fun b => negb (fst b =? p)%nat) (blocks h)) (d ++ returned h)
  | None => h
  end.
(** memset(p, 0, size) *)
Definition memset0 (h : heap) (p : nat) (size : nat) : outcome heap :=
  match find_block h p with
  | Some d => if (size <=? length d)%nat then Ret (set_block h p (repeat 0 size ++ skipn size d)) else UB
  | None => UB
  end.
(** memory.hpp:103-113; [w] is sizeof(T) *)
Definition san_deallocate (w : nat) (h : heap) (p n : nat) : outcome heap := let* h := memset0 h p (w * n) in Ret (std_deallocate h p).
(** what a user of the allocator does *)
Inductive heap_op : Type := Allocate (p : nat) (junk : list Z) | Store (p : nat) (d : list Z) | Deallocate (p n : nat).
Definition heap_step (w : nat) (h : heap) (op : heap_op) : outcome heap :=
  match op with
  | Allocate p junk => Ret (std_allocate h p junk)
  | Store p d => Ret (set_block h p d)
  | Deallocate p n => san_deallocate w h p n
  end.
