(** Model of the file converters (include/stdex/stream.hpp): file_window (1691-1794) and cache
    (1801-2203).

    They work over an arbitrary file F with states of type S.  Positions and sizes are nat: fpos_t is
    taken not to wrap (files below 2^63 bytes).  CHECK_STREAM_STATE and SET_FILE_OP_TIMES have their
    defaults (1, 0).  Not modelled: lock, unlock, close and flush of the source, file times. *)
From Verif Require Import Base StreamModel MemFileModel.

(** stream.hpp:814-1012: the operations of a file the converters use.  f_seek is seekbeg. *)
Record fdev (S : Type) : Type := FDev {
  f_read : S -> nat -> S * list Z;
  f_write : S -> list Z -> S * nat;
  f_seek : S -> nat -> S;
  f_tell : S -> nat;
  f_size : S -> nat;
  f_truncate : S -> S;
  f_state : S -> sstate }.
Arguments f_read {S}. Arguments f_write {S}. Arguments f_seek {S}. Arguments f_tell {S}. Arguments f_size {S}. Arguments f_truncate {S}. Arguments f_state {S}.

Section FileConv.
Context {S : Type} (F : fdev S).

(** seek(offset, how) of the source: the place meant; negative places throw (as memory_file and cache
    do, 3910-3911 and 2004-2005) *)
Definition src_seek (s : S) (offset : Z) (how : seek_from) : outcome S :=
  let t := (match how with FromBeg => 0 | FromCur => Z.of_nat (f_tell F s) | FromEnd => Z.of_nat (f_size F s) end) + offset in
  if t <? 0 then Throw else Ret (f_seek F s (Z.to_nat t)).

(** ** file_window *)
(** stream.hpp:1790-1793 *)
Record fwindow : Type := FWindow { fw_src : S; fw_st : sstate; fw_off : nat; fw_start : nat; fw_end : nat }.
(** stream.hpp:1694-1699 *)
Definition fw_new (src : S) (offset len : nat) : fwindow := FWindow src (f_state F src) (f_tell F src) offset (offset + len).
(** interval.hpp:79 *)
Definition fw_contains (c : fwindow) (x : nat) : bool := (fw_start c <=? x)%nat && (x <? fw_end c)%nat.
(** stream.hpp:1701-1713 *)
Definition fw_read (c : fwindow) (n : nat) : fwindow * list Z :=
  if fw_contains c (fw_off c) then
    let '(s', b) := f_read F (fw_src c) (Nat.min n (fw_end c - fw_off c)) in
    (FWindow s' (f_state F s') (fw_off c + length b) (fw_start c) (fw_end c), b)
  else (FWindow (fw_src c) (if (n =? 0)%nat then StOk else StEof) (fw_off c) (fw_start c) (fw_end c), []).
(** stream.hpp:1715-1727 *)
Definition fw_write (c : fwindow) (b : list Z) : fwindow * nat :=
  if fw_contains c (fw_off c) then
    let '(s', k) := f_write F (fw_src c) (firstn (Nat.min (length b) (fw_end c - fw_off c)) b) in
    (FWindow s' (f_state F s') (fw_off c + k) (fw_start c) (fw_end c), k)
  else (FWindow (fw_src c) StFail (fw_off c) (fw_start c) (fw_end c), 0%nat).
(** stream.hpp:1741-1746; the position returned is an fpos_t (it may wrap) *)
Definition fw_seek (c : fwindow) (offset : Z) (how : seek_from) : outcome (fwindow * Z) :=
  let* s' := src_seek (fw_src c) offset how in
  let c' := FWindow s' (f_state F s') (f_tell F s') (fw_start c) (fw_end c) in
  Ret (c', if is_ok (f_state F s') then u64 (Z.of_nat (f_tell F s') - Z.of_nat (fw_start c)) else M64 - 1).
(** stream.hpp:1748-1752; skip of a file is a seek (863-868) *)
Definition fw_skip (c : fwindow) (amount : nat) : fwindow :=
  let s' := f_seek F (fw_src c) (f_tell F (fw_src c) + amount) in FWindow s' (f_state F s') (fw_off c) (fw_start c) (fw_end c).
(** stream.hpp:1754-1758 *)
Definition fw_tell (c : fwindow) : Z :=
  if fw_contains c (f_tell F (fw_src c)) then Z.of_nat (f_tell F (fw_src c) - fw_start c) else M64 - 1.
(** stream.hpp:1779-1782 *)
Definition fw_size (c : fwindow) : nat := (fw_end c - fw_start c)%nat.

(** ** cache *)
(** stream.hpp:2173-2177 *)
Inductive cstatus : Type := CEmpty | CLoaded | CDirty.
Definition is_empty (s : cstatus) : bool := match s with CEmpty => true | _ => false end.
(** stream.hpp:2170-2196; ca_data has ca_cap cells; a new cache has whatever the memory held *)
Record cache : Type := Cache {
  ca_src : S; ca_st : sstate; ca_off : nat;
  ca_cap : nat; ca_status : cstatus; ca_start : nat; ca_end : nat; ca_data : list Z }.
(** stream.hpp:1840-1849 *)
Definition cache_new (src : S) (cap : nat) (junk : list Z) : cache := Cache src (f_state F src) (f_tell F src) cap CEmpty 0 0 junk.
Definition ca_set (c : cache) (st : sstate) : cache := Cache (ca_src c) st (ca_off c) (ca_cap c) (ca_status c) (ca_start c) (ca_end c) (ca_data c).
Definition ca_go (c : cache) (off : nat) : cache := Cache (ca_src c) (ca_st c) off (ca_cap c) (ca_status c) (ca_start c) (ca_end c) (ca_data c).

(** stream.hpp:2162-2168 *)
Definition write_cache (c : cache) : cache :=
  let s1 := f_seek F (ca_src c) (ca_start c) in
  let '(s2, _) := f_write F s1 (firstn (ca_end c - ca_start c) (ca_data c)) in
  Cache s2 (f_state F s2) (ca_off c) (ca_cap c) (ca_status c) (ca_start c) (ca_end c) (ca_data c).
Definition ca_mark (c : cache) (x : cstatus) : cache := Cache (ca_src c) (ca_st c) (ca_off c) (ca_cap c) x (ca_start c) (ca_end c) (ca_data c).
(** stream.hpp:2120-2133; an interval is empty when end <= start (interval.hpp:54) *)
Definition flush_cache (c : cache) : cache :=
  match ca_status c with
  | CDirty =>
      if (ca_start c <? ca_end c)%nat then let c1 := write_cache c in if is_ok (ca_st c1) then ca_mark c1 CLoaded else c1
      else ca_mark (ca_set c StOk) CLoaded
  | _ => ca_set c StOk
  end.
(** the array [d] after [b] is copied to place [p] *)
Definition put (d : list Z) (p : nat) (b : list Z) : list Z := firstn p d ++ b ++ skipn (p + length b) d.
(** stream.hpp:2147-2160 *)
Definition load_cache (c : cache) (start0 : nat) : cache :=
  let start := (start0 - start0 mod ca_cap c)%nat in
  let s1 := f_seek F (ca_src c) start in
  if is_ok (f_state F s1) then
    let '(s2, b) := f_read F s1 (ca_cap c) in
    Cache s2 StOk (ca_off c) (ca_cap c) CLoaded start (start + length b) (put (ca_data c) 0 b)
  else Cache s1 StFail (ca_off c) (ca_cap c) (ca_status c) start (ca_end c) (ca_data c).

Definition ok_if (b : bool) (st : sstate) : sstate := if b then StOk else st.
(** stream.hpp:1873-1924; [acc] is what was copied to the caller's buffer *)
Fixpoint cache_read_loop (fuel : nat) (c : cache) (len to_read : nat) (acc : list Z) : outcome (cache * list Z) :=
  match fuel with
  | O => UB
  | Datatypes.S f =>
      (* 1911-1923 *)
      let load (c : cache) (to_read : nat) (acc : list Z) :=
        let c1 := load_cache c (ca_off c) in
        if negb (is_ok (ca_st c1)) then Ret (ca_set c1 (ok_if (to_read <? len)%nat StFail), acc)
        else if (ca_end c1 <=? ca_off c1)%nat then Ret (ca_set c1 (ok_if (to_read <? len)%nat StEof), acc)
        else cache_read_loop f c1 len to_read acc in
      (* 1890-1910 *)
      let direct (c : cache) (to_read : nat) (acc : list Z) :=
        let end_max := (ca_off c + to_read)%nat in
        if (ca_off c / ca_cap c <? end_max / ca_cap c)%nat then
          let s1 := f_seek F (ca_src c) (ca_off c) in
          let c1 := Cache s1 (ca_st c) (ca_off c) (ca_cap c) (ca_status c) (ca_start c) (ca_end c) (ca_data c) in
          if negb (is_ok (f_state F s1)) then Ret (ca_set c1 (ok_if (to_read <? len)%nat StFail), acc)
          else
            let '(s2, b) := f_read F s1 (to_read - end_max mod ca_cap c) in
            let c2 := Cache s2 (ca_st c) (ca_off c + length b) (ca_cap c) (ca_status c) (ca_start c) (ca_end c) (ca_data c) in
            let to2 := (to_read - length b)%nat in
            if (to2 =? 0)%nat then Ret (ca_set c2 StOk, acc ++ b)
            else
              let c3 := ca_set c2 (f_state F s2) in
              if negb (is_ok (f_state F s2)) then Ret (ca_set c3 (ok_if (to2 <? len)%nat (f_state F s2)), acc ++ b)
              else load c3 to2 (acc ++ b)
        else load c to_read acc in
      (* 1883-1888 *)
      let flush (c : cache) (to_read : nat) (acc : list Z) :=
        let c1 := flush_cache c in
        if negb (is_ok (ca_st c1)) then Ret (ca_set c1 (ok_if (to_read <? len)%nat (ca_st c1)), acc)
        else direct c1 to_read acc in
      (* 1869-1888 *)
      if is_empty (ca_status c) then direct c to_read acc
      else if (ca_start c <=? ca_off c)%nat && (ca_off c <? ca_end c)%nat then
        let remaining := (ca_end c - ca_off c)%nat in
        if (to_read <=? remaining)%nat then
          Ret (ca_set (ca_go c (ca_off c + to_read)) StOk, acc ++ firstn to_read (skipn (ca_off c - ca_start c) (ca_data c)))
        else flush (ca_go c (ca_off c + remaining)) (to_read - remaining)%nat (acc ++ firstn remaining (skipn (ca_off c - ca_start c) (ca_data c)))
      else flush c to_read acc
  end.
(** stream.hpp:1926-1981; [data] is what is left to write *)
Fixpoint cache_write_loop (fuel : nat) (c : cache) (len : nat) (data : list Z) : outcome (cache * nat) :=
  match fuel with
  | O => UB
  | Datatypes.S f =>
      (* 1976-1979 *)
      let load (c : cache) (data : list Z) :=
        let c1 := load_cache c (ca_off c) in
        if negb (is_ok (ca_st c1)) then Ret (c1, (len - length data)%nat) else cache_write_loop f c1 len data in
      (* 1959-1975 *)
      let direct (c : cache) (data : list Z) :=
        let end_max := (ca_off c + length data)%nat in
        if (ca_off c / ca_cap c <? end_max / ca_cap c)%nat then
          let s1 := f_seek F (ca_src c) (ca_off c) in
          if negb (is_ok (ca_st c)) then
            Ret (Cache s1 (ca_st c) (ca_off c) (ca_cap c) (ca_status c) (ca_start c) (ca_end c) (ca_data c), (len - length data)%nat)
          else
            let '(s2, k) := f_write F s1 (firstn (length data - end_max mod ca_cap c) data) in
            let c2 := Cache s2 (f_state F s2) (ca_off c + k) (ca_cap c) (ca_status c) (ca_start c) (ca_end c) (ca_data c) in
            let data2 := skipn k data in
            if (length data2 =? 0)%nat || negb (is_ok (f_state F s2)) then Ret (c2, (len - length data2)%nat)
            else load c2 data2
        else load c data in
      (* 1954-1957 *)
      let flush (c : cache) (data : list Z) :=
        let c1 := flush_cache c in
        if negb (is_ok (ca_st c1)) then Ret (c1, (len - length data)%nat) else direct c1 data in
      (* 1934-1957 *)
      if is_empty (ca_status c) then direct c data
      else
        let end_max := (ca_start c + ca_cap c)%nat in
        if (ca_start c <=? ca_off c)%nat && (ca_off c <? end_max)%nat then
          let remaining := (end_max - ca_off c)%nat in
          if (length data <=? remaining)%nat then
            let off' := (ca_off c + length data)%nat in
            Ret (Cache (ca_src c) StOk off' (ca_cap c) CDirty (ca_start c) (Nat.max (ca_end c) off') (put (ca_data c) (ca_off c - ca_start c) data), len)
          else flush (Cache (ca_src c) (ca_st c) (ca_off c + remaining) (ca_cap c) CDirty (ca_start c) end_max (put (ca_data c) (ca_off c - ca_start c) (firstn remaining data)))
                     (skipn remaining data)
        else flush c data
  end.
(** three rounds always suffice (FileConvProps) *)
Definition cache_read (c : cache) (n : nat) : outcome (cache * list Z) := cache_read_loop 3 c n n [].
Definition cache_write (c : cache) (b : list Z) : outcome (cache * nat) := cache_write_loop 3 c (length b) b.
(** stream.hpp:2036-2041 *)
Definition cache_size (c : cache) : nat := if is_empty (ca_status c) then f_size F (ca_src c) else Nat.max (f_size F (ca_src c)) (ca_end c).
(** stream.hpp:2002-2027; None: an exception *)
Definition cache_seek (c : cache) (offset : Z) (how : seek_from) : cache * option nat :=
  let t := (match how with FromBeg => 0 | FromCur => Z.of_nat (ca_off c) | FromEnd => Z.of_nat (cache_size c) end) + offset in
  if t <? 0 then (ca_set c StOk, None) else (ca_set (ca_go c (Z.to_nat t)) StOk, Some (Z.to_nat t)).
(** stream.hpp:2043-2061 *)
Definition cache_truncate (c : cache) : cache :=
  let s1 := f_seek F (ca_src c) (ca_off c) in
  let '(x, e) :=
    if (ca_end c <=? ca_off c)%nat then (ca_status c, ca_end c)
    else if (ca_start c <=? ca_off c)%nat then (ca_status c, ca_off c)
    else (CEmpty, ca_end c) in
  let s2 := f_truncate F s1 in
  Cache s2 (f_state F s2) (ca_off c) (ca_cap c) x (ca_start c) e (ca_data c).
(** stream.hpp:1992-2000 *)
Definition cache_flush (c : cache) : cache := flush_cache c.
(** stream.hpp:1851-1863: the destructor: the source, or an exception *)
Definition cache_done (c : cache) : outcome S :=
  let c1 := flush_cache c in if negb (is_ok (ca_st c1)) then Throw else Ret (f_seek F (ca_src c1) (ca_off c1)).

(** a history of calls, and what each returns *)
Inductive file_op : Type := FoRead (n : nat) | FoWrite (b : list Z) | FoSeek (o : Z) (how : seek_from) | FoTruncate | FoFlush | FoSize | FoTell.
Inductive file_res : Type := FrBytes (b : list Z) | FrCount (k : nat) | FrPos (p : option nat) | FrNone.
Definition cache_step (op : file_op) (c : cache) : outcome (cache * file_res) :=
  match op with
  | FoRead n => let* (c', b) := cache_read c n in Ret (c', FrBytes b)
  | FoWrite b => let* (c', k) := cache_write c b in Ret (c', FrCount k)
  | FoSeek o how => let '(c', p) := cache_seek c o how in Ret (c', FrPos p)
  | FoTruncate => Ret (cache_truncate c, FrNone)
  | FoFlush => Ret (cache_flush c, FrNone)
  | FoSize => Ret (c, FrCount (cache_size c))
  | FoTell => Ret (c, FrCount (ca_off c))
  end.
(** each result with the state after it *)
Fixpoint cache_run (ops : list file_op) (c : cache) : outcome (cache * list (file_res * sstate)) :=
  match ops with
  | [] => Ret (c, [])
  | op :: r => let* (c1, x) := cache_step op c in let* (c2, y) := cache_run r c1 in Ret (c2, (x, ca_st c1) :: y)
  end.
End FileConv.
