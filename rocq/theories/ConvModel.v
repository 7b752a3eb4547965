(** Model of the stream converters (include/stdex/stream.hpp): converter (1019-1080), buffer
    (1391-1543), limiter (1548-1603), window (1608-1686).

    A converter works over an arbitrary source stream D with states of type S.  Lengths are nat;
    limits and offsets are fsize_t/fpos_t values in Z.  Not modelled: flush and close of the source
    (they only reach the device below), bad_alloc in the constructor. *)
From Verif Require Import Base StreamModel.

(** stream.hpp:60 (fsize_max is the largest uint64_t) *)
Definition fsize_max : Z := M64 - 1.

Section Conv.
Context {S : Type} (D : dev S).

(** stream.hpp:1045-1059: the source, the converter's own state flag *)
Definition conv_read (s : S) (n : nat) : S * sstate * list Z :=
  let '(s', b) := d_read D s n in (s', d_state D s', b).
Definition conv_write (s : S) (b : list Z) : S * sstate * nat :=
  let '(s', k) := d_write D s b in (s', d_state D s', k).

(** ** buffer *)
(** stream.hpp:1524-1542: of each buffer the bytes up to tail are kept ([length] is tail), and head *)
Record buffer : Type := Buffer {
  bf_src : S; bf_st : sstate;
  bf_r : list Z; bf_rh : nat; bf_rcap : nat;
  bf_w : list Z; bf_wh : nat; bf_wcap : nat }.
(** stream.hpp:1413-1417 *)
Definition buffer_new (src : S) (rcap wcap : nat) : buffer := Buffer src (d_state D src) [] 0 rcap [] 0 wcap.

(** stream.hpp:1430-1462; [acc] is what was copied to the caller's buffer.  None: still looping *)
Fixpoint buffer_read_loop (fuel : nat) (c : buffer) (len to_read : nat) (acc : list Z) : option (buffer * list Z) :=
  match fuel with
  | O => None
  | Datatypes.S f =>
      let size := (length (bf_r c) - bf_rh c)%nat in
      if (to_read <=? size)%nat then
        Some (Buffer (bf_src c) StOk (bf_r c) (bf_rh c + to_read) (bf_rcap c) (bf_w c) (bf_wh c) (bf_wcap c),
              acc ++ firstn to_read (skipn (bf_rh c) (bf_r c)))
      else
        let acc1 := acc ++ firstn size (skipn (bf_rh c) (bf_r c)) in
        let to1 := (to_read - size)%nat in
        if (bf_rcap c <? to1)%nat then
          let '(s', b) := d_read D (bf_src c) to1 in
          let to2 := (to1 - length b)%nat in
          Some (Buffer s' (if (to2 <? len)%nat then StOk else d_state D s') [] 0 (bf_rcap c) (bf_w c) (bf_wh c) (bf_wcap c), acc1 ++ b)
        else
          let '(s', b) := d_read D (bf_src c) (bf_rcap c) in
          if (length b <? bf_rcap c)%nat && (length b <? to1)%nat then
            let to2 := (to1 - length b)%nat in
            Some (Buffer s' (if (to2 <? len)%nat then StOk else d_state D s') b (length b) (bf_rcap c) (bf_w c) (bf_wh c) (bf_wcap c), acc1 ++ b)
          else buffer_read_loop f (Buffer s' (bf_st c) b 0 (bf_rcap c) (bf_w c) (bf_wh c) (bf_wcap c)) len to1 acc1
  end.

(** stream.hpp:1515-1531 *)
Definition flush_write (c : buffer) : buffer :=
  let size := (length (bf_w c) - bf_wh c)%nat in
  if (size =? 0)%nat then Buffer (bf_src c) StOk (bf_r c) (bf_rh c) (bf_rcap c) (bf_w c) (bf_wh c) (bf_wcap c)
  else
    let '(s', k) := d_write D (bf_src c) (firstn size (skipn (bf_wh c) (bf_w c))) in
    if (bf_wh c + k =? length (bf_w c))%nat
    then Buffer s' StOk (bf_r c) (bf_rh c) (bf_rcap c) [] 0 (bf_wcap c)
    else Buffer s' (d_state D s') (bf_r c) (bf_rh c) (bf_rcap c) (bf_w c) (bf_wh c + k) (bf_wcap c).

(** stream.hpp:1476-1504; [data] is what is left to write.  None: still looping *)
Fixpoint buffer_write_loop (fuel : nat) (c : buffer) (len : nat) (data : list Z) : option (buffer * nat) :=
  match fuel with
  | O => None
  | Datatypes.S f =>
      let to_write := length data in
      let available := (bf_wcap c - length (bf_w c))%nat in
      if (to_write <=? available)%nat then
        Some (Buffer (bf_src c) StOk (bf_r c) (bf_rh c) (bf_rcap c) (bf_w c ++ data) (bf_wh c) (bf_wcap c), len)
      else
        let w1 := bf_w c ++ firstn available data in
        let data1 := skipn available data in
        let to1 := length data1 in
        let size := (length w1 - bf_wh c)%nat in
        let rest (s : S) (st : sstate) (w : list Z) (wh : nat) :=
          if (bf_wcap c <? to1)%nat then
            let '(s2, st2, k2) := conv_write s data1 in
            Some (Buffer s2 st2 (bf_r c) (bf_rh c) (bf_rcap c) w wh (bf_wcap c), (len - (to1 - k2))%nat)
          else buffer_write_loop f (Buffer s st (bf_r c) (bf_rh c) (bf_rcap c) w wh (bf_wcap c)) len data1 in
        if (size =? 0)%nat then rest (bf_src c) (bf_st c) w1 (bf_wh c)
        else
          let '(s', st', k) := conv_write (bf_src c) (firstn size (skipn (bf_wh c) w1)) in
          if (bf_wh c + k =? length w1)%nat then rest s' st' [] 0%nat
          else Some (Buffer s' st' (bf_r c) (bf_rh c) (bf_rcap c) w1 (bf_wh c + k) (bf_wcap c), (len - to1)%nat)
  end.
(** stream.hpp:1426-1462 and 1464-1505.  Two rounds of each loop always suffice (ConvProps). *)
Definition buffer_read (c : buffer) (n : nat) : buffer * list Z :=
  match buffer_read_loop 2 c n n [] with Some x => x | None => (c, []) end.
Definition buffer_write (c : buffer) (data : list Z) : buffer * nat :=
  if (length data =? 0)%nat then
    let c1 := flush_write c in
    if is_ok (bf_st c1) then
      let '(s', st', _) := conv_write (bf_src c1) [] in
      (Buffer s' st' (bf_r c1) (bf_rh c1) (bf_rcap c1) (bf_w c1) (bf_wh c1) (bf_wcap c1), 0%nat)
    else (c1, 0%nat)
  else match buffer_write_loop 2 c (length data) data with Some x => x | None => (c, 0%nat) end.
Definition buffer_set (c : buffer) (st : sstate) : buffer :=
  Buffer (bf_src c) st (bf_r c) (bf_rh c) (bf_rcap c) (bf_w c) (bf_wh c) (bf_wcap c).
Definition buffer_dev : dev buffer := {| d_read := buffer_read; d_write := buffer_write; d_state := bf_st; d_set := buffer_set |}.
(** stream.hpp:1507-1512 (the source's own flush does nothing here) and 1419-1423: the destructor
    leaves the source *)
Definition buffer_flush (c : buffer) : buffer :=
  let c1 := flush_write c in if is_ok (bf_st c1) then buffer_set c1 (d_state D (bf_src c1)) else c1.
Definition buffer_done (c : buffer) : S := bf_src (flush_write c).

(** ** limiter *)
(** stream.hpp:1600-1602 *)
Record limiter : Type := Limiter { lm_src : S; lm_st : sstate; lm_read : Z; lm_write : Z }.
(** stream.hpp:1551-1555 *)
Definition limiter_new (src : S) (r w : Z) : limiter := Limiter src (d_state D src) r w.
(** stream.hpp:1557-1577 *)
Definition limiter_read (c : limiter) (n : nat) : limiter * list Z :=
  let len := Z.of_nat n in
  if lm_read c =? fsize_max then let '(s', st', b) := conv_read (lm_src c) n in (Limiter s' st' (lm_read c) (lm_write c), b)
  else if len <=? lm_read c then
    let '(s', st', b) := conv_read (lm_src c) n in (Limiter s' st' (lm_read c - Z.of_nat (length b)) (lm_write c), b)
  else if negb (len =? 0) && (lm_read c =? 0) then (Limiter (lm_src c) StEof (lm_read c) (lm_write c), [])
  else let '(s', st', b) := conv_read (lm_src c) (Z.to_nat (lm_read c)) in (Limiter s' st' (lm_read c - Z.of_nat (length b)) (lm_write c), b).
(** stream.hpp:1579-1598 *)
Definition limiter_write (c : limiter) (b : list Z) : limiter * nat :=
  let len := Z.of_nat (length b) in
  if lm_write c =? fsize_max then let '(s', st', k) := conv_write (lm_src c) b in (Limiter s' st' (lm_read c) (lm_write c), k)
  else if len <=? lm_write c then
    let '(s', st', k) := conv_write (lm_src c) b in (Limiter s' st' (lm_read c) (lm_write c - Z.of_nat k), k)
  else if negb (len =? 0) && (lm_write c =? 0) then (Limiter (lm_src c) StFail (lm_read c) (lm_write c), 0%nat)
  else let '(s', st', k) := conv_write (lm_src c) (firstn (Z.to_nat (lm_write c)) b) in (Limiter s' st' (lm_read c) (lm_write c - Z.of_nat k), k).
Definition limiter_dev : dev limiter := {|
  d_read := limiter_read; d_write := limiter_write; d_state := lm_st;
  d_set := fun c st => Limiter (lm_src c) st (lm_read c) (lm_write c) |}.

(** ** window *)
(** stream.hpp:1682-1685; the limiter part first *)
Record window : Type := Window { wn_lim : limiter; wn_roff : Z; wn_woff : Z }.
(** stream.hpp:1611-1616 *)
Definition window_new (src : S) (roff rlim woff wlim : Z) : window := Window (limiter_new src rlim wlim) roff woff.
(** stream.hpp:1627-1645: the part of read after the offset was skipped; skip of the source is that of
    stream::basic *)
Definition window_read_in (c : limiter) (n : nat) : outcome (limiter * list Z) :=
  let len := Z.of_nat n in
  if lm_read c =? fsize_max then let '(s', st', b) := conv_read (lm_src c) n in Ret (Limiter s' st' (lm_read c) (lm_write c), b)
  else if len <=? lm_read c then
    let '(s', st', b) := conv_read (lm_src c) n in Ret (Limiter s' st' (lm_read c - Z.of_nat (length b)) (lm_write c), b)
  else if negb (len =? 0) && (lm_read c =? 0) then
    let* s' := skip D (lm_src c) n in Ret (Limiter s' StEof (lm_read c) (lm_write c), [])
  else let '(s', st', b) := conv_read (lm_src c) (Z.to_nat (lm_read c)) in Ret (Limiter s' st' (lm_read c - Z.of_nat (length b)) (lm_write c), b).
(** stream.hpp:1618-1646 *)
Definition window_read (c : window) (n : nat) : outcome (window * list Z) :=
  let l := wn_lim c in
  if negb (wn_roff c =? 0) then
    let* s' := skip D (lm_src l) (Z.to_nat (wn_roff c)) in
    let l1 := Limiter s' (d_state D s') (lm_read l) (lm_write l) in
    if negb (is_ok (d_state D s')) then Ret (Window l1 (wn_roff c) (wn_woff c), [])
    else let* (l2, b) := window_read_in l1 n in Ret (Window l2 0 (wn_woff c), b)
  else let* (l2, b) := window_read_in l n in Ret (Window l2 0 (wn_woff c), b).
(** stream.hpp:1648-1680 *)
Definition window_write (c : window) (b : list Z) : window * Z :=
  let l := wn_lim c in
  let len := Z.of_nat (length b) in
  if len <=? wn_woff c then (Window (Limiter (lm_src l) StOk (lm_read l) (lm_write l)) (wn_roff c) (wn_woff c - len), len)
  else
    let data := skipn (Z.to_nat (wn_woff c)) b in
    let len1 := len - wn_woff c in
    let skipped := wn_woff c in
    if lm_write l =? fsize_max then
      let '(s', st', k) := conv_write (lm_src l) data in (Window (Limiter s' st' (lm_read l) (lm_write l)) (wn_roff c) 0, skipped + Z.of_nat k)
    else if len1 <=? lm_write l then
      let '(s', st', k) := conv_write (lm_src l) data in (Window (Limiter s' st' (lm_read l) (lm_write l - Z.of_nat k)) (wn_roff c) 0, skipped + Z.of_nat k)
    else if negb (len1 =? 0) && (lm_write l =? 0) then
      (Window (Limiter (lm_src l) StOk (lm_read l) (lm_write l)) (wn_roff c) 0, skipped + len1)
    else
      let '(s', st', k) := conv_write (lm_src l) (firstn (Z.to_nat (lm_write l)) data) in
      (Window (Limiter s' st' (lm_read l) (lm_write l - Z.of_nat k)) (wn_roff c) 0, skipped + (len1 - lm_write l) + Z.of_nat k).

(** a history of reads through a window: what each returned *)
Fixpoint window_reads (c : window) (ns : list nat) : outcome (window * list (list Z)) :=
  match ns with
  | [] => Ret (c, [])
  | n :: r => let* (c1, b) := window_read c n in let* (c2, bs) := window_reads c1 r in Ret (c2, b :: bs)
  end.
(** a history of writes through a window: the counts returned *)
Fixpoint window_writes (c : window) (bs : list (list Z)) : window * list Z :=
  match bs with
  | [] => (c, [])
  | b :: r => let '(c1, k) := window_write c b in let '(c2, ks) := window_writes c1 r in (c2, k :: ks)
  end.
End Conv.
