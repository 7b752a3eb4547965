(** Model of zlib_writer and zlib_reader (include/stdex/zlib.hpp) and of stream_hasher (include/stdex/hash.hpp:129-165).

    zlib itself is a parameter: [step z input room finish] is one call of deflate or inflate in the state z, with the input
    bytes available (next_in, avail_in), room for avail_out bytes and Z_FINISH or Z_NO_FLUSH; it gives the new state, the
    number of input bytes used, the bytes produced and the return code.  The source stream is an arbitrary [dev].
    uInt arithmetic does not wrap here: the amounts are at most UINT_MAX by construction.  The constructors' init calls and
    the allocation of the block are not modelled. *)
From Verif Require Import Base StreamModel ConvModel.

Section Zlib.
Context {S Zs : Type} (D : dev S) (step : Zs -> list Z -> nat -> bool -> Zs * nat * list Z * Z) (block_size : nat).

(** static_cast<uInt>(std::min<size_t>(length, UINT_MAX)) *)
Definition uint_min (length : nat) : nat := if Z.of_nat length <=? 4294967295 then length else Z.to_nat 4294967295.

(** zlib.hpp:86-100: one chunk; the boolean tells that the source stayed ok.  What deflate has not used when the loop ends is
    dropped.  A throw is zlib.hpp:31-45. *)
Fixpoint deflate_loop (fuel : nat) (z : Zs) (s : S) (inp : list Z) : outcome (Zs * S * bool) :=
  match fuel with
  | O => UB
  | Datatypes.S f =>
      let '(z', used, o, code) := step z inp block_size false in
      if code <? 0 then Throw
      else
        let s' := match o with [] => s | _ => fst (d_write D s o) end in
        if match o with [] => false | _ => negb (d_ok D s') end then Ret (z', s', false)
        else if (length o =? block_size)%nat then deflate_loop f z' s' (skipn used inp)
        else Ret (z', s', true)
  end.
(** zlib.hpp:77-107; m_state is set on every way out; [fuel] also bounds the chunks *)
Fixpoint zwrite_loop (fuel : nat) (z : Zs) (s : S) (data : list Z) (num_written : nat) : outcome (Zs * S * sstate * nat) :=
  match fuel with
  | O => UB
  | Datatypes.S f =>
      match data with
      | [] => Ret (z, s, StOk, num_written)
      | _ =>
          let n := uint_min (length data) in
          let* (z', s', ok) := deflate_loop fuel z s (firstn n data) in
          if ok then zwrite_loop f z' s' (skipn n data) (num_written + n)
          else Ret (z', s', d_state D s', num_written)
      end
  end.
Definition zwrite (fuel : nat) (z : Zs) (s : S) (data : list Z) := zwrite_loop fuel z s data 0.
(** zlib.hpp:60-75: the destructor *)
Fixpoint zfinish (fuel : nat) (z : Zs) (s : S) : outcome (Zs * S) :=
  match fuel with
  | O => UB
  | Datatypes.S f =>
      let '(z', used, o, code) := step z [] block_size true in
      if code <? 0 then Throw
      else
        let s' := fst (d_write D s o) in
        if negb (d_ok D s') then Throw
        else if (length o =? block_size)%nat then zfinish f z' s' else Ret (z', s')
  end.

(** zlib.hpp:147-164: [inb] is what is left of the block (avail_in bytes at next_in), [room] is avail_out; the bytes stored
    and whether the source had nothing more *)
Fixpoint inflate_loop (fuel : nat) (z : Zs) (s : S) (inb : list Z) (room : nat) : outcome (Zs * S * list Z * list Z * bool) :=
  match fuel with
  | O => UB
  | Datatypes.S f =>
      let '(s', inb) := match inb with [] => d_read D s block_size | _ => (s, inb) end in
      match inb with
      | [] => Ret (z, s', [], [], true)
      | _ =>
          let '(z', used, o, code) := step z inb room false in
          if code <? 0 then Throw
          else
            let room' := (room - length o)%nat in
            if (room' =? 0)%nat then Ret (z', s', skipn used inb, o, false)
            else let* (z2, s2, inb2, o2, stop) := inflate_loop f z' s' (skipn used inb) room' in Ret (z2, s2, inb2, o ++ o2, stop)
      end
  end.
(** zlib.hpp:138-171; [acc] are the num_read bytes stored so far *)
Fixpoint zread_loop (fuel : nat) (z : Zs) (s : S) (inb : list Z) (length_ : nat) (acc : list Z) : outcome (Zs * S * list Z * sstate * list Z) :=
  match fuel with
  | O => UB
  | Datatypes.S f =>
      if (length_ =? 0)%nat then Ret (z, s, inb, StOk, acc)
      else
        let n := uint_min length_ in
        let* (z', s', inb', o, stop) := inflate_loop fuel z s inb n in
        if stop then Ret (z', s', inb', match acc ++ o with [] => d_state D s' | _ => StOk end, acc ++ o)
        else zread_loop f z' s' inb' (length_ - n) (acc ++ o)
  end.
Definition zread (fuel : nat) (z : Zs) (s : S) (inb : list Z) (length_ : nat) := zread_loop fuel z s inb length_ [].
End Zlib.

(** stream_hasher: the stream and the hash; [hash] is basic_hash::hash(data, length) *)
Section Hasher.
Context {S H : Type} (D : dev S) (hash : H -> list Z -> H).
(** hash.hpp:144-150 *)
Definition hasher_read (c : S * H) (n : nat) : S * H * sstate * list Z :=
  let '(s', st, b) := conv_read D (fst c) n in (s', hash (snd c) b, st, b).
(** hash.hpp:152-158 *)
Definition hasher_write (c : S * H) (b : list Z) : S * H * sstate * nat :=
  let '(s', st, k) := conv_write D (fst c) b in (s', hash (snd c) (firstn k b), st, k).
(** any calls, one after another: reads of a length and writes of data; the bytes that went through *)
Inductive call : Type := CRead (n : nat) | CWrite (b : list Z).
Fixpoint hasher_calls (c : S * H) (l : list call) : S * H * list (list Z) :=
  match l with
  | [] => (c, [])
  | CRead n :: r => let '(s, h, _, b) := hasher_read c n in let '(c', t) := hasher_calls (s, h) r in (c', b :: t)
  | CWrite b :: r => let '(s, h, _, k) := hasher_write c b in let '(c', t) := hasher_calls (s, h) r in (c', firstn k b :: t)
  end.
End Hasher.
