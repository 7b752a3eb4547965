(** What a memory_file is: a byte array with a position, written independently of the buffer
    management.  [op]s and results are those of MemFileModel. *)
From Verif Require Import Base StreamModel MemFileModel.

(** content, position, state *)
Definition afile : Type := list Z * nat * sstate.
Definition is_byte (x : Z) : Prop := 0 <= x < 256.

(** the array after the bytes [b] are stored at position [p] *)
Definition overwrite (d : list Z) (p : nat) (b : list Z) : list Z := firstn p d ++ b ++ skipn (p + length b) d.
Definition store (fails : bool) (b : list Z) (a : afile) : afile :=
  let '(d, p, st) := a in if fails then (d, p, StFail) else (overwrite d p b, (p + length b)%nat, StOk).
(** a length-prefixed string of units of [w] bytes at the start of [d] *)
Definition string_at (w : nat) (d : list Z) : option (list Z) :=
  let n := Z.to_nat (le_value (firstn 4 d)) in
  if (length d <? 4)%nat || (length d - 4 <? n * w)%nat then None
  else Some (units_of n w (skipn 4 d)).
Definition place (o : Z) (how : seek_from) (a : afile) : Z :=
  let '(d, p, _) := a in match how with FromBeg => o | FromCur => Z.of_nat p + o | FromEnd => Z.of_nat (length d) + o end.
Definition go (t : Z) (a : afile) : afile * mf_res :=
  let '(d, p, st) := a in if t <? 0 then (a, RThrow) else ((d, Z.to_nat t, StOk), RPos t).

(** [fails]: the memory could not be had.  Typed reads and writes do nothing unless the state is ok;
    a string that is not complete in the file is not read: the variable keeps its value. *)
Definition spec_step (fails : bool) (op : mf_op) (a : afile) : afile * mf_res :=
  let '(d, p, st) := a in
  match op with
  | MRead n =>
      let b := firstn n (skipn p d) in
      ((d, (p + length b)%nat, if (0 <? n)%nat && (length b =? 0)%nat then StEof else StOk), RBytes (map Some b))
  | MWrite b => (store fails b a, RCount (if fails then 0 else Z.of_nat (length b)))
  | MWriteByte x n => (store fails (repeat x n) a, RNone)
  | MReadData w =>
      if negb (is_ok st) then (a, RValue (Some 0))
      else if (p + w <=? length d)%nat then ((d, (p + w)%nat, StOk), RValue (Some (le_value (firstn w (skipn p d)))))
      else ((d, length d, StEof), RValue (Some 0))
  | MWriteData w v => (if is_ok st then store fails (le_bytes w v) a else a, RNone)
  | MReadStr w before =>
      if negb (is_ok st) then (a, RStr [])
      else match string_at w (skipn p d) with
           | Some str => ((d, (p + 4 + length str * w)%nat, StOk), RStr (map Some str))
           | None => ((d, length d, StEof), RStr (map Some before))
           end
  | MWriteStr w str => (if is_ok st then store fails (le_bytes 4 (Z.of_nat (length str)) ++ flat_map (le_bytes w) str) a else a, RNone)
  | MSeek o how => go (place o how a) a
  | MSkip n => if ptrdiff_max <? n then (a, RThrow) else go (place n FromCur a) a
  | MTruncate => ((firstn p d, p, StOk), RNone)
  | MReserve r tight => if fails then ((d, p, StFail), RNone) else ((if tight then firstn r d else d, p, StOk), RNone)
  | MClose => (([], 0%nat, StOk), RNone)
  | MCopy => if fails then (a, RThrow) else ((d, p, StOk), RNone)
  end.
Fixpoint spec_run (ops : list mf_op) (fails : list bool) (a : afile) : afile * list mf_res :=
  match ops, fails with
  | op :: r, f :: fs => let '(a1, x) := spec_step f op a in let '(a2, y) := spec_run r fs a1 in (a2, x :: y)
  | _, _ => (a, [])
  end.

(** Calls that stay inside the file: the position does not go beyond the end, data are bytes, sizes
    are those of real objects. *)
Definition inside_target (t : Z) (a : afile) : Prop := let '(d, _, _) := a in - 2 ^ 63 <= t <= Z.of_nat (length d).
Definition inside (op : mf_op) (a : afile) : Prop :=
  let '(d, p, st) := a in
  match op with
  | MWrite b => Forall is_byte b /\ Z.of_nat (length b) < 2 ^ 62
  | MWriteByte x n => is_byte x /\ Z.of_nat n < 2 ^ 62
  | MReadData w | MWriteData w _ => (0 < w <= 8)%nat
  | MReadStr w _ => (0 < w <= 8)%nat
  | MWriteStr w str => (0 < w <= 8)%nat /\ Z.of_nat (length str) < 2 ^ 32
  | MSeek o how => inside_target (place o how a) a
  | MSkip n => 0 <= n /\ (n <= ptrdiff_max -> inside_target (place n FromCur a) a)
  | MReserve r tight => Z.of_nat r < 2 ^ 63 /\ (tight = true -> (p <= r)%nat)
  | _ => True
  end.
Fixpoint inside_all (ops : list mf_op) (fails : list bool) (a : afile) : Prop :=
  match ops, fails with
  | op :: r, f :: fs => inside op a /\ inside_all r fs (fst (spec_step f op a))
  | _, _ => True
  end.

(** the size of the file after the call, if it writes *)
Definition needed (op : mf_op) (a : afile) : option nat :=
  let '(d, p, st) := a in
  match op with
  | MWrite b => Some (p + length b)%nat
  | MWriteByte x n => Some (p + n)%nat
  | MWriteData w _ => if is_ok st then Some (p + w)%nat else None
  | MWriteStr w str => if is_ok st then Some (p + (4 + w * length str))%nat else None
  | _ => None
  end.
(** When a call may fail for lack of memory: only if it needs more than is reserved and the allocator
    refuses, or the buffer is not ours to reallocate, or the size is absurd. *)
Definition may_fail (g : bool) (op : mf_op) (s : mfile) (a : afile) : Prop :=
  match op with
  | MReserve r tight => (mf_reserved s < Z.of_nat r \/ tight = true /\ Z.of_nat r < mf_reserved s) /\
                        (g = false \/ mf_manage s = false \/ 2 ^ 62 < Z.of_nat r)
  | MCopy => g = false
  | _ => exists n, needed op a = Some n /\ mf_reserved s < Z.of_nat n /\ (g = false \/ mf_manage s = false \/ 2 ^ 62 < Z.of_nat n)
  end.

(** The file [s] holds the bytes [d] and stands at [p]. *)
Definition holds (s : mfile) (a : afile) : Prop :=
  let '(d, p, st) := a in
  firstn (length d) (mf_mem s) = map Some d /\ mf_size s = Z.of_nat (length d) /\ mf_off s = Z.of_nat p /\ mf_state s = st /\
  (p <= length d <= length (mf_mem s))%nat /\ mf_reserved s <= ptrdiff_max /\ Forall is_byte d.
