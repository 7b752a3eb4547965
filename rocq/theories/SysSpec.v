(** Specification vocabulary for the operating system's streams: what POSIX promises of a descriptor. *)
From Verif Require Import Base StreamModel StreamSpec MemFileModel FileConvModel FileConvSpec SysModel.

Section Spec.
Context {S : Type} (fd : osfd S).

(** read(2): a part of what is left, possibly short; nothing only when nothing is left or nothing was asked for; or an error *)
Definition os_source (Inv : S -> Prop) (left : S -> list Z) : Prop := forall s n s' r, Inv s -> os_read fd s n = (s', r) ->
  Inv s' /\ match r with
            | None => left s' = left s
            | Some b => left s = b ++ left s' /\ (length b <= n)%nat /\ (b = [] -> n = 0%nat \/ left s = [])
            end.
(** write(2): the first k bytes are taken, at least one unless there was none; or an error *)
Definition os_sink (Inv : S -> Prop) (out : S -> list Z) : Prop := forall s b s' r, Inv s -> os_write fd s b = (s', r) ->
  Inv s' /\ match r with
            | None => out s' = out s
            | Some k => (k <= length b)%nat /\ (b <> [] -> 0 < k)%nat /\ out s' = out s ++ firstn k b
            end.

(** where lseek goes *)
Definition seek_place (size pos : nat) (o : Z) (how : seek_from) : Z :=
  match how with FromBeg => o | FromCur => Z.of_nat pos + o | FromEnd => Z.of_nat size + o end.
(** A descriptor of a regular file, used without errors: its content and its offset.  Reads and writes may be short. *)
Record posix_file (content : S -> list Z) (pos : S -> nat) : Prop := {
  px_read : forall s n s' r, os_read fd s n = (s', r) -> exists b, r = Some b /\ content s' = content s /\ pos s' = (pos s + length b)%nat /\
    (exists rest, skipn (pos s) (content s) = b ++ rest) /\ (length b <= n)%nat /\ (b = [] -> n = 0%nat \/ skipn (pos s) (content s) = []);
  px_write : forall s b s' r, os_write fd s b = (s', r) -> exists k, r = Some k /\ (k <= length b)%nat /\ (b <> [] -> 0 < k)%nat /\
    content s' = store_at (content s) (pos s) (firstn k b) /\ pos s' = (pos s + k)%nat;
  px_lseek : forall s o how s' r, os_lseek fd s o how = (s', r) -> content s' = content s /\
    let t := seek_place (length (content s)) (pos s) o how in if t <? 0 then r = -1 /\ pos s' = pos s else r = t /\ pos s' = Z.to_nat t;
  px_ftruncate : forall s n, let '(s', ok) := os_ftruncate fd s (Z.of_nat n) in
    ok = true /\ content s' = firstn n (content s) ++ repeat 0 (n - length (content s)) /\ pos s' = pos s;
  px_lockf : forall s b n, let '(s', _) := os_lockf fd s b n in content s' = content s /\ pos s' = pos s }.
End Spec.

(** A regular file of which at most [m] bytes are read or written at a time, and that refuses to be locked: content, offset *)
Definition toy_fd (m : nat) : osfd (list Z * nat) := {|
  os_read := fun s n => let b := firstn (Nat.min n m) (skipn (snd s) (fst s)) in ((fst s, (snd s + length b)%nat), Some b);
  os_write := fun s b => let x := firstn m b in ((store_at (fst s) (snd s) x, (snd s + length x)%nat), Some (length x));
  os_lseek := fun s o how => let t := seek_place (length (fst s)) (snd s) o how in if t <? 0 then (s, -1) else ((fst s, Z.to_nat t), t);
  os_ftruncate := fun s n => ((firstn (Z.to_nat n) (fst s) ++ repeat 0 (Z.to_nat n - length (fst s)), snd s), true);
  os_lockf := fun s _ _ => (s, false);
  os_fsync := fun s => (s, true) |}.
