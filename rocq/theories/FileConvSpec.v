(** Specification vocabulary for the file converters: an ordinary file, and what calls on it do. *)
From Verif Require Import Base StreamModel MemFileModel FileConvModel.

(** the content after the bytes [b] are stored at position [p]; a gap reads as zeros *)
Definition store_at (d : list Z) (p : nat) (b : list Z) : list Z :=
  match b with [] => d | _ => firstn p d ++ repeat 0 (p - length d) ++ b ++ skipn (p + length b) d end.
Definition cut_at (d : list Z) (p : nat) : list Z := firstn p d ++ repeat 0 (p - length d).

(** An ordinary file that does not fail: [content s] is its content. *)
Record plain_file {S} (F : fdev S) (content : S -> list Z) : Prop := {
  pf_read : forall s n s' b, f_read F s n = (s', b) ->
    b = firstn n (skipn (f_tell F s) (content s)) /\ content s' = content s /\ f_tell F s' = (f_tell F s + length b)%nat /\
    f_state F s' = (if (0 <? n)%nat && (length b =? 0)%nat then StEof else StOk);
  pf_write : forall s b s' k, f_write F s b = (s', k) ->
    content s' = store_at (content s) (f_tell F s) b /\ k = length b /\ f_tell F s' = (f_tell F s + length b)%nat /\ f_state F s' = StOk;
  pf_seek : forall s p, content (f_seek F s p) = content s /\ f_tell F (f_seek F s p) = p /\ f_state F (f_seek F s p) = StOk;
  pf_truncate : forall s, content (f_truncate F s) = cut_at (content s) (f_tell F s) /\ f_tell F (f_truncate F s) = f_tell F s /\ f_state F (f_truncate F s) = StOk;
  pf_size : forall s, f_size F s = length (content s) }.

(** A file as an array with a position: content, position, state *)
Definition array_file : fdev (list Z * nat * sstate) := {|
  f_read := fun s n => let '(d, p, _) := s in let b := firstn n (skipn p d) in
                       ((d, (p + length b)%nat, if (0 <? n)%nat && (length b =? 0)%nat then StEof else StOk), b);
  f_write := fun s b => let '(d, p, _) := s in ((store_at d p b, (p + length b)%nat, StOk), length b);
  f_seek := fun s p => let '(d, _, _) := s in (d, p, StOk);
  f_tell := fun s => let '(_, p, _) := s in p;
  f_size := fun s => let '(d, _, _) := s in length d;
  f_truncate := fun s => let '(d, p, _) := s in (cut_at d p, p, StOk);
  f_state := fun s => let '(_, _, st) := s in st |}.

(** What the calls of a history do to a file directly. *)
Definition afile2 : Type := list Z * nat * sstate.
Definition file_place (o : Z) (how : seek_from) (a : afile2) : Z :=
  let '(d, p, _) := a in match how with FromBeg => o | FromCur => Z.of_nat p + o | FromEnd => Z.of_nat (length d) + o end.
Definition direct_step (op : file_op) (a : afile2) : afile2 * file_res :=
  let '(d, p, st) := a in
  match op with
  | FoRead n => let b := firstn n (skipn p d) in
                ((d, (p + length b)%nat, if (0 <? n)%nat && (length b =? 0)%nat then StEof else StOk), FrBytes b)
  | FoWrite b => ((store_at d p b, (p + length b)%nat, StOk), FrCount (length b))
  | FoSeek o how => let t := file_place o how a in
                    if t <? 0 then ((d, p, StOk), FrPos None) else ((d, Z.to_nat t, StOk), FrPos (Some (Z.to_nat t)))
  | FoTruncate => ((cut_at d p, p, StOk), FrNone)
  | FoFlush => ((d, p, StOk), FrNone)
  | FoSize => (a, FrCount (length d))
  | FoTell => (a, FrCount p)
  end.
Fixpoint direct_run (ops : list file_op) (a : afile2) : afile2 * list (file_res * sstate) :=
  match ops with
  | [] => (a, [])
  | op :: r => let '(a1, x) := direct_step op a in let '(a2, y) := direct_run r a1 in (a2, (x, snd a1) :: y)
  end.
(** The calls for which the cache is transparent: reads, writes and truncation at a position inside
    the file or at its end (seeking further is allowed); no null reads; and writes longer than a block
    do not end on a block boundary, and are made in state ok (a seek makes the state ok). *)
Definition tame (cap : nat) (op : file_op) (a : afile2) : Prop :=
  let '(d, p, st) := a in
  match op with
  | FoRead n => (p <= length d)%nat /\ (0 < n)%nat
  | FoWrite b => (p <= length d)%nat /\ (length b <= cap \/ (p + length b) mod cap <> 0)%nat /\ st = StOk
  | FoTruncate => (p <= length d)%nat
  | _ => True
  end.
Fixpoint tame_all (cap : nat) (ops : list file_op) (a : afile2) : Prop :=
  match ops with [] => True | op :: r => tame cap op a /\ tame_all cap r (fst (direct_step op a)) end.
