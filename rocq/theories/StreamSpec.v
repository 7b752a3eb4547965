(** Specification vocabulary for the stream properties: what a source of bytes and a sink of bytes
    promise (the documentation of stream.hpp:89-128), and lines of text. *)
From Verif Require Import Base StreamModel.

(** [left s] is what can still be read from [s].  A read gives a prefix of it; when it gives nothing
    although something was asked for, the state tells eof (nothing is left) or fail. *)
Record source {S} (D : dev S) (Inv : S -> Prop) (left : S -> list Z) : Prop := {
  src_read : forall s n s' b, Inv s -> d_read D s n = (s', b) ->
    Inv s' /\ left s = b ++ left s' /\ (length b <= n)%nat /\
    match d_state D s' with
    | StOk => (0 < n)%nat -> b <> []
    | StEof => (0 < n)%nat /\ b = [] /\ left s = []
    | StFail => b = []
    end;
  src_set : forall s st, Inv s -> Inv (d_set D s st) /\ left (d_set D s st) = left s /\ d_state D (d_set D s st) = st }.
(** ... and never fails *)
Definition never_fails {S} (D : dev S) (Inv : S -> Prop) : Prop :=
  forall s n, Inv s -> d_state D (fst (d_read D s n)) <> StFail.

(** [out s] is what has been written to [s].  A write appends a prefix of the data, all of it when
    the state is ok afterwards. *)
Record sink {S} (D : dev S) (Inv : S -> Prop) (out : S -> list Z) : Prop := {
  snk_write : forall s b s' k, Inv s -> d_write D s b = (s', k) ->
    Inv s' /\ (k <= length b)%nat /\ out s' = out s ++ firstn k b /\ (d_state D s' = StOk -> k = length b);
  snk_set : forall s st, Inv s -> Inv (d_set D s st) /\ out (d_set D s st) = out s /\ d_state D (d_set D s st) = st }.
Definition always_writes {S} (D : dev S) (Inv : S -> Prop) : Prop :=
  forall s b, Inv s -> d_state D (fst (d_write D s b)) = StOk.

(** The text before the first line feed, without a carriage return right before it. *)
Fixpoint before_lf (s : list Z) : list Z :=
  match s with [] => [] | c :: r => if c =? 10 then [] else c :: before_lf r end.
Definition drop_cr (s : list Z) : list Z :=
  match rev s with c :: r => if c =? 13 then rev r else s | [] => s end.
Definition line_of (s : list Z) : list Z := if existsb (Z.eqb 10) s then drop_cr (before_lf s) else s.

(** A byte array as a source and as a sink: the simplest streams that keep the promises.  The second
    component is the state flag. *)
Definition array_dev : dev (list Z * sstate) := {|
  d_read := fun s n => let b := firstn n (fst s) in
                       ((skipn n (fst s), if (n =? 0)%nat then StOk else match b with [] => StEof | _ => StOk end), b);
  d_write := fun s b => ((fst s ++ b, StOk), length b);
  d_state := snd;
  d_set := fun s st => (fst s, st) |}.
