(** Model of stream::fifo (include/stdex/stream.hpp:4085-4179).  The linked list of nodes is the list
    of their data.  [g] tells whether the allocation of a node succeeds.  Memory is taken with
    new uint8_t[] and given back with delete node_t; that mismatch is not modelled.  m_size is size_t
    in Z (it wraps). *)
From Verif Require Import Base StreamModel.

(** stream.hpp:4172-4178 *)
Record fifo : Type := Fifo { ff_nodes : list (list Z); ff_off : nat; ff_size : Z; ff_state : sstate }.
(** stream.hpp:4087-4092 *)
Definition fifo_new : fifo := Fifo [] 0 0 StOk.

(** stream.hpp:4108-4129: [acc] is what was copied to the caller's buffer so far *)
Fixpoint fifo_loop (nodes : list (list Z)) (off : nat) (size : Z) (length_ to_read : nat) (acc : list Z) : fifo * list Z :=
  match nodes with
  | [] => (Fifo [] off size (if (to_read <? length_)%nat || (length_ =? 0)%nat then StOk else StEof), acc)
  | h :: r =>
      let remaining := (length h - off)%nat in
      if (to_read <? remaining)%nat then
        (Fifo nodes (off + to_read) (u64 (size - Z.of_nat to_read)) StOk, acc ++ firstn to_read (skipn off h))
      else fifo_loop r 0 (u64 (size - Z.of_nat remaining)) length_ (to_read - remaining) (acc ++ firstn remaining (skipn off h))
  end.
(** stream.hpp:4104-4130 *)
Definition fifo_read (s : fifo) (n : nat) : fifo * list Z := fifo_loop (ff_nodes s) (ff_off s) (ff_size s) n n [].
(** stream.hpp:4132-4153 *)
Definition fifo_write (g : bool) (s : fifo) (b : list Z) : fifo * nat :=
  if g then (Fifo (ff_nodes s ++ [b]) (ff_off s) (u64 (ff_size s + Z.of_nat (length b))) StOk, length b)
  else (Fifo (ff_nodes s) (ff_off s) (ff_size s) StFail, 0%nat).
(** stream.hpp:4155-4164 *)
Definition fifo_close (s : fifo) : fifo := fifo_new.
Definition fifo_dev (g : bool) : dev fifo := {|
  d_read := fifo_read; d_write := fifo_write g; d_state := ff_state;
  d_set := fun s st => Fifo (ff_nodes s) (ff_off s) (ff_size s) st |}.

Inductive fifo_op : Type := FWrite (g : bool) (b : list Z) | FRead (n : nat).
(** runs a history; gives the final queue, the bytes accepted and the bytes delivered *)
Fixpoint fifo_run (ops : list fifo_op) (s : fifo) : fifo * list Z * list Z :=
  match ops with
  | [] => (s, [], [])
  | FWrite g b :: r => let '(s1, k) := fifo_write g s b in let '(s2, i, o) := fifo_run r s1 in (s2, firstn k b ++ i, o)
  | FRead n :: r => let '(s1, x) := fifo_read s n in let '(s2, i, o) := fifo_run r s1 in (s2, i, x ++ o)
  end.
