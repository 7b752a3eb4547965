(** Specification vocabulary for idrec: what a record looks like in a file. *)
From Verif Require Import Base StreamModel MemFileModel FileConvModel FileConvSpec.

(** An ordinary file whose state flag can be set. *)
Record settable_file {S} (F : fdev S) (fset : S -> sstate -> S) (content : S -> list Z) : Prop := {
  sf_plain : plain_file F content;
  sf_set : forall s st, content (fset s st) = content s /\ f_tell F (fset s st) = f_tell F s /\ f_state F (fset s st) = st }.

(** A record: identifier, data, padding (of any bytes). *)
Record chunk : Type := Chunk { c_id : Z; c_data : list Z; c_pad : list Z }.
(** the bytes of a record: identifier ([wi] bytes), data length ([ws] bytes), data, padding *)
Definition chunk_bytes (wi ws : nat) (c : chunk) : list Z :=
  le_bytes wi (c_id c) ++ le_bytes ws (Z.of_nat (length (c_data c))) ++ c_data c ++ c_pad c.
(** The padding is the shortest one that makes data and padding a multiple of [align]; data and padding
    together can be counted in [ws] bytes. *)
Definition chunk_ok (wi ws align : nat) (c : chunk) : Prop :=
  0 <= c_id c < 256 ^ Z.of_nat wi /\
  (length (c_pad c) < align)%nat /\ ((length (c_data c) + length (c_pad c)) mod align = 0)%nat /\
  Z.of_nat (length (c_data c) + length (c_pad c)) < 256 ^ Z.of_nat ws.
Definition chunks (wi ws : nat) (l : list chunk) : list Z := flat_map (chunk_bytes wi ws) l.
