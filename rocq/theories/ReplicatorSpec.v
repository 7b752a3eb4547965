(** What the replicator is for: every attached sink gets the same calls, as if one thread made them
    one after another. *)
From Verif Require Import Base StreamModel ReplicatorModel.

Section Spec.
Context {S : Type} (D : dev S) (d_close d_flush : S -> S).

(** The call made directly on one sink. *)
Definition on_sink (o : op) (s : S) : S :=
  match o with
  | OWrite d => fst (d_write D s d)
  | OClose => d_close s
  | OFlush => d_flush s
  | ONoop | OQuit => s
  end.
(** What the caller is told: the smallest number of bytes any sink took ... *)
Definition told_n (o : op) (l : list S) : nat :=
  match o with
  | OWrite d => fold_right Nat.min (length d) (map (fun s => snd (d_write D s d)) l)
  | _ => O
  end.
(** ... and the state of the first sink that is not ok afterwards. *)
Fixpoint first_bad (l : list sstate) : sstate :=
  match l with [] => StOk | x :: r => if is_ok x then first_bad r else x end.
Definition told_st (o : op) (l : list S) : sstate := first_bad (map (fun s => d_state D (on_sink o s)) l).

(** [sequential h l]: the calls h, made one after another with nothing attached at first, leave the
    sinks l, and every call in h reported what it should. *)
Inductive sequential : list event -> list S -> Prop :=
| sq_nil : sequential [] []
| sq_push : forall h l s, sequential h l -> sequential (h ++ [EPush s]) (l ++ [s])
| sq_remove : forall h l i, sequential h l -> (i < length l)%nat ->
    sequential (h ++ [ERemove i]) (firstn i l ++ skipn (i + 1) l)
| sq_call : forall h l o, sequential h l -> is_call o ->
    sequential (h ++ [ECall o (told_n o l) (told_st o l)]) (map (on_sink o) l).
End Spec.
