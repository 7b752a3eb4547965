(** What a user of pool relies on: each node is a stack. *)
From Verif Require Import Base PoolModel.

(** [stacks log f]: the events in log are those of one stack per node, and f n is what is left on
    node n. *)
Inductive stacks {T} : list (@pevent T) -> (Z -> list T) -> Prop :=
| sk_nil : forall f, (forall n, f n = []) -> stacks [] f
| sk_push : forall l f g n x, stacks l f -> (forall m, g m = if m =? n then x :: f n else f m) -> stacks (l ++ [EvPush n x]) g
| sk_pop : forall l f g n x, stacks l f -> f n = x :: g n -> (forall m, m <> n -> g m = f m) -> stacks (l ++ [EvPop n (Some x)]) g
| sk_pop_empty : forall l f g n, stacks l f -> f n = [] -> (forall m, g m = f m) -> stacks (l ++ [EvPop n None]) g
| sk_begin : forall l f g i, stacks l f -> (forall m, g m = f m) -> stacks (l ++ [EvClearBegin i]) g
| sk_end : forall l f g i, stacks l f -> (forall m, g m = f m) -> stacks (l ++ [EvClearEnd i]) g
| sk_dropped : forall l f g n xs, stacks l f -> f n = xs -> (forall m, g m = if m =? n then [] else f m) -> stacks (l ++ [EvDropped n xs]) g.

(** The items pushed to, handed out from, and dropped by clear from node n. *)
Definition pushes {T} (n : Z) (l : list (@pevent T)) : list T :=
  flat_map (fun e => match e with EvPush m x => if m =? n then [x] else [] | _ => [] end) l.
Definition pops {T} (n : Z) (l : list (@pevent T)) : list T :=
  flat_map (fun e => match e with EvPop m (Some x) => if m =? n then [x] else [] | _ => [] end) l.
Definition drops {T} (n : Z) (l : list (@pevent T)) : list T :=
  flat_map (fun e => match e with EvDropped m xs => if m =? n then xs else [] | _ => [] end) l.
