(** Specification vocabulary for the zlib streams: what zlib.h promises of deflate and inflate, and what a run of calls does. *)
From Verif Require Import Base.

Section Spec.
Context {Zs : Type} (step : Zs -> list Z -> nat -> bool -> Zs * nat * list Z * Z).

(** A run of calls without error: the input used by them, and the output they produced, each in order *)
Inductive session (finish : bool) : Zs -> list Z -> list Z -> Zs -> Prop :=
| ses_nil : forall z, session finish z [] [] z
| ses_step : forall z inp room z1 used o code i e z2, step z inp room finish = (z1, used, o, code) -> 0 <= code ->
    session finish z1 i e z2 -> session finish z (firstn used inp ++ i) (o ++ e) z2.
(** deflate "compresses as much data as possible, and stops when the input buffer becomes empty or the output buffer becomes
    full"; with Z_FINISH and room left the stream is complete ([finished]) *)
Definition deflater (finished : Zs -> Prop) : Prop := forall z inp room finish z' used o code, (0 < room)%nat ->
  step z inp room finish = (z', used, o, code) -> 0 <= code ->
  (used <= length inp)%nat /\ (length o <= room)%nat /\
  ((length o < room)%nat -> used = length inp /\ (finish = true -> finished z')).
(** [e] is a complete compressed stream of [d] that deflate may make in state [z0] *)
Definition compresses (finished : Zs -> Prop) (z0 : Zs) (d e : list Z) : Prop :=
  exists z1 z2 e1 e2, session false z0 d e1 z1 /\ session true z1 [] e2 z2 /\ finished z2 /\ e = e1 ++ e2.

(** inflate on the complete stream [e] of [d] followed by [junk]: [reach z k o] - after some calls, each given a part of
    e ++ junk that starts at what is not used yet, k bytes are used and o is produced *)
Inductive reach (z0 : Zs) (text : list Z) : Zs -> nat -> list Z -> Prop :=
| re_new : reach z0 text z0 0 []
| re_step : forall z k o inp rest room z' used x code, reach z0 text z k o -> skipn k text = inp ++ rest -> inp <> [] -> (0 < room)%nat ->
    step z inp room false = (z', used, x, code) -> 0 <= code -> reach z0 text z' (k + used) (o ++ x).
Record inflates (z0 : Zs) (e junk d : list Z) : Prop := {
  (* every call within e makes progress, stays within e and within the room, and its output continues d *)
  inf_step : forall z k o inp rest room z' used x code, reach z0 (e ++ junk) z k o -> (k < length e)%nat ->
    skipn k (e ++ junk) = inp ++ rest -> inp <> [] -> (0 < room)%nat -> step z inp room false = (z', used, x, code) ->
    0 <= code /\ (used <= length inp)%nat /\ (k + used <= length e)%nat /\ (length x <= room)%nat /\ (0 < used \/ 0 < length x)%nat /\ exists r, d = (o ++ x) ++ r;
  (* the end of e is behind the last byte of d *)
  inf_end : forall z o, reach z0 (e ++ junk) z (length e) o -> o = d;
  (* behind the end: Z_STREAM_END, and nothing happens *)
  inf_done : forall z o inp rest room, reach z0 (e ++ junk) z (length e) o -> junk = inp ++ rest -> inp <> [] -> (0 < room)%nat ->
    step z inp room false = (z, 0%nat, [], 1) }.
End Spec.

(** The simplest codec that keeps these promises: bytes other than zero stand for themselves, a zero ends the stream.  The
    state tells whether the end has been written or read. *)
Fixpoint upto_zero (n : nat) (l : list Z) : nat * bool :=
  match n, l with
  | S n', c :: r => if c =? 0 then (O, true) else let (k, b) := upto_zero n' r in (S k, b)
  | _, _ => (O, match l with c :: _ => c =? 0 | [] => false end)
  end.
Definition toy_deflate (z : bool) (inp : list Z) (room : nat) (finish : bool) : bool * nat * list Z * Z :=
  let u := Nat.min (length inp) room in
  if finish && negb z && (u <? room)%nat then (true, u, firstn u inp ++ [0], 1) else (z, u, firstn u inp, 0).
Definition toy_inflate (z : bool) (inp : list Z) (room : nat) (finish : bool) : bool * nat * list Z * Z :=
  if z then (z, 0%nat, [], 1)
  else let (k, b) := upto_zero room inp in
       if b then (true, S k, firstn k inp, 1) else (false, k, firstn k inp, 0).
