(** Model of include/stdex/progress.hpp: lazy_progress, timeout_progress, global_progress,
    progress_switcher (pure functions of the object's state) and aggregate_progress (a transition
    system of worker threads).  T is size_t (64-bit unsigned, arithmetic modulo 2^64).
    Times are integers.  Not modelled: set_text and show (passed on). *)
From Verif Require Import Base.

(** ** lazy_progress (progress.hpp:82-140) *)
Record lazy : Type := Lz { lz_start : Z; lz_end : Z; lz_value : Z; lz_last : Z }.
(** 90-95: m_value(-1); m_last is value-initialized, the clock's epoch *)
Definition lazy_init : lazy := Lz 0 0 (u64 (-1)) 0.
(** 103-107 *)
Definition lazy_set_range (p : lazy) (s e : Z) : lazy := Lz s e (lz_value p) (lz_last p).
(** 114-128; [now] is what the clock gives; [true]: do_set is called (with m_value) *)
Definition lazy_set (timeout : Z) (p : lazy) (now v : Z) : lazy * bool :=
  if (v =? lz_start p) || (v =? lz_end p) then (Lz (lz_start p) (lz_end p) v now, true)
  else if v =? lz_value p then (p, false)
  else if now - lz_last p <? timeout then (p, false)
  else (Lz (lz_start p) (lz_end p) v now, true).

(** ** timeout_progress::cancel (209-214) *)
Definition timeout_cancel (host : option bool) (deadline now : Z) : bool :=
  match host with Some b => b | None => false end || (deadline <? now).

(** ** global_progress (227-347) *)
(** interval.hpp:47 *)
Definition isize (i : Z * Z) : Z := if fst i <=? snd i then u64 (snd i - fst i) else 0.
(** 314-323: what is passed to the host, if anything *)
Definition global_set (lo sec : Z * Z) (v : Z) : option Z :=
  if isize lo =? 0 then None
  else Some (u64 (u64 (u64 (v - fst lo) * isize sec) / isize lo + fst sec)).

(** ** progress_switcher (355-372): a variable holding the current indicator (0 is null), and the
    m_host of each switcher *)
Record switching : Type := Sw { current : Z; host_of : Z -> Z }.
Definition sw_construct (s : switching) (k : Z) : switching :=
  Sw k (fun j => if j =? k then current s else host_of s j).
(** the destructor: m_host_ref = detach() *)
Definition sw_destroy (s : switching) (k : Z) : switching :=
  Sw (host_of s k) (fun j => if j =? k then 0 else host_of s j).

(** ** aggregate_progress (380-530) *)
(** A worker's thread: idle; in set, between the addition and the shared lock (437-438); holding the
    shared lock, in host->set (439); likewise for set_range, which adds to m_start, then to m_end
    (419-421). *)
Inductive awork : Type :=
| AIdle
| ASet (combined : Z)
| AInSet (host : Z) (combined : Z)
| ARange (e : Z) (cs : Z)               (* m_start has been changed, m_end not yet *)
| ARanged (cs ce : Z)
| AInRange (host : Z) (cs ce : Z).

(** The thread calling attach or detach: idle; attach holds the unique lock and has yet to call
    set_range; holds it and has yet to call set. *)
Inductive amain : Type := MIdle | MRange | MValue.

(** Calls of a host, in the order in which they are made. *)
Inductive hcall : Type := HSet (host v : Z) | HRange (host s e : Z).

Record aggr : Type := Ag {
  g_host : Z;                                   (* m_host; 0: null *)
  g_start : Z; g_end : Z; g_value : Z;          (* the atomics *)
  g_w : nat -> Z * Z * Z;                       (* the workers' m_start, m_end, m_value *)
  g_th : nat -> awork;
  g_main : amain;
  g_calls : list hcall }.

Definition aset {A} (f : nat -> A) (i : nat) (x : A) : nat -> A := fun j => if (j =? i)%nat then x else f j.

(** Nobody is in the shared critical section. *)
Definition no_reader (n : nat) (s : aggr) : Prop :=
  forall i, (i < n)%nat -> match g_th s i with AInSet _ _ | AInRange _ _ _ => False | _ => True end.

Section Aggregate.
Variable n : nat.                               (* number of workers *)

(** 481-491, with the host's first calls *)
Definition aggr_init (host : Z) : aggr :=
  Ag host 0 0 0 (fun _ => (0, 0, 0)) (fun _ => AIdle) MIdle (if host =? 0 then [] else [HRange host 0 0; HSet host 0]).

Inductive astep : aggr -> aggr -> Prop :=
  (* worker i: set(v), 436-437: the atomic += and the private m_value *)
| ag_set : forall h s e v w th m l i x, (i < n)%nat -> th i = AIdle -> 0 <= x < M64 ->
    astep (Ag h s e v w th m l)
      (let v' := u64 (v + u64 (x - snd (w i))) in
       Ag h s e v' (aset w i (fst (w i), x)) (aset th i (ASet v')) m l)
  (* 438-439: the shared lock; the call of the host begins *)
| ag_set_call : forall h s e v w th l i c, (i < n)%nat -> th i = ASet c -> h <> 0 ->
    astep (Ag h s e v w th MIdle l) (Ag h s e v w (aset th i (AInSet h c)) MIdle (l ++ [HSet h c]))
| ag_set_nohost : forall h s e v w th l i c, (i < n)%nat -> th i = ASet c -> h = 0 ->
    astep (Ag h s e v w th MIdle l) (Ag h s e v w (aset th i AIdle) MIdle l)
| ag_set_done : forall h s e v w th m l i h' c, (i < n)%nat -> th i = AInSet h' c ->
    astep (Ag h s e v w th m l) (Ag h s e v w (aset th i AIdle) m l)
  (* worker i: set_range(a, b), 419-421 *)
| ag_range1 : forall h s e v w th m l i a b, (i < n)%nat -> th i = AIdle -> 0 <= a < M64 -> 0 <= b < M64 ->
    astep (Ag h s e v w th m l)
      (let s' := u64 (s + u64 (a - fst (fst (w i)))) in
       Ag h s' e v (aset w i (a, snd (fst (w i)), snd (w i))) (aset th i (ARange b s')) m l)
| ag_range2 : forall h s e v w th m l i b cs, (i < n)%nat -> th i = ARange b cs ->
    astep (Ag h s e v w th m l)
      (let e' := u64 (e + u64 (b - snd (fst (w i)))) in
       Ag h s e' v (aset w i (fst (fst (w i)), b, snd (w i))) (aset th i (ARanged cs e')) m l)
| ag_range_call : forall h s e v w th l i cs ce, (i < n)%nat -> th i = ARanged cs ce -> h <> 0 ->
    astep (Ag h s e v w th MIdle l) (Ag h s e v w (aset th i (AInRange h cs ce)) MIdle (l ++ [HRange h cs ce]))
| ag_range_nohost : forall h s e v w th l i cs ce, (i < n)%nat -> th i = ARanged cs ce -> h = 0 ->
    astep (Ag h s e v w th MIdle l) (Ag h s e v w (aset th i AIdle) MIdle l)
| ag_range_done : forall h s e v w th m l i h' cs ce, (i < n)%nat -> th i = AInRange h' cs ce ->
    astep (Ag h s e v w th m l) (Ag h s e v w (aset th i AIdle) m l)
  (* attach(h'), 496-505 *)
| ag_attach : forall h s e v w th l h', no_reader n (Ag h s e v w th MIdle l) ->
    astep (Ag h s e v w th MIdle l) (Ag h' s e v w th (if h' =? 0 then MIdle else MRange) l)
| ag_attach_range : forall h s e v w th l s', (* m_start is read before m_end and may be older: any value here *)
    astep (Ag h s e v w th MRange l) (Ag h s e v w th MValue (l ++ [HRange h s' e]))
| ag_attach_value : forall h s e v w th l,
    astep (Ag h s e v w th MValue l) (Ag h s e v w th MIdle (l ++ [HSet h v]))
  (* detach(), 511-517 *)
| ag_detach : forall h s e v w th l, no_reader n (Ag h s e v w th MIdle l) ->
    astep (Ag h s e v w th MIdle l) (Ag 0 s e v w th MIdle l).

Inductive areach (h0 : Z) : aggr -> Prop :=
| ar_init : areach h0 (aggr_init h0)
| ar_step : forall a b, areach h0 a -> astep a b -> areach h0 b.
End Aggregate.
