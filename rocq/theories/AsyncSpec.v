(** What the users of async_reader and async_writer are promised. *)
From Verif Require Import Base StreamModel AsyncModel.

(** [reads_ok c log rest]: reading a stream with content c by the calls in log (asked for, got, state
    after) leaves rest: each call got the next bytes of the content, not more than asked for; when it
    got nothing although something was asked for, the state is eof, at the end of the content, or
    fail. *)
Definition read_ok (rest : list Z) (e : nat * list Z * sstate) (rest' : list Z) : Prop :=
  let '(len, b, st) := e in
  rest = b ++ rest' /\ (length b <= len)%nat /\
  match st with
  | StOk => (0 < len)%nat -> b <> []
  | StEof => (0 < len)%nat /\ b = [] /\ rest' = []
  | StFail => b = []
  end.
Inductive reads_ok (c : list Z) : list (nat * list Z * sstate) -> list Z -> Prop :=
| ro_nil : reads_ok c [] c
| ro_snoc : forall l e rest rest', reads_ok c l rest -> read_ok rest e rest' -> reads_ok c (l ++ [e]) rest'.

(** All bytes the calls in log got. *)
Definition got (log : list (nat * list Z * sstate)) : list Z := concat (map (fun e => snd (fst e)) log).

(** The bytes the calls in log were told to have been written. *)
Definition accepted (log : list wevent) : list Z :=
  concat (map (fun e => match e with EvWrite d n _ => firstn n d | EvFlush _ => [] end) log).
