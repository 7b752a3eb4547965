(** Model of the parser framework of include/stdex/parser.hpp: the basic tests and the combinators
    (lines 73-1257), for one fixed text.

    A parser object is a class ([pcls]: what it does) and a state ([pst]: interval, values of the
    class's own members, states of the parsers it holds).  [txt] is the readable part of the text; a
    read beyond it is [UB].  Positions are nat (they never exceed [end], so they do not wrap).
    SIZE_MAX in a member (no hit) is -1.
    Simplification: a parser held by two others (shared_ptr) has one state in the code and two here;
    the code reads a state only right after a match that set it, except basic_permutation, for which
    the held parsers must be distinct.  Locale facets are parameters: [tolow] tolower, [sp] space,
    [pu] punct, the class mask space|punct being the or.  stdex_assert is not modelled. *)
From Verif Require Import Base StringModel.

(** parser.hpp:73-75 *)
Record pflags : Type := PFlags { fl_ci : bool; fl_ml : bool }.
Inductive pst : Type := Pst (i_start i_end : nat) (vals : list Z) (kids : list pst).
Definition i_start (p : pst) := let 'Pst s _ _ _ := p in s.
Definition i_end (p : pst) := let 'Pst _ e _ _ := p in e.
Definition vals (p : pst) := let 'Pst _ _ v _ := p in v.
Definition kids (p : pst) := let 'Pst _ _ _ k := p in k.
(** interval.hpp:60-64, 71: the invalid interval, and the test *)
Definition no_interval (p : pst) : pst := Pst 1 0 (vals p) (kids p).
Definition set_interval (p : pst) (s e : nat) : pst := Pst s e (vals p) (kids p).
Definition is_valid (p : pst) : bool := (i_start p <=? i_end p)%nat.
(** parser.hpp:81-166: the virtual functions; [p_init] is the state after construction *)
Record pcls : Type := PCls {
  p_init : pst;
  p_match : pst -> nat -> nat -> pflags -> outcome (pst * bool);
  p_inval : pst -> pst }.
Definition new_pst (v : list Z) (k : list pst) : pst := Pst 1 0 v k.

Section Parser.
Context (txt : list Z) (tolow : Z -> Z) (sp pu : Z -> bool).

(** [start < end && text[start]]; when so, the unit *)
Definition peek (s e : nat) : outcome (option Z) :=
  if (s <? e)%nat then let* c := rd txt s in if c =? 0 then Ret None else Ret (Some c) else Ret None.

(** parser.hpp:86-96 *)
Fixpoint search_loop (fuel : nat) (P : pcls) (st : pst) (i e : nat) (fl : pflags) : outcome (pst * bool) :=
  match fuel with
  | O => UB
  | S f =>
      let* c := peek i e in
      match c with
      | None => Ret (st, false)
      | Some _ => let* (st', b) := p_match P st i e fl in
                  if b then Ret (st', true) else search_loop f P st' (S i) e fl
      end
  end.
Definition search (P : pcls) (st : pst) (s e : nat) (fl : pflags) : outcome (pst * bool) := search_loop (S (e - s)) P st s e fl.

(** parser.hpp:188-202 basic_noop *)
Definition noop : pcls := {|
  p_init := new_pst [] [];
  p_match := fun st s e fl => let* c := peek s e in
    match c with Some _ => Ret (set_interval st s s, true) | None => Ret (no_interval st, false) end;
  p_inval := no_interval |}.

(** The shape of basic_any_cu (220-236), basic_cu (300-323), basic_space_cu (393-411), basic_punct_cu
    (473-489), basic_space_or_punct_cu (548-566): one unit, tested by [r] *)
Definition one_cu (r : Z -> pflags -> bool) (invert : bool) : pcls := {|
  p_init := new_pst [] [];
  p_match := fun st s e fl => let* c := peek s e in
    match c with
    | Some c => let r := r c fl in
                if (r && negb invert) || (negb r && invert) then Ret (set_interval st s (S s), true) else Ret (no_interval st, false)
    | None => Ret (no_interval st, false)
    end;
  p_inval := no_interval |}.
Definition any_cu : pcls := one_cu (fun _ _ => true) false.
Definition cu (chr : Z) (invert : bool) : pcls :=
  one_cu (fun c fl => if fl_ci fl then tolow c =? tolow chr else c =? chr) invert.
Definition space_cu (invert : bool) : pcls := one_cu (fun c fl => (fl_ml fl || negb (islbreak c)) && sp c) invert.
Definition punct_cu (invert : bool) : pcls := one_cu (fun c fl => pu c) invert.
Definition space_or_punct_cu (invert : bool) : pcls := one_cu (fun c fl => (fl_ml fl || negb (islbreak c)) && (sp c || pu c)) invert.

(** parser.hpp:253-281 sgml_any_cp *)
Fixpoint entity_end (fuel i e : nat) : outcome (option nat) :=
  match fuel with
  | O => UB
  | S f => let* c := peek i e in
           match c with
           | None => Ret None
           | Some c => if c =? 59 then Ret (Some (S i)) else if (c =? 38) || sp c then Ret None else entity_end f (S i) e
           end
  end.
Definition sgml_any_cp : pcls := {|
  p_init := new_pst [] [];
  p_match := fun st s e fl => let* c := peek s e in
    match c with
    | None => Ret (no_interval st, false)
    | Some c =>
        let* x := if c =? 38 then entity_end (S (e - s)) (S s) e else Ret None in
        match x with Some y => Ret (set_interval st s y, true) | None => Ret (set_interval st s (S s), true) end
    end;
  p_inval := no_interval |}.

(** parser.hpp:619-637 basic_bol, 658-675 basic_eol *)
Definition bol (invert : bool) : pcls := {|
  p_init := new_pst [] [];
  p_match := fun st s e fl =>
    let* r := if (s =? 0)%nat then Ret true else if (s <=? e)%nat then let* c := rd txt (s - 1) in Ret (islbreak c) else Ret false in
    if (r && negb invert) || (negb r && invert) then Ret (set_interval st s s, true) else Ret (no_interval st, false);
  p_inval := no_interval |}.
Definition eol (invert : bool) : pcls := {|
  p_init := new_pst [] [];
  p_match := fun st s e fl =>
    let* c := peek s e in
    let r := match c with None => true | Some c => islbreak c end in
    if (r && negb invert) || (negb r && invert) then Ret (set_interval st s s, true) else Ret (no_interval st, false);
  p_inval := no_interval |}.

(** parser.hpp:719-759 basic_cu_set ([set]: the units up to the first zero or count); vals = [hit_offset] *)
Definition opt_z (o : option nat) : Z := match o with Some k => Z.of_nat k | None => -1 end.
Definition cu_set (set : list Z) (invert : bool) : pcls := {|
  p_init := new_pst [-1] [];
  p_match := fun st s e fl => let* c := peek s e in
    match c with
    | Some c => let* r := if fl_ci fl then strnichr tolow set (length set) c else strnchr set (length set) c in
                if (match r with Some _ => negb invert | None => invert end)
                then Ret (Pst s (S s) [opt_z r] (kids st), true) else Ret (Pst 1 0 [-1] (kids st), false)
    | None => Ret (Pst 1 0 [-1] (kids st), false)
    end;
  p_inval := fun st => Pst 1 0 [-1] (kids st) |}.

(** parser.hpp:826-845 basic_string; [str] without zeros.  end - start is size_t arithmetic *)
Definition string_p (str : list Z) : pcls := {|
  p_init := new_pst [] [];
  p_match := fun st s e fl =>
    let m := length str in
    let n := if (s <=? e)%nat then Nat.min (e - s) m else m in
    let* r := strnicmp4 (if fl_ci fl then tolow else fun c => c) (skipn s txt) n str m in
    if r =? 0 then Ret (set_interval st s (s + n), true) else Ret (no_interval st, false);
  p_inval := no_interval |}.

(** parser.hpp:919-944 basic_iterations; kids = [the element].  It does not override invalidate. *)
Fixpoint iter_loop (fuel : nat) (P : pcls) (mn mx : nat) (greedy : bool) (k : pst) (i s x e : nat) (fl : pflags) : outcome (pst * bool) :=
  match fuel with
  | O => UB
  | S f =>
      if (negb greedy && (mn <=? i)%nat) || (mx <=? i)%nat then Ret (Pst s x [] [k], true)
      else
        let* (k', b) := p_match P k x e fl in
        if negb b then (if (mn <=? i)%nat then Ret (Pst s x [] [k'], true) else Ret (Pst 1 0 [] [k'], false))
        else if (i_end k' =? x)%nat then Ret (Pst s x [] [k'], true)
        else iter_loop f P mn mx greedy k' (S i) s (i_end k') e fl
  end.
Definition iterations (P : pcls) (mn mx : nat) (greedy : bool) : pcls := {|
  p_init := new_pst [] [p_init P];
  p_match := fun st s e fl => match kids st with [k] => iter_loop (2 + (e - s)) P mn mx greedy k 0 s s e fl | _ => UB end;
  p_inval := no_interval |}.

(** the collection's states, class by class; parser.hpp:993-998 invalidate *)
Fixpoint inval_all (Ps : list pcls) (ks : list pst) : list pst :=
  match Ps, ks with P :: Pr, k :: kr => p_inval P k :: inval_all Pr kr | _, _ => [] end.

(** parser.hpp:1017-1040 basic_sequence *)
Fixpoint seq_loop (Ps : list pcls) (ks : list pst) (x e : nat) (fl : pflags) : outcome (list pst * option nat) :=
  match Ps, ks with
  | [], [] => Ret ([], Some x)
  | P :: Pr, k :: kr =>
      let* (k', b) := p_match P k x e fl in
      if negb b then Ret (k' :: inval_all Pr kr, None)
      else let* (kr', y) := seq_loop Pr kr (i_end k') e fl in Ret (k' :: kr', y)
  | _, _ => UB
  end.
Definition sequence (Ps : list pcls) : pcls := {|
  p_init := new_pst [] (map p_init Ps);
  p_match := fun st s e fl =>
    let* (ks, y) := seq_loop Ps (kids st) s e fl in
    match y with Some y => Ret (Pst s y [] ks, true) | None => Ret (Pst 1 0 [] ks, false) end;
  p_inval := fun st => Pst 1 0 [] (inval_all Ps (kids st)) |}.

(** parser.hpp:1084-1108 basic_branch; vals = [hit_offset] *)
Fixpoint branch_loop (Ps : list pcls) (ks : list pst) (hit : nat) (s e : nat) (fl : pflags) : outcome (list pst * option (nat * pst)) :=
  match Ps, ks with
  | [], [] => Ret ([], None)
  | P :: Pr, k :: kr =>
      let* (k', b) := p_match P k s e fl in
      if b then Ret (k' :: inval_all Pr kr, Some (hit, k'))
      else let* (kr', r) := branch_loop Pr kr (S hit) s e fl in Ret (k' :: kr', r)
  | _, _ => UB
  end.
Definition branch (Ps : list pcls) : pcls := {|
  p_init := new_pst [-1] (map p_init Ps);
  p_match := fun st s e fl =>
    let* (ks, r) := branch_loop Ps (kids st) 0 s e fl in
    match r with Some (h, k) => Ret (Pst (i_start k) (i_end k) [Z.of_nat h] ks, true) | None => Ret (Pst 1 0 [-1] ks, false) end;
  p_inval := fun st => Pst 1 0 [-1] (inval_all Ps (kids st)) |}.

(** parser.hpp:1171-1187 basic_string_branch::build from strings in one block: up to an empty string or the end of the block *)
Fixpoint split_z (fuel : nat) (b : list Z) : outcome (list (list Z)) :=
  match fuel with
  | O => UB
  | S f => match b with
           | [] => Ret []
           | c :: _ => if c =? 0 then Ret [] else
               let* n := strnlen b (length b) in
               let* r := split_z f (skipn (S n) b) in Ret (firstn n b :: r)
           end
  end.
Definition string_branch (block : list Z) : outcome pcls :=
  let* l := split_z (S (length block)) block in Ret (branch (map string_p l)).

(** parser.hpp:1214-1257 basic_permutation.  The loop over the collection (1238-1252) walks the classes and the states side
    by side; [done] are the states before the current one, [rec] is the recursive call *)
Fixpoint perm_loop (rec : list pst -> nat -> outcome (list pst * option nat)) (Pr : list pcls) (done kr : list pst) (all_matched : bool)
    (s e : nat) (fl : pflags) {struct Pr} : outcome (list pst * option nat) :=
  match Pr, kr with
  | [], [] => if all_matched then Ret (done, Some s) else Ret (done, None)
  | P :: Pt, k :: kt =>
      if is_valid k then perm_loop rec Pt (done ++ [k]) kt all_matched s e fl
      else
        let* (k', b) := p_match P k s e fl in
        if b then
          let* (ks', y) := rec (done ++ k' :: kt) (i_end k') in
          match y with
          | Some y => Ret (ks', Some y)
          | None =>
              (* the collection after the failed recursion; el is its element at this place *)
              match nth_error ks' (length done) with
              | Some k'' => perm_loop rec Pt (firstn (length done) ks' ++ [p_inval P k'']) (skipn (S (length done)) ks') false s e fl
              | None => UB
              end
          end
        else perm_loop rec Pt (done ++ [k']) kt false s e fl
  | _, _ => UB
  end.
(** parser.hpp:1231-1257; [fuel]: depth of the recursion *)
Fixpoint perm_rec (fuel : nat) (Ps : list pcls) (ks : list pst) (s e : nat) (fl : pflags) : outcome (list pst * option nat) :=
  match fuel with
  | O => UB
  | S f => perm_loop (fun ks' s' => perm_rec f Ps ks' s' e fl) Ps [] ks true s e fl
  end.
Definition permutation (Ps : list pcls) : pcls := {|
  p_init := new_pst [] (map p_init Ps);
  p_match := fun st s e fl =>
    let* (ks, y) := perm_rec (S (length Ps)) Ps (inval_all Ps (kids st)) s e fl in
    match y with Some y => Ret (Pst s y [] ks, true) | None => Ret (Pst 1 0 [] ks, false) end;
  p_inval := fun st => Pst 1 0 [] (inval_all Ps (kids st)) |}.
End Parser.
