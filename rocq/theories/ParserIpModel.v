(** Model of basic_ipv4_address and basic_ipv6_address (include/stdex/parser.hpp, lines 2340-2470 and 2550-2775).

    Same conventions as ParserModel and ParserNumModel.  The component intervals are the first [kids] (states that are only an
    interval); behind them come the parsers held: separator, digits, and for IPv6 the scope identifier and its separator.
    The host is little-endian, so HE2BE (endian.hpp:112-119) swaps. *)
From Verif Require Import Base StringModel ParserModel ParserNumModel MathModel.

Definition component (a b : nat) : pst := Pst a b [] [].
(** components[i].start = a; components[i].end = b; as one step (nothing reads them in between, and a component whose end is
    not set is overwritten or invalidated below) *)
Fixpoint set_at {A} (i : nat) (x : A) (l : list A) : list A :=
  match l, i with
  | [], _ => []
  | _ :: r, O => x :: r
  | y :: r, S j => y :: set_at j x r
  end.

Section Ip.
Context (txt : list Z).
(** parser.hpp:2405-2428 and 2676-2705: digits while the number stays within [max]; the number, and whether there was none *)
Fixpoint cap_loop (fuel : nat) (base max : Z) (Ps : list pcls) (ks : list pst) (x : nat) (v : Z) (empty : bool) (e : nat) (fl : pflags) : outcome (list pst * nat * Z * bool) :=
  match fuel with
  | O => UB
  | S n =>
      let* c := peek txt x e in
      match c with
      | None => Ret (ks, x, v, empty)
      | Some _ =>
          let* (ks', r) := digit_loop Ps ks 0 x e fl in
          match r with
          | None => Ret (ks', x, v, empty)
          | Some (d, y) =>
              let v' := u64 (v * base + Z.of_nat d) in
              if v' <=? max then cap_loop n base max Ps ks' y v' false e fl else Ret (ks', x, v, empty)
          end
      end
  end.

(** parser.hpp:2393-2432: the components from the i-th on; [n] are left.  None: goto error. *)
Fixpoint ip4_loop (n i : nat) (S_ : pcls) (Ps : list pcls) (cs : list pst) (kp : pst) (ks : list pst) (x : nat) (v : Z) (e : nat) (fl : pflags)
  : outcome (list pst * pst * list pst * option (nat * Z)) :=
  match n with
  | O => Ret (cs, kp, ks, Some (x, v))
  | S m =>
      let part := fun kp x =>
        let* (ks', y, w, empty) := cap_loop (S (e - x)) 10 255 Ps ks x 0 true e fl in
        if empty then Ret (cs, kp, ks', None)
        else ip4_loop m (S i) S_ Ps (set_at i (component x y) cs) kp ks' y (Z.lor (u32 (Z.shiftl v 8)) (u8 w)) e fl in
      if (i =? 0)%nat then part kp x
      else
        let* (kp', b) := p_match S_ kp x e fl in
        if b then part kp' (i_end kp') else Ret (cs, kp', ks, None)
  end.
Definition no_component : pst := component 1 0.
(** parser.hpp:2343-2452; vals = [value.s_addr], kids = 4 components, separator, digits *)
Definition ipv4_address (Ps : list pcls) (S_ : pcls) : pcls := {|
  p_init := new_pst [0] (repeat no_component 4 ++ p_init S_ :: map p_init Ps);
  p_match := fun st s e fl =>
    match skipn 4 (kids st) with
    | kp :: ks =>
        let* (cs, kp', ks', r) := ip4_loop 4 0 S_ Ps (firstn 4 (kids st)) kp ks s 0 e fl in
        match r with
        | Some (y, v) => Ret (Pst s y [byteswap32 v] (cs ++ kp' :: ks'), true)
        | None => Ret (Pst 1 0 [0] (repeat no_component 4 ++ kp' :: ks'), false)
        end
    | [] => UB
    end;
  p_inval := fun st => Pst 1 0 [0] (repeat no_component 4 ++ skipn 4 (kids st)) |}.

(** parser.hpp:2639-2710: [c] is the compaction (compaction_i, compaction_start) if any; the result is i, or None for goto
    error.  The number x a group makes is never stored: line 2709 only swaps the word. *)
Fixpoint ip6_loop (n i : nat) (S_ : pcls) (Ps : list pcls) (ws : list Z) (cs : list pst) (kp : pst) (ks : list pst) (c : option (nat * nat)) (x : nat) (e : nat) (fl : pflags)
  : outcome (list Z * list pst * pst * list pst * option (option (nat * nat) * nat * nat)) :=
  match n with
  | O => Ret (ws, cs, kp, ks, Some (c, i, x))
  | S m =>
      let part := fun kp c x =>
        let* (ks', y, w, empty) := cap_loop (S (e - x)) 16 65535 Ps ks x 0 true e fl in
        if empty then
          match c with
          | Some _ => Ret (ws, cs, kp, ks', Some (c, i, y)) (* break *)
          | None => Ret (ws, cs, kp, ks', None)
          end
        else ip6_loop m (S i) S_ Ps (set_at i (byteswap16 (nth i ws 0)) ws) (set_at i (component x y) cs) kp ks' c y e fl in
      let* (kp1, b1) := p_match S_ kp x e fl in
      if b1 then
        let x1 := i_end kp1 in
        let* (kp2, b2) := p_match S_ kp1 x1 e fl in
        if b2 then
          match c with
          | None => part kp2 (Some (i, i_start kp2)) (i_end kp2)
          | Some _ => Ret (ws, cs, kp2, ks, Some (c, i, x1)) (* break *)
          end
        else if (i =? 0)%nat then Ret (ws, cs, kp2, ks, None)
        else part kp2 c x1
      else if (i =? 0)%nat then part kp1 c x
      else Ret (ws, cs, kp1, ks, Some (c, i, x)) (* break *)
  end.
(** parser.hpp:2714-2722: for (j = 8, k = i; k > compaction_i;) ...[--j] = ...[--k]; for (; j > compaction_i;) ...[--j] = ... *)
Fixpoint move_right {A} (d : A) (ci : nat) (j k : nat) (l : list A) : nat * list A :=
  match k with
  | O => (j, l)
  | S k' => if (ci <? k)%nat then match j with O => (j, l) | S j' => move_right d ci j' k' (set_at j' (nth k' l d) l) end else (j, l)
  end.
Fixpoint fill_down {A} (ci : nat) (x : A) (j : nat) (l : list A) : list A :=
  match j with
  | O => l
  | S j' => if (ci <? j)%nat then fill_down ci x j' (set_at j' x l) else l
  end.
Definition align_right {A} (d : A) (x : A) (ci i : nat) (l : list A) : list A := let (j, l') := move_right d ci 8 i l in fill_down ci x j l'.
(** parser.hpp:2555-2740; vals = value.s6_words, kids = 8 components, scope_id, separator, scope_id_separator, digits *)
Definition ipv6_address (Ps : list pcls) (S_ : pcls) (SS SI : option pcls) : pcls := {|
  p_init := new_pst (repeat 0 8) (repeat no_component 8 ++ op_init SI :: p_init S_ :: op_init SS :: map p_init Ps);
  p_match := fun st s e fl =>
    match skipn 8 (kids st) with
    | ksi :: kp :: kss :: ks =>
        let* (ws, cs, kp', ks', r) := ip6_loop 8 0 S_ Ps (repeat 0 8) (firstn 8 (kids st)) kp ks None s e fl in
        let error := Ret (Pst 1 0 (repeat 0 8) (repeat no_component 8 ++ op_inval SI ksi :: kp' :: kss :: ks'), false) in
        match r with
        | None => error
        | Some (c, i, y) =>
            if match c with None => (i <? 8)%nat | Some _ => false end then error
            else
              let ws' := match c with Some (ci, cst) => align_right 0 0 ci i ws | None => ws end in
              let cs' := match c with Some (ci, cst) => align_right no_component (component cst cst) ci i cs | None => cs end in
              (* 2727-2731 *)
              let* (kss1, b1) := op_match SS kss y e fl in
              let* (ksi1, y') :=
                (if b1 then
                   let* (ksi1, b2) := op_match SI ksi (i_end kss1) e fl in
                   if b2 then Ret (ksi1, i_end ksi1) else Ret (op_inval SI ksi1, y)
                 else Ret (op_inval SI ksi, y)) in
              Ret (Pst s y' ws' (cs' ++ ksi1 :: kp' :: kss1 :: ks'), true)
        end
    | _ => UB
    end;
  p_inval := fun st =>
    match skipn 8 (kids st) with
    | ksi :: kp :: kss :: ks => Pst 1 0 (repeat 0 8) (repeat no_component 8 ++ op_inval SI ksi :: kp :: kss :: ks)
    | _ => st
    end |}.
End Ip.
