(** Model of basic_phone_number (include/stdex/parser.hpp, lines 4483-4618) and basic_chemical_formula (5489-5555).

    Conventions of ParserModel and ParserNumModel: a parser that holds others keeps their objects in [kids], its members in
    [vals]; one that may be null is an [option]; [the_val] is the first member of a held parser (hit_offset of a set).
    A loop that would not end (a held parser that matches nothing over and over) is UB. *)
From Verif Require Import Base StringModel ParserModel ParserNumModel.

Section Phone.
Context (txt : list Z).
Context (D : pcls) (Pl Lp Rp Se Sp : option pcls).
(** basic_string::append(first, last) of the text: parser.hpp:4530, 4541, 4557, 4570 *)
Definition append_text (v : list Z) (a b : nat) : outcome (list Z) :=
  if (a <=? b)%nat && (b <=? length txt)%nat then Ret (v ++ firstn (b - a) (skipn a txt)) else UB.
(** parser.hpp:4520-4527: the held objects and the local variables *)
Record ph : Type := Ph {
  kd : pst; kl : pst; kr : pst; ks : pst; kp : pst;
  px : nat;            (* interval.end *)
  pv : list Z;         (* value *)
  pse : nat; psv : nat;  (* safe_digit_end, safe_value_size *)
  phd : bool; pad : bool; pip : bool; pap : bool }. (* has_digits, after_digit, in_parentheses, after_parentheses *)
(** parser.hpp:4536-4599: one round; the state and whether to go on *)
Definition ph_step (q : ph) (e : nat) (fl : pflags) : outcome (ph * bool) :=
  let '(Ph d l r s p x v se sv hd ad ip ap) := q in
  (* 4537: end of text or terminator *)
  let* c := peek txt x e in
  match c with
  | None => Ret (q, false)
  | Some _ =>
      (* 4539-4550 *)
      let* (d, b) := p_match D d x e fl in
      if b then
        let* v := append_text v (i_start d) (i_end d) in
        let y := i_end d in
        Ret (if ip then Ph d l r s p y v se sv hd true ip false else Ph d l r s p y v y (length v) true true ip false, true)
      else
      (* 4551-4562 *)
      let* (l, b) := (if negb (is_valid l) && negb (is_valid r) then op_match Lp l x e fl else Ret (l, false)) in
      if b then
        (* append(text + start, size()) *)
        let* v := append_text v (i_start l) (i_end l) in
        Ret (Ph d l r s p (i_end l) v se sv hd false true false, true)
      else
      (* 4563-4577 *)
      let* (r, b) := (if ip && negb (is_valid r) then op_match Rp r x e fl else Ret (r, false)) in
      if b && (the_val l =? the_val r) then
        let* v := append_text v (i_start r) (i_end r) in
        Ret (Ph d l r s p (i_end r) v (i_end r) (length v) hd false false true, true)
      else
      (* 4578-4588 *)
      let* (s, b) := (if ad && negb ip && negb ap then op_match Se s x e fl else Ret (s, false)) in
      if b then Ret (Ph d l r s p (i_end s) v se sv hd false ip false, true)
      else
      (* 4589-4597; spaces in phone numbers must never be broken in new line *)
      let* (p, b) := (if ad || ap then op_match Sp p x e (one_line fl) else Ret (p, false)) in
      if b then Ret (Ph d l r s p (i_end p) v se sv hd false ip false, true)
      else Ret (Ph d l r s p x v se sv hd ad ip ap, false)
  end.
(** parser.hpp:4535-4600 *)
Fixpoint ph_loop (fuel : nat) (q : ph) (e : nat) (fl : pflags) : outcome ph :=
  match fuel with
  | O => UB
  | S n => let* (q, b) := ph_step q e fl in if b then ph_loop n q e fl else Ret q
  end.
(** parser.hpp:4483-4618; kids = [digit; plus_sign; lparenthesis; rparenthesis; separator; space]; the members are the units of value *)
Definition phone_p : pcls := {|
  p_init := new_pst [] [p_init D; op_init Pl; op_init Lp; op_init Rp; op_init Se; op_init Sp];
  p_match := fun st s e fl =>
    match kids st with
    | [d; pl; l; r; se; sp] =>
        (* 4526-4527: without a test for null, though the loop tests *)
        match Lp, Rp with
        | Some Lq, Some Rq =>
            let l := p_inval Lq l in
            let r := p_inval Rq r in
            (* 4529-4533 *)
            let* (pl, b) := op_match Pl pl s e fl in
            let* (v, x) := (if b then let* v := append_text [] (i_start pl) (i_end pl) in Ret (v, i_end pl) else Ret ([], s)) in
            (* 4520-4521: has_digits = after_digit = in_parentheses = after_parentheses = false; without plus sign safe_value_size = 0 = value.size() *)
            let* q := ph_loop (S (S (e - x))) (Ph d l r se sp x v s (length v) false false false false) e fl in
            let k := [kd q; pl; kl q; kr q; ks q; kp q] in
            (* 4601-4609: erase throws if the size is exceeded *)
            if phd q then (if (length (pv q) <? psv q)%nat then Throw else Ret (Pst s (pse q) (firstn (psv q) (pv q)) k, true))
            else Ret (Pst 1 0 [] k, false)
        | _, _ => UB
        end
    | _ => UB
    end;
  (* 4503-4507: the held parsers stay as they are *)
  p_inval := fun st => Pst 1 0 [] (kids st) |}.
End Phone.

(** ** Chemical formulas; kids = [element; digit; sign], members [has_digits; has_charge] *)
Section Chem.
Context (El Di Si : pcls).
(** parser.hpp:5532-5535: digits behind an element *)
Fixpoint ch_digits (fuel : nat) (k : pst) (x : nat) (hd : Z) (e : nat) (fl : pflags) : outcome (pst * nat * Z) :=
  match fuel with
  | O => UB
  | S n => let* (k, b) := p_match Di k x e fl in if b then ch_digits n k (i_end k) 1 e fl else Ret (k, x, hd)
  end.
(** match_case_insensitive off *)
Definition case_sensitive (fl : pflags) : pflags := PFlags false (fl_ml fl).
(** parser.hpp:5529-5549 *)
Fixpoint ch_loop (fuel : nat) (ke kd ks : pst) (s x : nat) (hd : Z) (e : nat) (fl : pflags) : outcome (pst * bool) :=
  match fuel with
  | O => UB
  | S n =>
      let* (ke, b) := p_match El ke x e (case_sensitive fl) in
      if b then
        let* (kd, x, hd) := ch_digits (S (S (e - i_end ke))) kd (i_end ke) hd e fl in ch_loop n ke kd ks s x hd e fl
      else if (s <? x)%nat then
        let* (ks, b) := p_match Si ks x e fl in
        if b then Ret (Pst s (i_end ks) [hd; 1] [ke; kd; ks], true) else Ret (Pst s x [hd; 0] [ke; kd; ks], true)
      else Ret (Pst 1 0 [hd; 0] [ke; kd; ks], false)
  end.
(** parser.hpp:5489-5555 *)
Definition chem_p : pcls := {|
  p_init := new_pst [0; 0] [p_init El; p_init Di; p_init Si];
  p_match := fun st s e fl =>
    match kids st with
    | [ke; kd; ks] => ch_loop (S (S (e - s))) ke kd ks s s 0 e fl
    | _ => UB
    end;
  p_inval := fun st => Pst 1 0 [0; 0] (kids st) |}.
End Chem.
