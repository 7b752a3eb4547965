(** Model of the numeral parsers of include/stdex/parser.hpp (lines 1270-2340): integer10, integer10ts, integer16,
    roman_numeral, fraction, score, signed_numeral, mixed_numeral, the part of scientific_numeral that does not concern the
    double value, and monetary_numeral.

    Same conventions as ParserModel: a parser is a class and a state; the members of the class's own are [vals], the held
    parsers [kids].  A held parser that may be null is an [option pcls]; a null one keeps a dummy state.
    A loop that would not end (a digit parser with an empty match) runs out of fuel: UB. *)
From Verif Require Import Base StringModel ParserModel.

Section Num.
Context (txt : list Z).
Definition the_val (k : pst) : Z := nth 0 (vals k) 0.
(** interval.hpp:47 size *)
Definition isize (k : pst) : nat := if (i_start k <=? i_end k)%nat then i_end k - i_start k else 0%nat.
(** interval.hpp:52 empty *)
Definition iempty (k : pst) : bool := (i_end k <=? i_start k)%nat.

(** The cascade of digit tests (parser.hpp:1332-1342, 1496-1513, 2408-2418): the number of the first digit that matches, and
    where its match ends.  The digits behind it are not touched. *)
Fixpoint digit_loop (Ps : list pcls) (ks : list pst) (d x e : nat) (fl : pflags) : outcome (list pst * option (nat * nat)) :=
  match Ps, ks with
  | [], [] => Ret ([], None)
  | P :: Pr, k :: kr =>
      let* (k', b) := p_match P k x e fl in
      if b then Ret (k' :: kr, Some (d, i_end k'))
      else let* (kr', r) := digit_loop Pr kr (S d) x e fl in Ret (k' :: kr', r)
  | _, _ => UB
  end.
(** parser.hpp:1330-1344, 1494-1515: the digits one after another; value is size_t *)
Fixpoint int_loop (fuel : nat) (base : Z) (Ps : list pcls) (ks : list pst) (x : nat) (v : Z) (e : nat) (fl : pflags) : outcome (list pst * nat * Z) :=
  match fuel with
  | O => UB
  | S n =>
      let* c := peek txt x e in
      match c with
      | None => Ret (ks, x, v)
      | Some _ =>
          let* (ks', r) := digit_loop Ps ks 0 x e fl in
          match r with
          | None => Ret (ks', x, v)
          | Some (d, y) => int_loop n base Ps ks' y (u64 (v * base + Z.of_nat d)) e fl
          end
      end
  end.
(** parser.hpp:1280-1284 invalidate, 1323-1351 basic_integer10, 1487-1521 basic_integer16; vals = [value] *)
Definition integer (base : Z) (Ps : list pcls) : pcls := {|
  p_init := new_pst [0] (map p_init Ps);
  p_match := fun st s e fl =>
    let* (ks, y, v) := int_loop (S (e - s)) base Ps (kids st) s 0 e fl in
    if (s <? y)%nat then Ret (Pst s y [v] ks, true) else Ret (Pst 1 0 [v] ks, false);
  p_inval := fun st => Pst 1 0 [0] (kids st) |}.
Definition integer10 := integer 10.
Definition integer16 := integer 16.

(** parser.hpp:1380-1441 basic_integer10ts; vals = [value; digit_count; has_separators], kids = [digits; separator];
    hit_offset SIZE_MAX is -1 *)
Fixpoint ts_loop (fuel : nat) (D S_ : pcls) (kd ks : pst) (x : nat) (v cnt has hit : Z) (e : nat) (fl : pflags) : outcome (pst * pst * nat * list Z) :=
  match fuel with
  | O => UB
  | S n =>
      let* (ks1, b1) := p_match S_ ks x e fl in
      if negb b1 then Ret (kd, ks1, x, [v; cnt; has])
      else if negb ((hit =? -1) || (hit =? the_val ks1)) then Ret (kd, ks1, x, [v; cnt; has])
      else
        let* (kd1, b2) := p_match D kd (i_end ks1) e fl in
        if negb b2 || negb (isize kd1 =? 3)%nat then Ret (kd1, ks1, x, [v; cnt; has])
        else ts_loop n D S_ kd1 ks1 (i_end kd1) (u64 (v * 1000 + the_val kd1)) (u64 (cnt + 3)) 1 (the_val ks1) e fl
  end.
Definition integer10ts (D S_ : pcls) : pcls := {|
  p_init := new_pst [0; 0; 0] [p_init D; p_init S_];
  p_match := fun st s e fl =>
    match kids st with
    | [kd; ks] =>
        let* (kd1, b) := p_match D kd s e fl in
        if negb b then Ret (Pst 1 0 [0; nth 1 (vals st) 0; nth 2 (vals st) 0] [kd1; ks], false)
        else if (isize kd1 <=? 3)%nat
        then let* (kd2, ks2, y, v) := ts_loop (S (e - s)) D S_ kd1 ks (i_end kd1) (the_val kd1) (Z.of_nat (isize kd1)) 0 (-1) e fl in
             Ret (Pst s y v [kd2; ks2], true)
        else Ret (Pst s (i_end kd1) [the_val kd1; Z.of_nat (isize kd1); 0] [kd1; ks], true)
    | _ => UB
    end;
  p_inval := fun st => Pst 1 0 [0; 0; 0] (kids st) |}.

(** The held parsers that may be null *)
Definition op_init (P : option pcls) : pst := match P with Some P => p_init P | None => new_pst [] [] end.
(** [P && P->match(...)] *)
Definition op_match (P : option pcls) (k : pst) (s e : nat) (fl : pflags) : outcome (pst * bool) :=
  match P with Some P => p_match P k s e fl | None => Ret (k, false) end.
(** [if (P) P->invalidate()] *)
Definition op_inval (P : option pcls) (k : pst) : pst := match P with Some P => p_inval P k | None => k end.

(** parser.hpp:1685-1727 basic_fraction; kids = [numerator; fraction_line; denominator] *)
Definition fraction (N L D : pcls) : pcls := {|
  p_init := new_pst [] [p_init N; p_init L; p_init D];
  p_match := fun st s e fl =>
    match kids st with
    | [kn; kl; kd] =>
        let* (kn1, b1) := p_match N kn s e fl in
        if negb b1 then Ret (Pst 1 0 [] [p_inval N kn1; p_inval L kl; p_inval D kd], false) else
        let* (kl1, b2) := p_match L kl (i_end kn1) e fl in
        if negb b2 then Ret (Pst 1 0 [] [p_inval N kn1; p_inval L kl1; p_inval D kd], false) else
        let* (kd1, b3) := p_match D kd (i_end kl1) e fl in
        if negb b3 then Ret (Pst 1 0 [] [p_inval N kn1; p_inval L kl1; p_inval D kd1], false) else
        Ret (Pst s (i_end kd1) [] [kn1; kl1; kd1], true)
    | _ => UB
    end;
  p_inval := fun st => match kids st with [kn; kl; kd] => Pst 1 0 [] [p_inval N kn; p_inval L kl; p_inval D kd] | _ => st end |}.

(** for (; m_space->match(text, interval.end, ...); interval.end = m_space->interval.end); *)
Fixpoint skip_space (fuel : nat) (Sp : pcls) (k : pst) (x e : nat) (fl : pflags) : outcome (pst * nat) :=
  match fuel with
  | O => UB
  | S n => let* (k', b) := p_match Sp k x e fl in if b then skip_space n Sp k' (i_end k') e fl else Ret (k', x)
  end.
(** flags & ~match_multiline *)
Definition one_line (fl : pflags) : pflags := PFlags (fl_ci fl) false.
(** parser.hpp:1748-1819 basic_score; kids = [home; separator; guest; space] *)
Definition score (H S_ G Sp : pcls) : pcls := {|
  p_init := new_pst [] [p_init H; p_init S_; p_init G; p_init Sp];
  p_match := fun st s e fl =>
    match kids st with
    | [kh; ks; kg; ksp] =>
        let bad := fun kh ks kg ksp => Ret (Pst 1 0 [] [p_inval H kh; p_inval S_ ks; p_inval G kg; ksp], false) in
        let* (kh1, b1) := p_match H kh s e fl in
        if negb b1 then bad kh1 ks kg ksp else
        let* (ksp1, x1) := skip_space (S (e - s)) Sp ksp (i_end kh1) e (one_line fl) in
        let* (ks1, b2) := p_match S_ ks x1 e fl in
        if negb b2 then bad kh1 ks1 kg ksp1 else
        let* (ksp2, x2) := skip_space (S (e - s)) Sp ksp1 (i_end ks1) e (one_line fl) in
        let* (kg1, b3) := p_match G kg x2 e fl in
        if negb b3 then bad kh1 ks1 kg1 ksp2 else
        Ret (Pst s (i_end kg1) [] [kh1; ks1; kg1; ksp2], true)
    | _ => UB
    end;
  p_inval := fun st => match kids st with [kh; ks; kg; ksp] => Pst 1 0 [] [p_inval H kh; p_inval S_ ks; p_inval G kg; ksp] | _ => st end |}.

(** The sign in front of a numeral (parser.hpp:1868-1888, 1963-1983, 2117-2137, 2264-2284); gives the states and the new position *)
Definition sign_step_by (m : option pcls -> pst -> nat -> nat -> pflags -> outcome (pst * bool)) (Po Ne Sg : option pcls) (kp kn kg : pst) (s e : nat) (fl : pflags) : outcome (pst * pst * pst * nat) :=
  let* (kp1, b1) := m Po kp s e fl in
  if b1 then Ret (kp1, op_inval Ne kn, op_inval Sg kg, i_end kp1) else
  let* (kn1, b2) := m Ne kn s e fl in
  if b2 then Ret (op_inval Po kp1, kn1, op_inval Sg kg, i_end kn1) else
  let* (kg1, b3) := m Sg kg s e fl in
  if b3 then Ret (op_inval Po kp1, op_inval Ne kn1, kg1, i_end kg1)
  else Ret (op_inval Po kp1, op_inval Ne kn1, op_inval Sg kg1, s).
Definition sign_step := sign_step_by op_match.
(** [P->match(...)] without the null test *)
Definition nn_match (P : option pcls) (k : pst) (s e : nat) (fl : pflags) : outcome (pst * bool) :=
  match P with Some P => p_match P k s e fl | None => UB end.
(** parser.hpp:1834-1904 basic_signed_numeral; kids = [positive_sign; negative_sign; special_sign; number] *)
Definition signed_numeral (Po Ne Sg : option pcls) (N : pcls) : pcls := {|
  p_init := new_pst [] [op_init Po; op_init Ne; op_init Sg; p_init N];
  p_match := fun st s e fl =>
    match kids st with
    | [kp; kn; kg; km] =>
        let* (kp1, kn1, kg1, x) := sign_step Po Ne Sg kp kn kg s e fl in
        let* (km1, b) := p_match N km x e fl in
        if b then Ret (Pst s (i_end km1) [] [kp1; kn1; kg1; km1], true)
        else Ret (Pst 1 0 [] [op_inval Po kp1; op_inval Ne kn1; op_inval Sg kg1; p_inval N km1], false)
    | _ => UB
    end;
  p_inval := fun st => match kids st with [kp; kn; kg; km] => Pst 1 0 [] [op_inval Po kp; op_inval Ne kn; op_inval Sg kg; p_inval N km] | _ => st end |}.

(** parser.hpp:1920-2024 basic_mixed_numeral; kids = [positive_sign; negative_sign; special_sign; integer; fraction; space] *)
Definition mixed_numeral (Po Ne Sg : option pcls) (I F Sp : pcls) : pcls := {|
  p_init := new_pst [] [op_init Po; op_init Ne; op_init Sg; p_init I; p_init F; p_init Sp];
  p_match := fun st s e fl =>
    match kids st with
    | [kp; kn; kg; ki; kf; ksp] =>
        let* (kp1, kn1, kg1, x) := sign_step Po Ne Sg kp kn kg s e fl in
        (* <fraction>, then <integer> *)
        let rest := fun ki1 ksp1 =>
          let* (kf1, b3) := p_match F kf x e fl in
          if b3 then Ret (Pst s (i_end kf1) [] [kp1; kn1; kg1; p_inval I ki1; kf1; ksp1], true) else
          let* (ki2, b4) := p_match I ki1 x e fl in
          if b4 then Ret (Pst s (i_end ki2) [] [kp1; kn1; kg1; ki2; p_inval F kf1; ksp1], true)
          else Ret (Pst 1 0 [] [op_inval Po kp1; op_inval Ne kn1; op_inval Sg kg1; p_inval I ki2; p_inval F kf1; ksp1], false) in
        let* (ki1, b1) := p_match I ki x e fl in
        if negb b1 then rest ki1 ksp else
        let* (ksp1, b2) := p_match Sp ksp (i_end ki1) e (one_line fl) in
        if negb b2 then rest ki1 ksp1 else
        let* (ksp2, x2) := skip_space (S (e - s)) Sp ksp1 (i_end ksp1) e (one_line fl) in
        let* (kf1, b3) := p_match F kf x2 e fl in
        if b3 then Ret (Pst s (i_end kf1) [] [kp1; kn1; kg1; ki1; kf1; ksp2], true)
        else Ret (Pst s (i_end ki1) [] [kp1; kn1; kg1; ki1; p_inval F kf1; ksp2], true)
    | _ => UB
    end;
  p_inval := fun st => match kids st with
    | [kp; kn; kg; ki; kf; ksp] => Pst 1 0 [] [op_inval Po kp; op_inval Ne kn; op_inval Sg kg; p_inval I ki; p_inval F kf; ksp] | _ => st end |}.

(** integer and decimal part of scientific and monetary numerals (parser.hpp:2139-2152, 2300-2312): states, position, and whether there is either *)
Definition int_dec_step (I DS D : pcls) (ki ks kd : pst) (x e : nat) (fl : pflags) : outcome (pst * pst * pst * nat) :=
  let* (ki1, b1) := p_match I ki x e fl in
  let x1 := if b1 then i_end ki1 else x in
  let* (ks1, b2) := p_match DS ks x1 e fl in
  if negb b2 then Ret (ki1, p_inval DS ks1, p_inval D kd, x1) else
  let* (kd1, b3) := p_match D kd (i_end ks1) e fl in
  if b3 then Ret (ki1, ks1, kd1, i_end kd1) else Ret (ki1, p_inval DS ks1, p_inval D kd1, x1).
(** parser.hpp:2214-2330 basic_monetary_numeral; kids = [positive_sign; negative_sign; special_sign; currency; integer; decimal_separator; decimal].
    The code calls the three signs without a null test (2264-2276) and invalidates them with one. *)
Definition monetary_numeral (Po Ne Sg : option pcls) (C I DS D : pcls) : pcls := {|
  p_init := new_pst [] [op_init Po; op_init Ne; op_init Sg; p_init C; p_init I; p_init DS; p_init D];
  p_match := fun st s e fl =>
    match kids st with
    | [kp; kn; kg; kc; ki; ks; kd] =>
        let* (kp1, kn1, kg1, x) := sign_step_by nn_match Po Ne Sg kp kn kg s e fl in
        let* (kc1, b) := p_match C kc x e fl in
        if negb b then Ret (Pst 1 0 [] [op_inval Po kp1; op_inval Ne kn1; op_inval Sg kg1; kc1; p_inval I ki; p_inval DS ks; p_inval D kd], false) else
        let* (ki1, ks1, kd1, y) := int_dec_step I DS D ki ks kd (i_end kc1) e fl in
        if iempty ki1 && iempty kd1
        then Ret (Pst 1 0 [] [op_inval Po kp1; op_inval Ne kn1; op_inval Sg kg1; p_inval C kc1; p_inval I ki1; p_inval DS ks1; p_inval D kd1], false)
        else Ret (Pst s y [] [kp1; kn1; kg1; kc1; ki1; ks1; kd1], true)
    | _ => UB
    end;
  p_inval := fun st => match kids st with
    | [kp; kn; kg; kc; ki; ks; kd] => Pst 1 0 [] [op_inval Po kp; op_inval Ne kn; op_inval Sg kg; p_inval C kc; p_inval I ki; p_inval DS ks; p_inval D kd] | _ => st end |}.

(** parser.hpp:2154-2190: the exponent; states of exponent_symbol, positive_exp_sign, negative_exp_sign, exponent, and the position *)
Definition exp_step (ES PE NE EX : option pcls) (kes kpe kne kex : pst) (x e : nat) (fl : pflags) : outcome (pst * pst * pst * pst * nat) :=
  let none := fun kes kpe kne kex => Ret (op_inval ES kes, op_inval PE kpe, op_inval NE kne, op_inval EX kex, x) in
  (* the second test matches the symbol again *)
  let second := fun kes kpe kex =>
    let* (kes2, b) := op_match ES kes x e fl in
    if negb b then none kes2 kpe kne kex else
    let* (kne1, b1) := op_match NE kne (i_end kes2) e fl in
    if negb b1 then none kes2 kpe kne1 kex else
    let* (kex1, b2) := op_match EX kex (i_end kne1) e fl in
    if negb b2 then none kes2 kpe kne1 kex1 else
    Ret (kes2, op_inval PE kpe, kne1, kex1, i_end kex1) in
  let plain := fun kes1 kpe kex =>
    let* (kex1, b) := op_match EX kex (i_end kes1) e fl in
    if b then Ret (kes1, kpe, op_inval NE kne, kex1, i_end kex1) else second kes1 kpe kex1 in
  let* (kes1, b) := op_match ES kes x e fl in
  if negb b then second kes1 kpe kex else
  let* (kpe1, b1) := op_match PE kpe (i_end kes1) e fl in
  if negb b1 then plain kes1 kpe1 kex else
  let* (kex1, b2) := op_match EX kex (i_end kpe1) e fl in
  if b2 then Ret (kes1, kpe1, op_inval NE kne, kex1, i_end kex1) else plain kes1 kpe1 kex1.
(** parser.hpp:2045-2201 basic_scientific_numeral, without the double [value] (2192-2204);
    kids = [positive_sign; negative_sign; special_sign; integer; decimal_separator; decimal; exponent_symbol; positive_exp_sign; negative_exp_sign; exponent] *)
Definition scientific_numeral (Po Ne Sg : option pcls) (I DS D : pcls) (ES PE NE EX : option pcls) : pcls := {|
  p_init := new_pst [] [op_init Po; op_init Ne; op_init Sg; p_init I; p_init DS; p_init D; op_init ES; op_init PE; op_init NE; op_init EX];
  p_match := fun st s e fl =>
    match kids st with
    | [kp; kn; kg; ki; ks; kd; kes; kpe; kne; kex] =>
        let* (kp1, kn1, kg1, x) := sign_step Po Ne Sg kp kn kg s e fl in
        let* (ki1, ks1, kd1, y) := int_dec_step I DS D ki ks kd x e fl in
        if iempty ki1 && iempty kd1
        then Ret (Pst 1 0 [] [op_inval Po kp1; op_inval Ne kn1; op_inval Sg kg1; p_inval I ki1; p_inval DS ks1; p_inval D kd1;
                              op_inval ES kes; op_inval PE kpe; op_inval NE kne; op_inval EX kex], false)
        else
          let* (kes1, kpe1, kne1, kex1, z) := exp_step ES PE NE EX kes kpe kne kex y e fl in
          Ret (Pst s z [] [kp1; kn1; kg1; ki1; ks1; kd1; kes1; kpe1; kne1; kex1], true)
    | _ => UB
    end;
  p_inval := fun st => match kids st with
    | [kp; kn; kg; ki; ks; kd; kes; kpe; kne; kex] =>
        Pst 1 0 [] [op_inval Po kp; op_inval Ne kn; op_inval Sg kg; p_inval I ki; p_inval DS ks; p_inval D kd; op_inval ES kes; op_inval PE kpe; op_inval NE kne; op_inval EX kex]
    | _ => st end |}.

(** parser.hpp:1600-1658 basic_roman_numeral; vals = [value].  The digits in the order 1, 5, 10, ... 10000, null ones left
    out: pairs of the digit's value and its parser.  SIZE_MAX is 2^64-1.  [d0..d4] is dig[0..4]. *)
Definition smax : Z := 18446744073709551615.
Fixpoint roman_digit (Ps : list (Z * pcls)) (ks : list pst) (x e : nat) (fl : pflags) : outcome (list pst * option (Z * nat)) :=
  match Ps, ks with
  | [], [] => Ret ([], None)
  | (d, P) :: Pr, k :: kr =>
      let* (k', b) := p_match P k x e fl in
      if b then Ret (k' :: kr, Some (d, i_end k'))
      else let* (kr', r) := roman_digit Pr kr x e fl in Ret (k' :: kr', r)
  | _, _ => UB
  end.
Definition roman_pair (d1 d0 : Z) : bool :=
  ((d1 =? 1) && ((d0 =? 5) || (d0 =? 10))) || ((d1 =? 10) && ((d0 =? 50) || (d0 =? 100))) ||
  ((d1 =? 100) && ((d0 =? 500) || (d0 =? 1000))) || ((d1 =? 1000) && ((d0 =? 5000) || (d0 =? 10000))).
Fixpoint roman_loop (fuel : nat) (Ps : list (Z * pcls)) (ks : list pst) (d1 d2 d3 d4 : Z) (x : nat) (v : Z) (e : nat) (fl : pflags) : outcome (list pst * nat * Z) :=
  match fuel with
  | O => UB
  | S n =>
      let* c := peek txt x e in
      match c with
      | None => Ret (ks, x, v)
      | Some _ =>
          let* (ks', r) := roman_digit Ps ks x e fl in
          match r with
          | None => Ret (ks', x, v)
          | Some (d0, y) =>
              let d4 := if d4 =? smax then d0 else d4 in
              if (d3 =? d2) && (d2 =? d1) && (d1 =? d0) && negb (d0 =? d4) then Ret (ks', x, v)
              else if d0 <=? d1 then (* the loop's step: dig[3] = dig[2], dig[2] = dig[1], dig[1] = dig[0] *)
                roman_loop n Ps ks' d0 d1 d2 d4 y (u64 (v + d0)) e fl
              else if roman_pair d1 d0 then
                if d2 <? d0 then Ret (ks', x, v)
                else (* dig[0] -= dig[1], dig[1] = dig[2], dig[2] = dig[3]; then the loop's step *)
                  roman_loop n Ps ks' (d0 - d1) d2 d3 d4 y (u64 (u64 (v - d1) + (d0 - d1))) e fl
              else Ret (ks', x, v)
          end
      end
  end.
Definition roman_numeral (Ps : list (Z * pcls)) : pcls := {|
  p_init := new_pst [0] (map (fun p => p_init (snd p)) Ps);
  p_match := fun st s e fl =>
    let* (ks, y, v) := roman_loop (S (e - s)) Ps (kids st) smax smax smax smax s 0 e fl in
    if negb (v =? 0) then Ret (Pst s y [v] ks, true) else Ret (Pst 1 0 [v] ks, false);
  p_inval := fun st => Pst 1 0 [0] (kids st) |}.
End Num.
