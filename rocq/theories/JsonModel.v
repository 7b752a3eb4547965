(** Model of basic_json_string (include/stdex/parser.hpp:7200-7338).  Same conventions as ParserModel and ParserNumModel.

    kids = [quote; chr; escape; uni; hex] and the parsers tried behind an escape in the order of the code: quote, sol, bs, ff,
    lf, cr, htab (the quote parser is one object in the code; its state is only read right after a match).  vals = value, the
    units of the string.  [narrow] is sizeof(T) == 1, [cast] is (T). *)
From Verif Require Import Base StringModel ParserModel ParserNumModel.

Section Json.
Context (txt : list Z) (narrow : bool) (cast : Z -> Z).

(** parser.hpp:7291-7304 *)
Definition json_code (v : Z) : list Z :=
  if narrow then
    if 0x7ff <? v then [cast (Z.lor 0xe0 (Z.land (Z.shiftr v 12) 0x0f)); cast (Z.lor 0x80 (Z.land (Z.shiftr v 6) 0x3f)); cast (Z.lor 0x80 (Z.land v 0x3f))]
    else if 0x7f <? v then [cast (Z.lor 0xc0 (Z.land (Z.shiftr v 6) 0x1f)); cast (Z.lor 0x80 (Z.land v 0x3f))]
    else [cast (Z.land v 0x7f)]
  else [cast v].
(** the characters the escapes stand for: quotation mark, solidus, \b, \f, \n, \r, \t *)
Definition escaped_chars : list Z := [34; 47; 8; 12; 10; 13; 9].

(** parser.hpp:7259-7311: behind an escape; what is added to the value and where the next unit starts, if it is one *)
Definition json_escape (E U H : pcls) (Es : list pcls) (ke ku kh : pst) (kes : list pst) (e : nat) (fl : pflags) : outcome (pst * pst * pst * list pst * option (list Z * nat)) :=
  let x := i_end ke in
  let* (kes, hit) := digit_loop Es kes 0 x e fl in
  match hit with
  | Some (d, y) => Ret (ke, ku, kh, kes, Some ([nth d escaped_chars 0], y))
  | None =>
      let* (ku, b) := p_match U ku x e fl in
      let* (kh, b) := if b then p_match H kh (i_end ku) (Nat.min (i_end ku + 4) e) (PFlags true (fl_ml fl)) else Ret (kh, false) in
      if b && (isize kh =? 4)%nat then Ret (ke, ku, kh, kes, Some (json_code (the_val kh), i_end kh))
      else
        let* (ke, b) := p_match E ke x e fl in
        Ret (ke, ku, kh, kes, if b then Some ([92], i_end ke) else None)
  end.
(** parser.hpp:7252-7320 *)
Fixpoint json_loop (fuel : nat) (Q C E U H : pcls) (Es : list pcls) (kq kc ke ku kh : pst) (kes : list pst) (x : nat) (value : list Z) (e : nat) (fl : pflags) :
    outcome (list pst * option (nat * list Z)) :=
  match fuel with
  | O => UB
  | S n =>
      let* (kq, b) := p_match Q kq x e fl in
      if b then Ret (kq :: kc :: ke :: ku :: kh :: kes, Some (i_end kq, value))
      else
        let* (ke, b) := p_match E ke x e fl in
        let* (ke, ku, kh, kes, r) := if b then json_escape E U H Es ke ku kh kes e fl else Ret (ke, ku, kh, kes, None) in
        match r with
        | Some (u, y) => json_loop n Q C E U H Es kq kc ke ku kh kes y (value ++ u) e fl
        | None =>
            let* (kc, b) := p_match C kc x e fl in
            if b then json_loop n Q C E U H Es kq kc ke ku kh kes (i_end kc) (value ++ firstn (isize kc) (skipn (i_start kc) txt)) e fl
            else Ret (kq :: kc :: ke :: ku :: kh :: kes, None)
        end
  end.
Definition json_string (Q C E U H : pcls) (Es : list pcls) : pcls := {|
  p_init := new_pst [] (p_init Q :: p_init C :: p_init E :: p_init U :: p_init H :: map p_init Es);
  p_match := fun st s e fl =>
    match kids st with
    | kq :: kc :: ke :: ku :: kh :: kes =>
        let* (kq, b) := p_match Q kq s e fl in
        if b then
          let* (ks, r) := json_loop (S (e - s)) Q C E U H Es kq kc ke ku kh kes (i_end kq) [] e fl in
          match r with Some (y, v) => Ret (Pst s y v ks, true) | None => Ret (Pst 1 0 [] ks, false) end
        else Ret (Pst 1 0 [] (kq :: kc :: ke :: ku :: kh :: kes), false)
    | _ => UB
    end;
  p_inval := fun st => Pst 1 0 [] (kids st) |}.
End Json.
