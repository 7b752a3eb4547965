(** Model of basic_si_reference_part, basic_si_reference_delimiter and basic_si_reference (include/stdex/parser.hpp, lines 5071-5479).

    Conventions of ParserModel and ParserRefModel: positions are indices into [txt]; reading beyond the array is [UB]; an interval
    is its pair of bounds and is invalid if they are swapped (interval.hpp); [op_match] is m_space->match.  uint32_t arithmetic
    wraps ([u32]); sums of sizes are sizes within one text and do not overflow. *)
From Verif Require Import Base StringModel ParserModel ParserNumModel ParserIpModel ParserPeg ParserRefModel HttpModel.

(** parser.hpp:5188-5192 and 5478, and the interval of the base class *)
Record si_obj : Type := Si { si_model : list Z; si_p1 : nat * nat; si_p2 : nat * nat; si_p3 : nat * nat; si_is_valid : bool; si_itv : nat * nat; si_space : pst }.
(** interval.hpp: operator bool and size *)
Definition iv_ok (i : nat * nat) : bool := (fst i <=? snd i)%nat.
Definition iv_size (i : nat * nat) : nat := (snd i - fst i)%nat.
(** parser.hpp:5178-5186 *)
Definition si_invalidate (o : si_obj) : si_obj := Si (set_at 0 0 (si_model o)) no_iv no_iv no_iv false no_iv (si_space o).
(** parser.hpp:5164-5176; the other cells of [model] are uninitialised: any contents *)
Definition si_init (a b : Z) (ks : pst) : si_obj := Si [0; a; b] no_iv no_iv no_iv false no_iv ks.

Section Si.
Context (txt : list Z) (toup : Z -> Z).
(** '0' <= c && c <= '9' *)
Definition not_digit (c : Z) : bool := negb ((48 <=? c) && (c <=? 57)).
(** parser.hpp:5078-5101 *)
Definition si_part (s e : nat) : outcome (nat * nat) :=
  let* i := run_all txt not_digit s e in Ret (if (s <? i)%nat then (s, i) else no_iv).
(** parser.hpp:5125-5137 *)
Definition si_delim (s e : nat) : outcome (option nat) :=
  if (s <? e)%nat then let* c := rd txt s in if c =? 45 then Ret (Some (s + 1)%nat) else Ret None else Ret None.

(** parser.hpp:5423-5424 and the same loop of the other parts: [for (i = n; i--; ++ponder) nominator += (part[i] - '0') * ponder] *)
Fixpoint ponder_loop (i : nat) (part : nat) (nominator ponder : Z) : outcome (Z * Z) :=
  match i with
  | O => Ret (nominator, ponder)
  | S k => let* c := rd txt (part + k) in ponder_loop k part (u32 (nominator + u32 (u32 (c - 48) * ponder))) (u32 (ponder + 1))
  end.
(** parser.hpp:5418-5429 *)
Definition check11_1 (part1 num_part1 : nat) : outcome bool :=
  let* (nominator, ponder) := ponder_loop (num_part1 - 1) part1 0 2 in
  let control := 11 - nominator mod 11 in
  let control := if 10 <=? control then 0 else control in
  let* c := rd txt (part1 + (num_part1 - 1)) in Ret (control =? c - 48).
(** parser.hpp:5431-5446 *)
Definition check11_2 (part1 num_part1 part2 num_part2 : nat) : outcome bool :=
  let* (nominator, ponder) := ponder_loop (num_part2 - 1) part2 0 2 in
  let* (nominator, ponder) := ponder_loop num_part1 part1 nominator ponder in
  let control := 11 - nominator mod 11 in
  let control := if control =? 10 then 0 else control in
  let* c := rd txt (part2 + (num_part2 - 1)) in Ret (control =? c - 48).
(** parser.hpp:5448-5467; the last line compares with part2[num_part3 - 1] *)
Definition check11_3 (part1 num_part1 part2 num_part2 part3 num_part3 : nat) : outcome bool :=
  let* (nominator, ponder) := ponder_loop (num_part3 - 1) part3 0 2 in
  let* (nominator, ponder) := ponder_loop num_part2 part2 nominator ponder in
  let* (nominator, ponder) := ponder_loop num_part1 part1 nominator ponder in
  let control := 11 - nominator mod 11 in
  let control := if control =? 10 then 0 else control in
  let* c := rd txt (part2 + (num_part3 - 1)) in Ret (control =? c - 48).
Definition chk1 (p : nat * nat) : outcome bool := check11_1 (fst p) (iv_size p).
Definition chk2 (p q : nat * nat) : outcome bool := check11_2 (fst p) (iv_size p) (fst q) (iv_size q).
Definition chk3 (p q r : nat * nat) : outcome bool := check11_3 (fst p) (iv_size p) (fst q) (iv_size q) (fst r) (iv_size r).
(** [a && b] *)
Definition oand (a b : outcome bool) : outcome bool := let* x := a in if x then b else Ret false.
(** the limits of the sizes, repeated for each model *)
Definition small (p : nat * nat) : bool := (iv_size p <=? 12)%nat.
Definition fit2 (p q : nat * nat) : bool := small p && small q && (iv_size p + iv_size q <=? 20)%nat.
Definition fit3 (p q r : nat * nat) : bool := small p && small q && small r && (iv_size p + iv_size q + iv_size r <=? 20)%nat.

(** parser.hpp:5255-5411: is_valid, for the model digits [a] and [b] *)
Definition si_check (a b : Z) (p q r : nat * nat) : outcome bool :=
  let no := Ret false in
  let on3 (x y z : outcome bool) := if iv_ok r then x else if iv_ok q then y else if iv_ok p then z else no in
  let f3 := Ret (fit3 p q r) in let f2 := Ret (fit2 p q) in let f1 := Ret (small p) in
  if (a =? 48) && (b =? 48) then on3 f3 f2 f1
  else if (a =? 48) && (b =? 49) then on3 (oand f3 (chk3 p q r)) (oand f2 (chk2 p q)) (oand f1 (chk1 p))
  else if (a =? 48) && (b =? 50) then on3 (oand f3 (oand (chk1 q) (chk1 r))) no no
  else if (a =? 48) && (b =? 51) then on3 (oand f3 (oand (chk1 p) (oand (chk1 q) (chk1 r)))) no no
  else if (a =? 48) && (b =? 52) then on3 (oand f3 (oand (chk1 p) (chk1 r))) no no
  else if ((a =? 48) || (a =? 53)) && (b =? 53) then on3 (oand f3 (chk1 p)) (oand f2 (chk1 p)) (oand f1 (chk1 p))
  else if (a =? 48) && (b =? 54) then on3 (oand f3 (chk2 q r)) (oand f2 (chk1 q)) no
  else if (a =? 48) && (b =? 55) then on3 (oand f3 (chk1 q)) (oand f2 (chk1 q)) no
  else if (a =? 48) && (b =? 56) then on3 (oand f3 (oand (chk2 p q) (chk1 r))) no no
  else if (a =? 48) && (b =? 57) then on3 (oand f3 (chk2 p q)) (oand f2 (chk2 p q)) (oand f1 (chk1 p))
  else if (a =? 49) && (b =? 48) then on3 (oand f3 (oand (chk1 p) (chk2 q r))) (oand f2 (oand (chk1 p) (chk1 q))) no
  else if ((a =? 49) && ((b =? 49) || (b =? 56) || (b =? 57))) ||
          (((a =? 50) || (a =? 51)) && (b =? 56)) ||
          ((a =? 52) && ((b =? 48) || (b =? 49) || (b =? 56) || (b =? 57))) ||
          ((a =? 53) && ((b =? 49) || (b =? 56))) then on3 (oand f3 (oand (chk1 p) (chk1 q))) (oand f2 (oand (chk1 p) (chk1 q))) no
  else if (a =? 49) && (b =? 50) then on3 no no (oand (Ret (iv_size p <=? 13)%nat) (chk1 p))
  else if ((a =? 50) || (a =? 51)) && (b =? 49) then on3 no (oand f2 (chk1 p)) no
  else Ret true.

(** parser.hpp:5217-5221: the two digits of the model; [k] are left.  None: goto error. *)
Fixpoint model_loop (k i : nat) (mo : list Z) (x e : nat) : outcome (list Z * option nat) :=
  match k with
  | O => Ret (mo, Some x)
  | S k' =>
      if (e <=? x)%nat then Ret (mo, None)
      else let* c := rd txt x in
           if (c <? 48) || (57 <? c) then Ret (mo, None) else model_loop k' (S i) (set_at i c mo) (S x) e
  end.
(** parser.hpp:5237-5241 *)
Definition si_parts (x e : nat) : outcome (nat * nat * (nat * nat) * (nat * nat)) :=
  let* p := si_part x e in
  if negb (iv_ok p) then Ret (p, no_iv, no_iv)
  else let* d := si_delim (snd p) e in
       match d with
       | None => Ret (p, no_iv, no_iv)
       | Some y =>
           let* q := si_part y e in
           if negb (iv_ok q) then Ret (p, q, no_iv)
           else let* d := si_delim (snd q) e in
                match d with None => Ret (p, q, no_iv) | Some z => let* r := si_part z e in Ret (p, q, r) end
       end.
(** parser.hpp:5195-5416 *)
Definition si_match (P : option pcls) (o : si_obj) (s e : nat) (fl : pflags) : outcome (si_obj * bool) :=
  let error := fun mo => Ret (si_invalidate (Si mo (si_p1 o) (si_p2 o) (si_p3 o) (si_is_valid o) (si_itv o) (si_space o)), false) in
  let* ok := (if (e <=? s + 1)%nat then Ret false else
              let* c := rd txt s in
              if negb (up toup fl c =? 83) then Ret false else let* c := rd txt (s + 1) in Ret (up toup fl c =? 73)) in
  if negb ok then error (si_model o)
  else
    let* (mo, r) := model_loop 2 0 (si_model o) (s + 2) e in
    match r with
    | None => error mo
    | Some x =>
        let* a := rd mo 0 in let* b := rd mo 1 in
        let mo := set_at 2 0 mo in
        if (a =? 57) && (b =? 57) then Ret (Si mo no_iv no_iv no_iv true (s, x) (si_space o), true)
        else
          let* (ks, m) := op_match P (si_space o) x e fl in
          let x := if m then i_end ks else x in
          let* (p, q, r) := si_parts x e in
          let y := if iv_ok r then snd r else if iv_ok q then snd q else if iv_ok p then snd p else (s + 4)%nat in
          let* v := si_check a b p q r in
          Ret (Si mo p q r v (s, y) ks, true)
    end.
End Si.
