(** Model of basic_iban (include/stdex/parser.hpp, lines 4635-4906) and basic_creditor_reference (4924-5052).

    Conventions of ParserModel; [toup] is ctype.toupper of the parser's locale.  A member array of characters is a list of its
    length: the members in [vals] one after another, the last cell is is_valid (0 or 1).  Uninitialised cells start as 0 (they
    are never read; the theorems allow any contents).  The local array [normalized] is the list of the cells written so far
    and its capacity: a write beyond the capacity and a read beyond what was written are [UB].  The held space parser is the kid. *)
From Verif Require Import Base StringModel ParserModel ParserNumModel ParserIpModel.

Section Ref.
Context (txt : list Z) (toup : Z -> Z).
(** [case_insensitive ? ctype.toupper(c) : c] *)
Definition up (fl : pflags) (c : Z) : Z := if fl_ci fl then toup c else c.

(** parser.hpp:4792-4799: the country code into country[i..]; [k] are left.  None: goto error. *)
Fixpoint country_loop (k i : nat) (co : list Z) (x e : nat) (fl : pflags) : outcome (list Z * option nat) :=
  match k with
  | O => Ret (co, Some x)
  | S k' =>
      let* c := peek txt x e in
      match c with
      | None => Ret (co, None)
      | Some c => let chr := up fl c in
                  if (chr <? 65) || (90 <? chr) then Ret (co, None) else country_loop k' (S i) (set_at i chr co) (S x) e fl
      end
  end.
(** parser.hpp:4674-4678: country_t; no check digits are 0 *)
Record country : Type := Ctry { c0 : Z; c1 : Z; k0 : Z; k1 : Z; len : Z }.
(** parser.hpp:4679-4786 *)
Definition countries : list country := [
  Ctry 65 68 0 0 24; Ctry 65 69 0 0 23; Ctry 65 76 0 0 28; Ctry 65 79 0 0 25; Ctry 65 84 0 0 20; Ctry 65 90 0 0 28;
  Ctry 66 65 51 57 20; Ctry 66 69 0 0 16; Ctry 66 70 0 0 28; Ctry 66 71 0 0 22; Ctry 66 72 0 0 22; Ctry 66 73 0 0 27;
  Ctry 66 74 0 0 28; Ctry 66 82 0 0 29; Ctry 66 89 0 0 28; Ctry 67 70 0 0 27; Ctry 67 71 0 0 27; Ctry 67 72 0 0 21;
  Ctry 67 73 0 0 28; Ctry 67 77 0 0 27; Ctry 67 82 0 0 22; Ctry 67 86 0 0 25; Ctry 67 89 0 0 28; Ctry 67 90 0 0 24;
  Ctry 68 69 0 0 22; Ctry 68 74 0 0 27; Ctry 68 75 0 0 18; Ctry 68 79 0 0 28; Ctry 68 90 0 0 26; Ctry 69 69 0 0 20;
  Ctry 69 71 0 0 29; Ctry 69 83 0 0 24; Ctry 70 73 0 0 18; Ctry 70 79 0 0 18; Ctry 70 82 0 0 27; Ctry 71 65 0 0 27;
  Ctry 71 66 0 0 22; Ctry 71 69 0 0 22; Ctry 71 73 0 0 23; Ctry 71 76 0 0 18; Ctry 71 81 0 0 27; Ctry 71 82 0 0 27;
  Ctry 71 84 0 0 28; Ctry 71 87 0 0 25; Ctry 72 78 0 0 28; Ctry 72 82 0 0 21; Ctry 72 85 0 0 28; Ctry 73 69 0 0 22;
  Ctry 73 76 0 0 23; Ctry 73 81 0 0 23; Ctry 73 82 0 0 26; Ctry 73 83 0 0 26; Ctry 73 84 0 0 27; Ctry 74 79 0 0 30;
  Ctry 75 77 0 0 27; Ctry 75 87 0 0 30; Ctry 75 90 0 0 20; Ctry 76 66 0 0 28; Ctry 76 67 0 0 32; Ctry 76 73 0 0 21;
  Ctry 76 84 0 0 20; Ctry 76 85 0 0 20; Ctry 76 86 0 0 21; Ctry 76 89 0 0 25; Ctry 77 65 0 0 28; Ctry 77 67 0 0 27;
  Ctry 77 68 0 0 24; Ctry 77 69 50 53 22; Ctry 77 71 0 0 27; Ctry 77 75 48 55 19; Ctry 77 76 0 0 28; Ctry 77 82 49 51 27;
  Ctry 77 84 0 0 31; Ctry 77 85 0 0 30; Ctry 77 90 0 0 25; Ctry 78 69 0 0 28; Ctry 78 73 0 0 32; Ctry 78 76 0 0 18;
  Ctry 78 79 0 0 15; Ctry 80 75 0 0 24; Ctry 80 76 0 0 28; Ctry 80 83 0 0 29; Ctry 80 84 53 48 25; Ctry 81 65 0 0 29;
  Ctry 82 79 0 0 24; Ctry 82 83 51 53 22; Ctry 82 85 0 0 33; Ctry 83 65 0 0 24; Ctry 83 67 0 0 31; Ctry 83 68 0 0 18;
  Ctry 83 69 0 0 24; Ctry 83 73 53 54 19; Ctry 83 75 0 0 24; Ctry 83 77 0 0 27; Ctry 83 78 0 0 28; Ctry 83 84 0 0 25;
  Ctry 83 86 0 0 28; Ctry 84 68 0 0 27; Ctry 84 71 0 0 28; Ctry 84 76 51 56 23; Ctry 84 78 53 57 24; Ctry 84 82 0 0 26;
  Ctry 85 65 0 0 29; Ctry 86 65 0 0 22; Ctry 86 71 0 0 24; Ctry 88 75 0 0 20 ].
(** parser.hpp:4800-4814: binary search between [l] and [r] *)
Fixpoint find_country (fuel : nat) (l r : nat) (a b : Z) : outcome (option country) :=
  match fuel with
  | O => UB
  | S n =>
      if (r <=? l)%nat then Ret None
      else
        let m := ((l + r) / 2)%nat in
        match nth_error countries m with
        | None => UB
        | Some c =>
            if (c0 c <? a) || ((c0 c =? a) && (c1 c <? b)) then find_country n (S m) r a b
            else if (a <? c0 c) || ((a =? c0 c) && (b <? c1 c)) then find_country n l m a b
            else Ret (Some c)
        end
  end.
(** parser.hpp:4816-4821 and 4970-4975: two check digits *)
Fixpoint check_loop (k i : nat) (cd : list Z) (x e : nat) : outcome (list Z * option nat) :=
  match k with
  | O => Ret (cd, Some x)
  | S k' =>
      if (e <=? x)%nat then Ret (cd, None)
      else let* c := rd txt x in
           if (c <? 48) || (57 <? c) then Ret (cd, None) else check_loop k' (S i) (set_at i c cd) (S x) e
  end.
(** [('0' <= chr && chr <= '9') || ('A' <= chr && chr <= 'Z')] *)
Definition alnum (c : Z) : bool := (48 <=? c) && (c <=? 57) || (65 <=? c) && (c <=? 90).
(** parser.hpp:4828-4843 *)
Fixpoint bban_loop (fuel : nat) (P : option pcls) (ks : pst) (n bban_length : nat) (bb : list Z) (x e : nat) (fl : pflags) : outcome (pst * list Z * option nat) :=
  match fuel with
  | O => UB
  | S f =>
      if (n <? bban_length)%nat then
        let* c := peek txt x e in
        match c with
        | None => Ret (ks, bb, None)
        | Some c =>
            let* (ks1, b) := op_match P ks x e fl in
            if b then bban_loop f P ks1 n bban_length bb (i_end ks1) e fl
            else
              let chr := up fl c in
              if alnum chr then bban_loop f P ks1 (S n) bban_length (set_at n chr bb) (S x) e fl else Ret (ks1, bb, None)
        end
      else Ret (ks, set_at n 0 bb, Some x)
  end.
(** normalized[available++] = c *)
Definition put (cap : nat) (buf : list Z) (c : Z) : outcome (list Z) := if (length buf <? cap)%nat then Ret (buf ++ [c]) else UB.
(** parser.hpp:4851-4862 (and 4871-4882, 5019-5030): a letter as two digits *)
Definition put_letter (cap : nat) (buf : list Z) (c : Z) : outcome (list Z) :=
  if (65 <=? c) && (c <=? 74) then let* b := put cap buf 49 in put cap b (48 + c - 65)
  else if (75 <=? c) && (c <=? 84) then let* b := put cap buf 50 in put cap b (48 + c - 75)
  else if (85 <=? c) && (c <=? 90) then let* b := put cap buf 51 in put cap b (48 + c - 85)
  else Ret buf.
Fixpoint put_all (f : list Z -> Z -> outcome (list Z)) (buf : list Z) (l : list Z) : outcome (list Z) :=
  match l with [] => Ret buf | c :: r => let* b := f buf c in put_all f b r end.
(** parser.hpp:4848-4883 and 5006-5031: the characters of the zero-terminated array [arr]; reading beyond it is UB *)
Fixpoint put_chars (cap : nat) (buf : list Z) (arr : list Z) : outcome (list Z) :=
  match arr with
  | [] => UB
  | c :: r => if c =? 0 then Ret buf
              else let* b := (if (48 <=? c) && (c <=? 57) then put cap buf c else put_letter cap buf c) in put_chars cap b r
  end.
(** parser.hpp:4893-4895 and 5041-5043 *)
Fixpoint nine_loop (k : nat) (buf : list Z) (v : Z) (next : nat) : outcome (Z * nat) :=
  match k with
  | O => Ret (v, next)
  | S k' => let* c := rd buf next in if c =? 0 then Ret (v, next) else nine_loop k' buf (u32 (u32 (v * 10) + u32 (c - 48))) (S next)
  end.
(** parser.hpp:4885-4896 and 5033-5044: is the number 1 modulo 97 *)
Fixpoint mod_loop (fuel : nat) (buf : list Z) (v : Z) (next : nat) : outcome bool :=
  match fuel with
  | O => UB
  | S f =>
      let v := v mod 97 in
      let* c := rd buf next in
      if c =? 0 then Ret (v =? 1)
      else let digit_count := if v =? 0 then 0%nat else if v <? 10 then 1%nat else 2%nat in
           let* (v', next') := nine_loop (9 - digit_count) buf v next in mod_loop f buf v' next'
  end.
Definition mod97 (buf : list Z) : outcome bool :=
  let* (v, next) := strtouint 32 buf 9 10 in mod_loop (S (length buf)) buf v next.

Definition b2z (b : bool) : Z := if b then 1 else 0.
(** parser.hpp:4635-4906; vals = country[3], check_digits[3], bban[31], is_valid; kids = [space] *)
Definition iban (P : option pcls) : pcls := {|
  p_init := new_pst (repeat 0 38) [op_init P];
  p_match := fun st s e fl =>
    let co := firstn 3 (vals st) in
    let cd := firstn 3 (skipn 3 (vals st)) in
    let bb := firstn 31 (skipn 6 (vals st)) in
    match kids st with
    | [ks] =>
        let error := fun co cd bb ks => Ret (Pst 1 0 (set_at 0 0 co ++ set_at 0 0 cd ++ set_at 0 0 bb ++ [0]) [ks], false) in
        let* (co, r) := country_loop 2 0 co s e fl in
        match r with
        | None => error co cd bb ks
        | Some x =>
            let* a := rd co 0 in let* b := rd co 1 in
            let* d := find_country (length countries) 0 (length countries) a b in
            match d with
            | None => error co cd bb ks
            | Some d =>
                let co := set_at 2 0 co in
                let* (cd, r) := check_loop 2 0 cd x e in
                match r with
                | None => error co cd bb ks
                | Some x =>
                    let cd := set_at 2 0 cd in
                    let* a := rd cd 0 in let* b := rd cd 1 in
                    if (negb (k0 d =? 0) && negb (a =? k0 d)) || (negb (k1 d =? 0) && negb (b =? k1 d)) then error co cd bb ks
                    else
                      let* (ks, bb, r) := bban_loop (S (e - x)) P ks 0 (Z.to_nat (len d - 4)) bb x e fl in
                      match r with
                      | None => error co cd bb ks
                      | Some x =>
                          let* buf := put_chars 69 [] bb in
                          let* buf := put_all (put_letter 69) buf (firstn 2 co) in
                          let* buf := put_all (put 69) buf (firstn 2 cd ++ [0]) in
                          let* v := mod97 buf in
                          Ret (Pst s x (co ++ cd ++ bb ++ [b2z v]) [ks], true)
                      end
                end
            end
        end
    | _ => UB
    end;
  p_inval := fun st => Pst 1 0 (set_at 0 0 (firstn 3 (vals st)) ++ set_at 0 0 (firstn 3 (skipn 3 (vals st))) ++ set_at 0 0 (firstn 31 (skipn 6 (vals st))) ++ [0]) (kids st) |}.

(** parser.hpp:4980-4992: up to four characters into reference[n..]; [out]: goto out.  None: goto error. *)
Fixpoint four_loop (j : nat) (n : nat) (rf : list Z) (x e : nat) (fl : pflags) : outcome (option (nat * list Z * nat * bool)) :=
  match j with
  | O => Ret (Some (n, rf, x, false))
  | S j' =>
      let* c := peek txt x e in
      match c with
      | None => Ret (Some (n, rf, x, true))
      | Some c =>
          let chr := up fl c in
          if alnum chr then
            if (21 <=? n)%nat then Ret None else four_loop j' (S n) (set_at n chr rf) (S x) e fl
          else Ret (Some (n, rf, x, true))
      end
  end.
(** parser.hpp:4977-4993 *)
Fixpoint ref_loop (fuel : nat) (P : option pcls) (ks : pst) (n : nat) (rf : list Z) (x e : nat) (fl : pflags) : outcome (pst * option (nat * list Z * nat)) :=
  match fuel with
  | O => UB
  | S f =>
      let* (ks, b) := op_match P ks x e fl in
      let x := if b then i_end ks else x in
      let* r := four_loop 4 n rf x e fl in
      match r with
      | None => Ret (ks, None)
      | Some (n, rf, x, true) => Ret (ks, Some (n, rf, x))
      | Some (n, rf, x, false) => ref_loop f P ks n rf x e fl
      end
  end.
(** parser.hpp:4998-4999: [for (i = n, j = 21; i;) reference[--j] = reference[--i]] *)
Fixpoint shift_loop (i j : nat) (rf : list Z) : outcome (list Z) :=
  match i with
  | O => Ret rf
  | S i' => let* c := rd rf i' in shift_loop i' (j - 1) (set_at (j - 1) c rf)
  end.
(** parser.hpp:5000-5001: [while (j) reference[--j] = '0'] *)
Fixpoint zero_loop (j : nat) (rf : list Z) : list Z := match j with O => rf | S j' => zero_loop j' (set_at j' 48 rf) end.
(** parser.hpp:4924-5052; vals = check_digits[3], reference[22], is_valid; kids = [space] *)
Definition creditor_reference (P : option pcls) : pcls := {|
  p_init := new_pst (repeat 0 26) [op_init P];
  p_match := fun st s e fl =>
    let cd := firstn 3 (vals st) in
    let rf := firstn 22 (skipn 3 (vals st)) in
    match kids st with
    | [ks] =>
        let error := fun cd rf ks => Ret (Pst 1 0 (set_at 0 0 cd ++ set_at 0 0 rf ++ [0]) [ks], false) in
        (* 4963-4968 *)
        let* ok := (if (e <=? s + 1)%nat then Ret false else
                    let* c := rd txt s in
                    if negb (up fl c =? 82) then Ret false else let* c := rd txt (s + 1) in Ret (up fl c =? 70)) in
        if negb ok then error cd rf ks
        else
          let* (cd, r) := check_loop 2 0 cd (s + 2) e in
          match r with
          | None => error cd rf ks
          | Some x =>
              let cd := set_at 2 0 cd in
              let* (ks, r) := ref_loop (S (e - x)) P ks 0 rf x e fl in
              match r with
              | None => error cd rf ks
              | Some (n, rf, x) =>
                  if (n =? 0)%nat then error cd rf ks
                  else
                    let* rf := shift_loop n 21 (set_at 21 0 rf) in
                    let rf := zero_loop (21 - n) rf in
                    let* buf := put_chars 47 [] rf in
                    let* buf := put_all (put 47) buf ([50; 55; 49; 53] ++ firstn 2 cd ++ [0]) in
                    let* v := mod97 buf in
                    Ret (Pst s x (cd ++ rf ++ [b2z v]) [ks], true)
              end
          end
    | _ => UB
    end;
  p_inval := fun st => Pst 1 0 (set_at 0 0 (firstn 3 (vals st)) ++ set_at 0 0 (firstn 22 (skipn 3 (vals st))) ++ [0]) (kids st) |}.
End Ref.
