(** Model of the SGML code-point tests of include/stdex/parser.hpp: basic_parser::next_sgml_cp (132-168), sgml_cp (333-373),
    sgml_space_cp (423-455), sgml_punct_cp (501-530), sgml_space_or_punct_cp (578-609), sgml_cp_set (771-807), sgml_string
    (861-905), sgml_ipv6_scope_id_char (2520-2549), sgml_dns_domain_char (2830-2866), sgml_url_username_char (3010-3052),
    sgml_url_password_char (3112-3157), sgml_url_path_char (3218-3267).

    Conventions of ParserModel.  [w] is the platform: U32 is a wchar_t of 32 bits, which is utf32_t there (string.hpp:34-35),
    U16 is Windows, where wchar_t is utf16_t and utf32_t is unsigned (31-32).  [sp] is space of ctype<char>; [wsp], [wpu],
    [walnum], [wtolow] are space, punct, alnum and tolower of ctype<wchar_t>.  A wide string is the list of its units before
    the terminator. *)
From Verif Require Import Base StringModel SgmlModel SgmlSpec ParserModel UrlModel.

Section SgmlCp.
Context (w : width) (txt : list Z) (sp : Z -> bool) (wsp wpu walnum : Z -> bool) (wtolow : Z -> Z).

(** sgml.hpp:30, 52-56: sgml2uni answers with the caller's buf *)
Definition in_buf (entity : list Z) (count : nat) : outcome bool :=
  if (count <? 2)%nat then Ret false else let* x := rd entity 0 in Ret (x =? 35).
(** parser.hpp:146-148: the text of the entity of [n] units after position [s].  Where wchar_t is utf32_t, utf32_to_wstr
    returns its argument (sgml.hpp:77-81); for a numeric reference that is buf32, a local of the loop body of next_sgml_cp,
    which is gone when the caller reads it: [UB]. *)
Definition entity_w (s n : nat) : outcome (option (list Z)) :=
  let* u := sgml2uni (skipn (S s) txt) n in
  match u with
  | None => Ret None
  | Some u =>
      match w with
      | U32 => let* b := in_buf (skipn (S s) txt) n in if b then UB else Ret (Some u)
      | U16 => let* t := utf32_to_wstr U16 (map u32 u) in Ret (Some t)
      end
  end.
(** parser.hpp:132-168, for [start < end && text[start]], which every caller has checked: the text and chr_end *)
Definition next_sgml_cp (s e : nat) : outcome (list Z * nat) :=
  let* c := rd txt s in
  let raw := Ret ([cast_unit w c], S s) in
  if c =? 38 then
    let* x := entity_end txt sp (S (e - s)) (S s) e in
    match x with
    | Some y => let* t := entity_w s (y - 1 - s - 1) in match t with Some t => Ret (t, y) | None => raw end
    | None => raw
    end
  else raw.

(** The shape of the tests: one code point, its text tested by [r] *)
Definition one_cp (r : list Z -> pflags -> bool) (invert : bool) : pcls := {|
  p_init := new_pst [] [];
  p_match := fun st s e fl => let* c := peek txt s e in
    match c with
    | Some _ => let* (t, y) := next_sgml_cp s e in
                let r := r t fl in
                if (r && negb invert) || (negb r && invert) then Ret (set_interval st s y, true) else Ret (no_interval st, false)
    | None => Ret (no_interval st, false)
    end;
  p_inval := no_interval |}.

(** string.hpp:128-137: islbreak(chr, SIZE_MAX) <> 0 of a terminated string; it reads chr[1] only after a line break *)
Definition breaks (t : list Z) : bool := match t with c :: _ => islbreak c | [] => false end.
(** parser.hpp:440-444, 516-518, 593-597; scan_not(...) == chr_end: all units are in the class *)
Definition space_text (t : list Z) (fl : pflags) : bool := (fl_ml fl || negb (breaks t)) && forallb wsp t.
Definition punct_text (t : list Z) (fl : pflags) : bool := forallb wpu t.
Definition space_or_punct_text (t : list Z) (fl : pflags) : bool := (fl_ml fl || negb (breaks t)) && forallb (fun c => wsp c || wpu c) t.
Definition sgml_space_cp (invert : bool) : pcls := one_cp space_text invert.
Definition sgml_punct_cp (invert : bool) : pcls := one_cp punct_text invert.
Definition sgml_space_or_punct_cp (invert : bool) : pcls := one_cp space_or_punct_text invert.

(** parser.hpp:333-373; [chr] is m_chr *)
Definition sgml_cp (chr : list Z) (invert : bool) : pcls := {|
  p_init := new_pst [] [];
  p_match := fun st s e fl => let* c := peek txt s e in
    match c with
    | Some _ => let* (t, y) := next_sgml_cp s e in
                let* d := strnicmp4 (if fl_ci fl then wtolow else fun c => c) (t ++ [0]) (length t) chr (length chr) in
                let r := d =? 0 in
                if (r && negb invert) || (negb r && invert) then Ret (set_interval st s y, true) else Ret (no_interval st, false)
    | None => Ret (no_interval st, false)
    end;
  p_inval := no_interval |}.

(** parser.hpp:771-807; [set] is m_set; vals = [hit_offset] *)
Definition sgml_cp_set (set : list Z) (invert : bool) : pcls := {|
  p_init := new_pst [-1] [];
  p_match := fun st s e fl => let* c := peek txt s e in
    match c with
    | Some _ => let* (t, y) := next_sgml_cp s e in
                let* r := if fl_ci fl then strnistr wtolow (set ++ [0]) (length set) (t ++ [0]) else strnstr (set ++ [0]) (length set) (t ++ [0]) in
                if (match r with Some _ => negb invert | None => invert end)
                then Ret (Pst s y [opt_z r] (kids st), true) else Ret (Pst 1 0 [-1] (kids st), false)
    | None => Ret (Pst 1 0 [-1] (kids st), false)
    end;
  p_inval := fun st => Pst 1 0 [-1] (kids st) |}.

(** parser.hpp:893-900: the rest of str after the units of chr *)
Fixpoint eat (f : Z -> Z) (chr str : list Z) : option (list Z) :=
  match chr with
  | [] => Some str
  | c :: chr => match str with [] => None | d :: str => if f d =? f c then eat f chr str else None end
  end.
(** parser.hpp:878-901; [y] is interval.end *)
Fixpoint sgml_string_loop (fuel : nat) (f : Z -> Z) (str : list Z) (y e : nat) : outcome (option nat) :=
  match fuel with
  | O => UB
  | S n =>
      match str with
      | [] => Ret (Some y)
      | _ =>
          let* c := peek txt y e in
          match c with
          | None => Ret None
          | Some _ => let* (t, y') := next_sgml_cp y e in
                      match eat f t str with None => Ret None | Some str => sgml_string_loop n f str y' e end
          end
      end
  end.
(** parser.hpp:861-905; [str] is m_str *)
Definition sgml_string_p (str : list Z) : pcls := {|
  p_init := new_pst [] [];
  p_match := fun st s e fl =>
    let* x := sgml_string_loop (S (S (e - s))) (if fl_ci fl then wtolow else fun c => c) str s e in
    match x with Some y => Ret (set_interval st s y, true) | None => Ret (no_interval st, false) end;
  p_inval := no_interval |}.

(** parser.hpp:2538-2541: [chr[0] == x && chr[1] == 0].  Simplification: for an empty text chr[1] is not read here; in the code
    it is only read after chr[0] was found to be x. *)
Definition single (l : list Z) (t : list Z) : bool := match t with [c] => existsb (Z.eqb c) l | _ => false end.
Definition scope_id_text (t : list Z) (fl : pflags) : bool := single [45; 95; 58] t || forallb walnum t.
(** parser.hpp:3027-3042, 3129-3147, 3235-3257 *)
Definition username_text (t : list Z) (fl : pflags) : bool :=
  single [45; 46; 95; 126; 37; 33; 36; 38; 39; 42; 43; 44; 59; 61] t || forallb walnum t.
Definition password_text (t : list Z) (fl : pflags) : bool :=
  single [45; 46; 95; 126; 37; 33; 36; 38; 39; 40; 41; 42; 43; 44; 59; 61; 58] t || forallb walnum t.
Definition path_text (t : list Z) (fl : pflags) : bool :=
  single [47; 45; 46; 95; 126; 37; 33; 36; 38; 39; 40; 41; 42; 43; 44; 59; 61; 58; 64; 63; 35] t || forallb walnum t.
Definition sgml_ipv6_scope_id_char : pcls := one_cp scope_id_text false.
Definition sgml_url_username_char : pcls := one_cp username_text false.
Definition sgml_url_password_char : pcls := one_cp password_text false.
Definition sgml_url_path_char : pcls := one_cp path_text false.
(** parser.hpp:2830-2866; vals = [allow_on_edge] *)
Definition sgml_dns_domain_char (idn : bool) : pcls := {|
  p_init := new_pst [1] [];
  p_match := fun st s e fl => let* c := peek txt s e in
    match c with
    | Some _ =>
        let* (t, y) := next_sgml_cp s e in
        if match t with [c] => ((65 <=? c) && (c <=? 90)) || ((97 <=? c) && (c <=? 122)) || ((48 <=? c) && (c <=? 57)) | _ => false end then Ret (Pst s y [1] (kids st), true)
        else if single [45] t then Ret (Pst s y [0] (kids st), true)
        else if idn && forallb walnum t then Ret (Pst s y [1] (kids st), true)
        else Ret (no_interval st, false)
    | None => Ret (no_interval st, false)
    end;
  p_inval := no_interval |}.
End SgmlCp.

(** parser.hpp:336-344: m_chr, the text of the first code point of chr *)
Definition sgml_cp_chr (w : width) (sp : Z -> bool) (chr : list Z) (count : nat) : outcome (list Z) :=
  if (count =? 0)%nat then Ret []
  else
    let* c := rd chr 0 in
    if c =? 0 then Ret [] (* next_sgml_cp copies the terminator to buf[0] (163) *)
    else let* (t, _) := next_sgml_cp w chr sp 0 count in Ret t.
