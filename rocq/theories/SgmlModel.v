(** Model of include/stdex/sgml.hpp (release build: assertions are not evaluated).
    Linux: utf32_t is the signed 32-bit wchar_t, utf16_t is char16_t; code units are Z.
    A pointer is the list of the cells from it on; [count] arguments are nat. *)
From Verif Require Import Base StringModel StringSpec SgmlTable SgmlSpec.

(** A table lookup; the default stands for an access out of range, which is reported as UB. *)
Definition entry (m : nat) : outcome (list Z * list Z) :=
  match nth_error sgml_unicode m with Some e => Ret e | None => UB end.
(** sgml_unicode.hpp:21-22: the arrays char sgml[12] and utf32_t unicode[3] of an entry *)
Definition cells (n : nat) (s : list Z) : list Z := firstn n (s ++ repeat 0 n).

(** The binary searches of sgml.hpp:31-47, 489-508, 516-535.  [cmp m] is negative when entry m is
    before the key, positive when it is after, zero when it matches.  [back i m] is the final loop
    "for (; i < m && entry m-1 matches; m--)".  The fuel (table size) never runs out. *)
Fixpoint back (same : nat -> outcome bool) (i m : nat) {struct m} : outcome nat :=
  match m with
  | O => Ret m
  | S p => if (i <? m)%nat then let* b := same p in if b then back same i p else Ret m else Ret m
  end.
Fixpoint bsearch (fuel : nat) (cmp : nat -> outcome Z) (same : nat -> outcome bool) (i j : nat) : outcome (option nat) :=
  match fuel with
  | O => UB
  | S f =>
    if (i <? j)%nat then
      let m := Nat.div (i + j) 2 in
      let* r := cmp m in
      if r <? 0 then bsearch f cmp same (m + 1) j
      else if r >? 0 then bsearch f cmp same i m
      else let* k := back same i m in Ret (Some k)
    else Ret None
  end.

(** sgml.hpp:33-42: entry m against entity/count *)
Definition name_cmp (entity : list Z) (count : nat) (m : nat) : outcome Z :=
  let* e := entry m in
  let* c := rd (cells 12 (fst e)) 0 in
  let* x := rd entity 0 in
  if c <? x then Ret (-1) else if c >? x then Ret 1
  else match count with
       | O => UB (* count - 1 is SIZE_MAX *)
       | S k => strncmp4 (skipn 1 (cells 12 (fst e))) 11 (skipn 1 entity) k
       end.
(** sgml.hpp:44 *)
Definition name_same (entity : list Z) (count : nat) (m : nat) : outcome bool :=
  let* e := entry m in
  let* r := strncmp4 (cells 12 (fst e)) 12 entity count in Ret (r =? 0).
(** sgml.hpp:27-57; the result is the zero-terminated string returned, or None for nullptr *)
Definition sgml2uni (entity : list Z) (count : nat) : outcome (option (list Z)) :=
  let* num := (if (count <? 2)%nat then Ret false else let* x := rd entity 0 in Ret (x =? 35)) in
  if negb num then
    let* r := bsearch (S (length sgml_unicode)) (name_cmp entity count) (name_same entity count) 0 (length sgml_unicode) in
    match r with
    | None => Ret None
    | Some m => let* e := entry m in Ret (Some (cz (cells 3 (snd e))))
    end
  else
    let* x := rd entity 1 in
    let* v := (if (x =? 120) || (x =? 88) then strtouint 32 (skipn 2 entity) (count - 2) 16
               else strtouint 32 (skipn 1 entity) (count - 1) 10) in
    Ret (Some (cz [i32 (fst v); 0])).

(* The character type [width] of SgmlSpec.v: utf16_t or utf32_t *)

(** sgml.hpp:59-75 utf32_to_wstr(utf16_t), 77-81 (utf32_t) *)
Fixpoint to16 (s : list Z) : list Z :=
  match s with
  | [] => []
  | c :: r => if c <? 65536 then u16 c :: to16 r
              else let '(a, b) := ucs4_to_surrogate_pair c in a :: b :: to16 r
  end.
(** the buffer has room for 5 units (sgml.hpp:224, 322) *)
Definition utf32_to_wstr (w : width) (s : list Z) : outcome (list Z) :=
  match w with
  | U32 => Ret s
  | U16 => if (length (to16 s) <=? 4)%nat then Ret (to16 s) else UB
  end.

(** sgml.hpp:84-95: the offset of ';', or None for nullptr *)
Fixpoint sgmlend (str : list Z) (count : nat) {struct count} : outcome (option nat) :=
  match count with
  | O => Ret None
  | S n => match str with
           | [] => UB
           | c :: r => if c =? 59 then Ret (Some O)
                       else if (c =? 0) || (c =? 38) || isspace c then Ret None
                       else let* k := sgmlend r n in Ret (match k with Some k => Some (S k) | None => None end)
           end
  end.

(** sgml.hpp:98-111: flags *)
Definition sgml_full : Z := 0x40000000.
Definition sgml_quot : Z := 0x00000001.
Definition sgml_apos : Z := 0x00000002.
Definition sgml_amp : Z := 0x00000004.
Definition sgml_lt_gt : Z := 0x00000008.
Definition sgml_bsol : Z := 0x00000010.
Definition sgml_dollar : Z := 0x00000020.
Definition sgml_percnt : Z := 0x00000040.
Definition sgml_commat : Z := 0x00000080.
Definition sgml_num : Z := 0x00000100.
Definition sgml_lpar_rpar : Z := 0x00000200.
Definition sgml_lcub_rcub : Z := 0x00000400.
Definition sgml_lsqb_rsqb : Z := 0x00000800.
Definition clear_in (flags f : Z) : bool := Z.land flags f =? 0.

(** sgml.hpp:127-164; recursion on the remaining count; [i] is the index reported; None is npos *)
Fixpoint sgmlerr_loop (fuel : nat) (src : list Z) (n i : nat) (what : Z) : outcome (option nat) :=
  match fuel with
  | O => UB
  | S f =>
    match n with
    | O => Ret None
    | S n' =>
      let* c := rd src 0 in
      if c =? 0 then Ret None
      else if c =? 38 then
        let* e := sgmlend (skipn 1 src) n' in
        match e with
        | None => Ret (Some i)
        | Some k => let* u := sgml2uni (skipn 1 src) k in
                    match u with
                    | None => Ret (Some i)
                    | Some _ => sgmlerr_loop f (skipn (k + 2) src) (n' - k - 1) (i + k + 2) what
                    end
        end
      else if clear_in what sgml_full && negb (is7bit c) then Ret (Some i)
      else sgmlerr_loop f (skipn 1 src) n' (i + 1) what
    end
  end.
Definition sgmlerr (src : list Z) (count : nat) (what : Z) := sgmlerr_loop (S count) src count 0 what.

(** sgml.hpp:227-238 (325-336): is the entity starting with [c] to be converted? *)
Definition converts (skip c : Z) : bool :=
  (clear_in skip sgml_quot || negb (c =? 34)) &&
  (clear_in skip sgml_apos || negb (c =? 39)) &&
  (clear_in skip sgml_amp || negb (c =? 38)) &&
  (clear_in skip sgml_lt_gt || (negb (c =? 60) && negb (c =? 62))) &&
  (clear_in skip sgml_bsol || negb (c =? 92)) &&
  (clear_in skip sgml_dollar || negb (c =? 36)) &&
  (clear_in skip sgml_percnt || negb (c =? 37)) &&
  (clear_in skip sgml_commat || negb (c =? 64)) &&
  (clear_in skip sgml_num || negb (c =? 35)) &&
  (clear_in skip sgml_lpar_rpar || (negb (c =? 40) && negb (c =? 41))) &&
  (clear_in skip sgml_lcub_rcub || (negb (c =? 123) && negb (c =? 125))) &&
  (clear_in skip sgml_lsqb_rsqb || (negb (c =? 91) && negb (c =? 93))).

(** sgml.hpp:218-239 (317-337): the entity at src + i, if it is to be converted: its text and the
    offset of ';' from src + i + 1 *)
Definition entity_at (w : width) (skip : Z) (src : list Z) (n' : nat) : outcome (option (list Z * nat)) :=
  let* e := sgmlend (skipn 1 src) n' in
  match e with
  | None => Ret None
  | Some k =>
      let* u := sgml2uni (skipn 1 src) k in
      match u with
      | None => Ret None
      | Some u => let* t := utf32_to_wstr w u in
                  if converts skip (hd 0 t) then Ret (Some (t, k)) else Ret None
      end
  end.
(** the conversion of one source unit to T_to (sgml.hpp:250, 349): char and wchar_t are signed *)
Definition cast_unit (w : width) (c : Z) : Z := match w with U16 => u16 c | U32 => i32 c end.

(** sgml.hpp:215-251: dst is a std::basic_string, [map] the pairs appended to *map when it is given;
    [n] is count_src - i *)
Fixpoint sgml2str_loop (fuel : nat) (w : width) (skip : Z) (src : list Z) (n i : nat)
    (dst : list Z) (map : list (nat * nat)) : outcome (list Z * list (nat * nat)) :=
  match fuel with
  | O => UB
  | S f =>
    match n with
    | O => Ret (dst, map)
    | S n' =>
      let* c := rd src 0 in
      let* e := (if c =? 38 then entity_at w skip src n' else Ret None) in
      match e with
      | Some (t, k) =>
          sgml2str_loop f w skip (skipn (k + 2) src) (n' - k - 1) (i + k + 2) (dst ++ t)
            (map ++ [(i, length dst); (i + k + 2, length (dst ++ t))%nat])
      | None => sgml2str_loop f w skip (skipn 1 src) n' (i + 1) (dst ++ [cast_unit w c]) map
      end
    end
  end.
(** sgml.hpp:193-252.  Simplification: the offsets added to the map entries are 0. *)
Definition sgml2strcat (w : width) (dst src : list Z) (count : nat) (skip : Z) : outcome (list Z * list (nat * nat)) :=
  let* n := strnlen src count in
  sgml2str_loop (S n) w skip src n 0 dst [].

(** memcpy(d + j, s, |s|): out of bounds is UB *)
Fixpoint wrs (d : list Z) (j : nat) (s : list Z) : outcome (list Z) :=
  match s with [] => Ret d | c :: r => let* d' := wr d j c in wrs d' (S j) r end.

(** sgml.hpp:315-355; [d] is the destination memory, [cap] is count_dst *)
Fixpoint sgml2buf_loop (fuel : nat) (w : width) (skip : Z) (cap : nat) (src : list Z) (n : nat) (d : list Z) (j : nat)
  : outcome (list Z * nat) :=
  match fuel with
  | O => UB
  | S f =>
    match n with
    | O => if (cap <=? j)%nat then Throw else let* d' := wr d j 0 in Ret (d', j)
    | S n' =>
      let* c := rd src 0 in
      let* e := (if c =? 38 then entity_at w skip src n' else Ret None) in
      match e with
      | Some (t, k) =>
          if (cap <=? j + length t)%nat then Throw
          else let* d' := wrs d j t in
               sgml2buf_loop f w skip cap (skipn (k + 2) src) (n' - k - 1) d' (j + length t)
      | None =>
          if (cap <=? j + 1)%nat then Throw
          else let* d' := wr d j (cast_unit w c) in
               sgml2buf_loop f w skip cap (skipn 1 src) n' d' (j + 1)
      end
    end
  end.
(** sgml.hpp:288-356 *)
Definition sgml2bufcat (w : width) (d : list Z) (cap : nat) (src : list Z) (count : nat) (skip : Z) : outcome (list Z * nat) :=
  let* j := strnlen d cap in
  let* n := strnlen src count in
  sgml2buf_loop (S n) w skip cap src n d j.

(** sgml.hpp:491-492, 518-519: the entry the m-th index refers to *)
Definition uentry (m : nat) : outcome (list Z * list Z) :=
  match nth_error unicode_sgml m with Some k => entry (Z.to_nat k) | None => UB end.
(** sgml.hpp:480-488 (utf16_t), 515 (utf32_t): first code point and its length in units *)
Definition first_cp (w : width) (s : list Z) (count : nat) : outcome (Z * nat) :=
  match w with
  | U32 => let* c := rd s 0 in Ret (c, 1%nat)
  | U16 => let* sp := (if (count <? 2)%nat then Ret false else is_surrogate_pair s) in
           if sp then let* a := rd s 0 in let* b := rd s 1 in Ret (surrogate_pair_to_ucs4 a b, 2%nat)
           else let* c := rd s 0 in Ret (c, 1%nat)
  end.
(** sgml.hpp:498, 525: strncmp(unicode + 1, 2, entity + offset, count - offset) *)
Definition uni_tail_cmp (w : width) (u s : list Z) (count offset : nat) : outcome Z :=
  match w with
  | U32 => strncmp4 (skipn 1 (cells 3 u)) 2 (skipn offset s) (count - offset)
  | U16 => strncmp_32_16 (skipn 1 (cells 3 u)) 2 (skipn offset s) (count - offset)
  end.
(** sgml.hpp:490-502, 517-529 *)
Definition uni_cmp (w : width) (s : list Z) (count : nat) (e2 : Z) (offset m : nat) : outcome Z :=
  let* e := uentry m in
  let* e1 := rd (cells 3 (snd e)) 0 in
  if e1 <? e2 then Ret (-1) else if e1 >? e2 then Ret 1 else uni_tail_cmp w (snd e) s count offset.
(** sgml.hpp:504, 531 *)
Definition uni_same (w : width) (s : list Z) (count : nat) (e2 : Z) (offset m : nat) : outcome bool :=
  let* e := uentry m in
  let* e1 := rd (cells 3 (snd e)) 0 in
  if e1 =? e2 then let* r := uni_tail_cmp w (snd e) s count offset in Ret (r =? 0) else Ret false.
(** sgml.hpp:475-509 (utf16_t), 511-536 (utf32_t): the entity name or None *)
Definition chr2sgml (w : width) (s : list Z) (count : nat) : outcome (option (list Z)) :=
  let* (e2, offset) := first_cp w s count in
  let* r := bsearch (S (length unicode_sgml)) (uni_cmp w s count e2 offset) (uni_same w s count e2 offset) 0 (length unicode_sgml) in
  match r with
  | None => Ret None
  | Some m => let* e := uentry m in Ret (Some (cz (cells 12 (fst e))))
  end.

(** sgml.hpp:538-547 (utf16_t), 549-554 (utf32_t): the code point and its length; [n] is end - i *)
Definition wstr_to_utf32 (w : width) (s : list Z) (n : nat) : outcome (Z * nat) :=
  match w with
  | U32 => let* c := rd s 0 in Ret (c, 1%nat)
  | U16 => let* sp := (if (n <=? 1)%nat then Ret false else is_surrogate_pair s) in
           if negb sp then let* c := rd s 0 in Ret (c, 1%nat)
           else let* a := rd s 0 in let* b := rd s 1 in Ret (surrogate_pair_to_ucs4 a b, 2%nat)
  end.

(** snprintf("%x"): lower-case hexadecimal digits of an unsigned int without leading zeros *)
Definition hexdigit (d : Z) : Z := if d <? 10 then 48 + d else 87 + d.
Fixpoint print_hex (fuel : nat) (v : Z) : list Z :=
  match fuel with
  | O => []
  | S f => if v <? 16 then [hexdigit v] else print_hex f (v / 16) ++ [hexdigit (v mod 16)]
  end.

(** What one step of the loops of sgml.hpp:591-647 and 708-783 appends *)
Inductive item : Type := IChar (c : Z) | IEnt (name : list Z) | INum (v : Z).
Definition item_text (x : item) : list Z :=
  match x with
  | IChar c => [i8 c]
  | IEnt name => 38 :: name ++ [59]
  | INum v => 38 :: 35 :: 120 :: print_hex 8 (u32 v) ++ [59]
  end.
(** sgml.hpp:592-606 (709-723), without the test n == 1: the unit is copied as it is *)
Definition plain (what c : Z) : bool :=
  clear_in what sgml_full && is7bit c && negb (c =? 38) &&
  (clear_in what sgml_quot || negb (c =? 34)) &&
  (clear_in what sgml_apos || negb (c =? 39)) &&
  (clear_in what sgml_lt_gt || (negb (c =? 60) && negb (c =? 62))) &&
  (clear_in what sgml_bsol || negb (c =? 92)) &&
  (clear_in what sgml_dollar || negb (c =? 36)) &&
  (clear_in what sgml_percnt || negb (c =? 37)) &&
  (clear_in what sgml_commat || negb (c =? 64)) &&
  (clear_in what sgml_num || negb (c =? 35)) &&
  (clear_in what sgml_lpar_rpar || (negb (c =? 40) && negb (c =? 41))) &&
  (clear_in what sgml_lcub_rcub || (negb (c =? 123) && negb (c =? 125))) &&
  (clear_in what sgml_lsqb_rsqb || (negb (c =? 91) && negb (c =? 93))).
(** sgml.hpp:629-645 (757-781): "while (i < end)"; [n] is end - i *)
Fixpoint decompose (fuel : nat) (w : width) (s : list Z) (n : nat) : outcome (list item) :=
  match fuel with
  | O => UB
  | S f =>
    match n with
    | O => Ret []
    | _ =>
      let* e := chr2sgml w s 1 in
      match e with
      | Some name => let* r := decompose f w (skipn 1 s) (n - 1) in Ret (IEnt name :: r)
      | None =>
        let* c := rd s 0 in
        if is7bit c then let* r := decompose f w (skipn 1 s) (n - 1) in Ret (IChar c :: r)
        else let* (v, k) := wstr_to_utf32 w s n in
             let* r := decompose f w (skipn k s) (n - k) in Ret (INum v :: r)
      end
    end
  end.
Definition glyphlen (w : width) (s : list Z) (n : nat) : outcome nat :=
  match w with U16 => glyphlen16 s n | U32 => glyphlen32 s n end.
(** sgml.hpp:590-647 (707-783); [n] is count_src - i *)
Fixpoint encode (fuel : nat) (w : width) (what : Z) (s : list Z) (n : nat) : outcome (list item) :=
  match fuel with
  | O => UB
  | S f =>
    match n with
    | O => Ret []
    | _ =>
      let* g := glyphlen w s n in
      let* c := rd s 0 in
      if (g =? 1)%nat && plain what c then
        let* r := encode f w what (skipn 1 s) (n - 1) in Ret (IChar c :: r)
      else
        let* e := chr2sgml w s g in
        match e with
        | Some name => let* r := encode f w what (skipn g s) (n - g) in Ret (IEnt name :: r)
        | None =>
          if (g =? 1)%nat then
            let* r := encode f w what (skipn 1 s) (n - 1) in
            Ret ((if is7bit c then IChar c else INum c) :: r)
          else
            let* d := decompose (S g) w s g in
            let* r := encode f w what (skipn g s) (n - g) in Ret (d ++ r)
        end
    end
  end.
(** sgml.hpp:566-648: str2sgmlcat to a std::string *)
Definition str2sgmlcat (w : width) (dst src : list Z) (count : nat) (what : Z) : outcome (list Z) :=
  let* n := strnlen src count in
  let* items := encode (S n) w what src n in
  Ret (dst ++ flat_map item_text items).

(** sgml.hpp:725-727, 731-737, 742-746, 748-752, 758-781: the room checks and the copying of one item.
    Simplification: the items are computed before the copying starts (source and destination do
    not overlap, so the order of reads and writes is not observable). *)
Definition put_item (cap : nat) (d : list Z) (j : nat) (x : item) : outcome (list Z * nat) :=
  let t := item_text x in
  let no_room := match x with
                 | IChar _ => (cap <=? j + 1)%nat
                 | IEnt name => (cap <=? j + length name + 2)%nat
                 | INum _ => (cap <=? length t)%nat
                 end in
  if no_room then Throw else let* d' := wrs d j t in Ret (d', (j + length t)%nat).
Fixpoint put_items (cap : nat) (d : list Z) (j : nat) (l : list item) : outcome (list Z * nat) :=
  match l with
  | [] => if (cap <=? j)%nat then Throw else let* d' := wr d j 0 in Ret (d', j)
  | x :: r => let* (d', j') := put_item cap d j x in put_items cap d' j' r
  end.
(** sgml.hpp:678-788: str2sgmlcat to a buffer *)
Definition str2sgmlbuf (w : width) (d : list Z) (cap : nat) (src : list Z) (count : nat) (what : Z) : outcome (list Z * nat) :=
  let* j := strnlen d cap in
  let* n := strnlen src count in
  let* items := encode (S n) w what src n in
  put_items cap d j items.
