(** Model of include/stdex/uuid.hpp (non-Windows code; little-endian host).  A uuid_t is 16 bytes.
    Not modelled: what is left in the uuid_t when strtouuid returns false; the alignment of the
    accesses through uint32_t* and uint16_t*. *)
From Verif Require Import Base StreamModel StringModel.

(** printf's conversion of one value: %0nX of an unsigned int *)
Definition hex_char (d : Z) : Z := if d <? 10 then 48 + d else 55 + d.
Fixpoint hex_digits (n : nat) (v : Z) : list Z :=
  match n with O => [] | S k => hex_digits k (v / 16) ++ [hex_char (v mod 16)] end.
(** at least [n] digits, more when needed (at most 8) *)
Fixpoint hex_width (k : nat) (v : Z) : nat := match k with O => O | S k' => if v =? 0 then O else S (hex_width k' (v / 16)) end.
Definition fmt_hex (n : nat) (v : Z) : list Z := hex_digits (Nat.max n (hex_width 8 v)) v.
(** the format "{%08X-%04X-%04X-%02X%02X-%02X%02X%02X%02X%02X%02X}"; each conversion takes the next
    argument (its low 32 bits, as the x86-64 calling convention gives it), further arguments are
    ignored; fewer arguments are undefined behaviour *)
Inductive piece : Type := PLit (c : Z) | PHex (width : nat).
Definition uuid_format : list piece :=
  [PLit 123; PHex 8; PLit 45; PHex 4; PLit 45; PHex 4; PLit 45; PHex 2; PHex 2; PLit 45;
   PHex 2; PHex 2; PHex 2; PHex 2; PHex 2; PHex 2; PLit 125].
Fixpoint format (f : list piece) (args : list Z) : outcome (list Z) :=
  match f with
  | [] => Ret []
  | PLit c :: r => let* t := format r args in Ret (c :: t)
  | PHex n :: r => match args with
                   | [] => UB
                   | a :: args' => let* t := format r args' in Ret (fmt_hex n (u32 a) ++ t)
                   end
  end.
(** snprintf(str, 39, ...): at most 38 characters and the terminator *)
Definition truncated (t : list Z) : list Z := firstn 38 t ++ [0].

(** uuid.hpp:47-51: the arguments *)
Definition uuid_args (id : list Z) : list Z :=
  [le_value (firstn 4 id); le_value (firstn 2 (skipn 4 id)); le_value (firstn 2 (skipn 6 id))] ++ skipn 8 id.
(** uuid.hpp:35-53 *)
Definition uuidtostr (id : list Z) : outcome (list Z) :=
  let* t := format uuid_format (uuid_args id) in Ret (truncated t).
(** uuid.hpp:61-79: NULL is passed before the arguments (line 72).  When the result does not fit,
    swprintf stores an indeterminate text; [UB] stands for that. *)
Definition uuidtostr_wide (id : list Z) : outcome (list Z) :=
  let* t := format uuid_format (0 :: uuid_args id) in
  if (length t <? 39)%nat then Ret (t ++ [0]) else UB.

(** uuid.hpp:100: skip white space; a position is (str + i, count - i) *)
Fixpoint skip_ws (s : list Z) (n : nat) {struct n} : outcome (list Z * nat) :=
  match n with
  | O => Ret (s, n)
  | S n' => match s with
            | [] => UB
            | c :: r => if negb (c =? 0) && isspace c then skip_ws r n' else Ret (s, n)
            end
  end.
(** uuid.hpp:101-102: None: return false *)
Definition expect (c : Z) (k : list Z * nat) : outcome (option (list Z * nat)) :=
  match snd k with
  | O => Ret None
  | S n => let* x := rd (fst k) 0 in Ret (if x =? c then Some (skipn 1 (fst k), n) else None)
  end.
(** uuid.hpp:103-105,111-112: space, a number of at most [max], space.  None: return false *)
Definition field (max : Z) (k : list Z * nat) : outcome (option (Z * (list Z * nat))) :=
  let* (s, n) := skip_ws (fst k) (snd k) in
  let* (v, j) := strtouint 64 s n 16 in
  if max <? v then Ret None
  else let* k' := skip_ws (skipn j s) (n - j) in Ret (Some (v, k')).
(** uuid.hpp:149: "i >= count && str[i] != '-'".  Before count anything passes.  At count the unit
    there is read; when it is '-', i becomes count + 1, count - i wraps around to 2^64 - 1, and the
    rest is read with that limit until line 168, which returns false.  The limit
    1 + length stands for 2^64 - 1: both are beyond the readable memory. *)
Definition expect_dash4 (k : list Z * nat) : outcome (option (list Z * nat)) :=
  match snd k with
  | O => let* x := rd (fst k) 0 in
         if negb (x =? 45) then Ret None
         else let* r := strtouint 64 (skipn 1 (fst k)) (1 + length (fst k)) 16 in Ret None
  | S n => match fst k with [] => UB | _ :: r => Ret (Some (r, n)) end
  end.

Definition obind2 {A B} (a : outcome (option A)) (f : A -> outcome (option B)) : outcome (option B) :=
  let* x := a in match x with None => Ret None | Some y => f y end.
Notation "'let?' x := a 'in' b" := (obind2 a (fun x => b)) (at level 61, x pattern, a at next level, right associativity).

(** the bytes stored for the five numbers: uuid.hpp:109, 122, 135, 144-145, 161-166 *)
Definition uuid_bytes (a b c d e : Z) : list Z :=
  le_bytes 4 a ++ le_bytes 2 b ++ le_bytes 2 c ++
  [Z.land (Z.shiftr d 8) 255; Z.land d 255] ++
  [Z.land (Z.shiftr e 40) 255; Z.land (Z.shiftr e 32) 255; Z.land (Z.shiftr e 24) 255;
   Z.land (Z.shiftr e 16) 255; Z.land (Z.shiftr e 8) 255; Z.land e 255].
(** uuid.hpp:90-175; None: false *)
Definition strtouuid (str : list Z) (count : nat) : outcome (option (list Z)) :=
  let* k := skip_ws str count in
  let? k := expect 123 k in
  let? (a, k) := field 4294967295 k in
  let? k := expect 45 k in
  let? (b, k) := field 65535 k in
  let? k := expect 45 k in
  let? (c, k) := field 65535 k in
  let? k := expect 45 k in
  let? (d, k) := field 65535 k in
  let? k := expect_dash4 k in
  let? (e, k) := field 281474976710655 k in
  let? k := expect 125 k in
  let* (s, n) := skip_ws (fst k) (snd k) in
  match n with
  | O => Ret (Some (uuid_bytes a b c d e))
  | S _ => let* x := rd s 0 in Ret (if x =? 0 then Some (uuid_bytes a b c d e) else None)
  end.
