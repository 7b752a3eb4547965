(** Specification vocabulary for the SGML properties C41-C43, C70-C72: what the entity table says,
    independently of how it is searched. *)
From Verif Require Import Base StringSpec SgmlTable.

(** The expansion of an entity name: the first one listed in the table. *)
Definition expansion (name : list Z) : option (list Z) :=
  option_map snd (find (fun e => if list_eq_dec Z.eq_dec (fst e) name then true else false) sgml_unicode).
(** UTF-16 encoding of a code point sequence (a surrogate stands for itself). *)
Definition utf16_of (c : Z) : list Z :=
  if c <? 65536 then [c] else [55296 + (c - 65536) / 1024; 56320 + (c - 65536) mod 1024].
Definition utf16 (s : list Z) : list Z := flat_map utf16_of s.
(** [sub] occurs in [s] *)
Definition occurs (sub s : list Z) : Prop := exists a b, s = a ++ sub ++ b.
(** An expansion that is listed under a name which decodes to something else. *)
Definition aliased (u : list Z) : Prop := exists name, In (name, u) sgml_unicode /\ expansion name <> Some u.
(** Code units of char16_t and of a signed 32-bit wchar_t, without zeros. *)
Definition units16 (s : list Z) : Prop := Forall (fun c => 0 < c < 65536) s.
Definition units32 (s : list Z) : Prop := Forall (fun c => c <> 0 /\ -2147483648 <= c < 2147483648) s.

(** What a reference (the text between '&' and ';') stands for: a numeric reference is the character
    with that number (the characters of [strtouint] for a sign are kept), anything else is looked up. *)
Definition char_number (radix : Z) (t : list Z) : Z :=
  let q := read_numeral radix t in
  let v := numeral_value (radix_of q) (digits_of q) in
  if negative q then (if v <? 2 ^ 32 then (- v - 1) mod 2 ^ 32 else 0) else Z.min v (2 ^ 32 - 1).
Definition one_char (v : Z) : list Z := if v =? 0 then [] else [v].
Definition reference (name : list Z) : option (list Z) :=
  match name with
  | h :: a :: r =>
      if h =? 35 then Some (one_char (i32 (if (a =? 120) || (a =? 88) then char_number 16 r else char_number 10 (a :: r))))
      else expansion name
  | _ => expansion name
  end.
(** The same as code units: 16-bit code units above U+10FFFF keep the low 20 bits of c - 65536. *)
Inductive width : Type := U16 | U32.
Definition unit16_of (c : Z) : list Z :=
  if c <? 65536 then [c mod 65536] else [55296 + (c - 65536) / 1024 mod 1024; 56320 + (c - 65536) mod 1024].
Definition text_of (w : width) (u : list Z) : list Z := match w with U32 => u | U16 => flat_map unit16_of u end.

(** The characters each sgml_* flag stands for (sgml.hpp:98-111) *)
Definition flag_chars : list (Z * list Z) :=
  [ (0x1, [34]); (0x2, [39]); (0x4, [38]); (0x8, [60; 62]); (0x10, [92]); (0x20, [36]); (0x40, [37]);
    (0x80, [64]); (0x100, [35]); (0x200, [40; 41]); (0x400, [123; 125]); (0x800, [91; 93]) ].
Definition flagged (flags c : Z) : Prop :=
  exists f cs, In (f, cs) flag_chars /\ Z.land flags f <> 0 /\ In c cs.

(** An SGML text as a sequence of plain characters and references *)
Inductive segment : Type := Raw (c : Z) | Ref (name text : list Z).
Definition seg_src (s : segment) : list Z := match s with Raw c => [c] | Ref name _ => 38 :: name ++ [59] end.
Definition seg_dst (cast : Z -> Z) (s : segment) : list Z := match s with Raw c => [cast c] | Ref _ t => t end.
Definition ref_char (c : Z) : Prop := c <> 0 /\ c <> 38 /\ c <> 59 /\ ~ In c [32; 9; 10; 13; 11; 12].
(** [name] is a reference that stands for [text] and is not excluded by [skip] *)
Definition is_ref (w : width) (skip : Z) (name text : list Z) : Prop :=
  Forall ref_char name /\ option_map (text_of w) (reference name) = Some text /\ ~ flagged skip (hd 0 text).
Inductive segmented (w : width) (skip : Z) : list Z -> list segment -> Prop :=
| seg_nil : segmented w skip [] []
| seg_ref : forall name text rest segs, is_ref w skip name text -> segmented w skip rest segs ->
    segmented w skip (38 :: name ++ 59 :: rest) (Ref name text :: segs)
| seg_raw : forall c rest segs,
    (forall name text rest', c :: rest = 38 :: name ++ 59 :: rest' -> ~ is_ref w skip name text) ->
    segmented w skip rest segs -> segmented w skip (c :: rest) (Raw c :: segs).
(** The source/destination index pairs at both ends of every reference, starting at (i, j) *)
Fixpoint boundaries (i j : nat) (segs : list segment) : list (nat * nat) :=
  match segs with
  | [] => []
  | Raw _ :: r => boundaries (S i) (S j) r
  | Ref name t :: r => (i, j) :: (i + length name + 2, j + length t)%nat :: boundaries (i + length name + 2) (j + length t) r
  end.
(** The index of the first plain character that is '&' or, unless [full], not 7-bit *)
Fixpoint first_bad (full : bool) (i : nat) (segs : list segment) : option nat :=
  match segs with
  | [] => None
  | Raw c :: r => if (c =? 38) || (negb full && ((c <? 0) || (127 <? c))) then Some i else first_bad full (S i) r
  | Ref name _ :: r => first_bad full (i + length name + 2) r
  end.
