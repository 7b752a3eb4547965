(** Specification vocabulary for the SGML code-point tests: what one code point of an SGML text is. *)
From Verif Require Import Base SgmlSpec ParserModel ParserSpec.

(** The text of a reference in wide units: 16-bit units are the UTF-16 encoding *)
Definition wide (w : width) (u : list Z) : list Z := match w with U32 => u | U16 => flat_map unit16_of (map u32 u) end.
(** a plain char as a wide unit *)
Definition widened (w : width) (c : Z) : Z := match w with U32 => c | U16 => c mod 65536 end.
(** [name] names the text [t] *)
Definition known (w : width) (name t : list Z) : Prop := Forall ref_char name /\ option_map (wide w) (reference name) = Some t.
(** A text starts with the source of one code point: a known reference, taken whole, or one plain char. *)
Inductive code_point (w : width) : list Z -> list Z -> list Z -> Prop := (* source, its text, what follows *)
| cp_ref : forall name t rest, known w name t -> code_point w (38 :: name ++ [59]) t rest
| cp_raw : forall c rest, (forall name t rest', c :: rest = 38 :: name ++ 59 :: rest' -> ~ known w name t) -> code_point w [c] [widened w c] rest.

(** char values *)
Definition chars (l : list Z) : Prop := Forall (fun c => -128 <= c < 128) l.
(** There is no numeric character reference in the text. *)
Definition no_numeric (l : list Z) : Prop := forall a x name b, l = a ++ 38 :: 35 :: x :: name ++ 59 :: b -> ~ Forall ref_char (x :: name).
(** The texts for which the test has a defined outcome: where wchar_t has 32 bits there may be no numeric reference. *)
Definition fit (w : width) (txt : list Z) : Prop := chars txt /\ (w = U32 -> no_numeric txt).

(** [l] starts with code points, [n] chars, which spell [str] up to folding; no more of them than needed *)
Inductive spells (w : width) (f : Z -> Z) : list Z -> list Z -> nat -> Prop := (* str, l, n *)
| spells_nil : forall l, spells w f [] l 0
| spells_cons : forall h str src t rest n, h ++ str <> [] -> code_point w src t rest -> map f t = map f h -> spells w f str rest n ->
    spells w f (h ++ str) (src ++ rest) (length src + n).
