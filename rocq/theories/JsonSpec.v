(** Specification of JSON strings (RFC 8259, section 7): the characters between the quotation marks. *)
From Verif Require Import Base StringSpec ParserModel ParserInt.

Inductive jtok : Type :=
| JPlain (c : Z)              (* any character except quotation mark, reverse solidus and the control characters *)
| JEsc (letter : Z)           (* reverse solidus and one of the letters *)
| JUni (a b c d : Z).         (* reverse solidus, u and four hexadecimal digits *)
(** what the letters stand for *)
Definition jescapes : list (Z * Z) := [(34, 34); (92, 92); (47, 47); (98, 8); (102, 12); (110, 10); (114, 13); (116, 9)].
Definition jplain (c : Z) : bool := negb ((0 <=? c) && (c <? 32)) && negb (c =? 34) && negb (c =? 92).
Definition jtok_ok (t : jtok) : Prop :=
  match t with
  | JPlain c => jplain c = true
  | JEsc l => exists v, In (l, v) jescapes
  | JUni a b c d => is_hex a = true /\ is_hex b = true /\ is_hex c = true /\ is_hex d = true
  end.
Definition jtok_text (t : jtok) : list Z :=
  match t with JPlain c => [c] | JEsc l => [92; l] | JUni a b c d => [92; 117; a; b; c; d] end.
(** the units of the value; \uXXXX is one code unit of UTF-16, [enc] is how such a unit is stored *)
Definition jtok_value (enc : Z -> list Z) (t : jtok) : list Z :=
  match t with
  | JPlain c => [c]
  | JEsc l => match find (fun p => fst p =? l) jescapes with Some (_, v) => [v] | None => [] end
  | JUni a b c d => enc (numeral_value 16 [a; b; c; d])
  end.
(** UTF-8 of a code point of the basic plane, as bytes *)
Definition utf8_bmp (v : Z) : list Z :=
  if v <? 128 then [v] else if v <? 2048 then [192 + v / 64; 128 + v mod 64] else [224 + v / 4096; 128 + v / 64 mod 64; 128 + v mod 64].
