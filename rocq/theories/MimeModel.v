(** Model of basic_mime_type, include/stdex/parser.hpp:7747-7870.  [sp] is ctype.is(space, .) of the locale.  None is false; the
    members of the object are then invalidated.  Sums such as interval.end + 7 do not overflow here.  [run_all] is the loop
    [for (;;) { if (i >= end || !text[i]) break; if (stop) break; i++; }] of HttpModel.v. *)
From Verif Require Import Base StringModel ParserModel HtmlTagModel HttpModel.

(** base_type, sub_type, charset (no_itv when invalid) and the end of the interval; it starts at start *)
Record mime : Type := Mime { mi_base : itv; mi_sub : itv; mi_charset : itv; mi_end : nat }.
(** parser.hpp:7813-7820: the letters in lower case, and the equals sign *)
Definition str_charset : list Z := [99; 104; 97; 114; 115; 101; 116; 61].

Section Mime.
Context (txt : list Z) (sp : Z -> bool).

(** parser.hpp:7778-7781 and 7798-7801 *)
Definition mime_stop (c : Z) : bool := (c =? 47) || (c =? 59) || sp c.
(** parser.hpp:7813-7820: text[i] is the first of [l] or its capital, and so on; the units are read one by one *)
Fixpoint key_at (l : list Z) (i : nat) : outcome bool :=
  match l with
  | [] => Ret true
  | d :: l => let* c := rd txt i in if (c =? d) || ((97 <=? d) && (c =? d - 32)) then key_at l (S i) else Ret false
  end.
(** parser.hpp:7822-7857: the charset and the end; [i] is behind the equals sign *)
Definition mime_charset (i e : nat) : outcome (itv * nat) :=
  let* r := if (i <? e)%nat then let* c := rd txt i in Ret ((c =? 34) || (c =? 39), c) else Ret (false, 0) in
  let '(quoted, quote) := r in
  if quoted then
    let* j := run_all txt (fun c => c =? quote) (S i) e in
    let* r := peek txt j e in
    match r with Some _ => Ret ((S i, j), S j) | None => Ret (no_itv, j) end
  else let* j := run_all txt sp i e in Ret ((i, j), j).
(** parser.hpp:7764-7869 *)
Definition mime_type (s e : nat) : outcome (option mime) :=
  let* b := run_all txt mime_stop s e in
  if (b <=? s)%nat then Ret None
  else
    let* slash := if (e <=? b)%nat then Ret false else let* c := rd txt b in Ret (c =? 47) in
    if slash then
      let* u := run_all txt mime_stop (S b) e in
      if (u <=? S b)%nat then Ret None
      else
        let* semi := if (u <? e)%nat then let* c := rd txt u in Ret (c =? 59) else Ret false in
        if semi then
          let* i := skip_space txt sp (S (e - S u)) (S u) e in
          let* k := if (i + 7 <? e)%nat then key_at str_charset i else Ret false in
          if k then let* (c, y) := mime_charset (i + 8) e in Ret (Some (Mime (s, b) (S b, u) c y))
          else Ret (Some (Mime (s, b) (S b, u) no_itv i))
        else Ret (Some (Mime (s, b) (S b, u) no_itv u))
    else Ret None.
End Mime.
