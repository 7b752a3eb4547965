(** Model of the CSS parsers of include/stdex/parser.hpp (7348-7742): css_comment, css_cdo, css_cdc, css_string, css_uri and
    css_import.

    As in HtmlTagModel.v a match gives the members content and interval.end; None is false (both are invalidated).  A
    comparison text[i] == 'x' guarded by i < e is a comparison with the unit [peek] sees.  Where the C++ code checks
    start + k < end once and then compares text[start], ..., text[start + k] one after the other, [is_at] checks each: the
    units compared with are not terminators, so that nothing is read beyond a terminator, and the results agree.
    [UB] for exhausted fuel: the loop has not ended. *)
From Verif Require Import Base StringModel ParserModel HtmlTagModel.

Section Css.
Context (txt : list Z) (sp : Z -> bool).

(** text[i] == a || text[i] == b *)
Definition is_either (i e : nat) (a b : Z) : outcome bool :=
  let* r := peek txt i e in Ret (match r with Some x => (x =? a) || (x =? b) | None => false end).

(** parser.hpp:7383-7398: the position of the end mark *)
Fixpoint css_comment_loop (fuel i e : nat) : outcome (option nat) :=
  match fuel with
  | O => UB
  | S f =>
      let* r := peek txt i e in
      match r with
      | None => Ret None
      | Some _ =>
          let* b := and_then (is_at txt i e 42) (is_at txt (S i) e 47) in
          if b then Ret (Some i) else css_comment_loop f (S i) e
      end
  end.
(** parser.hpp:7366-7404 *)
Definition css_comment (s e : nat) : outcome (option (itv * nat)) :=
  let* b := and_then (is_at txt s e 47) (is_at txt (S s) e 42) in
  if b then
    let* r := css_comment_loop (S (e - s)) (s + 2) e in
    match r with Some i => Ret (Some ((s + 2, i), i + 2)%nat) | None => Ret None end
  else Ret None.
(** parser.hpp:7415-7436 *)
Definition css_cdo (s e : nat) : outcome (option nat) :=
  let* b := and_then (is_at txt s e 60) (and_then (is_at txt (S s) e 33) (and_then (is_at txt (S (S s)) e 45) (is_at txt (S (S (S s))) e 45))) in
  Ret (if b then Some (s + 4)%nat else None).
(** parser.hpp:7453-7473 *)
Definition css_cdc (s e : nat) : outcome (option nat) :=
  let* b := and_then (is_at txt s e 45) (and_then (is_at txt (S s) e 45) (is_at txt (S (S s)) e 62)) in
  Ret (if b then Some (s + 3)%nat else None).
(** parser.hpp:7516-7536 (7594-7612, 7705-7724): the position of the quotation mark that ends the string *)
Fixpoint css_quote_loop (fuel i e : nat) (quote : Z) : outcome (option nat) :=
  match fuel with
  | O => UB
  | S f =>
      let* r := peek txt i e in
      match r with
      | None => Ret None
      | Some c =>
          if c =? quote then Ret (Some i)
          else
            let* b := and_then (Ret (c =? 92)) (is_either (S i) e 34 39) in
            if b then css_quote_loop f (i + 2) e quote else css_quote_loop f (S i) e quote
      end
  end.
(** parser.hpp:7501-7541 *)
Definition css_string (s e : nat) : outcome (option (itv * nat)) :=
  let* r := peek txt s e in
  match r with
  | Some c =>
      if (c =? 34) || (c =? 39) then
        let* q := css_quote_loop (S (e - s)) (S s) e c in
        match q with Some i => Ret (Some ((S s, i), S i)) | None => Ret None end
      else Ret None
  | None => Ret None
  end.
(** parser.hpp:7629-7642: [ce] is content.end so far; the result is content.end and the position of the parenthesis *)
Fixpoint css_raw_loop (fuel i e ce : nat) : outcome (option (nat * nat)) :=
  match fuel with
  | O => UB
  | S f =>
      let* r := peek txt i e in
      match r with
      | None => Ret None
      | Some c =>
          if c =? 41 then Ret (Some (ce, i))
          else if sp c then css_raw_loop f (S i) e ce else css_raw_loop f (S i) e (S i)
      end
  end.
(** parser.hpp:7568-7650 *)
Definition css_uri (s e : nat) : outcome (option (itv * nat)) :=
  let* b := and_then (is_either s e 117 85) (and_then (is_either (s + 1) e 114 82) (and_then (is_either (s + 2) e 108 76) (is_at txt (s + 3) e 40))) in
  if b then
    let* i := skip_space txt sp (S (e - s)) (s + 4) e in
    let* r := peek txt i e in
    let quoted := match r with Some c => if (c =? 34) || (c =? 39) then Some c else None | None => None end in
    match quoted with
    | Some c =>
        let* q := css_quote_loop (S (e - i)) (S i) e c in
        match q with
        | Some j =>
            let* k := skip_space txt sp (S (e - j)) (S j) e in
            let* p := is_at txt k e 41 in
            Ret (if p then Some ((S i, j), S k) else None)
        | None => Ret None
        end
    | None =>
        let* q := css_raw_loop (S (e - i)) i e i in
        match q with Some (ce, j) => Ret (Some ((i, ce), S j)) | None => Ret None end
    end
  else Ret None.
(** parser.hpp:7678-7733 *)
Definition css_import (s e : nat) : outcome (option (itv * nat)) :=
  let* b := and_then (is_at txt s e 64) (and_then (is_either (s + 1) e 105 73) (and_then (is_either (s + 2) e 109 77) (and_then (is_either (s + 3) e 112 80)
    (and_then (is_either (s + 4) e 111 79) (and_then (is_either (s + 5) e 114 82) (is_either (s + 6) e 116 84)))))) in
  if b then
    let* i := skip_space txt sp (S (e - s)) (s + 7) e in
    let* r := peek txt i e in
    match r with
    | Some c =>
        if (c =? 34) || (c =? 39) then
          let* q := css_quote_loop (S (e - i)) (S i) e c in
          match q with Some j => Ret (Some ((S i, j), S j)) | None => Ret None end
        else Ret None
    | None => Ret None
    end
  else Ret None.
End Css.
