(** Model of the HTML parsers of include/stdex/parser.hpp (7880-8362): html_ident, html_value, html_tag,
    html_declaration_condition_start and html_declaration_condition_end.

    Every member of these objects is assigned by a successful match and invalidated by a failing one, and none is read before,
    so the model gives the members as the result of the match: None is false.  [peek i e] is [i < e && text[i]]: the unit
    there (ParserModel); a comparison text[i] == 'x' guarded by i < e is a comparison of peek's result, as 'x' is not the
    terminator.  [sp] is ctype.is(space, c).  [UB] for exhausted fuel: the loop has not ended. *)
From Verif Require Import Base StringModel ParserModel.

Inductive seq_t : Type := SText | SElement | SStart | SEnd | SDecl | SComment | SInstr | SPcdata | SCdata.
Definition is_start (t : seq_t) : bool := match t with SStart => true | _ => false end.
Definition is_decl (t : seq_t) : bool := match t with SDecl => true | _ => false end.
(** interval<size_t>; the invalid one *)
Definition itv : Type := (nat * nat)%type.
Definition no_itv : itv := (1, 0)%nat.
(** parser.hpp:8024-8027 *)
Record attr : Type := Attr { a_name : itv; a_value : itv }.
(** parser.hpp:8055-8057 and the end of the interval *)
Record tag : Type := Tag { g_type : seq_t; g_name : itv; g_attrs : list attr; g_end : nat }.

Section Tags.
Context (txt : list Z) (sp : Z -> bool).

Definition is_at (i e : nat) (c : Z) : outcome bool :=
  let* r := peek txt i e in Ret (match r with Some x => x =? c | None => false end).
(** a && b *)
Definition and_then (a : outcome bool) (b : outcome bool) : outcome bool := let* x := a in if x then b else Ret false.

(** [for (; i < end && text[i] && ctype.is(space, text[i]); i++);] *)
Fixpoint skip_space (fuel i e : nat) : outcome nat :=
  match fuel with
  | O => UB
  | S f => let* r := peek txt i e in match r with Some c => if sp c then skip_space f (S i) e else Ret i | None => Ret i end
  end.
(** parser.hpp:7894-7914: the end of the identifier *)
Fixpoint ident_loop (fuel i e : nat) : outcome nat :=
  match fuel with
  | O => UB
  | S f =>
      let* r := peek txt i e in
      match r with
      | None => Ret i
      | Some c =>
          let* slash := and_then (Ret (c =? 47)) (is_at (S i) e 62) in
          if (c =? 62) || (c =? 61) || slash || sp c then Ret i else ident_loop f (S i) e
      end
  end.
(** parser.hpp:7884-7915: the end; at the end of the text there must be something *)
Definition html_ident (s e : nat) : outcome (option nat) :=
  let* i := ident_loop (S (e - s)) s e in
  let* r := peek txt i e in
  match r with None => Ret (if (s <? i)%nat then Some i else None) | Some _ => Ret (Some i) end.
(** parser.hpp:7955-7971: the position of the quotation mark that ends the value *)
Fixpoint quote_loop (fuel i e : nat) (quote : Z) : outcome (option nat) :=
  match fuel with
  | O => UB
  | S f =>
      let* r := peek txt i e in
      match r with None => Ret None | Some c => if c =? quote then Ret (Some i) else quote_loop f (S i) e quote end
  end.
(** parser.hpp:7976-7992 *)
Fixpoint unquoted_loop (fuel i e : nat) : outcome nat :=
  match fuel with
  | O => UB
  | S f =>
      let* r := peek txt i e in
      match r with
      | None => Ret i
      | Some c =>
          let* slash := and_then (Ret (c =? 47)) (is_at (S i) e 62) in
          if (c =? 62) || slash || sp c then Ret i else unquoted_loop f (S i) e
      end
  end.
(** parser.hpp:7940-7993: the content and the end *)
Definition html_value (s e : nat) : outcome (option (itv * nat)) :=
  let* r := peek txt s e in
  match r with
  | Some c =>
      if (c =? 34) || (c =? 39) then
        let* q := quote_loop (S (e - s)) (S s) e c in
        match q with Some i => Ret (Some ((S s, i), S i)) | None => Ret None end
      else let* i := unquoted_loop (S (e - s)) s e in Ret (Some ((s, i), i))
  | None => let* i := unquoted_loop (S (e - s)) s e in Ret (Some ((s, i), i))
  end.

(** parser.hpp:8090-8108: the position of --> *)
Fixpoint comment_loop (fuel i e : nat) : outcome (option nat) :=
  match fuel with
  | O => UB
  | S f =>
      let* r := peek txt i e in
      match r with
      | None => Ret None
      | Some _ =>
          let* b := and_then (is_at i e 45) (and_then (is_at (S i) e 45) (is_at (S (S i)) e 62)) in
          if b then Ret (Some i) else comment_loop f (S i) e
      end
  end.
(** parser.hpp:8116-8141: the end of the content and the end of the tag *)
Fixpoint instr_loop (fuel i e : nat) : outcome (option (nat * nat)) :=
  match fuel with
  | O => UB
  | S f =>
      let* r := peek txt i e in
      match r with
      | None => Ret None
      | Some c =>
          if c =? 62 then Ret (Some (i, S i))
          else
            let* b := and_then (Ret (c =? 63)) (is_at (S i) e 62) in
            if b then Ret (Some (i, (i + 2)%nat)) else instr_loop f (S i) e
      end
  end.
(** parser.hpp:8192-8204: behind the -- that ends a comment of a declaration *)
Fixpoint decl_comment_loop (fuel i e : nat) : outcome (option nat) :=
  match fuel with
  | O => UB
  | S f =>
      let* r := peek txt i e in
      match r with
      | None => Ret None
      | Some _ =>
          let* b := and_then (is_at i e 45) (is_at (S i) e 45) in
          if b then Ret (Some (i + 2)%nat) else decl_comment_loop f (S i) e
      end
  end.
(** parser.hpp:8219-8249: one attribute from [i] on and where the next one starts; None: no identifier here *)
Definition one_attr (i e : nat) : outcome (option (attr * nat)) :=
  let* r := html_ident i e in
  match r with
  | None => Ret None
  | Some j =>
      let* k := skip_space (S (e - j)) j e in
      let* eq := is_at k e 61 in
      if eq then
        let* k := skip_space (S (e - k)) (S k) e in
        let* v := html_value k e in
        match v with
        | Some (c, k) => let* k := skip_space (S (e - k)) k e in Ret (Some (Attr (i, j) c, k))
        | None => Ret (Some (Attr (i, j) no_itv, k))
        end
      else Ret (Some (Attr (i, j) no_itv, k))
  end.
(** parser.hpp:8160-8249: the type, the attributes and the end of the tag *)
Fixpoint attr_loop (fuel : nat) (ty : seq_t) (i e : nat) (attrs : list attr) : outcome (option (seq_t * list attr * nat)) :=
  match fuel with
  | O => UB
  | S f =>
      let* b := if is_start ty then and_then (is_at i e 47) (is_at (S i) e 62) else Ret false in
      if b then Ret (Some (SElement, attrs, (i + 2)%nat)) else
      let* b := is_at i e 62 in
      if b then Ret (Some (ty, attrs, S i)) else
      let* b := if is_decl ty then and_then (is_at i e 33) (is_at (S i) e 62) else Ret false in
      if b then Ret (Some (ty, attrs, (i + 2)%nat)) else
      let* b := if is_decl ty then and_then (is_at i e 45) (is_at (S i) e 45) else Ret false in
      if b then
        let* r := decl_comment_loop (S (e - i)) (i + 2) e in
        match r with
        | None => Ret None
        | Some j => let* j := skip_space (S (e - j)) j e in attr_loop f ty j e attrs
        end
      else
        let* r := peek txt i e in
        match r with
        | None => Ret None
        | Some _ =>
            let* a := one_attr i e in
            match a with
            | Some (a, j) => attr_loop f ty j e (attrs ++ [a])
            | None => attr_loop f ty (S i) e attrs
            end
        end
  end.
(** parser.hpp:8062-8156, 8251-8257; the type and the name are known and the rest follows from [i] on *)
Definition tag_rest (fuel : nat) (ty : seq_t) (name : itv) (i e : nat) : outcome (option tag) :=
  let* i := skip_space (S (e - i)) i e in
  let* r := attr_loop fuel ty i e [] in
  match r with Some (ty, attrs, k) => Ret (Some (Tag ty name attrs k)) | None => Ret None end.
Definition html_tag (fuel s e : nat) : outcome (option tag) :=
  let* b := is_at s e 60 in
  if negb b then Ret None else
  let i := S s in
  let* r := peek txt i e in
  match r with
  | None => Ret None
  | Some c =>
      let* d := if c =? 47 then html_ident (S i) e else Ret None in
      match d with
      | Some j => tag_rest fuel SEnd (S i, j) j e
      | None =>
          if c =? 33 then
            let* b := and_then (is_at (S i) e 45) (is_at (i + 2) e 45) in
            if b then
              let* r := comment_loop (S (e - i)) (i + 3) e in
              match r with Some j => Ret (Some (Tag SComment (i + 3, j)%nat [] (j + 3))) | None => Ret None end
            else tag_rest fuel SDecl (S i, S i) (S i) e
          else if c =? 63 then
            let* r := instr_loop (S (e - i)) (S i) e in
            match r with Some (j, k) => Ret (Some (Tag SInstr (S i, j) [] k)) | None => Ret None end
          else
            let* d := html_ident i e in
            match d with
            | Some j => tag_rest fuel SStart (i, j) j e
            | None => Ret None
            end
      end
  end.

(** parser.hpp:8301-8313: [cend] is condition.end; the condition's end and the end of the interval *)
Fixpoint condition_loop (fuel i e cend : nat) : outcome (option (nat * nat)) :=
  match fuel with
  | O => UB
  | S f =>
      let* r := peek txt i e in
      match r with
      | None => Ret None
      | Some c =>
          if c =? 91 then Ret (Some (cend, S i))
          else if sp c then condition_loop f (S i) e cend else condition_loop f (S i) e (S i)
      end
  end.
(** parser.hpp:8280-8319: the condition and the end *)
Definition condition_start (s e : nat) : outcome (option (itv * nat)) :=
  let* b := and_then (is_at s e 60) (and_then (is_at (S s) e 33) (is_at (S (S s)) e 91)) in
  if b then
    let* i := skip_space (S (e - s)) (s + 3) e in
    let* r := condition_loop (S (e - s)) i e i in
    match r with Some (c, k) => Ret (Some ((i, c), k)) | None => Ret None end
  else Ret None.
(** parser.hpp:8338-8357: the end *)
Definition condition_end (s e : nat) : outcome (option nat) :=
  let* b := and_then (is_at s e 93) (and_then (is_at (S s) e 93) (is_at (S (S s)) e 62)) in
  Ret (if b then Some (s + 3)%nat else None).
End Tags.
