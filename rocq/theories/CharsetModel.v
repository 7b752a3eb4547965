(** Model of charset_from_name (include/stdex/unicode.hpp:74-119, 128-132; little-endian host). *)
From Verif Require Import Base StringModel.
From Coq Require Import String Ascii.
Local Open Scope Z_scope.

(** unicode.hpp:42-53 *)
Inductive charset : Type := CsSystem | CsUtf7 | CsUtf8 | CsUtf16 | CsUtf32 | CsWin1250 | CsWin1251 | CsWin1252.

(** a string literal: its characters and the terminator *)
Fixpoint chars (s : string) : list Z := match s with EmptyString => [] | String c r => Z.of_nat (nat_of_ascii c) :: chars r end.
Definition lit (s : string) : list Z := chars s ++ [0].

(** unicode.hpp:82-115 *)
Definition charset_table : list (string * charset) := [
  ("UNICODE-1-1-UTF-7", CsUtf7); ("UTF-7", CsUtf7); ("CSUNICODE11UTF7", CsUtf7);
  ("UTF-8", CsUtf8); ("UTF8", CsUtf8);
  ("UTF-16", CsUtf16); ("UTF-16LE", CsUtf16);
  ("UTF-32", CsUtf32); ("UTF-32LE", CsUtf32);
  ("CP1250", CsWin1250); ("MS-EE", CsWin1250); ("WINDOWS-1250", CsWin1250);
  ("CP1251", CsWin1251); ("MS-CYRL", CsWin1251); ("WINDOWS-1251", CsWin1251);
  ("CP1252", CsWin1252); ("MS-ANSI", CsWin1252); ("WINDOWS-1252", CsWin1252)]%string.

(** unicode.hpp:76-81: charset_less *)
Definition less (a b : list Z) : outcome bool := let* r := stricmp tolower a b in Ret (r <? 0).
(** std::map with unique keys, as its list of elements in order: insertion, and find, which is
    lower_bound followed by a comparison *)
Fixpoint map_insert (k : list Z) (v : charset) (m : list (list Z * charset)) : outcome (list (list Z * charset)) :=
  match m with
  | [] => Ret [(k, v)]
  | (k', v') :: r =>
      let* lt := less k k' in
      if lt then Ret ((k, v) :: m)
      else let* gt := less k' k in
           if gt then let* r' := map_insert k v r in Ret ((k', v') :: r') else Ret m
  end.
Fixpoint map_of (l : list (string * charset)) (m : list (list Z * charset)) : outcome (list (list Z * charset)) :=
  match l with [] => Ret m | (k, v) :: r => let* m' := map_insert (lit k) v m in map_of r m' end.
Fixpoint map_find (k : list Z) (m : list (list Z * charset)) : outcome (option charset) :=
  match m with
  | [] => Ret None
  | (k', v') :: r =>
      let* lt := less k' k in
      if lt then map_find k r
      else let* gt := less k k' in Ret (if gt then None else Some v')
  end.
(** unicode.hpp:116-118; [name] is a zero-terminated string of char *)
Definition charset_from_name (name : list Z) : outcome charset :=
  let* m := map_of charset_table [] in
  let* r := map_find name m in
  Ret (match r with Some v => v | None => CsSystem end).
