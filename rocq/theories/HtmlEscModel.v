(** Model of the text escapers of include/stdex/html.hpp (lines 36-556): escape, escape_min, url_escape, url_unescape,
    css_escape, css_unescape.

    A pointer is the list of the cells from it on (a read beyond it is UB), num_chars is nat; the result is the contents of
    the destination string.  char is signed: its units are -128..127. *)
From Verif Require Import Base StringModel.

(** [for (size_t i = 0; i < num_chars && src[i]; ++i)] with the switch [f], which appends *)
Fixpoint each (f : Z -> list Z) (dst src : list Z) (n : nat) {struct n} : outcome (list Z) :=
  match n with
  | O => Ret dst
  | S k => match src with
           | [] => UB
           | c :: r => if c =? 0 then Ret dst else each f (dst ++ f c) r k
           end
  end.
(** html.hpp:50-59 (char; a char is never 0xa0 = 160) and 78-87 (wchar_t) *)
Definition escape_chr (c : Z) : list Z :=
  if c =? 38 then [38; 97; 109; 112; 59]
  else if c =? 59 then [38; 115; 101; 109; 105; 59]
  else if c =? 34 then [38; 113; 117; 111; 116; 59]
  else if c =? 39 then [38; 35; 120; 50; 55; 59]
  else if c =? 60 then [38; 108; 116; 59]
  else if c =? 62 then [38; 103; 116; 59]
  else if c =? 160 then [38; 110; 98; 115; 112; 59]
  else [c].
(** html.hpp:43-61, 71-89 *)
Definition escape (dst src : list Z) (num_chars : nat) : outcome (list Z) := each escape_chr dst src num_chars.
(** html.hpp:125-134, 143-152: escape_min of one character; 168-174, 191-197 *)
Definition escape_min_chr (c : Z) : list Z :=
  if c =? 38 then [38; 97; 109; 112; 59]
  else if c =? 60 then [38; 108; 116; 59]
  else if c =? 62 then [38; 103; 116; 59]
  else if c =? 160 then [38; 110; 98; 115; 112; 59]
  else [c].
(** html.hpp:161-199 *)
Definition escape_min (dst src : list Z) (num_chars : nat) : outcome (list Z) := each escape_min_chr dst src num_chars.

(** [n < 10 ? '0' + n : 'A' + n - 10] *)
Definition url_digit (n : Z) : Z := if n <? 10 then 48 + n else 65 + n - 10.
(** html.hpp:314-350 *)
Definition url_escape_chr (c : Z) : list Z :=
  if c =? 32 then [37; 50; 48] else if c =? 60 then [37; 51; 67] else if c =? 62 then [37; 51; 69]
  else if c =? 35 then [37; 50; 51] else if c =? 37 then [37; 50; 53] else if c =? 123 then [37; 55; 66]
  else if c =? 125 then [37; 55; 68] else if c =? 124 then [37; 55; 67] else if c =? 92 then [37; 53; 67]
  else if c =? 94 then [37; 53; 69] else if c =? 126 then [37; 55; 69] else if c =? 91 then [37; 53; 66]
  else if c =? 93 then [37; 53; 68] else if c =? 96 then [37; 54; 48] else if c =? 59 then [37; 51; 66]
  else if c =? 43 then [37; 50; 66] else if c =? 47 then [37; 50; 70] else if c =? 63 then [37; 51; 70]
  else if c =? 58 then [37; 51; 65] else if c =? 64 then [37; 52; 48] else if c =? 61 then [37; 51; 68]
  else if c =? 38 then [37; 50; 54] else if c =? 36 then [37; 50; 52]
  else if (32 <? u8 c) && (u8 c <? 127) then [c]
  else [37; url_digit (Z.shiftr (Z.land (u8 c) 240) 4); url_digit (Z.land (u8 c) 15)].
(** html.hpp:307-353 *)
Definition url_escape (dst src : list Z) (num_chars : nat) : outcome (list Z) := each url_escape_chr dst src num_chars.

(** html.hpp:252-254, 256-258: the value of a hexadecimal digit *)
Definition url_nibble (c : Z) : option Z :=
  if (48 <=? c) && (c <=? 57) then Some (c - 48)
  else if (65 <=? c) && (c <=? 70) then Some (c - 65 + 10)
  else if (97 <=? c) && (c <=? 102) then Some (c - 97 + 10)
  else None.
(** html.hpp:237-268.  The reads behind '%' are not checked against num_chars. *)
Fixpoint url_unescape_loop (fuel : nat) (dst src : list Z) (i num_chars : nat) : outcome (list Z) :=
  match fuel with
  | O => UB
  | S f =>
      if (i <? num_chars)%nat then
        let* c := rd src i in
        if c =? 0 then Ret dst
        else if c =? 43 then url_unescape_loop f (dst ++ [32]) src (i + 1) num_chars
        else if c =? 37 then
          let* a := rd src (i + 1) in
          match url_nibble a with
          | None => url_unescape_loop f (dst ++ [37]) src (i + 1) num_chars
          | Some h =>
              let* b := rd src (i + 2) in
              match url_nibble b with
              | None => url_unescape_loop f (dst ++ [37; a]) src (i + 2) num_chars
              | Some l => url_unescape_loop f (dst ++ [i8 (Z.lor (i8 (Z.shiftl h 4)) (i8 l))]) src (i + 3) num_chars
              end
          end
        else url_unescape_loop f (dst ++ [c]) src (i + 1) num_chars
      else Ret dst
  end.
Definition url_unescape (dst src : list Z) (num_chars : nat) : outcome (list Z) := url_unescape_loop (S num_chars) dst src 0 num_chars.

(** html.hpp:492-501 (char), 520-529 (wchar_t) *)
Definition css_escape_chr (c : Z) : list Z :=
  if c =? 92 then [92; 92]
  else if c =? 10 then [92; 110]
  else if c =? 13 then [92; 114]
  else if c =? 9 then [92; 116]
  else if c =? 34 then [92; 34]
  else if c =? 39 then [92; 39]
  else [c].
(** html.hpp:485-503, 513-531 *)
Definition css_escape (dst src : list Z) (num_chars : nat) : outcome (list Z) := each css_escape_chr dst src num_chars.

(** html.hpp:430-435: the hexadecimal digits from [i] up to [lim]; [k] bounds the steps (at most 6).  chr is a wchar_t *)
Fixpoint css_hex (k : nat) (src : list Z) (i lim : nat) (chr : Z) : outcome (nat * Z) :=
  match k with
  | O => Ret (i, chr)
  | S k' =>
      if (i <? lim)%nat then
        let* c := rd src i in
        match url_nibble c with
        | Some d => css_hex k' src (i + 1) lim (chr * 16 + d)
        | None => Ret (i, chr)
        end
      else Ret (i, chr)
  end.
(** html.hpp:387-449; [cast] converts a wchar_t to T.  [UB] when the fuel runs out: the loop has not ended. *)
Fixpoint css_unescape_loop (cast : Z -> Z) (fuel : nat) (dst src : list Z) (i num_chars : nat) : outcome (list Z) :=
  match fuel with
  | O => UB
  | S f =>
      if (i <? num_chars)%nat then
        let* c := rd src i in
        if c =? 0 then Ret dst
        else if negb (c =? 92) then css_unescape_loop cast f (dst ++ [c]) src (i + 1) num_chars
        else if (i + 1 <? num_chars)%nat then
          let i := (i + 1)%nat in
          let* c := rd src i in
          if c =? 110 then css_unescape_loop cast f (dst ++ [10]) src (i + 1) num_chars
          else if c =? 114 then css_unescape_loop cast f (dst ++ [13]) src (i + 1) num_chars
          else if c =? 116 then css_unescape_loop cast f (dst ++ [9]) src (i + 1) num_chars
          else if c =? 10 then css_unescape_loop cast f dst src (i + 1) num_chars
          else match url_nibble c with
               | Some _ =>
                   let lim := Nat.min num_chars (i + 6) in
                   let* (j, chr) := css_hex 6 src i lim 0 in
                   let* sp := (if (j <? lim)%nat then let* c := rd src j in Ret (c =? 32) else Ret false) in
                   css_unescape_loop cast f (dst ++ [cast chr]) src (if sp then j + 1 else j)%nat num_chars
               | None => css_unescape_loop cast f (dst ++ [c]) src (i + 1) num_chars
               end
        else css_unescape_loop cast f dst src i num_chars
      else Ret dst
  end.
Definition css_unescape (cast : Z -> Z) (dst src : list Z) (num_chars : nat) : outcome (list Z) :=
  css_unescape_loop cast (S num_chars) dst src 0 num_chars.
