(** Model of the generic string routines of include/stdex/string.hpp.

    A pointer is modelled by the list of code units that may be read (or
    written) from it on; touching a cell beyond the list is [UB].  Code units
    are integers.  Both string types of a two-type template are taken to be the
    same type (so comparisons need no conversion).  [npos] is [None].
    [size_t] counters are [nat]: they never exceed a count passed by the
    caller, so they cannot wrap. *)
From Verif Require Import Base.

(* a[i] on a readable cell; string.hpp throughout *)
Definition rd (s : list Z) (i : nat) : outcome Z :=
  match nth_error s i with Some c => Ret c | None => UB end.
(* a[i] = v on a writable cell *)
Fixpoint wr (s : list Z) (i : nat) (v : Z) : outcome (list Z) :=
  match s, i with
  | [], _ => UB
  | _ :: r, O => Ret (v :: r)
  | c :: r, S k => let* r' := wr r k v in Ret (c :: r')
  end.

(* string.hpp:43-46 is_high_surrogate *)
Definition is_high_surrogate (c : Z) : bool := (55296 <=? c) && (c <? 56320).
(* string.hpp:53-56 is_low_surrogate *)
Definition is_low_surrogate (c : Z) : bool := (56320 <=? c) && (c <? 57344).
(* string.hpp:63-66 is_surrogate_pair; && short-circuits, so the second unit is read only after a high surrogate *)
Definition is_surrogate_pair (s : list Z) : outcome bool :=
  let* a := rd s 0 in
  if is_high_surrogate a then let* b := rd s 1 in Ret (is_low_surrogate b) else Ret false.
(* string.hpp:73-80 surrogate_pair_to_ucs4 (32-bit wrap omitted: the operands are surrogates by the assertion) *)
Definition surrogate_pair_to_ucs4 (a b : Z) : Z := Z.shiftl (a - 55296) 10 + (b - 56320) + 65536.
(* string.hpp:87-93 ucs4_to_surrogate_pair; the stores narrow to 16 bits *)
Definition ucs4_to_surrogate_pair (c : Z) : Z * Z :=
  let c := c - 65536 in
  (u16 (55296 + u16 (Z.land (Z.shiftr c 10) 1023)), u16 (56320 + u16 (Z.land c 1023))).
(* string.hpp:100-107 iscombining *)
Definition iscombining (c : Z) : bool :=
  ((768 <=? c) && (c <? 880)) || ((7616 <=? c) && (c <? 7680)) || ((8400 <=? c) && (c <? 8448)) || ((65056 <=? c) && (c <? 65072)).
(* string.hpp:114-118 islbreak(chr) *)
Definition islbreak (c : Z) : bool := (c =? 10) || (c =? 13).
(* string.hpp:128-137 islbreak(chr, count) *)
Definition islbreak_n (s : list Z) (count : nat) : outcome nat :=
  let* two := (if (2 <=? count)%nat
               then let* a := rd s 0 in let* b := rd s 1 in Ret (((a =? 13) && (b =? 10)) || ((a =? 10) && (b =? 13)))
               else Ret false) in
  if two then Ret 2%nat
  else let* one := (if (1 <? count)%nat then let* a := rd s 0 in Ret ((a =? 10) || (a =? 13)) else Ret false) in
       if one then Ret 1%nat else Ret 0%nat.
(* string.hpp:144-148 isspace *)
Definition isspace (c : Z) : bool :=
  (c =? 32) || (c =? 9) || (c =? 10) || (c =? 13) || (c =? 11) || (c =? 12).
(* string.hpp:155-159 ispunct *)
Definition ispunct (c : Z) : bool :=
  ((33 <=? c) && (c <=? 47)) || ((58 <=? c) && (c <=? 64)) || ((91 <=? c) && (c <=? 96)) || ((123 <=? c) && (c <=? 126)).
(* string.hpp:166-170 islower, 177-181 isupper, 188-192 isdigit, 199-203 isalpha, 210-214 is7bit *)
Definition islower (c : Z) : bool := (97 <=? c) && (c <=? 122).
Definition isupper (c : Z) : bool := (65 <=? c) && (c <=? 90).
Definition isdigit (c : Z) : bool := (48 <=? c) && (c <=? 57).
Definition isalpha (c : Z) : bool := islower c || isupper c.
Definition is7bit (c : Z) : bool := (0 <=? c) && (c <=? 127).

(* the loop "for (; i < count && iscombining(glyph[i]); ++i)" of string.hpp:227 and 244;
   [s] is glyph + i, [n] is count - i *)
Fixpoint combining_run (s : list Z) (n i : nat) {struct n} : outcome nat :=
  match n with
  | O => Ret i
  | S n' => match s with
            | [] => UB
            | c :: r => if iscombining c then combining_run r n' (S i) else Ret i
            end
  end.
(* string.hpp:222-231 glyphlen(utf16_t) *)
Definition glyphlen16 (s : list Z) (count : nat) : outcome nat :=
  match count with
  | O => Ret 0%nat
  | _ => let* sp2 := (if (count <? 2)%nat then Ret false else is_surrogate_pair s) in
         let i := if sp2 then 2%nat else 1%nat in
         combining_run (skipn i s) (count - i) i
  end.
(* string.hpp:239-248 glyphlen(utf32_t) *)
Definition glyphlen32 (s : list Z) (count : nat) : outcome nat :=
  match count with O => Ret 0%nat | _ => combining_run (skipn 1 s) (count - 1) 1 end.
(* string.hpp:256-264 glyphrlen(utf16_t); [i] is the loop counter before i-- *)
Fixpoint glyphrlen16_loop (s : list Z) (count i : nat) : outcome nat :=
  match i with
  | O => Ret count
  | S k =>
      let* c := rd s k in
      if negb (iscombining c) then
        if negb (is_low_surrogate c) || (k =? 0)%nat then Ret (count - k)%nat
        else let* p := rd s (k - 1) in
             if negb (is_high_surrogate p) then Ret (count - k)%nat else Ret (count - (k - 1))%nat
      else glyphrlen16_loop s count k
  end.
Definition glyphrlen16 (s : list Z) (count : nat) := glyphrlen16_loop s count count.
(* string.hpp:272-280 glyphrlen(utf32_t) *)
Fixpoint glyphrlen32_loop (s : list Z) (count i : nat) : outcome nat :=
  match i with
  | O => Ret count
  | S k =>
      let* c := rd s k in
      if negb (iscombining c) then Ret (count - (if (k =? 0)%nat then k else k - 1))%nat
      else glyphrlen32_loop s count k
  end.
Definition glyphrlen32 (s : list Z) (count : nat) := glyphrlen32_loop s count count.

(* string.hpp:289-293 tolower; string.hpp:302-306 toupper with T = (signed) char *)
Definition tolower (c : Z) : Z := if isupper c then Z.lor c 32 else c.
Definition toupper8 (c : Z) : Z := if islower c then i8 (Z.lor c (-33)) else c.

(* string.hpp:315-322 strlen *)
Fixpoint strlen (s : list Z) : outcome nat :=
  match s with
  | [] => UB
  | c :: r => if c =? 0 then Ret 0%nat else let* n := strlen r in Ret (S n)
  end.
(* string.hpp:332-339 strnlen *)
Fixpoint strnlen (s : list Z) (count : nat) {struct count} : outcome nat :=
  match count with
  | O => Ret 0%nat
  | S n => match s with
           | [] => UB
           | c :: r => if c =? 0 then Ret 0%nat else let* k := strnlen r n in Ret (S k)
           end
  end.

(* string.hpp:364-371 strchr; 476-486 and 497-509 strichr with [f] the folding
   function (chr is folded by the caller at 482/505); [i] is the loop counter *)
Fixpoint strchr_loop (f : Z -> Z) (s : list Z) (chr : Z) (i : nat) : outcome (option nat) :=
  match s with
  | [] => UB
  | c :: r => if c =? 0 then Ret None else if f c =? chr then Ret (Some i) else strchr_loop f r chr (S i)
  end.
Definition strchr (s : list Z) (chr : Z) := strchr_loop (fun c => c) s chr 0.
Definition strichr (f : Z -> Z) (s : list Z) (chr : Z) := strchr_loop f s (f chr) 0.
(* string.hpp:382-392 strnchr; 520-555 strnichr *)
Fixpoint strnchr_loop (f : Z -> Z) (s : list Z) (count : nat) (chr : Z) (i : nat) {struct count} : outcome (option nat) :=
  match count with
  | O => Ret None
  | S n => match s with
           | [] => UB
           | c :: r => if c =? 0 then Ret None else if f c =? chr then Ret (Some i) else strnchr_loop f r n chr (S i)
           end
  end.
Definition strnchr (s : list Z) (count : nat) (chr : Z) := strnchr_loop (fun c => c) s count chr 0.
Definition strnichr (f : Z -> Z) (s : list Z) (count : nat) (chr : Z) := strnchr_loop f s count (f chr) 0.
(* string.hpp:418-428 strrchr; strrichr: same with folding *)
Fixpoint strrchr_loop (f : Z -> Z) (s : list Z) (chr : Z) (i : nat) (z : option nat) : outcome (option nat) :=
  match s with
  | [] => UB
  | c :: r => if c =? 0 then Ret z else strrchr_loop f r chr (S i) (if f c =? chr then Some i else z)
  end.
Definition strrchr (s : list Z) (chr : Z) := strrchr_loop (fun c => c) s chr 0 None.
Definition strrichr (f : Z -> Z) (s : list Z) (chr : Z) := strrchr_loop f s (f chr) 0 None.
(* string.hpp:439-450 strrnchr; strrnichr: same with folding *)
Fixpoint strrnchr_loop (f : Z -> Z) (s : list Z) (count : nat) (chr : Z) (i : nat) (z : option nat) {struct count} : outcome (option nat) :=
  match count with
  | O => Ret z
  | S n => match s with
           | [] => UB
           | c :: r => if c =? 0 then Ret z else strrnchr_loop f r n chr (S i) (if f c =? chr then Some i else z)
           end
  end.
Definition strrnchr (s : list Z) (count : nat) (chr : Z) := strrnchr_loop (fun c => c) s count chr 0 None.
Definition strrnichr (f : Z -> Z) (s : list Z) (count : nat) (chr : Z) := strrnchr_loop f s count (f chr) 0 None.

(* string.hpp:766-776 isblank (p = isspace) and 854-862 is7bit (p = is7bit) over a counted string *)
Fixpoint all_units (p : Z -> bool) (s : list Z) (count : nat) {struct count} : outcome bool :=
  match count with
  | O => Ret true
  | S n => match s with
           | [] => UB
           | c :: r => if c =? 0 then Ret true else if negb (p c) then Ret false else all_units p r n
           end
  end.
Definition isblank_n := all_units isspace.
Definition is7bit_n := all_units is7bit.

(* string.hpp:885-898 strcmp; after the loop both units are zero, so lines 895-897 give 0 *)
Fixpoint strcmp (s1 s2 : list Z) : outcome Z :=
  match s1, s2 with
  | a :: r1, b :: r2 =>
      if negb (Z.lor a b =? 0) then
        if a >? b then Ret 1 else if a <? b then Ret (-1) else strcmp r1 r2
      else if negb (a =? 0) then Ret 1 else if negb (b =? 0) then Ret (-1) else Ret 0
  | _, _ => UB
  end.
(* string.hpp:909-922 strncmp(str1, str2, count) *)
Fixpoint strncmp3 (s1 s2 : list Z) (count : nat) {struct count} : outcome Z :=
  match count with
  | O => Ret 0
  | S n => match s1, s2 with
           | a :: r1, b :: r2 =>
               if negb (Z.lor a b =? 0) then
                 if a >? b then Ret 1 else if a <? b then Ret (-1) else strncmp3 r1 r2 n
               else if negb (a =? 0) then Ret 1 else if negb (b =? 0) then Ret (-1) else Ret 0
           | _, _ => UB
           end
  end.
(* string.hpp:934-952 strncmp(str1, count1, str2, count2) and 1243-1295 strnicmp with folding [f];
   the tail reads the raw unit *)
Fixpoint strnicmp4 (f : Z -> Z) (s1 : list Z) (n1 : nat) (s2 : list Z) (n2 : nat) {struct n1} : outcome Z :=
  match n1, n2 with
  | S k1, S k2 =>
      match s1, s2 with
      | a :: r1, b :: r2 =>
          if (f a =? 0) && (f b =? 0) then Ret 0
          else if f a >? f b then Ret 1 else if f a <? f b then Ret (-1)
          else strnicmp4 f r1 k1 r2 k2
      | _, _ => UB
      end
  | S _, O => let* a := rd s1 0 in if negb (a =? 0) then Ret 1 else Ret 0
  | O, S _ => let* b := rd s2 0 in if negb (b =? 0) then Ret (-1) else Ret 0
  | O, O => Ret 0
  end.
Definition strncmp4 := strnicmp4 (fun c => c).
(* string.hpp:1135-1148 stricmp, 1159-1174 with a locale *)
Fixpoint stricmp (f : Z -> Z) (s1 s2 : list Z) : outcome Z :=
  match s1, s2 with
  | a :: r1, b :: r2 =>
      if (f a =? 0) && (f b =? 0) then Ret 0
      else if f a >? f b then Ret 1 else if f a <? f b then Ret (-1) else stricmp f r1 r2
  | _, _ => UB
  end.
(* string.hpp:1185-1201 strnicmp(str1, str2, count), 1213-1231 with a locale *)
Fixpoint strnicmp3 (f : Z -> Z) (s1 s2 : list Z) (count : nat) {struct count} : outcome Z :=
  match count with
  | O => Ret 0
  | S n => match s1, s2 with
           | a :: r1, b :: r2 =>
               if (f a =? 0) && (f b =? 0) then Ret 0
               else if f a >? f b then Ret 1 else if f a <? f b then Ret (-1) else strnicmp3 f r1 r2 n
           | _, _ => UB
           end
  end.
(* string.hpp:980-1007 strncmp(utf32_t, count1, utf16_t, count2); the body consumes one or two
   UTF-16 units.  Recursion is on the UTF-32 count. *)
Definition tail_cmp (s1 : list Z) (n1 : nat) (s2 : list Z) (n2 : nat) : outcome Z :=
  let* x := (match n1 with O => Ret 0 | _ => rd s1 0 end) in
  if negb (x =? 0) then Ret 1
  else let* y := (match n2 with O => Ret 0 | _ => rd s2 0 end) in
       if negb (y =? 0) then Ret (-1) else Ret 0.
Fixpoint strncmp_32_16 (s1 : list Z) (n1 : nat) (s2 : list Z) (n2 : nat) {struct n1} : outcome Z :=
  match n1, n2 with
  | S k1, S _ =>
      match s1 with
      | [] => UB
      | a :: r1 =>
          if a =? 0 then tail_cmp s1 n1 s2 n2
          else
            let* sp2 := (if (n2 <=? 1)%nat then Ret false else is_surrogate_pair s2) in
            let* bj := (if sp2 then let* x := rd s2 0 in let* y := rd s2 1 in Ret (surrogate_pair_to_ucs4 x y, 2%nat)
                        else let* x := rd s2 0 in Ret (x, 1%nat)) in
            let '(b, j) := bj in
            if b =? 0 then tail_cmp s1 n1 s2 n2
            else if a >? b then Ret 1 else if a <? b then Ret (-1)
            else strncmp_32_16 r1 k1 (skipn j s2) (n2 - j)
      end
  | _, _ => tail_cmp s1 n1 s2 n2
  end.
(* string.hpp:1033-1050 strrcmp, 1061-1109 strrncmp: compare backwards from the two ends *)
Fixpoint strr_loop (s1 s2 : list Z) (i j : nat) {struct i} : outcome Z :=
  match i, j with
  | S i', S j' =>
      let* a := rd s1 i' in let* b := rd s2 j' in
      if a >? b then Ret 1 else if a <? b then Ret (-1) else strr_loop s1 s2 i' j'
  | S _, O => Ret 1
  | O, S _ => Ret (-1)
  | O, O => Ret 0
  end.
Definition strrcmp (s1 s2 : list Z) : outcome Z :=
  let* i := strlen s1 in let* j := strlen s2 in strr_loop s1 s2 i j.
Definition strrncmp4 (s1 : list Z) (n1 : nat) (s2 : list Z) (n2 : nat) : outcome Z :=
  let* i := strnlen s1 n1 in let* j := strnlen s2 n2 in strr_loop s1 s2 i j.

(* string.hpp:1401-1418 strstr, 1472-1518 stristr with folding [f]: the inner loop *)
Inductive found := Hit | Miss | Npos.
Fixpoint strstr_inner (f : Z -> Z) (s sample : list Z) {struct sample} : outcome found :=
  match sample with
  | [] => UB
  | x :: ss => if x =? 0 then Ret Hit
               else match s with
                    | [] => UB
                    | c :: r => if c =? 0 then Ret Npos else if negb (f c =? f x) then Ret Miss else strstr_inner f r ss
                    end
  end.
Fixpoint strstr_loop (f : Z -> Z) (s sample : list Z) (offset : nat) : outcome (option nat) :=
  let* h := strstr_inner f s sample in
  match h with
  | Hit => Ret (Some offset)
  | Npos => Ret None
  | Miss => match s with [] => UB | _ :: r => strstr_loop f r sample (S offset) end
  end.
Definition strstr (s sample : list Z) := strstr_loop (fun c => c) s sample 0.
Definition stristr (f : Z -> Z) (s sample : list Z) := strstr_loop f s sample 0.
(* string.hpp:1429-1446 strnstr, 1529-1582 strnistr *)
Fixpoint strnstr_inner (f : Z -> Z) (s : list Z) (n : nat) (sample : list Z) {struct sample} : outcome found :=
  match sample with
  | [] => UB
  | x :: ss => if x =? 0 then Ret Hit
               else match n with
                    | O => Ret Npos
                    | S n' => match s with
                              | [] => UB
                              | c :: r => if c =? 0 then Ret Npos else if negb (f c =? f x) then Ret Miss else strnstr_inner f r n' ss
                              end
                    end
  end.
Fixpoint strnstr_loop (f : Z -> Z) (s : list Z) (n : nat) (sample : list Z) (offset : nat) {struct s} : outcome (option nat) :=
  let* h := strnstr_inner f s n sample in
  match h with
  | Hit => Ret (Some offset)
  | Npos => Ret None
  | Miss => match s with [] => UB | _ :: r => strnstr_loop f r (n - 1) sample (S offset) end
  end.
Definition strnstr (s : list Z) (count : nat) (sample : list Z) := strnstr_loop (fun c => c) s count sample 0.
Definition strnistr (f : Z -> Z) (s : list Z) (count : nat) (sample : list Z) := strnstr_loop f s count sample 0.

(* Copying.  [cast] is static_cast<T1>; [d] is the destination buffer (its
   length is what may be written), [src] is src + i, [j] the destination index. *)
(* string.hpp:1626-1637 strcpy (j starts at 0), 1769-1780 strcat (j starts at strlen(dst)) *)
Fixpoint copy_z (cast : Z -> Z) (d src : list Z) (j : nat) {struct src} : outcome (list Z * nat) :=
  match src with
  | [] => UB
  | c :: r => let* d' := wr d j (cast c) in
              if cast c =? 0 then Ret (d', j) else copy_z cast d' r (S j)
  end.
Definition strcpy (cast : Z -> Z) (d src : list Z) := copy_z cast d src 0.
Definition strcat (cast : Z -> Z) (d src : list Z) := let* j := strlen d in copy_z cast d src j.
(* string.hpp:1671-1684 strncpy(dst, src, count) and 1791-1804 strncat(dst, src, count) *)
Fixpoint copy_n (cast : Z -> Z) (d src : list Z) (count j : nat) {struct count} : outcome (list Z * nat) :=
  match count with
  | O => Ret (d, j)
  | S n => match src with
           | [] => UB
           | c :: r => let* d' := wr d j (cast c) in
                       if cast c =? 0 then Ret (d', j) else copy_n cast d' r n (S j)
           end
  end.
Definition strncpy3 (cast : Z -> Z) (d src : list Z) (count : nat) := copy_n cast d src count 0.
Definition strncat3 (cast : Z -> Z) (d src : list Z) (count : nat) := let* j := strlen d in copy_n cast d src count j.
(* string.hpp:1696-1714 strncpy(dst, count_dst, src, count_src), 1816-1834 strncat(...);
   [n_src] is count_src - i, or None for SIZE_MAX (strdup, strndup), which no index reaches *)
Fixpoint copy_nn (cast : Z -> Z) (d : list Z) (room : nat) (src : list Z) (n_src : option nat) (j : nat) {struct room} : outcome (list Z * nat) :=
  match room with
  | O => Ret (d, j)
  | S room' =>
      match n_src with
      | Some O => let* d' := wr d j 0 in Ret (d', j)
      | _ => match src with
             | [] => UB
             | c :: r => let* d' := wr d j (cast c) in
                         if cast c =? 0 then Ret (d', j)
                         else copy_nn cast d' room' r (match n_src with Some k => Some (k - 1)%nat | None => None end) (S j)
             end
      end
  end.
Definition strncpy4 (cast : Z -> Z) (d : list Z) (count_dst : nat) (src : list Z) (count_src : nat) :=
  copy_nn cast d count_dst src (Some count_src) 0.
Definition strncat4 (cast : Z -> Z) (d : list Z) (count_dst : nat) (src : list Z) (count_src : nat) :=
  let* j := strnlen d count_dst in copy_nn cast d (count_dst - j) src (Some count_src) j.
(* string.hpp:1726-1743 strncpy(utf32_t*, count_dst, const utf16_t*, count_src) *)
Fixpoint copy_16_32 (d : list Z) (room : nat) (src : list Z) (n_src : nat) (j : nat) {struct room} : outcome (list Z * nat) :=
  match room with
  | O => Ret (d, j)
  | S room' =>
      match n_src with
      | O => let* d' := wr d j 0 in Ret (d', j)
      | S n' =>
          let* sp2 := (if (1 <? n_src)%nat then is_surrogate_pair src else Ret false) in
          if sp2
          then let* a := rd src 0 in let* b := rd src 1 in
               let* d' := wr d j (surrogate_pair_to_ucs4 a b) in
               if surrogate_pair_to_ucs4 a b =? 0 then Ret (d', j) else copy_16_32 d' room' (skipn 2 src) (n_src - 2) (S j)
          else let* c := rd src 0 in
               let* d' := wr d j c in
               if c =? 0 then Ret (d', j) else copy_16_32 d' room' (skipn 1 src) n' (S j)
      end
  end.
Definition strncpy_16_32 (d : list Z) (count_dst : nat) (src : list Z) (count_src : nat) :=
  copy_16_32 d count_dst src count_src 0.
(* string.hpp:1846-1855 strdup; [fresh] stands for the unknown contents of "new T[count]" *)
Definition strdup (fresh : nat -> list Z) (s : list Z) : outcome (list Z) :=
  let* n := strlen s in
  let* r := copy_nn (fun c => c) (fresh (n + 1)%nat) (n + 1) s None 0 in Ret (fst r).
(* string.hpp:1868-1876 strndup *)
Definition strndup (fresh : nat -> list Z) (s : list Z) (count : nat) : outcome (list Z) :=
  let* r := copy_nn (fun c => c) (fresh count) count s None 0 in Ret (fst r).

(* string.hpp:1903-1919 crlf2nl(dst, src): [j] recursion on src + j; [i] the destination index *)
Fixpoint crlf2nl_buf (d src : list Z) (i : nat) {struct src} : outcome (list Z * nat) :=
  match src with
  | [] => UB
  | c :: r =>
      if c =? 0 then let* d' := wr d i 0 in Ret (d', i)
      else if negb (c =? 13) then let* d' := wr d i c in crlf2nl_buf d' r (S i)
      else match r with
           | [] => UB
           | c2 :: r2 =>
               if negb (c2 =? 10) then let* d' := wr d i c in crlf2nl_buf d' r (S i)
               else let* d' := wr d i 10 in crlf2nl_buf d' r2 (S i)
           end
  end.
Definition crlf2nl (d src : list Z) := crlf2nl_buf d src 0.
(* string.hpp:1927-1942 crlf2nl(std::string&, src) *)
Fixpoint crlf2nl_str (dst src : list Z) {struct src} : outcome (list Z) :=
  match src with
  | [] => UB
  | c :: r =>
      if c =? 0 then Ret dst
      else if negb (c =? 13) then crlf2nl_str (dst ++ [c]) r
      else match r with
           | [] => UB
           | c2 :: r2 => if negb (c2 =? 10) then crlf2nl_str (dst ++ [c]) r else crlf2nl_str (dst ++ [10]) r2
           end
  end.
(* string.hpp:1949-1962 crlf2nl(std::string&) in place; [m] is the string with its terminator
   (operator[] may read index size()), [fuel] bounds the loop, [j] and [i] as in the code *)
Fixpoint crlf2nl_inplace (fuel : nat) (m : list Z) (n i j : nat) : outcome (list Z * nat) :=
  match fuel with
  | O => UB
  | S k =>
      if (j <? n)%nat then
        let* a := rd m j in
        let* one := (if negb (a =? 13) then Ret true else let* b := rd m (S j) in Ret (negb (b =? 10))) in
        if one then let* m' := wr m i a in crlf2nl_inplace k m' n (S i) (S j)
        else let* m' := wr m i 10 in crlf2nl_inplace k m' n (S i) (j + 2)
      else Ret (m, i)
  end.
Definition crlf2nl_self (s : list Z) : outcome (list Z) :=
  let* r := crlf2nl_inplace (S (length s)) (s ++ [0]) (length s) 0 0 in Ret (firstn (snd r) (fst r)).

(* string.hpp:1965-2055 strtoint(str, count, end, radix, flags), T_bin unsigned with maximum [maxv].
   "i >= count || !str[i]" is [at_end]; a cursor is (str + i, count - i, i). *)
Record cursor := Cur { cs : list Z; cn : nat; ci : nat }.
Definition at_end (k : cursor) : outcome bool :=
  match cn k with O => Ret true | _ => let* c := rd (cs k) 0 in Ret (c =? 0) end.
Definition adv (k : cursor) (n : nat) : cursor := Cur (skipn n (cs k)) (cn k - n) (ci k + n).
Record numres := Num { nv : Z; nend : nat; nneg : bool; novf : bool }.
(* lines 1983-1986; None = goto error *)
Fixpoint skip_spaces (s : list Z) (n i : nat) {struct n} : outcome (bool * cursor) :=
  match n with
  | O => Ret (false, Cur s n i)
  | S n' => match s with
            | [] => UB
            | c :: r => if c =? 0 then Ret (false, Cur s n i)
                        else if negb (isspace c) then Ret (true, Cur s n i)
                        else skip_spaces r n' (S i)
            end
  end.
(* lines 2028-2037: the digit, or None for goto error *)
Definition digit_of (c radix : Z) : option Z :=
  let d := if (48 <=? c) && (c <=? 57) then Some (c - 48)
           else if (65 <=? c) && (c <=? 90) then Some (c - 65 + 10)
           else if (97 <=? c) && (c <=? 122) then Some (c - 97 + 10)
           else None in
  match d with Some v => if v >=? radix then None else Some v | None => None end.
(* lines 2027-2050 *)
Fixpoint digits_loop (s : list Z) (n i : nat) (radix maxv value : Z) (neg ovf : bool) {struct n} : outcome numres :=
  match n with
  | O => UB   (* not reached: the caller has checked i < count *)
  | S n' =>
      match s with
      | [] => UB
      | c :: r =>
          match digit_of c radix with
          | None => Ret (Num value i neg ovf)
          | Some d =>
              let fits := (value <? maxv / radix) || ((value =? maxv / radix) && (d <=? maxv mod radix)) in
              let value' := if fits then value * radix + d else value in
              let ovf' := if fits then ovf else true in
              let* e := at_end (Cur r n' (S i)) in
              if e then Ret (Num value' (S i) neg ovf') else digits_loop r n' (S i) radix maxv value' neg ovf'
          end
      end
  end.
Definition strtoint_core (maxv : Z) (s : list Z) (count : nat) (radix : Z) : outcome numres :=
  let* sk := skip_spaces s count 0 in
  let '(ok, k) := sk in
  if negb ok then Ret (Num 0 (ci k) false false) else
  let* c := rd (cs k) 0 in
  let neg := (c =? 45) in
  let k := if (c =? 43) || (c =? 45) then adv k 1 else k in
  let* e := (if (c =? 43) || (c =? 45) then at_end k else Ret false) in
  if e then Ret (Num 0 (ci k) neg false) else
  let* c := rd (cs k) 0 in
  if radix =? 16 then
    let* pre := (if (c =? 48) && (1 <? cn k)%nat then let* x := rd (cs k) 1 in Ret ((x =? 120) || (x =? 88)) else Ret false) in
    let k := if pre then adv k 2 else k in
    let* e := (if pre then at_end k else Ret false) in
    if e then Ret (Num 0 (ci k) neg false) else digits_loop (cs k) (cn k) (ci k) 16 maxv 0 neg false
  else if radix =? 0 then
    if c =? 48 then
      let k := adv k 1 in
      let* e := at_end k in
      if e then Ret (Num 0 (ci k) neg false) else
      let* x := rd (cs k) 0 in
      if (x =? 120) || (x =? 88) then
        let k := adv k 1 in
        let* e := at_end k in
        if e then Ret (Num 0 (ci k) neg false) else digits_loop (cs k) (cn k) (ci k) 16 maxv 0 neg false
      else digits_loop (cs k) (cn k) (ci k) 8 maxv 0 neg false
    else digits_loop (cs k) (cn k) (ci k) 10 maxv 0 neg false
  else digits_loop (cs k) (cn k) (ci k) radix maxv 0 neg false.
(* string.hpp:2068-2121 strtoint<T, intN_t>; [b] is the bit length 8, 16, 32 or 64, [wrap] the conversion to intN_t *)
Definition sint (b : Z) (x : Z) : Z := (x + 2 ^ (b - 1)) mod 2 ^ b - 2 ^ (b - 1).
Definition strtoint (b : Z) (s : list Z) (count : nat) (radix : Z) : outcome (Z * nat) :=
  let* r := strtoint_core (2 ^ b - 1) s count radix in
  let value := sint b (nv r) in
  let ovf := novf r || (nneg r && negb (Z.land value (2 ^ (b - 1)) =? 0)) in
  Ret ((if ovf then if nneg r then sint b (2 ^ (b - 1)) else 2 ^ (b - 1) - 1
        else if nneg r then sint b (- value) else value), nend r).
(* string.hpp:2151-2172 strtouint<T, uintN_t> *)
Definition strtouint (b : Z) (s : list Z) (count : nat) (radix : Z) : outcome (Z * nat) :=
  let* r := strtoint_core (2 ^ b - 1) s count radix in
  Ret ((if novf r then if nneg r then 0 else 2 ^ b - 1
        else if nneg r then Z.lnot (nv r) mod 2 ^ b else nv r), nend r).

(* string.hpp:2921-2927 strlwr (f = tolower), 3028-3034 strupr: in place *)
Fixpoint map_units (f : Z -> Z) (s : list Z) (count : nat) {struct count} : outcome (list Z) :=
  match count with
  | O => Ret s
  | S n => match s with
           | [] => UB
           | c :: r => if c =? 0 then Ret s else let* r' := map_units f r n in Ret (f c :: r')
           end
  end.
Definition strlwr := map_units tolower.

(* string.hpp:1671-1684 strncpy as called at 3125 with dst = str and src = str + off, in one memory *)
Fixpoint move_n (m : list Z) (off : nat) (count i : nat) {struct count} : outcome (list Z * nat) :=
  match count with
  | O => Ret (m, i)
  | S n => let* c := rd m (off + i) in
           let* m' := wr m i c in
           if c =? 0 then Ret (m', i) else move_n m' off n (S i)
  end.
(* string.hpp:3109-3130 ltrim(str, count), count <> SIZE_MAX; [sp] is isspace, or the locale's (3141-3164).
   [n] is count - i *)
Fixpoint ltrim_loop (sp : Z -> bool) (m : list Z) (count n i : nat) {struct n} : outcome (list Z * nat) :=
  match n with
  | O => match count with
         | O => Ret (m, 0%nat)
         | _ => let* m' := wr m 0 0 in Ret (m', 0%nat)
         end
  | S n' =>
      let* c := rd m i in
      if c =? 0 then let* m' := wr m 0 0 in Ret (m', 0%nat)
      else if negb (sp c) then
        match i with
        | O => let* k := strnlen m count in Ret (m, k)
        | _ => let* mn := move_n m i (count - i) 0 in
               let '(m1, k) := mn in
               let* m2 := wr m1 k 0 in Ret (m2, k)
        end
      else ltrim_loop sp m count n' (S i)
  end.
Definition ltrim (sp : Z -> bool) (m : list Z) (count : nat) := ltrim_loop sp m count count 0.
(* string.hpp:3208-3222 rtrim(str, count), 3233-3249 with a locale *)
Fixpoint rtrim_loop (sp : Z -> bool) (m : list Z) (count n i j : nat) {struct n} : outcome (list Z * nat) :=
  let finish := (if (j <? count)%nat then let* m' := wr m j 0 in Ret (m', j) else Ret (m, j)) in
  match n with
  | O => finish
  | S n' =>
      let* c := rd m i in
      if c =? 0 then finish
      else rtrim_loop sp m count n' (S i) (if negb (sp c) then S i else j)
  end.
Definition rtrim (sp : Z -> bool) (m : list Z) (count : nat) := rtrim_loop sp m count count 0 0.
(* string.hpp:3293-3298 trim(str, count), 3309-3315 with a locale *)
Definition trim (sp : Z -> bool) (m : list Z) (count : nat) : outcome (list Z * nat) :=
  let* r := rtrim sp m count in let '(m', k) := r in ltrim sp m' k.
(* string.hpp:3171-3180 ltrim(std::string&), 3256-3265 rtrim, 3322-3339 trim *)
Fixpoint ltrim_str (sp : Z -> bool) (s : list Z) : list Z :=
  match s with [] => [] | c :: r => if sp c then ltrim_str sp r else s end.
Definition rtrim_str (sp : Z -> bool) (s : list Z) : list Z := rev (ltrim_str sp (rev s)).
Definition trim_str (sp : Z -> bool) (s : list Z) : list Z := rtrim_str sp (ltrim_str sp s).
