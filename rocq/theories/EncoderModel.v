(** Model of charset_encoder (include/stdex/unicode.hpp:137-439) as compiled for POSIX: strcat (173-314), the other overloads of
    strcat, strcpy and convert (324-425), clear (427-433).

    iconv is a parameter: a codec that reads one character after the other.  Simplifications: errno is set exactly when iconv
    fails (the code does not look at what iconv returns); allocation does not fail; stdex::mul does not overflow. *)
From Verif Require Import Base StringModel.

(** What a codec does at the start of the bytes left, of which there is at least one: it takes [k] bytes and writes [o]; the input
    is not valid; or it ends inside of a character *)
Inductive verdict (Q : Type) : Type := VChar (k : nat) (o : list Z) (q : Q) | VIllegal | VIncomplete.
Arguments VChar {Q}. Arguments VIllegal {Q}. Arguments VIncomplete {Q}.
Inductive errno : Type := E2BIG | EILSEQ | EINVAL.

(** an object of n bytes in memory, little endian *)
Fixpoint repr (n : nat) (x : Z) : list Z := match n with O => [] | S n => x mod 256 :: repr n (x / 256) end.

Section Encoder.
Context {Q : Type} (step : Q -> list Z -> verdict Q).
(** iconv(3): the bytes left, the bytes written, the conversion state, errno ([None] is 0); [cap] is output_size *)
Fixpoint iconv (fuel : nat) (q : Q) (src : list Z) (cap : nat) : outcome (Q * list Z * list Z * option errno) :=
  match fuel with
  | O => UB
  | S n =>
      match src with
      | [] => Ret (q, [], [], None)
      | _ =>
          match step q src with
          | VChar k o q' =>
              if (length o <=? cap)%nat
              then let* (q2, src2, o2, e) := iconv n q' (skipn k src) (cap - length o) in Ret (q2, src2, o ++ o2, e)
              else Ret (q, src, [], Some E2BIG)
          | VIllegal => Ret (q, src, [], Some EILSEQ)
          | VIncomplete => Ret (q, src, [], Some EINVAL)
          end
      end
  end.
(** sizeof(T_from), sizeof(T_to), sizeof(buf) = 1024 / sizeof(T_to) * sizeof(T_to) *)
Context (sf st : nat).
Definition sizeof_buf : nat := (1024 / st * st)%nat.
(** unicode.hpp:305-314; a string of T_to is the list of its bytes; the bytes written must be whole units, else the pointer at
    308 is between two.  The result: the state of the handle, dst, and errno if it throws. *)
Fixpoint convert_loop (fuel : nat) (q : Q) (src dst : list Z) : outcome (Q * list Z * option errno) :=
  match fuel with
  | O => UB
  | S n =>
      let* (q, src, out, e) := iconv (S (length src)) q src sizeof_buf in
      if negb (length out mod st =? 0)%nat then UB
      else
        let dst := dst ++ out in
        match e with
        | None => Ret (q, dst, None)
        | Some E2BIG => convert_loop n q src dst
        | Some x => Ret (q, dst, Some x)
        end
  end.
(** unicode.hpp:173-314; SIZE_MAX is a count_src behind the terminator *)
Definition enc_strcat (fuel : nat) (q : Q) (dst src : list Z) (count_src : nat) : outcome (Q * list Z * option errno) :=
  let* count_src := strnlen src count_src in
  if (count_src =? 0)%nat then Ret (q, dst, None)
  else convert_loop fuel q (concat (map (repr sf) (firstn count_src src))) dst.
(** unicode.hpp:354-362 *)
Definition enc_strcpy (fuel : nat) (q : Q) (dst src : list Z) (count_src : nat) := enc_strcat fuel q [] src count_src.
(** unicode.hpp:396-401 *)
Definition enc_convert (fuel : nat) (q : Q) (src : list Z) (count_src : nat) := enc_strcat fuel q [] src count_src.
End Encoder.

(** Part of the codec from UTF-32LE to UTF-7 of glibc (iconvdata/utf-7.c): characters up to U+FFFF; all but letters, digits, space
    and '-' are in Base64.  The state: inside of Base64, the number of bits that wait, these bits. *)
Record u7 : Type := U7 { u_in : bool; u_n : Z; u_bits : Z }.
Definition u7_start : u7 := U7 false 0 0.
Definition b64c (v : Z) : Z := if v <? 26 then 65 + v else if v <? 52 then 71 + v else if v <? 62 then v - 4 else if v =? 62 then 43 else 47.
Definition direct (c : Z) : bool := ((65 <=? c) && (c <=? 90)) || ((97 <=? c) && (c <=? 122)) || ((48 <=? c) && (c <=? 57)) || (c =? 32) || (c =? 45).
(** the sextets that [n] bits fill, and the bits left *)
Fixpoint sextets (fuel : nat) (n bits : Z) : list Z * Z * Z :=
  match fuel with
  | O => ([], n, bits)
  | S f => if n <? 6 then ([], n, bits) else let '(l, n', b') := sextets f (n - 6) (bits mod 2 ^ (n - 6)) in (b64c (bits / 2 ^ (n - 6)) :: l, n', b')
  end.
(** the bits that wait, filled up with zeros *)
Definition pending (q : u7) : list Z := if u_n q =? 0 then [] else [b64c (u_bits q * 2 ^ (6 - u_n q))].
(** what iconv writes when it is called without input, to end the text *)
Definition u7_finish (q : u7) : list Z := if u_in q then pending q ++ [45] else [].
Definition u7_step (q : u7) (src : list Z) : verdict u7 :=
  match src with
  | a :: b :: c :: d :: _ =>
      let ch := a + 256 * b + 65536 * c + 16777216 * d in
      if 65536 <=? ch then VIllegal
      else if direct ch then VChar 4 ((if u_in q then pending q ++ [45] else []) ++ [ch]) u7_start
      else let '(l, n, bits) := sextets 4 (u_n q + 16) (u_bits q * 65536 + ch) in VChar 4 ((if u_in q then [] else [43]) ++ l) (U7 true n bits)
  | _ => VIncomplete
  end.
