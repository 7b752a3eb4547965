(** Model of include/stdex/hex.hpp. *)
From Verif Require Import Base.

(** hex.hpp:45-51, one byte *)
Definition hex_enc_byte (x : Z) : list Z :=
  let x_h := Z.shiftr (Z.land x 240) 4 in
  let x_l := Z.land x 15 in
  [if x_h <? 10 then 48 + x_h else 65 - 10 + x_h; if x_l <? 10 then 48 + x_l else 65 - 10 + x_l].
(** hex.hpp:36-53 *)
Fixpoint hex_encode (out data : list Z) : list Z :=
  match data with [] => out | x :: r => hex_encode (out ++ hex_enc_byte x) r end.
(** hex.hpp:62-65 *)
Definition hex_enc_size (size : Z) : Z := u64 (size * 2).

(** hex.hpp:148-150 *)
Record hexdec : Type := mkhex { hbuf : Z; hnum : Z }.
(** hex.hpp:77-80 *)
Definition hexdec_new : hexdec := mkhex 0 0.
(** hex.hpp:131-134 *)
Definition hexdec_clear (s : hexdec) : hexdec := mkhex (hbuf s) 0.
(** hex.hpp:143-146 *)
Definition hex_dec_size (size : Z) : Z := u64 (size + 1) / 2.

(** hex.hpp:96-97 *)
Fixpoint hex_trim (data : list Z) : list Z :=
  match data with [] => [] | x :: r => if x =? 0 then [] else x :: hex_trim r end.

Definition hex_put (s : hexdec) (v : Z) : hexdec :=
  mkhex (Z.lor (Z.shiftl (Z.land (hbuf s) 15) 4) (u8 v)) (hnum s + 1).
(** hex.hpp:114-124 *)
Definition hex_char (s : hexdec) (x : Z) : hexdec :=
  if (48 <=? x) && (x <=? 57) then hex_put s (x - 48)
  else if (65 <=? x) && (x <=? 70) then hex_put s (x - (65 - 10))
  else if (97 <=? x) && (x <=? 102) then hex_put s (x - (97 - 10))
  else s.
(** hex.hpp:102-125 *)
Fixpoint hex_loop (s : hexdec) (data out : list Z) : hexdec * list Z * bool :=
  let '(s, out, is_last) :=
    if hnum s >=? 2 then (mkhex (hbuf s) 0, out ++ [hbuf s], true) else (s, out, false) in
  match data with
  | [] => (s, out, is_last)
  | x :: r => hex_loop (hex_char s x) r out
  end.
(** hex.hpp:91-126 *)
Definition hex_decode (s : hexdec) (out data : list Z) : hexdec * list Z * bool :=
  hex_loop s (hex_trim data) out.
