(** Model of include/stdex/base64.hpp.  Bytes and characters are integers. *)
From Verif Require Import Base.

(** base64.hpp:23-28 *)
Definition base64_enc_lookup : list Z :=
  [65;66;67;68;69;70;71;72;73;74;75;76;77;78;79;80;
   81;82;83;84;85;86;87;88;89;90;97;98;99;100;101;102;
   103;104;105;106;107;108;109;110;111;112;113;114;115;116;117;118;
   119;120;121;122;48;49;50;51;52;53;54;55;56;57;43;47].

(** base64.hpp:30-48 *)
Definition r255 (n : nat) : list Z := repeat 255 n.
Definition base64_dec_lookup : list Z :=
  r255 16 ++ r255 16 ++
  [255; 255; 255; 255; 255; 255; 255; 255; 255; 255; 255;  62; 255; 255; 255;  63] ++
  [ 52;  53;  54;  55;  56;  57;  58;  59;  60;  61; 255; 255; 255;  64; 255; 255] ++
  [255;   0;   1;   2;   3;   4;   5;   6;   7;   8;   9;  10;  11;  12;  13;  14] ++
  [ 15;  16;  17;  18;  19;  20;  21;  22;  23;  24;  25; 255; 255; 255; 255; 255] ++
  [255;  26;  27;  28;  29;  30;  31;  32;  33;  34;  35;  36;  37;  38;  39;  40] ++
  [ 41;  42;  43;  44;  45;  46;  47;  48;  49;  50;  51; 255; 255; 255; 255; 255] ++
  r255 16 ++ r255 16 ++ r255 16 ++ r255 16 ++ r255 16 ++ r255 16 ++ r255 16 ++ r255 16.

(** Array access; the index is always in range (the value -1 stands for an access out of range). *)
Definition enc_at (i : Z) : Z := nth (Z.to_nat i) base64_enc_lookup (-1).
(** base64.hpp:321-323: characters are converted to size_t, hence negative ones are large. *)
Definition dec_at (x : Z) : Z :=
  if (0 <=? x) && (x <? 256) then nth (Z.to_nat x) base64_dec_lookup (-1) else 255.

Definition pad : Z := 61. (* '=' *)
Definition newline : Z := 10.

(** class base64_enc: base64.hpp:166-168 *)
Record enc : Type := mkenc { e0 : Z; e1 : Z; e2 : Z; enum : Z }.
(** base64.hpp:60-65 *)
Definition enc_new : enc := mkenc 0 0 0 0.
(** base64.hpp:106-109 *)
Definition enc_clear (s : enc) : enc := mkenc (e0 s) (e1 s) (e2 s) 0.
(** base64.hpp:118-121 (size_t arithmetic) *)
Definition enc_size (s : enc) (size : Z) : Z := u64 (u64 (enum s + size + 2) / 3 * 4).

(** base64.hpp:128-134 (and 224-232) *)
Definition enc_block (s : enc) : list Z :=
  [enc_at (Z.shiftr (e0 s) 2);
   enc_at (Z.land (Z.lor (Z.shiftl (e0 s) 4) (Z.shiftr (e1 s) 4)) 63);
   enc_at (Z.land (Z.lor (Z.shiftl (e1 s) 2) (Z.shiftr (e2 s) 6)) 63);
   enc_at (Z.land (e2 s) 63)].

(** base64.hpp:140-164 (and 237-263) *)
Definition enc_flush (s : enc) (size : Z) : list Z :=
  if size >? 0 then
    enc_at (Z.shiftr (e0 s) 2) ::
    (if size >? 1 then
       enc_at (Z.land (Z.lor (Z.shiftl (e0 s) 4) (Z.shiftr (e1 s) 4)) 63) ::
       (if size >? 2 then
          [enc_at (Z.land (Z.lor (Z.shiftl (e1 s) 2) (Z.shiftr (e2 s) 6)) 63); enc_at (Z.land (e2 s) 63)]
        else [enc_at (Z.land (Z.shiftl (e1 s) 2) 63); pad])
     else [enc_at (Z.land (Z.shiftl (e0 s) 4) 63); pad; pad])
  else [pad; pad; pad; pad].

(** base64.hpp:93: m_buf[m_num++] = x *)
Definition enc_put (s : enc) (x : Z) : enc :=
  if enum s =? 0 then mkenc x (e1 s) (e2 s) 1
  else if enum s =? 1 then mkenc (e0 s) x (e2 s) 2
  else mkenc (e0 s) (e1 s) x 3.

(** base64.hpp:84-94 *)
Fixpoint enc_loop (s : enc) (data out : list Z) : enc * list Z :=
  let '(s, out) := if enum s >=? 3 then (enc_clear s, out ++ enc_block s) else (s, out) in
  match data with
  | [] => (s, out)
  | x :: r => enc_loop (enc_put s x) r out
  end.

(** base64.hpp:76-101 *)
Definition enc_encode (s : enc) (out data : list Z) (is_last : bool) : enc * list Z :=
  let '(s, out) := enc_loop s data out in
  if is_last && negb (enum s =? 0) then (enc_clear s, out ++ enc_flush s (enum s)) else (s, out).

(** class base64_dec: base64.hpp:368-370 *)
Record dec : Type := mkdec { d0 : Z; d1 : Z; d2 : Z; d3 : Z; dnum : Z }.
(** base64.hpp:280-286 *)
Definition dec_new : dec := mkdec 0 0 0 0 0.
(** base64.hpp:331-334 *)
Definition dec_clear (s : dec) : dec := mkdec (d0 s) (d1 s) (d2 s) (d3 s) 0.
(** base64.hpp:343-346 *)
Definition dec_size (s : dec) (size : Z) : Z := u64 (u64 (dnum s + size + 3) / 4 * 3).

(** base64.hpp:353-366 (and 436-450): bytes decoded from a full buffer; their number is the
    value returned. *)
Definition dec_block (s : dec) : list Z :=
  Z.land (Z.lor (Z.shiftl (d0 s) 2) (Z.shiftr (d1 s) 4)) 255 ::
  (if d2 s <? 64 then
     Z.land (Z.lor (Z.shiftl (d1 s) 4) (Z.shiftr (d2 s) 2)) 255 ::
     (if d3 s <? 64 then [Z.land (Z.lor (Z.shiftl (d2 s) 6) (d3 s)) 255] else [])
   else []).

(** base64.hpp:323-324: m_buf[m_num] = v; if (v != 255) m_num++ *)
Definition dec_put (s : dec) (v : Z) : dec :=
  let n := if v =? 255 then dnum s else dnum s + 1 in
  if dnum s =? 0 then mkdec v (d1 s) (d2 s) (d3 s) n
  else if dnum s =? 1 then mkdec (d0 s) v (d2 s) (d3 s) n
  else if dnum s =? 2 then mkdec (d0 s) (d1 s) v (d3 s) n
  else mkdec (d0 s) (d1 s) (d2 s) v n.

(** base64.hpp:301-303 *)
Fixpoint trim_nul (data : list Z) : list Z :=
  match data with [] => [] | x :: r => if x =? 0 then [] else x :: trim_nul r end.

(** base64.hpp:308-325; result: state, output, is_last *)
Fixpoint dec_loop (s : dec) (data out : list Z) : dec * list Z * bool :=
  let go s out :=
    match data with
    | [] => (s, out, false)
    | x :: r => dec_loop (dec_put s (dec_at x)) r out
    end in
  if dnum s >=? 4 then
    let b := dec_block s in
    if Z.of_nat (length b) <? 3 then (dec_clear s, out ++ b, true) else go (dec_clear s) (out ++ b)
  else go s out.

(** base64.hpp:297-326 *)
Definition dec_decode (s : dec) (out data : list Z) : dec * list Z * bool :=
  dec_loop s (trim_nul data) out.

(** class base64_writer: base64.hpp:174-269.  The sink takes everything until [budget] write calls
    were made, then fails and stays failed. *)
Record sink : Type := mksink { sout : list Z; sbudget : option nat; sok : bool }.
Definition sink_write (k : sink) (d : list Z) : sink :=
  match sbudget k with
  | None => mksink (sout k ++ d) None true
  | Some O => mksink (sout k) (Some O) false
  | Some (S n) => mksink (sout k ++ d) (Some n) true
  end.
(** operator << (char): stream.hpp:293-304, 670 *)
Definition sink_put (k : sink) (c : Z) : sink := if sok k then sink_write k [c] else k.

Record writer : Type := mkwriter { wenc : enc; wmax : Z; wblk : Z; wsink : sink }.
(** base64.hpp:177-181 *)
Definition writer_new (k : sink) (max_blocks : Z) : writer := mkwriter enc_new max_blocks 0 k.
(** base64.hpp:201-204 (and 187-190) *)
Definition writer_break (w : writer) : writer :=
  let n := u64 (wblk w + 1) in
  if n >? wmax w then mkwriter (wenc w) (wmax w) 1 (sink_put (wsink w) newline)
  else mkwriter (wenc w) (wmax w) n (wsink w).
Definition writer_emit (w : writer) (d : list Z) (e : enc) : writer :=
  mkwriter e (wmax w) (wblk w) (sink_write (wsink w) d).
(** base64.hpp:195-218; [len] is the length argument, [i] the loop index; result: state, returned
    count, whether the state is ok *)
Fixpoint writer_loop (w : writer) (len i : Z) (data : list Z) : writer * Z * bool :=
  let go w :=
    match data with
    | [] => (w, len, true)
    | x :: r => writer_loop (mkwriter (enc_put (wenc w) x) (wmax w) (wblk w) (wsink w)) len (i + 1) r
    end in
  if enum (wenc w) >=? 3 then
    let w := writer_break w in
    let w := writer_emit w (enc_block (wenc w)) (wenc w) in
    if sok (wsink w) then go (mkwriter (enc_clear (wenc w)) (wmax w) (wblk w) (wsink w))
    else (w, len - i, false)
  else go w.
Definition writer_write (w : writer) (data : list Z) : writer * Z * bool :=
  writer_loop w (Z.of_nat (length data)) 0 data.
(** base64.hpp:183-193 *)
Definition writer_close (w : writer) : writer :=
  if enum (wenc w) =? 0 then w
  else let w := writer_break w in writer_emit w (enc_flush (wenc w) (enum (wenc w))) (wenc w).

(** class base64_reader: base64.hpp:379-457.  The source is a stream positioned at [rsrc]; reading a
    byte beyond it gives eof. *)
Record reader : Type := mkreader { rdec : dec; rtemp : list Z; rsrc : list Z }.
  (* rtemp: the m_temp_len bytes from m_temp_off on *)
Definition reader_new (src : list Z) : reader := mkreader dec_new [] src.

(** base64.hpp:409-418; None: end of source reached *)
Fixpoint read_block (s : dec) (src : list Z) : dec * list Z * bool :=
  if dnum s <? 4 then
    match src with
    | [] => (s, [], false)
    | x :: r => read_block (dec_put s (dec_at x)) r
    end
  else (s, src, true).

(** base64.hpp:393-429; [to_read] bytes still wanted; result: reader, bytes that the returned count
    covers, ok.  The loop runs at most once per source character plus one. *)
Fixpoint reader_loop (fuel : nat) (r : reader) (to_read : Z) (got : list Z) : option (reader * list Z * bool) :=
  match fuel with
  | O => None
  | S fuel =>
    if Z.of_nat (length (rtemp r)) >=? to_read then
      Some (mkreader (rdec r) (skipn (Z.to_nat to_read) (rtemp r)) (rsrc r),
            got ++ firstn (Z.to_nat to_read) (rtemp r), true)
    else
      let got := got ++ rtemp r in
      let to_read := to_read - Z.of_nat (length (rtemp r)) in
      let '(d, src, full) := read_block (rdec r) (rsrc r) in
      if full then
        let t := dec_block d in
        if (Z.of_nat (length t) <? 3) && (to_read >=? 3) then
          (* 422-427: the bytes are copied but m_temp_len is reset before being subtracted *)
          Some (mkreader (dec_clear d) [] src, got, true)
        else reader_loop fuel (mkreader (dec_clear d) t src) to_read got
      else Some (mkreader d [] src, got, false)
  end.
Definition reader_read (r : reader) (length : Z) : option (reader * list Z * bool) :=
  reader_loop (S (S (List.length (rsrc r)))) r length [].
