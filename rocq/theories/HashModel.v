(** Model of include/stdex/hash.hpp: block_hash, crc32_hash, md5_hash, sha1_hash.
    Bytes and uint32_t words are Z; the platform is little endian, size_t is 64 bits. *)
From Verif Require Import Base.

(** math.hpp:83 for the constant amounts 0 < bits < 32 used here *)
Definition rol32 (value bits : Z) : Z := Z.lor (u32 (Z.shiftl value bits)) (Z.shiftr value (32 - bits)).

(* ---- crc32 ---- *)

(** hash.hpp:188-241 *)
Definition crc32_table : list Z := [
   0x00000000; 0x77073096; 0xee0e612c; 0x990951ba; 0x076dc419; 0x706af48f; 0xe963a535; 0x9e6495a3;
   0x0edb8832; 0x79dcb8a4; 0xe0d5e91e; 0x97d2d988; 0x09b64c2b; 0x7eb17cbd; 0xe7b82d07; 0x90bf1d91;
   0x1db71064; 0x6ab020f2; 0xf3b97148; 0x84be41de; 0x1adad47d; 0x6ddde4eb; 0xf4d4b551; 0x83d385c7;
   0x136c9856; 0x646ba8c0; 0xfd62f97a; 0x8a65c9ec; 0x14015c4f; 0x63066cd9; 0xfa0f3d63; 0x8d080df5;
   0x3b6e20c8; 0x4c69105e; 0xd56041e4; 0xa2677172; 0x3c03e4d1; 0x4b04d447; 0xd20d85fd; 0xa50ab56b;
   0x35b5a8fa; 0x42b2986c; 0xdbbbc9d6; 0xacbcf940; 0x32d86ce3; 0x45df5c75; 0xdcd60dcf; 0xabd13d59;
   0x26d930ac; 0x51de003a; 0xc8d75180; 0xbfd06116; 0x21b4f4b5; 0x56b3c423; 0xcfba9599; 0xb8bda50f;
   0x2802b89e; 0x5f058808; 0xc60cd9b2; 0xb10be924; 0x2f6f7c87; 0x58684c11; 0xc1611dab; 0xb6662d3d;
   0x76dc4190; 0x01db7106; 0x98d220bc; 0xefd5102a; 0x71b18589; 0x06b6b51f; 0x9fbfe4a5; 0xe8b8d433;
   0x7807c9a2; 0x0f00f934; 0x9609a88e; 0xe10e9818; 0x7f6a0dbb; 0x086d3d2d; 0x91646c97; 0xe6635c01;
   0x6b6b51f4; 0x1c6c6162; 0x856530d8; 0xf262004e; 0x6c0695ed; 0x1b01a57b; 0x8208f4c1; 0xf50fc457;
   0x65b0d9c6; 0x12b7e950; 0x8bbeb8ea; 0xfcb9887c; 0x62dd1ddf; 0x15da2d49; 0x8cd37cf3; 0xfbd44c65;
   0x4db26158; 0x3ab551ce; 0xa3bc0074; 0xd4bb30e2; 0x4adfa541; 0x3dd895d7; 0xa4d1c46d; 0xd3d6f4fb;
   0x4369e96a; 0x346ed9fc; 0xad678846; 0xda60b8d0; 0x44042d73; 0x33031de5; 0xaa0a4c5f; 0xdd0d7cc9;
   0x5005713c; 0x270241aa; 0xbe0b1010; 0xc90c2086; 0x5768b525; 0x206f85b3; 0xb966d409; 0xce61e49f;
   0x5edef90e; 0x29d9c998; 0xb0d09822; 0xc7d7a8b4; 0x59b33d17; 0x2eb40d81; 0xb7bd5c3b; 0xc0ba6cad;
   0xedb88320; 0x9abfb3b6; 0x03b6e20c; 0x74b1d29a; 0xead54739; 0x9dd277af; 0x04db2615; 0x73dc1683;
   0xe3630b12; 0x94643b84; 0x0d6d6a3e; 0x7a6a5aa8; 0xe40ecf0b; 0x9309ff9d; 0x0a00ae27; 0x7d079eb1;
   0xf00f9344; 0x8708a3d2; 0x1e01f268; 0x6906c2fe; 0xf762575d; 0x806567cb; 0x196c3671; 0x6e6b06e7;
   0xfed41b76; 0x89d32be0; 0x10da7a5a; 0x67dd4acc; 0xf9b9df6f; 0x8ebeeff9; 0x17b7be43; 0x60b08ed5;
   0xd6d6a3e8; 0xa1d1937e; 0x38d8c2c4; 0x4fdff252; 0xd1bb67f1; 0xa6bc5767; 0x3fb506dd; 0x48b2364b;
   0xd80d2bda; 0xaf0a1b4c; 0x36034af6; 0x41047a60; 0xdf60efc3; 0xa867df55; 0x316e8eef; 0x4669be79;
   0xcb61b38c; 0xbc66831a; 0x256fd2a0; 0x5268e236; 0xcc0c7795; 0xbb0b4703; 0x220216b9; 0x5505262f;
   0xc5ba3bbe; 0xb2bd0b28; 0x2bb45a92; 0x5cb36a04; 0xc2d7ffa7; 0xb5d0cf31; 0x2cd99e8b; 0x5bdeae1d;
   0x9b64c2b0; 0xec63f226; 0x756aa39c; 0x026d930a; 0x9c0906a9; 0xeb0e363f; 0x72076785; 0x05005713;
   0x95bf4a82; 0xe2b87a14; 0x7bb12bae; 0x0cb61b38; 0x92d28e9b; 0xe5d5be0d; 0x7cdcefb7; 0x0bdbdf21;
   0x86d3d2d4; 0xf1d4e242; 0x68ddb3f8; 0x1fda836e; 0x81be16cd; 0xf6b9265b; 0x6fb077e1; 0x18b74777;
   0x88085ae6; 0xff0f6a70; 0x66063bca; 0x11010b5c; 0x8f659eff; 0xf862ae69; 0x616bffd3; 0x166ccf45;
   0xa00ae278; 0xd70dd2ee; 0x4e048354; 0x3903b3c2; 0xa7672661; 0xd06016f7; 0x4969474d; 0x3e6e77db;
   0xaed16a4a; 0xd9d65adc; 0x40df0b66; 0x37d83bf0; 0xa9bcae53; 0xdebb9ec5; 0x47b2cf7f; 0x30b5ffe9;
   0xbdbdf21c; 0xcabac28a; 0x53b39330; 0x24b4a3a6; 0xbad03605; 0xcdd70693; 0x54de5729; 0x23d967bf;
   0xb3667a2e; 0xc4614ab8; 0x5d681b02; 0x2a6f2b94; 0xb40bbe37; 0xc30c8ea1; 0x5a05df1b; 0x2d02ef8d].

(** hash.hpp:173-176, 181-184: constructor and clear *)
Definition crc32_new (crc : Z) : Z := u32 (Z.lnot crc).
Definition crc32_clear : Z := 0xffffffff.
(** hash.hpp:245 *)
Definition crc32_step (v b : Z) : Z :=
  Z.lxor (nth (Z.to_nat (Z.land (Z.lxor v b) 0xff)) crc32_table 0) (Z.shiftr v 8).
(** hash.hpp:186-246 *)
Definition crc32_hash (v : Z) (data : list Z) : Z := fold_left crc32_step data v.
(** hash.hpp:248-251 *)
Definition crc32_finalize (v : Z) : Z := u32 (Z.lnot v).

(* ---- block_hash ---- *)

(** memcpy(m_queue + j, d, |d|) *)
Definition put (q : list Z) (j : nat) (d : list Z) : list Z := firstn j q ++ d ++ skipn (j + length d) q.

Section BlockHash.
Variable H : Type.
(** hash.hpp:121 hash_block: new state and new content of the queue (a union with m_temp) *)
Variable hash_block : H -> list Z -> H * list Z.

(** hash.hpp:123-129: m_counter, m_queue and the state of the derived class *)
Record bhash : Type := mkbh { c0 : Z; c1 : Z; queue : list Z; hst : H }.

(** hash.hpp:101-108: for (i = remainder; i + 64 <= length; i += 64); returns the bytes left *)
Fixpoint block_loop (fuel : nat) (st : H) (q rest : list Z) : H * list Z * list Z :=
  match fuel with
  | O => (st, q, rest)
  | S f => if Nat.leb 64 (length rest) then
             let '(st', q') := hash_block st (put q 0 (firstn 64 rest)) in
             block_loop f st' q' (skipn 64 rest)
           else (st, q, rest)
  end.

(** hash.hpp:82-118 *)
Definition block_hash (s : bhash) (data : list Z) : bhash :=
  let len := Z.of_nat (length data) in
  let j := Z.to_nat (Z.land (Z.shiftr (c0 s) 3) 63) in
  let l3 := u32 (Z.shiftl (u32 len) 3) in
  let k0 := u32 (c0 s + l3) in
  let k1 := if k0 <? l3 then u32 (c1 s + 1) else c1 s in
  let k1 := u32 (k1 + Z.shiftr (u32 len) 29) in
  let remainder := (64 - j)%nat in
  if Nat.leb remainder (length data) then
    let '(st, q) := hash_block (hst s) (put (queue s) j (firstn remainder data)) in
    let '(st, q, rest) := block_loop (length data) st q (skipn remainder data) in
    mkbh k0 k1 (put q 0 rest) st
  else mkbh k0 k1 (put (queue s) j data) (hst s).

(** A sequence of hash() calls. *)
Definition block_hash_chunks (s : bhash) (chunks : list (list Z)) : bhash := fold_left block_hash chunks s.
End BlockHash.
Arguments mkbh {H}. Arguments c0 {H}. Arguments c1 {H}. Arguments queue {H}. Arguments hst {H}.
Arguments block_loop {H}. Arguments block_hash {H}. Arguments block_hash_chunks {H}.

(** m_temp[i]: little-endian word of the queue (hash.hpp:125-128) *)
Definition le_word (b : list Z) : Z :=
  match b with [b0; b1; b2; b3] => b0 + 256 * b1 + 65536 * b2 + 16777216 * b3 | _ => 0 end.
Definition le_bytes (w : Z) : list Z := [w mod 256; w / 256 mod 256; w / 65536 mod 256; w / 16777216 mod 256].
Fixpoint words (n : nat) (q : list Z) : list Z :=
  match n with O => [] | S m => le_word (firstn 4 q) :: words m (skipn 4 q) end.
Definition temp_of (q : list Z) : list Z := words 16 q.
Definition queue_of (t : list Z) : list Z := flat_map le_bytes t.

(* ---- md5 ---- *)

Inductive reg : Type := Ra | Rb | Rc | Rd | Re.
(** Working variables a, b, c, d, e (e is used by SHA-1 only). *)
Record regs : Type := mkregs { ra : Z; rb : Z; rc : Z; rd : Z; re : Z }.
Definition get (r : reg) (s : regs) : Z :=
  match r with Ra => ra s | Rb => rb s | Rc => rc s | Rd => rd s | Re => re s end.
Definition set (r : reg) (v : Z) (s : regs) : regs :=
  match r with
  | Ra => mkregs v (rb s) (rc s) (rd s) (re s)
  | Rb => mkregs (ra s) v (rc s) (rd s) (re s)
  | Rc => mkregs (ra s) (rb s) v (rd s) (re s)
  | Rd => mkregs (ra s) (rb s) (rc s) v (re s)
  | Re => mkregs (ra s) (rb s) (rc s) (rd s) v
  end.

(** hash.hpp:310-317 *)
Definition md5_init : list Z := [0x67452301; 0xefcdab89; 0x98badcfe; 0x10325476].
Definition not32 (x : Z) : Z := u32 (Z.lnot x).
(** hash.hpp:367-370: the four macros *)
Inductive md5_round : Type := R1 | R2 | R3 | R4.
Definition md5_fun (r : md5_round) (b c d : Z) : Z :=
  match r with
  | R1 => Z.lor (Z.land b c) (Z.land (not32 b) d)
  | R2 => Z.lor (Z.land b d) (Z.land c (not32 d))
  | R3 => Z.lxor (Z.lxor b c) d
  | R4 => Z.lxor c (Z.lor b (not32 d))
  end.
Definition md5_op : Type := md5_round * (reg * reg * reg * reg) * nat * Z * Z.
Definition md5_exec (t : list Z) (s : regs) (o : md5_op) : regs :=
  let '(r, (a, b, c, d), i, sh, ac) := o in
  let s := set a (u32 (get a s + u32 (md5_fun r (get b s) (get c s) (get d s) + nth i t 0 + ac))) s in
  let s := set a (rol32 (get a s) sh) s in
  set a (u32 (get a s + get b s)) s.
(** hash.hpp:373-436 *)
Definition md5_ops : list md5_op := [
   (R1, (Ra, Rb, Rc, Rd), 0%nat, 7, 0xd76aa478);
   (R1, (Rd, Ra, Rb, Rc), 1%nat, 12, 0xe8c7b756);
   (R1, (Rc, Rd, Ra, Rb), 2%nat, 17, 0x242070db);
   (R1, (Rb, Rc, Rd, Ra), 3%nat, 22, 0xc1bdceee);
   (R1, (Ra, Rb, Rc, Rd), 4%nat, 7, 0xf57c0faf);
   (R1, (Rd, Ra, Rb, Rc), 5%nat, 12, 0x4787c62a);
   (R1, (Rc, Rd, Ra, Rb), 6%nat, 17, 0xa8304613);
   (R1, (Rb, Rc, Rd, Ra), 7%nat, 22, 0xfd469501);
   (R1, (Ra, Rb, Rc, Rd), 8%nat, 7, 0x698098d8);
   (R1, (Rd, Ra, Rb, Rc), 9%nat, 12, 0x8b44f7af);
   (R1, (Rc, Rd, Ra, Rb), 10%nat, 17, 0xffff5bb1);
   (R1, (Rb, Rc, Rd, Ra), 11%nat, 22, 0x895cd7be);
   (R1, (Ra, Rb, Rc, Rd), 12%nat, 7, 0x6b901122);
   (R1, (Rd, Ra, Rb, Rc), 13%nat, 12, 0xfd987193);
   (R1, (Rc, Rd, Ra, Rb), 14%nat, 17, 0xa679438e);
   (R1, (Rb, Rc, Rd, Ra), 15%nat, 22, 0x49b40821);
   (R2, (Ra, Rb, Rc, Rd), 1%nat, 5, 0xf61e2562);
   (R2, (Rd, Ra, Rb, Rc), 6%nat, 9, 0xc040b340);
   (R2, (Rc, Rd, Ra, Rb), 11%nat, 14, 0x265e5a51);
   (R2, (Rb, Rc, Rd, Ra), 0%nat, 20, 0xe9b6c7aa);
   (R2, (Ra, Rb, Rc, Rd), 5%nat, 5, 0xd62f105d);
   (R2, (Rd, Ra, Rb, Rc), 10%nat, 9, 0x2441453);
   (R2, (Rc, Rd, Ra, Rb), 15%nat, 14, 0xd8a1e681);
   (R2, (Rb, Rc, Rd, Ra), 4%nat, 20, 0xe7d3fbc8);
   (R2, (Ra, Rb, Rc, Rd), 9%nat, 5, 0x21e1cde6);
   (R2, (Rd, Ra, Rb, Rc), 14%nat, 9, 0xc33707d6);
   (R2, (Rc, Rd, Ra, Rb), 3%nat, 14, 0xf4d50d87);
   (R2, (Rb, Rc, Rd, Ra), 8%nat, 20, 0x455a14ed);
   (R2, (Ra, Rb, Rc, Rd), 13%nat, 5, 0xa9e3e905);
   (R2, (Rd, Ra, Rb, Rc), 2%nat, 9, 0xfcefa3f8);
   (R2, (Rc, Rd, Ra, Rb), 7%nat, 14, 0x676f02d9);
   (R2, (Rb, Rc, Rd, Ra), 12%nat, 20, 0x8d2a4c8a);
   (R3, (Ra, Rb, Rc, Rd), 5%nat, 4, 0xfffa3942);
   (R3, (Rd, Ra, Rb, Rc), 8%nat, 11, 0x8771f681);
   (R3, (Rc, Rd, Ra, Rb), 11%nat, 16, 0x6d9d6122);
   (R3, (Rb, Rc, Rd, Ra), 14%nat, 23, 0xfde5380c);
   (R3, (Ra, Rb, Rc, Rd), 1%nat, 4, 0xa4beea44);
   (R3, (Rd, Ra, Rb, Rc), 4%nat, 11, 0x4bdecfa9);
   (R3, (Rc, Rd, Ra, Rb), 7%nat, 16, 0xf6bb4b60);
   (R3, (Rb, Rc, Rd, Ra), 10%nat, 23, 0xbebfbc70);
   (R3, (Ra, Rb, Rc, Rd), 13%nat, 4, 0x289b7ec6);
   (R3, (Rd, Ra, Rb, Rc), 0%nat, 11, 0xeaa127fa);
   (R3, (Rc, Rd, Ra, Rb), 3%nat, 16, 0xd4ef3085);
   (R3, (Rb, Rc, Rd, Ra), 6%nat, 23, 0x4881d05);
   (R3, (Ra, Rb, Rc, Rd), 9%nat, 4, 0xd9d4d039);
   (R3, (Rd, Ra, Rb, Rc), 12%nat, 11, 0xe6db99e5);
   (R3, (Rc, Rd, Ra, Rb), 15%nat, 16, 0x1fa27cf8);
   (R3, (Rb, Rc, Rd, Ra), 2%nat, 23, 0xc4ac5665);
   (R4, (Ra, Rb, Rc, Rd), 0%nat, 6, 0xf4292244);
   (R4, (Rd, Ra, Rb, Rc), 7%nat, 10, 0x432aff97);
   (R4, (Rc, Rd, Ra, Rb), 14%nat, 15, 0xab9423a7);
   (R4, (Rb, Rc, Rd, Ra), 5%nat, 21, 0xfc93a039);
   (R4, (Ra, Rb, Rc, Rd), 12%nat, 6, 0x655b59c3);
   (R4, (Rd, Ra, Rb, Rc), 3%nat, 10, 0x8f0ccc92);
   (R4, (Rc, Rd, Ra, Rb), 10%nat, 15, 0xffeff47d);
   (R4, (Rb, Rc, Rd, Ra), 1%nat, 21, 0x85845dd1);
   (R4, (Ra, Rb, Rc, Rd), 8%nat, 6, 0x6fa87e4f);
   (R4, (Rd, Ra, Rb, Rc), 15%nat, 10, 0xfe2ce6e0);
   (R4, (Rc, Rd, Ra, Rb), 6%nat, 15, 0xa3014314);
   (R4, (Rb, Rc, Rd, Ra), 13%nat, 21, 0x4e0811a1);
   (R4, (Ra, Rb, Rc, Rd), 4%nat, 6, 0xf7537e82);
   (R4, (Rd, Ra, Rb, Rc), 11%nat, 10, 0xbd3af235);
   (R4, (Rc, Rd, Ra, Rb), 2%nat, 15, 0x2ad7d2bb);
   (R4, (Rb, Rc, Rd, Ra), 9%nat, 21, 0xeb86d391)].
(** hash.hpp:344-449 *)
Definition md5_block (st : list Z) (q : list Z) : list Z * list Z :=
  let t := temp_of q in
  let w := fold_left (md5_exec t) md5_ops (mkregs (nth 0 st 0) (nth 1 st 0) (nth 2 st 0) (nth 3 st 0) 0) in
  ([u32 (nth 0 st 0 + ra w); u32 (nth 1 st 0 + rb w); u32 (nth 2 st 0 + rc w); u32 (nth 3 st 0 + rd w)], q).

(** hash.hpp:77-80, 305-317: the queue is not initialised; [q0] is its unknown content *)
Definition md5_clear (q0 : list Z) : bhash (list Z) := mkbh 0 0 q0 md5_init.
(** hash.hpp:321-325 *)
Definition md5_padding : list Z := 0x80 :: repeat 0 63.
(** hash.hpp:319-341; the result is the 16 bytes of m_value *)
Definition md5_finalize (s : bhash (list Z)) : list Z :=
  let final := le_bytes (c0 s) ++ le_bytes (c1 s) in
  let index := Z.to_nat (Z.land (Z.shiftr (c0 s) 3) 0x3f) in
  let remainder := if Nat.ltb index 56 then (56 - index)%nat else (120 - index)%nat in
  let s := block_hash md5_block s (firstn remainder md5_padding) in
  let s := block_hash md5_block s final in
  flat_map le_bytes (hst s).

(* ---- sha1 ---- *)

(** hash.hpp:511-521 *)
Definition sha1_init : list Z := [0x67452301; 0xEFCDAB89; 0x98BADCFE; 0x10325476; 0xC3D2E1F0].
Definition list_set (l : list Z) (i : nat) (v : Z) : list Z := firstn i l ++ [v] ++ skipn (S i) l.
(** hash.hpp:549 (little endian); the value of the assignment and the new m_temp *)
Definition sha1_blk0 (t : list Z) (i : nat) : Z * list Z :=
  let w := nth i t 0 in
  let v := Z.lor (Z.land (rol32 w 24) 0xFF00FF00) (Z.land (rol32 w 8) 0x00FF00FF) in
  (v, list_set t i v).
(** hash.hpp:551 *)
Definition sha1_blk (t : list Z) (i : nat) : Z * list Z :=
  let m (k : nat) := nth (Nat.modulo k 16) t 0 in
  let v := rol32 (Z.lxor (Z.lxor (Z.lxor (m (i + 13)%nat) (m (i + 8)%nat)) (m (i + 2)%nat)) (m i)) 1 in
  (v, list_set t (Nat.modulo i 16) v).
(** hash.hpp:554-558: the five macros *)
Inductive sha1_round : Type := Q0 | Q1 | Q2 | Q3 | Q4.
Definition sha1_fun (r : sha1_round) (w x y : Z) : Z :=
  match r with
  | Q0 | Q1 => Z.lxor (Z.land w (Z.lxor x y)) y
  | Q2 | Q4 => Z.lxor (Z.lxor w x) y
  | Q3 => Z.lor (Z.land (Z.lor w x) y) (Z.land w x)
  end.
Definition sha1_const (r : sha1_round) : Z :=
  match r with Q0 | Q1 => 0x5A827999 | Q2 => 0x6ED9EBA1 | Q3 => 0x8F1BBCDC | Q4 => 0xCA62C1D6 end.
Definition sha1_op : Type := sha1_round * (reg * reg * reg * reg * reg) * nat.
Definition sha1_exec (st : list Z * regs) (o : sha1_op) : list Z * regs :=
  let '(t, s) := st in
  let '(r, (v, w, x, y, z), i) := o in
  let '(bl, t) := match r with Q0 => sha1_blk0 t i | _ => sha1_blk t i end in
  let s := set z (u32 (get z s + u32 (sha1_fun r (get w s) (get x s) (get y s) + bl + sha1_const r + rol32 (get v s) 5))) s in
  (t, set w (rol32 (get w s) 30) s).
(** hash.hpp:561-580 *)
Definition sha1_ops : list sha1_op := [
   (Q0, (Ra, Rb, Rc, Rd, Re), 0%nat); (Q0, (Re, Ra, Rb, Rc, Rd), 1%nat); (Q0, (Rd, Re, Ra, Rb, Rc), 2%nat); (Q0, (Rc, Rd, Re, Ra, Rb), 3%nat);
   (Q0, (Rb, Rc, Rd, Re, Ra), 4%nat); (Q0, (Ra, Rb, Rc, Rd, Re), 5%nat); (Q0, (Re, Ra, Rb, Rc, Rd), 6%nat); (Q0, (Rd, Re, Ra, Rb, Rc), 7%nat);
   (Q0, (Rc, Rd, Re, Ra, Rb), 8%nat); (Q0, (Rb, Rc, Rd, Re, Ra), 9%nat); (Q0, (Ra, Rb, Rc, Rd, Re), 10%nat); (Q0, (Re, Ra, Rb, Rc, Rd), 11%nat);
   (Q0, (Rd, Re, Ra, Rb, Rc), 12%nat); (Q0, (Rc, Rd, Re, Ra, Rb), 13%nat); (Q0, (Rb, Rc, Rd, Re, Ra), 14%nat); (Q0, (Ra, Rb, Rc, Rd, Re), 15%nat);
   (Q1, (Re, Ra, Rb, Rc, Rd), 16%nat); (Q1, (Rd, Re, Ra, Rb, Rc), 17%nat); (Q1, (Rc, Rd, Re, Ra, Rb), 18%nat); (Q1, (Rb, Rc, Rd, Re, Ra), 19%nat);
   (Q2, (Ra, Rb, Rc, Rd, Re), 20%nat); (Q2, (Re, Ra, Rb, Rc, Rd), 21%nat); (Q2, (Rd, Re, Ra, Rb, Rc), 22%nat); (Q2, (Rc, Rd, Re, Ra, Rb), 23%nat);
   (Q2, (Rb, Rc, Rd, Re, Ra), 24%nat); (Q2, (Ra, Rb, Rc, Rd, Re), 25%nat); (Q2, (Re, Ra, Rb, Rc, Rd), 26%nat); (Q2, (Rd, Re, Ra, Rb, Rc), 27%nat);
   (Q2, (Rc, Rd, Re, Ra, Rb), 28%nat); (Q2, (Rb, Rc, Rd, Re, Ra), 29%nat); (Q2, (Ra, Rb, Rc, Rd, Re), 30%nat); (Q2, (Re, Ra, Rb, Rc, Rd), 31%nat);
   (Q2, (Rd, Re, Ra, Rb, Rc), 32%nat); (Q2, (Rc, Rd, Re, Ra, Rb), 33%nat); (Q2, (Rb, Rc, Rd, Re, Ra), 34%nat); (Q2, (Ra, Rb, Rc, Rd, Re), 35%nat);
   (Q2, (Re, Ra, Rb, Rc, Rd), 36%nat); (Q2, (Rd, Re, Ra, Rb, Rc), 37%nat); (Q2, (Rc, Rd, Re, Ra, Rb), 38%nat); (Q2, (Rb, Rc, Rd, Re, Ra), 39%nat);
   (Q3, (Ra, Rb, Rc, Rd, Re), 40%nat); (Q3, (Re, Ra, Rb, Rc, Rd), 41%nat); (Q3, (Rd, Re, Ra, Rb, Rc), 42%nat); (Q3, (Rc, Rd, Re, Ra, Rb), 43%nat);
   (Q3, (Rb, Rc, Rd, Re, Ra), 44%nat); (Q3, (Ra, Rb, Rc, Rd, Re), 45%nat); (Q3, (Re, Ra, Rb, Rc, Rd), 46%nat); (Q3, (Rd, Re, Ra, Rb, Rc), 47%nat);
   (Q3, (Rc, Rd, Re, Ra, Rb), 48%nat); (Q3, (Rb, Rc, Rd, Re, Ra), 49%nat); (Q3, (Ra, Rb, Rc, Rd, Re), 50%nat); (Q3, (Re, Ra, Rb, Rc, Rd), 51%nat);
   (Q3, (Rd, Re, Ra, Rb, Rc), 52%nat); (Q3, (Rc, Rd, Re, Ra, Rb), 53%nat); (Q3, (Rb, Rc, Rd, Re, Ra), 54%nat); (Q3, (Ra, Rb, Rc, Rd, Re), 55%nat);
   (Q3, (Re, Ra, Rb, Rc, Rd), 56%nat); (Q3, (Rd, Re, Ra, Rb, Rc), 57%nat); (Q3, (Rc, Rd, Re, Ra, Rb), 58%nat); (Q3, (Rb, Rc, Rd, Re, Ra), 59%nat);
   (Q4, (Ra, Rb, Rc, Rd, Re), 60%nat); (Q4, (Re, Ra, Rb, Rc, Rd), 61%nat); (Q4, (Rd, Re, Ra, Rb, Rc), 62%nat); (Q4, (Rc, Rd, Re, Ra, Rb), 63%nat);
   (Q4, (Rb, Rc, Rd, Re, Ra), 64%nat); (Q4, (Ra, Rb, Rc, Rd, Re), 65%nat); (Q4, (Re, Ra, Rb, Rc, Rd), 66%nat); (Q4, (Rd, Re, Ra, Rb, Rc), 67%nat);
   (Q4, (Rc, Rd, Re, Ra, Rb), 68%nat); (Q4, (Rb, Rc, Rd, Re, Ra), 69%nat); (Q4, (Ra, Rb, Rc, Rd, Re), 70%nat); (Q4, (Re, Ra, Rb, Rc, Rd), 71%nat);
   (Q4, (Rd, Re, Ra, Rb, Rc), 72%nat); (Q4, (Rc, Rd, Re, Ra, Rb), 73%nat); (Q4, (Rb, Rc, Rd, Re, Ra), 74%nat); (Q4, (Ra, Rb, Rc, Rd, Re), 75%nat);
   (Q4, (Re, Ra, Rb, Rc, Rd), 76%nat); (Q4, (Rd, Re, Ra, Rb, Rc), 77%nat); (Q4, (Rc, Rd, Re, Ra, Rb), 78%nat); (Q4, (Rb, Rc, Rd, Re, Ra), 79%nat)].
(** hash.hpp:541-597 *)
Definition sha1_block (st : list Z) (q : list Z) : list Z * list Z :=
  let '(t, w) := fold_left sha1_exec sha1_ops
                   (temp_of q, mkregs (nth 0 st 0) (nth 1 st 0) (nth 2 st 0) (nth 3 st 0) (nth 4 st 0)) in
  ([u32 (nth 0 st 0 + ra w); u32 (nth 1 st 0 + rb w); u32 (nth 2 st 0 + rc w); u32 (nth 3 st 0 + rd w);
    u32 (nth 4 st 0 + re w)], queue_of t).

(** hash.hpp:77-80, 506-521 *)
Definition sha1_clear (q0 : list Z) : bhash (list Z) := mkbh 0 0 q0 sha1_init.
(** the byte (w >> ((3 - (i & 3)) * 8)) & 255, hash.hpp:528, 537 *)
Definition be_byte (w : Z) (i : nat) : Z := Z.land (Z.shiftr w ((3 - Z.of_nat (Nat.modulo i 4)) * 8)) 255.
(** hash.hpp:531-532: while ((m_counter[0] & 504) != 448) hash("\0", 1); None when the fuel runs out *)
Fixpoint sha1_pad (fuel : nat) (s : bhash (list Z)) : option (bhash (list Z)) :=
  if Z.land (c0 s) 504 =? 448 then Some s
  else match fuel with O => None | S f => sha1_pad f (block_hash sha1_block s [0]) end.
(** hash.hpp:523-538; the result is the 20 bytes of m_value *)
Definition sha1_finalize (s : bhash (list Z)) : option (list Z) :=
  let final := map (fun i => be_byte (if Nat.leb 4 i then c0 s else c1 s) i) (seq 0 8) in
  let s := block_hash sha1_block s [0x80] in
  match sha1_pad 64 s with
  | None => None
  | Some s => let s := block_hash sha1_block s final in
              Some (map (fun i => be_byte (nth (Nat.div i 4) (hst s) 0) i) (seq 0 20))
  end.
