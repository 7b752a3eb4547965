(** Independent specifications: CRC-32 (IEEE 802.3), MD5 (RFC 1321), SHA-1 (FIPS 180-4).
    Numbers are Z; bytes are 0..255, words 0..2^32-1. *)
From Coq Require Import ZArith List.
Import ListNotations.
Open Scope Z_scope.

Definition is_byte (b : Z) : Prop := 0 <= b < 256.
Definition is_word (w : Z) : Prop := 0 <= w < 2 ^ 32.

(* ---- CRC-32: reflected polynomial 0xEDB88320, initial value and final xor 0xffffffff ---- *)
Definition crc_bit (v : Z) : Z := if Z.odd v then Z.lxor (v / 2) 0xEDB88320 else v / 2.
Definition crc_byte (v b : Z) : Z := Nat.iter 8 crc_bit (Z.lxor v b).
Definition crc32_spec (m : list Z) : Z := Z.lxor (fold_left crc_byte m 0xffffffff) 0xffffffff.

(* ---- Merkle-Damgard iteration over 64-byte blocks ---- *)
Fixpoint process {H : Type} (f : H -> list Z -> H) (n : nat) (st : H) (m : list Z) : H :=
  match n with
  | O => st
  | S k => process f k (f st (firstn 64 m)) (skipn 64 m)
  end.
(** Number of zero bytes between the 0x80 byte and the 8-byte length. *)
Definition zeros (m : list Z) : nat := Z.to_nat ((55 - Z.of_nat (length m)) mod 64).
Definition padded (len8 : Z -> list Z) (m : list Z) : list Z :=
  m ++ [0x80] ++ repeat 0 (zeros m) ++ len8 (8 * Z.of_nat (length m)).
(** Length in bits, as 8 bytes, least / most significant first. *)
Definition byte_at (x : Z) (k : Z) : Z := x / 2 ^ (8 * k) mod 256.
Definition le64 (x : Z) : list Z := map (byte_at x) [0; 1; 2; 3; 4; 5; 6; 7].
Definition be64 (x : Z) : list Z := map (byte_at x) [7; 6; 5; 4; 3; 2; 1; 0].
Definition le32 (x : Z) : list Z := map (byte_at x) [0; 1; 2; 3].
Definition be32 (x : Z) : list Z := map (byte_at x) [3; 2; 1; 0].

Definition rotl (x s : Z) : Z := (x * 2 ^ s) mod 2 ^ 32 + x / 2 ^ (32 - s).
Definition bnot (x : Z) : Z := 2 ^ 32 - 1 - x.
Definition at_ (l : list Z) (i : nat) : Z := nth i l 0.

(* ---- MD5 ---- *)
(** floor(2^32 * abs(sin(i + 1))) *)
Definition md5_K : list Z := [
   3614090360; 3905402710; 606105819; 3250441966; 4118548399; 1200080426; 2821735955; 4249261313;
   1770035416; 2336552879; 4294925233; 2304563134; 1804603682; 4254626195; 2792965006; 1236535329;
   4129170786; 3225465664; 643717713; 3921069994; 3593408605; 38016083; 3634488961; 3889429448;
   568446438; 3275163606; 4107603335; 1163531501; 2850285829; 4243563512; 1735328473; 2368359562;
   4294588738; 2272392833; 1839030562; 4259657740; 2763975236; 1272893353; 4139469664; 3200236656;
   681279174; 3936430074; 3572445317; 76029189; 3654602809; 3873151461; 530742520; 3299628645;
   4096336452; 1126891415; 2878612391; 4237533241; 1700485571; 2399980690; 4293915773; 2240044497;
   1873313359; 4264355552; 2734768916; 1309151649; 4149444226; 3174756917; 718787259; 3951481745].
Definition md5_shift (i : nat) : Z :=
  at_ (if Nat.ltb i 16 then [7; 12; 17; 22] else if Nat.ltb i 32 then [5; 9; 14; 20]
       else if Nat.ltb i 48 then [4; 11; 16; 23] else [6; 10; 15; 21]) (Nat.modulo i 4).
Definition md5_index (i : nat) : nat :=
  Nat.modulo (if Nat.ltb i 16 then i else if Nat.ltb i 32 then 5 * i + 1 else if Nat.ltb i 48 then 3 * i + 5 else 7 * i) 16.
Definition md5_F (i : nat) (x y z : Z) : Z :=
  if Nat.ltb i 16 then Z.lor (Z.land x y) (Z.land (bnot x) z)
  else if Nat.ltb i 32 then Z.lor (Z.land x z) (Z.land y (bnot z))
  else if Nat.ltb i 48 then Z.lxor (Z.lxor x y) z
  else Z.lxor y (Z.lor x (bnot z)).
(** Word k of a block, least significant byte first. *)
Definition md5_word (blk : list Z) (k : nat) : Z :=
  at_ blk (4 * k) + 2 ^ 8 * at_ blk (4 * k + 1) + 2 ^ 16 * at_ blk (4 * k + 2) + 2 ^ 24 * at_ blk (4 * k + 3).
Definition md5_step (blk : list Z) (s : Z * Z * Z * Z) (i : nat) : Z * Z * Z * Z :=
  let '(a, b, c, d) := s in
  (d, (b + rotl ((a + md5_F i b c d + md5_word blk (md5_index i) + at_ md5_K i) mod 2 ^ 32) (md5_shift i)) mod 2 ^ 32, b, c).
Definition md5_compress (st blk : list Z) : list Z :=
  let '(a, b, c, d) := fold_left (md5_step blk) (seq 0 64) (at_ st 0, at_ st 1, at_ st 2, at_ st 3) in
  [(at_ st 0 + a) mod 2 ^ 32; (at_ st 1 + b) mod 2 ^ 32; (at_ st 2 + c) mod 2 ^ 32; (at_ st 3 + d) mod 2 ^ 32].
Definition md5_spec (m : list Z) : list Z :=
  let p := padded le64 m in
  flat_map le32 (process md5_compress (Nat.div (length p) 64)
                   [0x67452301; 0xefcdab89; 0x98badcfe; 0x10325476] p).

(* ---- SHA-1 ---- *)
Definition sha1_word (blk : list Z) (k : nat) : Z :=
  2 ^ 24 * at_ blk (4 * k) + 2 ^ 16 * at_ blk (4 * k + 1) + 2 ^ 8 * at_ blk (4 * k + 2) + at_ blk (4 * k + 3).
(** Message schedule: n more words after those in ws. *)
Fixpoint sha1_schedule (n : nat) (ws : list Z) : list Z :=
  match n with
  | O => ws
  | S k => let t := length ws in
           sha1_schedule k (ws ++ [rotl (Z.lxor (Z.lxor (Z.lxor (at_ ws (t - 3)) (at_ ws (t - 8))) (at_ ws (t - 14)))
                                               (at_ ws (t - 16))) 1])
  end.
Definition sha1_W (blk : list Z) : list Z := sha1_schedule 64 (map (sha1_word blk) (seq 0 16)).
Definition sha1_f (t : nat) (x y z : Z) : Z :=
  if Nat.ltb t 20 then Z.lxor (Z.land x y) (Z.land (bnot x) z)
  else if Nat.ltb t 40 then Z.lxor (Z.lxor x y) z
  else if Nat.ltb t 60 then Z.lxor (Z.lxor (Z.land x y) (Z.land x z)) (Z.land y z)
  else Z.lxor (Z.lxor x y) z.
Definition sha1_K (t : nat) : Z :=
  if Nat.ltb t 20 then 0x5a827999 else if Nat.ltb t 40 then 0x6ed9eba1 else if Nat.ltb t 60 then 0x8f1bbcdc else 0xca62c1d6.
Definition sha1_step (W : list Z) (s : Z * Z * Z * Z * Z) (t : nat) : Z * Z * Z * Z * Z :=
  let '(a, b, c, d, e) := s in
  ((rotl a 5 + sha1_f t b c d + e + sha1_K t + at_ W t) mod 2 ^ 32, a, rotl b 30, c, d).
Definition sha1_compress (st blk : list Z) : list Z :=
  let '(a, b, c, d, e) := fold_left (sha1_step (sha1_W blk)) (seq 0 80) (at_ st 0, at_ st 1, at_ st 2, at_ st 3, at_ st 4) in
  [(at_ st 0 + a) mod 2 ^ 32; (at_ st 1 + b) mod 2 ^ 32; (at_ st 2 + c) mod 2 ^ 32; (at_ st 3 + d) mod 2 ^ 32;
   (at_ st 4 + e) mod 2 ^ 32].
Definition sha1_spec (m : list Z) : list Z :=
  let p := padded be64 m in
  flat_map be32 (process sha1_compress (Nat.div (length p) 64)
                   [0x67452301; 0xefcdab89; 0x98badcfe; 0x10325476; 0xc3d2e1f0] p).
