(** Models of include/stdex/math.hpp, interval.hpp and endian.hpp.  size_t is 64 bits. *)
From Verif Require Import Base.

(** math.hpp:26-43 (the GCC branch; __builtin_mul_overflow tells whether the product fits) *)
Definition mul (a b : Z) : outcome Z := if a * b <? M64 then Ret (a * b) else Throw.
(** math.hpp:33-36, 42 (portable branch, written with a division) *)
Definition mul_portable (a b : Z) : outcome Z :=
  if a =? 0 then Ret 0 else if b <=? (M64 - 1) / a then Ret (u64 (a * b)) else Throw.
(** math.hpp:53-68 (GCC branch) *)
Definition add (a b : Z) : outcome Z := if a + b <? M64 then Ret (a + b) else Throw.
(** math.hpp:60-61, 67 (portable branch) *)
Definition add_portable (a b : Z) : outcome Z := if a <=? u64 (M64 - 1 - b) then Ret (u64 (a + b)) else Throw.

(** math.hpp:83; shifting by 32 or more, or by a negative amount, is undefined *)
Definition rol (value bits : Z) : outcome Z :=
  if (0 <? bits) && (bits <? 32) then
    Ret (Z.lor (u32 (Z.shiftl value bits)) (Z.shiftr value (32 - bits)))
  else UB.

(** math.hpp:96-99 *)
Definition muldiv_i32 (n k q : Z) : outcome Z := if q =? 0 then UB else Ret (i32 (Z.quot (n * k) q)).
(** math.hpp:110-113 *)
Definition muldiv_u32 (n k q : Z) : outcome Z := if q =? 0 then UB else Ret (u32 (n * k / q)).
(** math.hpp:124-127: signed overflow is undefined *)
Definition fits_i64 (x : Z) : bool := (- 9223372036854775808 <=? x) && (x <=? 9223372036854775807).
Definition muldiv_i64 (n k q : Z) : outcome Z :=
  if (q =? 0) || negb (fits_i64 (n * k)) || negb (fits_i64 (Z.quot (n * k) q)) then UB else Ret (Z.quot (n * k) q).
(** math.hpp:138-141 *)
Definition muldiv_u64 (n k q : Z) : outcome Z := if q =? 0 then UB else Ret (u64 (n * k) / q).

(** interval.hpp:17-20 with T = size_t *)
Record interval : Type := mkiv { istart : Z; iend : Z }.
(** interval.hpp:25 *)
Definition iv_default : interval := mkiv 1 0.
(** interval.hpp:32 *)
Definition iv_point (x : Z) : interval := mkiv x x.
(** interval.hpp:47 *)
Definition iv_size (i : interval) : Z := if istart i <=? iend i then u64 (iend i - istart i) else 0.
(** interval.hpp:54 *)
Definition iv_empty (i : interval) : bool := istart i >=? iend i.
(** interval.hpp:59-63 *)
Definition iv_invalidate (i : interval) : interval := mkiv 1 0.
(** interval.hpp:70 *)
Definition iv_bool (i : interval) : bool := istart i <=? iend i.
(** interval.hpp:79 *)
Definition iv_contains (i : interval) (x : Z) : bool := (istart i <=? x) && (x <? iend i).
(** interval.hpp:88-91 *)
Definition iv_plus (i o : interval) : interval := mkiv (u64 (istart i + istart o)) (u64 (iend i + iend o)).
(** interval.hpp:100-117 *)
Definition iv_add (i : interval) (x : Z) : interval := mkiv (u64 (istart i + x)) (u64 (iend i + x)).
(** interval.hpp:124-142 *)
Definition iv_incr (i : interval) : interval := mkiv (u64 (istart i + 1)) (u64 (iend i + 1)).
(** interval.hpp:151-154 *)
Definition iv_minus (i o : interval) : interval := mkiv (u64 (istart i - istart o)) (u64 (iend i - iend o)).
(** interval.hpp:163-180 *)
Definition iv_sub (i : interval) (x : Z) : interval := mkiv (u64 (istart i - x)) (u64 (iend i - x)).
(** interval.hpp:187-205 *)
Definition iv_decr (i : interval) : interval := mkiv (u64 (istart i - 1)) (u64 (iend i - 1)).

(** endian.hpp:57-59 (__builtin_bswap16 on GCC computes the same) *)
Definition byteswap16 (v : Z) : Z :=
  let t := u16 (Z.shiftl (Z.land v 255) 8) in Z.lor t (Z.shiftr v 8).
(** endian.hpp:70-74 *)
Definition byteswap32 (v : Z) : Z :=
  let t := u32 (Z.shiftl (Z.land v 255) 24) in
  let t := Z.lor t (u32 (Z.shiftl (Z.land v 65280) 8)) in
  let t := Z.lor t (Z.shiftr (Z.land v 16711680) 8) in
  Z.lor t (Z.shiftr v 24).
(** endian.hpp:85-93 *)
Definition byteswap64 (v : Z) : Z :=
  let t := u64 (Z.shiftl (Z.land v (255 * 2 ^ 0)) 56) in
  let t := Z.lor t (u64 (Z.shiftl (Z.land v (255 * 2 ^ 8)) 40)) in
  let t := Z.lor t (u64 (Z.shiftl (Z.land v (255 * 2 ^ 16)) 24)) in
  let t := Z.lor t (u64 (Z.shiftl (Z.land v (255 * 2 ^ 24)) 8)) in
  let t := Z.lor t (Z.shiftr (Z.land v (255 * 2 ^ 32)) 8) in
  let t := Z.lor t (Z.shiftr (Z.land v (255 * 2 ^ 40)) 24) in
  let t := Z.lor t (Z.shiftr (Z.land v (255 * 2 ^ 48)) 40) in
  Z.lor t (Z.shiftr v 56).
(** endian.hpp:101-103 *)
Definition byteswap_i16 (v : Z) : Z := i16 (byteswap16 (u16 v)).
Definition byteswap_i32 (v : Z) : Z := i32 (byteswap32 (u32 v)).
Definition byteswap_i64 (v : Z) : Z := i64 (byteswap64 (u64 v)).
