(** Model of include/stdex/chrono.hpp (aosn_date, aosn_timestamp); long and time_t are 64 bits.
    C++ / and % truncate toward zero (Z.quot, Z.rem).  Signed overflow is undefined behaviour. *)
From Verif Require Import Base.

(** An int (32-bit) arithmetic result. *)
Definition ck32 (x : Z) : outcome Z :=
  if (-2147483648 <=? x) && (x <=? 2147483647) then Ret x else UB.
(** A long / int64_t arithmetic result. *)
Definition ck64 (x : Z) : outcome Z :=
  if (-9223372036854775808 <=? x) && (x <=? 9223372036854775807) then Ret x else UB.

(** chrono.hpp:51-54 *)
Definition date_to_time_t (n : Z) : outcome Z :=
  let* p := ck64 (n * 86400) in ck64 (p - 210866803200).
(** chrono.hpp:59-62: the quotient is converted to the 32-bit rep *)
Definition date_from_time_t (t : Z) : outcome Z :=
  let* s := ck64 (t + 210866803200) in Ret (i32 (Z.quot s 86400)).

(** chrono.hpp:148-165; day and month are uint8_t *)
Definition date_from_dmy (day month year : Z) : outcome Z :=
  let* ytmp := (if 2 <? month then Ret year else ck32 (year - 1)) in
  let mtmp := if 2 <? month then month - 3 else month + 9 in
  let ctmp := Z.quot ytmp 100 in
  let dtmp := ytmp - 100 * ctmp in
  let result1 := i32 (Z.quot (146097 * ctmp) 4) in
  let* p2 := ck32 (1461 * dtmp) in
  let result2 := Z.quot p2 4 in
  let result3 := Z.quot (153 * mtmp + 2) 5 in
  let* s1 := ck32 (result1 + day) in
  let* s2 := ck32 (s1 + result2) in
  Ret (i32 (s2 + 1721119 + result3)).

(** chrono.hpp:170-192 *)
Definition date_to_dmy (n : Z) : outcome (Z * Z * Z) :=
  let mtmp := i32 (n - 1721119) in
  let* q := ck32 (4 * mtmp) in
  let* q1 := ck32 (q - 1) in
  let yr := i32 (Z.quot q1 146097) in
  let mtmp := i32 (q1 - 146097 * yr) in
  let da := Z.quot mtmp 4 in
  let mtmp := Z.quot (4 * da + 3) 1461 in
  let da := 4 * da + 3 - 1461 * mtmp in
  let da := Z.quot (da + 4) 4 in
  let mo := Z.quot (5 * da - 3) 153 in
  let da := 5 * da - 3 - 153 * mo in
  let da := Z.quot (da + 5) 5 in
  let* y100 := ck32 (100 * yr) in
  let* yr := ck32 (y100 + mtmp) in
  if mo <? 10 then Ret (u8 da, u8 (mo + 3), yr)
  else let* yr := ck32 (yr + 1) in Ret (u8 da, u8 (mo - 9), yr).

(** chrono.hpp:197-200 *)
Definition day_of_week (n : Z) : Z := u8 (Z.rem n 7).
(** chrono.hpp:205-208 *)
Definition day_of_week_dmy (day month year : Z) : outcome Z :=
  let* n := date_from_dmy day month year in Ret (u8 (Z.rem n 7)).

(** chrono.hpp:222-232 *)
Definition one_second : Z := 1000.
Definition one_minute : Z := 60 * one_second.
Definition one_hour : Z := 60 * one_minute.
Definition one_day : Z := 24 * one_hour.

(** chrono.hpp:253-256 *)
Definition ts_to_time_t (x : Z) : outcome Z := ck64 (Z.quot x one_second - 210866803200).
(** chrono.hpp:261-264 *)
Definition ts_from_time_t (t : Z) : outcome Z :=
  let* s := ck64 (t + 210866803200) in ck64 (s * one_second).
(** chrono.hpp:300-303 *)
Definition ts_from_timespec (sec nsec : Z) : outcome Z :=
  let* m := ts_from_time_t sec in ck64 (m + Z.quot nsec 1000).
(** chrono.hpp:372-375 *)
Definition ts_to_date (x : Z) : Z := i32 (Z.quot x one_day).
(** chrono.hpp:380-383 *)
Definition ts_from_date (n : Z) : outcome Z := ck64 (n * one_day).
(** chrono.hpp:388-395 *)
Definition ts_from_dmy (day month year hour minute second millisecond : Z) : outcome Z :=
  let* n := date_from_dmy day month year in
  let* d := ck64 (n * one_day) in
  ck64 (d + (hour * one_hour + minute * one_minute + second * one_second + millisecond)).
(** chrono.hpp:400-413 *)
Definition ts_to_dmy (x : Z) : outcome (Z * Z * Z * (Z * Z * Z * Z)) :=
  let* dmy := date_to_dmy (ts_to_date x) in
  let u := i32 (Z.rem x one_day) in
  let ms := u16 (Z.rem u 1000) in
  let u := Z.quot u 1000 in
  let sec := u8 (Z.rem u 60) in
  let u := Z.quot u 60 in
  let mi := u8 (Z.rem u 60) in
  let u := Z.quot u 60 in
  Ret (dmy, (u8 u, mi, sec, ms)).

(** chrono.hpp:306-321 (fields of struct tm; tm_yday and tm_isdst are set to 0) *)
Record tm : Type := mktm { tm_sec : Z; tm_min : Z; tm_hour : Z; tm_mday : Z; tm_mon : Z; tm_year : Z; tm_wday : Z }.
Definition ts_to_tm (x : Z) : outcome tm :=
  let* (d, m, y, (h, mi, s, _)) := ts_to_dmy x in
  let* y1900 := ck32 (y - 1900) in
  Ret (mktm s mi h d (m - 1) y1900 (Z.rem (day_of_week (ts_to_date x) + 1) 7)).
