(** Model of aosn_timestamp::to_str and to_rfc822 (include/stdex/chrono.hpp:415-486).

    What the C library makes of a format is a parameter of to_str (strftime(3): the text; it needs a cell more for the terminator).
    For the one format of to_rfc822 it is written out, as the C standard says for the "C" locale (7.27.3.5). *)
From Coq Require Ascii String.
From Verif Require Import Base ChronoModel MiscModel.
Delimit Scope string_scope with string.
Import String.StringSyntax.
Definition chars (s : String.string) : list Z := map (fun c => Z.of_nat (Ascii.nat_of_ascii c)) (String.list_ascii_of_string s).
Arguments chars _%string.

(** chrono.hpp:415-446, 448-479; [cells] is 1024 / sizeof of the character.  A longer text is in memory of new[], which is given back
    by delete, as it is when a text does not fit the first time. *)
Definition to_str (cells : nat) (text : list Z) : outcome (list Z) :=
  let '(stack_buffer, n) := c_strftime text cells in
  if (0 <? n)%nat then Ret (firstn n stack_buffer) else UB.

Definition two (z : Z) : list Z := [48 + z / 10; 48 + z mod 10].
(** the decimal digits of a number that is not negative, at most [fuel] of them *)
Fixpoint decimal (fuel : nat) (z : Z) : list Z := match fuel with O => [] | S n => (if z <? 10 then [] else decimal n (z / 10)) ++ [48 + z mod 10] end.
(** %a and %b in the C locale *)
Definition wday_name (w : Z) : list Z := chars (match w with 0 => "Sun" | 1 => "Mon" | 2 => "Tue" | 3 => "Wed" | 4 => "Thu" | 5 => "Fri" | 6 => "Sat" | _ => "?" end).
Definition month_name (m : Z) : list Z := chars (match m with
  0 => "Jan" | 1 => "Feb" | 2 => "Mar" | 3 => "Apr" | 4 => "May" | 5 => "Jun" | 6 => "Jul" | 7 => "Aug" | 8 => "Sep" | 9 => "Oct" | 10 => "Nov" | 11 => "Dec" | _ => "?" end).
(** "%a, %d %b %Y %H:%M:%S GMT" *)
Definition rfc822_format (t : tm) : list Z :=
  wday_name (tm_wday t) ++ chars ", " ++ two (tm_mday t) ++ chars " " ++ month_name (tm_mon t) ++ chars " " ++ decimal 10 (tm_year t + 1900) ++ chars " " ++
  two (tm_hour t) ++ chars ":" ++ two (tm_min t) ++ chars ":" ++ two (tm_sec t) ++ chars " GMT".
(** chrono.hpp:481-485 *)
Definition to_rfc822 (x : Z) : outcome (list Z) := let* t := ts_to_tm x in to_str 1024 (rfc822_format t).
