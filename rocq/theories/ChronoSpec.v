(** Independent specification of the proleptic Gregorian calendar. *)
From Verif Require Import Base.

Definition leap (y : Z) : bool := (y mod 4 =? 0) && (negb (y mod 100 =? 0) || (y mod 400 =? 0)).
Definition month_days (m y : Z) : Z :=
  if m =? 2 then if leap y then 29 else 28
  else if (m =? 4) || (m =? 6) || (m =? 9) || (m =? 11) then 30 else 31.
Definition valid_date (d m y : Z) : Prop := 1 <= m <= 12 /\ 1 <= d <= month_days m y.
(** The day after. *)
Definition next_day (x : Z * Z * Z) : Z * Z * Z :=
  let '(d, m, y) := x in
  if d <? month_days m y then (d + 1, m, y)
  else if m <? 12 then (1, m + 1, y) else (1, 1, y + 1).
(** The era the code supports: from 1 March of year 0 on. *)
Definition after_era (m y : Z) : Prop := 1 <= y \/ (y = 0 /\ 3 <= m).
