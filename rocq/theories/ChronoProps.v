(** Final theorems about include/stdex/chrono.hpp: properties C21-C24. *)
From Verif Require Import Base ChronoModel ChronoSpec ChronoProofs.
From Coq Require Import ZifyBool.
Ltac Zify.zify_post_hook ::= Z.div_mod_to_equations.

(** C21.  Calendar date -> day number -> calendar date. *)
Theorem date_round_trip : forall d m y, valid_date d m y -> after_era m y -> y <= 1460000 ->
  exists n, date_from_dmy d m y = Ret n /\ date_to_dmy n = Ret (d, m, y).
Proof.
  intros d m y Hv He Hy. exists (number d m y). split; [apply from_dmy_number; auto; lia|apply to_dmy_number; auto].
Qed.
(** Day number -> calendar date -> day number; the calendar date is a valid one. *)
Theorem day_number_round_trip : forall n, 1721120 <= n <= 532900000 ->
  exists d m y, date_to_dmy n = Ret (d, m, y) /\ valid_date d m y /\ date_from_dmy d m y = Ret n.
Proof.
  intros n Hn. destruct (number_onto n ltac:(lia)) as (d & m & y & Hv & He & E). exists d, m, y.
  pose proof (number_lower d m y Hv He). rewrite <- E.
  split; [apply to_dmy_number; auto; lia|]. split; [exact Hv|]. apply from_dmy_number; auto; lia.
Qed.
(** Successive days are successive calendar days, and 1 January 1970 is day 2440588: this determines both
    functions. *)
Theorem date_successor : forall d m y, valid_date d m y -> after_era m y -> y < 1460000 ->
  exists n, date_from_dmy d m y = Ret n /\ date_to_dmy (n + 1) = Ret (next_day (d, m, y)).
Proof.
  intros d m y Hv He Hy. exists (number d m y). split; [apply from_dmy_number; auto; lia|].
  pose proof (next_valid d m y Hv) as V. pose proof (next_number d m y Hv He) as N.
  assert (Y : let '(_, _, y') := next_day (d, m, y) in y' <= 1460000) by (unfold next_day; dif; lia).
  destruct (next_day (d, m, y)) as [[d' m'] y']. destruct N as [N1 N2]. rewrite <- N1. apply to_dmy_number; auto.
Qed.
Theorem date_anchor : date_from_dmy 1 1 1970 = Ret 2440588.
Proof. reflexivity. Qed.
(** Before 1 March of year 0 the property fails: two consecutive calendar days share a number. *)
Theorem date_before_era_refuted : valid_date 29 2 0 /\ next_day (29, 2, 0) = (1, 3, 0) /\
  date_from_dmy 29 2 0 = date_from_dmy 1 3 0.
Proof. repeat split; vm_compute; try discriminate. Qed.
Example date_ex : valid_date 29 2 2000 /\ after_era 2 2000 /\ date_from_dmy 29 2 2000 = Ret 2451604 /\
  next_day (29, 2, 2000) = (1, 3, 2000) /\ next_day (28, 2, 1900) = (1, 3, 1900).
Proof. repeat split; try (vm_compute; discriminate). left; lia. Qed.

(** C22.  Day 0 is a Monday. *)
Theorem day_of_week_spec_partial : forall n, 0 <= n -> day_of_week n = n mod 7 /\ day_of_week (n + 1) = (day_of_week n + 1) mod 7.
Proof.
  intros n Hn. unfold day_of_week. rewrite !Z.rem_mod_nonneg by lia. rewrite !u8_small by lia. split; [reflexivity|]. lia.
Qed.
Theorem day_of_week_anchor : day_of_week_dmy 1 1 2024 = Ret 0.   (* 1 January 2024 was a Monday *)
Proof. reflexivity. Qed.
(** For negative day numbers the property fails. *)
Theorem day_of_week_refuted : day_of_week (-1) = 255 /\ day_of_week 0 = 0.
Proof. split; reflexivity. Qed.
Theorem day_of_week_dmy_agrees : forall d m y n, date_from_dmy d m y = Ret n -> day_of_week_dmy d m y = Ret (day_of_week n).
Proof. intros d m y n H. unfold day_of_week_dmy. rewrite H. reflexivity. Qed.

(** C23 *)
Theorem time_t_round_trip : forall t, -210866803200 <= t <= 9000000000000000 ->
  exists x, ts_from_time_t t = Ret x /\ ts_to_time_t x = Ret t.
Proof.
  intros t Ht. exists ((t + 210866803200) * 1000). unfold ts_from_time_t, ts_to_time_t, one_second.
  split; [rewrite ck64_ok by lia; cbn [obind]; rewrite ck64_ok by lia; reflexivity|].
  rewrite Z.quot_mul by lia. rewrite ck64_ok by lia. f_equal. lia.
Qed.
Theorem timestamp_time_t_floor : forall x, 0 <= x < 2 ^ 63 -> exists t, ts_to_time_t x = Ret t /\
  t = x / 1000 - 210866803200 /\ exists x', ts_from_time_t t = Ret x' /\ x' = x - x mod 1000.
Proof.
  intros x Hx. change (2 ^ 63) with 9223372036854775808 in Hx. exists (x / 1000 - 210866803200). unfold ts_to_time_t, one_second.
  rewrite Z.quot_div_nonneg by lia. rewrite ck64_ok by lia. split; [reflexivity|]. split; [reflexivity|].
  exists (x - x mod 1000). split; [|reflexivity]. unfold ts_from_time_t, one_second. rewrite ck64_ok by lia. cbn [obind]. rewrite ck64_ok by lia.
  f_equal. lia.
Qed.
Theorem date_time_t : forall n, 0 <= n < 2 ^ 31 ->
  exists t, date_to_time_t n = Ret t /\ t = 86400 * (n - 2440588) /\
    forall s, 0 <= s < 86400 -> date_from_time_t (t + s) = Ret n.
Proof.
  intros n Hn. change (2 ^ 31) with 2147483648 in Hn. exists (n * 86400 - 210866803200). unfold date_to_time_t. rewrite ck64_ok by lia.
  cbn [obind]. rewrite ck64_ok by lia. split; [reflexivity|]. split; [lia|]. intros s Hs. unfold date_from_time_t. rewrite ck64_ok by lia.
  cbn [obind]. rewrite Z.quot_div_nonneg by lia. rewrite i32_ok by lia. f_equal. lia.
Qed.
Theorem timestamp_date : forall n k, 0 <= n < 2 ^ 31 -> 0 <= k < 86400000 ->
  exists x, ts_from_date n = Ret x /\ ts_to_date (x + k) = n.
Proof.
  intros n k Hn Hk. change (2 ^ 31) with 2147483648 in Hn. exists (n * one_day). unfold ts_from_date, ts_to_date.
  change one_day with 86400000. rewrite ck64_ok by lia. split; [reflexivity|]. rewrite Z.quot_div_nonneg by lia. rewrite i32_ok by lia. lia.
Qed.

Definition valid_time (h mi s ms : Z) : Prop := 0 <= h < 24 /\ 0 <= mi < 60 /\ 0 <= s < 60 /\ 0 <= ms < 1000.
Lemma number_pos : forall d m y, valid_date d m y -> after_era m y -> y <= 1460000 -> 1721120 <= number d m y <= 535200000.
Proof.
  intros d m y Hv He Hy. destruct (valid_bounds _ _ _ Hv) as [Hm Hd].
  pose proof (my_nonneg m y He) as H0. pose proof (my_le m y) as H1. pose proof (mm_range m Hm) as H2.
  unfold number. set (Y := my m y) in *. clearbody Y. set (M := mm m) in *. clearbody M. lia.
Qed.
Theorem timestamp_round_trip : forall d m y h mi s ms,
  valid_date d m y -> after_era m y -> y <= 1455000 -> valid_time h mi s ms ->
  exists x, ts_from_dmy d m y h mi s ms = Ret x /\ ts_to_dmy x = Ret ((d, m, y), (h, mi, s, ms)).
Proof.
  intros d m y h mi s ms Hv He Hy (Hh & Hmi & Hs & Hms).
  pose proof (number_pos d m y Hv He ltac:(lia)) as P.
  exists (number d m y * 86400000 + (h * 3600000 + mi * 60000 + s * 1000 + ms)).
  unfold ts_from_dmy. rewrite (from_dmy_number d m y Hv He ltac:(lia)). cbn [obind].
  change one_day with 86400000. change one_hour with 3600000. change one_minute with 60000. change one_second with 1000.
  rewrite ck64_ok by lia. cbn [obind]. rewrite ck64_ok by lia. split; [reflexivity|].
  unfold ts_to_dmy, ts_to_date. change one_day with 86400000.
  set (N := number d m y) in *. assert (EN : N = number d m y) by reflexivity. clearbody N.
  set (u := h * 3600000 + mi * 60000 + s * 1000 + ms). assert (Hu : 0 <= u < 86400000) by (unfold u; lia).
  rewrite Z.quot_div_nonneg by lia. replace ((N * 86400000 + u) / 86400000) with N by (clearbody u; lia).
  rewrite i32_ok by lia. rewrite EN, to_dmy_number by (auto; lia). cbn [obind]. rewrite <- EN.
  rewrite Z.rem_mod_nonneg by lia. replace ((N * 86400000 + u) mod 86400000) with u by (clearbody u; lia).
  rewrite i32_ok by lia.
  rewrite (Z.rem_mod_nonneg u 1000) by lia. rewrite (Z.quot_div_nonneg u 1000) by lia.
  replace (u mod 1000) with ms by (unfold u; lia). replace (u / 1000) with (h * 3600 + mi * 60 + s) by (unfold u; lia).
  rewrite (Z.rem_mod_nonneg (h * 3600 + mi * 60 + s) 60) by lia. rewrite (Z.quot_div_nonneg (h * 3600 + mi * 60 + s) 60) by lia.
  replace ((h * 3600 + mi * 60 + s) mod 60) with s by lia. replace ((h * 3600 + mi * 60 + s) / 60) with (h * 60 + mi) by lia.
  rewrite (Z.rem_mod_nonneg (h * 60 + mi) 60) by lia. rewrite (Z.quot_div_nonneg (h * 60 + mi) 60) by lia.
  replace ((h * 60 + mi) mod 60) with mi by lia. replace ((h * 60 + mi) / 60) with h by lia.
  rewrite u16_small, !u8_small by lia. reflexivity.
Qed.
Example timestamp_ex : exists x, ts_from_dmy 29 2 2000 23 59 58 999 = Ret x /\ ts_to_dmy x = Ret ((29, 2, 2000), (23, 59, 58, 999)).
Proof. eexists. split; reflexivity. Qed.
(** struct tm: month counts from 0, year from 1900, and tm_wday counts from Sunday (1 January 1970 was a Thursday). *)
Theorem timestamp_tm : forall d m y h mi s ms,
  valid_date d m y -> after_era m y -> y <= 1455000 -> valid_time h mi s ms ->
  exists n x t, date_from_dmy d m y = Ret n /\ ts_from_dmy d m y h mi s ms = Ret x /\ ts_to_tm x = Ret t /\
    tm_sec t = s /\ tm_min t = mi /\ tm_hour t = h /\ tm_mday t = d /\ tm_mon t = m - 1 /\ tm_year t = y - 1900 /\
    tm_wday t = (4 + (n - 2440588)) mod 7.
Proof.
  intros d m y h mi s ms Hv He Hy Ht. pose proof (number_pos d m y Hv He ltac:(lia)) as P.
  destruct (timestamp_round_trip d m y h mi s ms Hv He Hy Ht) as (x & E1 & E2).
  assert (Ex : x = number d m y * 86400000 + (h * 3600000 + mi * 60000 + s * 1000 + ms)).
  { unfold ts_from_dmy in E1. rewrite (from_dmy_number d m y Hv He ltac:(lia)) in E1. cbn [obind] in E1.
    change one_day with 86400000 in E1. change one_hour with 3600000 in E1. change one_minute with 60000 in E1. change one_second with 1000 in E1.
    destruct Ht as (H1 & H2 & H3 & H4).
    rewrite ck64_ok in E1 by lia. cbn [obind] in E1. rewrite ck64_ok in E1 by lia. congruence. }
  assert (Ed : ts_to_date x = number d m y).
  { unfold ts_to_date. change one_day with 86400000. destruct Ht as (H1 & H2 & H3 & H4). set (N := number d m y) in *. clearbody N. subst x. rewrite Z.quot_div_nonneg by lia.
    rewrite i32_ok by lia. lia. }
  exists (number d m y), x. eexists. split; [apply from_dmy_number; auto; lia|]. split; [exact E1|].
  unfold ts_to_tm. rewrite E2, Ed. cbn [obind].
  assert (0 <= y) by (unfold after_era in He; lia).
  rewrite ck32_ok by lia. cbn [obind]. split; [reflexivity|]. cbn [tm_sec tm_min tm_hour tm_mday tm_mon tm_year tm_wday].
  repeat (split; [reflexivity|]). set (N := number d m y) in *. clearbody N. unfold day_of_week.
  rewrite (Z.rem_mod_nonneg N 7) by lia. rewrite u8_small by lia. rewrite Z.rem_mod_nonneg by lia. lia.
Qed.

(** C24.  The nanoseconds are divided by 1000, not by 1000000. *)
Theorem timespec_refuted : exists sec nsec, 0 <= nsec < 1000000000 /\
  ts_from_timespec sec nsec <> Ret ((sec + 210866803200) * 1000 + nsec / 1000000).
Proof. exists 0, 500000000. split; [lia|]. vm_compute. intros E. discriminate E. Qed.
Theorem timespec_partial : forall sec nsec, -210866803200 <= sec <= 9000000000000000 -> 0 <= nsec < 1000 ->
  ts_from_timespec sec nsec = Ret ((sec + 210866803200) * 1000 + nsec / 1000000).
Proof.
  intros sec nsec Hs Hn. unfold ts_from_timespec, ts_from_time_t, one_second. rewrite ck64_ok by lia. cbn [obind]. rewrite ck64_ok by lia. cbn [obind].
  rewrite Z.quot_div_nonneg by lia. rewrite ck64_ok by lia. f_equal. lia.
Qed.

Print Assumptions date_round_trip.
Print Assumptions day_number_round_trip.
Print Assumptions date_successor.
Print Assumptions timestamp_round_trip.
Print Assumptions timestamp_tm.
Print Assumptions date_time_t.
