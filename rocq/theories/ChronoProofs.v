(** Lemmas about the date arithmetic. *)
From Verif Require Import Base ChronoModel ChronoSpec.
From Coq Require Import ZifyBool.
Ltac Zify.zify_post_hook ::= Z.div_mod_to_equations.

(** Year starting in March: years since 1 March 0, months since March. *)
Definition my (m y : Z) : Z := if 2 <? m then y else y - 1.
Definition mm (m : Z) : Z := if 2 <? m then m - 3 else m + 9.
Definition number (d m y : Z) : Z :=
  1721119 + 146097 * (my m y / 100) / 4 + 1461 * (my m y mod 100) / 4 + (153 * mm m + 2) / 5 + d.

Lemma ck32_ok : forall x, -2147483648 <= x <= 2147483647 -> ck32 x = Ret x.
Proof. intros x H. unfold ck32. destruct (Z.leb_spec (-2147483648) x); [|lia]. destruct (Z.leb_spec x 2147483647); [reflexivity|lia]. Qed.
Lemma ck64_ok : forall x, -9223372036854775808 <= x <= 9223372036854775807 -> ck64 x = Ret x.
Proof. intros x H. unfold ck64. destruct (Z.leb_spec (-9223372036854775808) x); [|lia]. destruct (Z.leb_spec x 9223372036854775807); [reflexivity|lia]. Qed.
Lemma i32_ok : forall x, -2147483648 <= x <= 2147483647 -> i32 x = x.
Proof. intros x H. unfold i32. rewrite Z.mod_small by lia. lia. Qed.

Lemma valid_bounds : forall d m y, valid_date d m y -> 1 <= m <= 12 /\ 1 <= d <= 31.
Proof. intros d m y [H1 H2]. unfold month_days in H2. split; [lia|]. revert H2. dif; lia. Qed.
Lemma my_nonneg : forall m y, after_era m y -> 0 <= my m y.
Proof. intros m y H. unfold my. destruct H; dif; lia. Qed.
Lemma my_le : forall m y, y - 1 <= my m y <= y.
Proof. intros m y. unfold my. dif; lia. Qed.
Lemma mm_range : forall m, 1 <= m <= 12 -> 0 <= mm m <= 11.
Proof. intros m H. unfold mm. dif; lia. Qed.

Lemma from_dmy_number : forall d m y, valid_date d m y -> after_era m y -> y <= 5000000 ->
  date_from_dmy d m y = Ret (number d m y).
Proof.
  intros d m y Hv He Hy. destruct (valid_bounds _ _ _ Hv) as [Hm Hd].
  pose proof (my_nonneg m y He) as H0. pose proof (my_le m y) as H1. pose proof (mm_range m Hm) as H2.
  unfold date_from_dmy.
  assert (E : (if 2 <? m then Ret y else ck32 (y - 1)) = Ret (my m y)).
  { unfold my in *. destruct (2 <? m); [reflexivity|apply ck32_ok; lia]. }
  rewrite E. cbn [obind]. clear E. fold (mm m). unfold number.
  set (Y := my m y) in *. set (M := mm m) in *. clearbody Y M.
  rewrite (Z.quot_div_nonneg Y 100) by lia.
  assert (Hmod : Y - 100 * (Y / 100) = Y mod 100) by lia. rewrite Hmod.
  assert (0 <= Y / 100 <= 50000) by lia. assert (0 <= Y mod 100 < 100) by lia.
  set (c := Y / 100) in *. set (e := Y mod 100) in *. clearbody c e.
  rewrite (Z.quot_div_nonneg (146097 * c) 4) by lia.
  rewrite (ck32_ok (1461 * e)) by lia. cbn [obind]. rewrite (Z.quot_div_nonneg (1461 * e) 4) by lia.
  rewrite (Z.quot_div_nonneg (153 * M + 2) 5) by lia.
  assert (0 <= 146097 * c / 4 <= 1826212500) by lia. assert (0 <= 1461 * e / 4 <= 36525) by lia.
  assert (0 <= (153 * M + 2) / 5 <= 337) by lia.
  rewrite (i32_ok (146097 * c / 4)) by lia. rewrite ck32_ok by lia. cbn [obind]. rewrite ck32_ok by lia. cbn [obind].
  rewrite i32_ok by lia. f_equal. lia.
Qed.

(* day of the March year *)
Definition year_day (m d : Z) : Z := (153 * mm m + 2) / 5 + d - 1.

Lemma leap_march : forall y, leap y = true -> y mod 4 = 0 /\ (y mod 100 <> 0 \/ y mod 400 = 0).
Proof. intros y. unfold leap. intros H. lia. Qed.

Lemma year_day_range : forall d m y, valid_date d m y ->
  0 <= year_day m d <= 365 /\ (year_day m d = 365 -> m = 2 /\ leap y = true).
Proof.
  intros d m y [Hm Hd]. unfold year_day, mm. unfold month_days in Hd.
  assert (Hc : m = 1 \/ m = 2 \/ m = 3 \/ m = 4 \/ m = 5 \/ m = 6 \/ m = 7 \/ m = 8 \/ m = 9 \/ m = 10 \/ m = 11 \/ m = 12) by lia.
  repeat (destruct Hc as [Hc|Hc]); subst m; revert Hd; ceq; cbn [orb]; intros Hd.
  2: { destruct (leap y); split; try lia; intros; split; auto; lia. }
  all: split; [lia|intros; exfalso; lia].
Qed.

Lemma month_of_year_day : forall d m y, valid_date d m y ->
  (5 * (year_day m d + 1) - 3) / 153 = mm m /\ (5 * (year_day m d + 1) - 3 - 153 * mm m + 5) / 5 = d.
Proof.
  intros d m y [Hm Hd]. unfold year_day, mm. unfold month_days in Hd.
  assert (Hc : m = 1 \/ m = 2 \/ m = 3 \/ m = 4 \/ m = 5 \/ m = 6 \/ m = 7 \/ m = 8 \/ m = 9 \/ m = 10 \/ m = 11 \/ m = 12) by lia.
  repeat (destruct Hc as [Hc|Hc]); subst m; revert Hd; ceq; cbn [orb]; intros Hd.
  2: { destruct (leap y); split; lia. }
  all: split; lia.
Qed.

Lemma to_dmy_number : forall d m y, valid_date d m y -> after_era m y -> y <= 1460000 ->
  date_to_dmy (number d m y) = Ret (d, m, y).
Proof.
  intros d m y Hv He Hy. destruct (valid_bounds _ _ _ Hv) as [Hm Hd].
  pose proof (my_nonneg m y He) as H0. pose proof (my_le m y) as H1. pose proof (mm_range m Hm) as H2.
  destruct (year_day_range d m y Hv) as [R1 R2]. destruct (month_of_year_day d m y Hv) as [Mo Da].
  unfold date_to_dmy.
  assert (EN : number d m y - 1721119 = 146097 * (my m y / 100) / 4 + 1461 * (my m y mod 100) / 4 + year_day m d + 1)
    by (unfold number, year_day; lia).
  rewrite EN. clear EN.
  assert (HL : year_day m d = 365 -> (my m y + 1) mod 4 = 0 /\ ((my m y + 1) mod 100 <> 0 \/ (my m y + 1) mod 400 = 0)).
  { intros E. destruct (R2 E) as [-> L]. apply leap_march in L. unfold my. ceq. replace (y - 1 + 1) with y by lia. exact L. }
  clear R2.
  assert (Hc : 0 <= my m y / 100 <= 14600) by lia. assert (He' : 0 <= my m y mod 100 < 100) by lia.
  assert (EY : my m y = 100 * (my m y / 100) + my m y mod 100) by lia.
  set (c := my m y / 100) in *. set (e := my m y mod 100) in *. set (q := year_day m d) in *.
  assert (HLe : q = 365 -> e mod 4 = 3) by (intros E; specialize (HL E); clearbody c e q; lia).
  assert (HLc : q = 365 -> e = 99 -> c mod 4 = 3) by (intros E E2; specialize (HL E); clearbody c e q; lia).
  clear HL.
  (* century *)
  assert (B1 : 0 <= 146097 * c / 4 <= 533254050) by (clearbody c; lia).
  assert (B2 : 0 <= 1461 * e / 4 <= 36159) by (clearbody e; lia).
  rewrite i32_ok by (clearbody c e q; lia).
  rewrite ck32_ok by (clearbody c e q; lia). cbn [obind]. rewrite ck32_ok by (clearbody c e q; lia). cbn [obind].
  set (r := 1461 * e / 4 + q + 1) in *.
  assert (Hr : 1 <= r <= 36525 /\ (r = 36525 -> c mod 4 = 3)).
  { unfold r. split; [clearbody c e q; lia|]. intros E. apply HLc; clearbody c e q; lia. }
  replace (146097 * c / 4 + 1461 * e / 4 + q + 1) with (146097 * c / 4 + r) by (unfold r; lia).
  rewrite (Z.quot_div_nonneg _ 146097) by (clearbody c r; lia).
  replace ((4 * (146097 * c / 4 + r) - 1) / 146097) with c by (clearbody c r; lia).
  rewrite (i32_ok c) by lia.
  rewrite i32_ok by (clearbody c r; lia).
  rewrite (Z.quot_div_nonneg _ 4) by (clearbody c r; lia).
  replace ((4 * (146097 * c / 4 + r) - 1 - 146097 * c) / 4) with (r - 1) by (clearbody c r; lia).
  (* year *)
  replace (r - 1) with (1461 * e / 4 + q) by (unfold r; lia).
  rewrite (Z.quot_div_nonneg _ 1461) by (clearbody e q; lia).
  replace ((4 * (1461 * e / 4 + q) + 3) / 1461) with e by (clearbody e q; lia).
  rewrite (Z.quot_div_nonneg _ 4) by (clearbody e q; lia).
  replace ((4 * (1461 * e / 4 + q) + 3 - 1461 * e + 4) / 4) with (q + 1) by (clearbody e q; lia).
  (* month and day *)
  rewrite (Z.quot_div_nonneg _ 153) by (clearbody q; lia). rewrite Mo.
  rewrite (Z.quot_div_nonneg _ 5) by (clearbody q; lia). rewrite Da.
  rewrite ck32_ok by (clearbody c; lia). cbn [obind]. rewrite ck32_ok by (clearbody c e; lia). cbn [obind].
  rewrite <- EY. unfold mm, my in *. clearbody c e q r. destruct (Z.ltb_spec 2 m) as [L|L].
  - replace (m - 3 <? 10) with true by lia. replace (m - 3 + 3) with m by lia. rewrite !u8_small by lia. reflexivity.
  - replace (m + 9 <? 10) with false by lia. replace (m + 9 - 9) with m by lia. rewrite !u8_small by lia.
    rewrite ck32_ok by lia. cbn [obind]. replace (y - 1 + 1) with y by lia. reflexivity.
Qed.

(* next_day increments the number *)
Lemma next_valid : forall d m y, valid_date d m y -> let '(d', m', y') := next_day (d, m, y) in valid_date d' m' y'.
Proof.
  intros d m y [Hm Hd]. unfold next_day. destruct (Z.ltb_spec d (month_days m y)) as [L|L]; [split; lia|].
  assert (P : forall m y, 28 <= month_days m y) by (intros; unfold month_days; dif; lia).
  destruct (Z.ltb_spec m 12) as [L2|L2]; split; try lia; [specialize (P (m + 1) y)|specialize (P 1 (y + 1))]; lia.
Qed.

Lemma next_number : forall d m y, valid_date d m y -> after_era m y ->
  let '(d', m', y') := next_day (d, m, y) in number d' m' y' = number d m y + 1 /\ after_era m' y'.
Proof.
  intros d m y [Hm Hd] He. unfold next_day. destruct (Z.ltb_spec d (month_days m y)) as [L|L].
  - split; [unfold number; lia|exact He].
  - assert (E : d = month_days m y) by lia. subst d. clear L Hd.
    assert (Hc : m = 2 \/ m = 1 \/ m = 3 \/ m = 4 \/ m = 5 \/ m = 6 \/ m = 7 \/ m = 8 \/ m = 9 \/ m = 10 \/ m = 11 \/ m = 12) by lia.
    repeat (destruct Hc as [Hc|Hc]); subst m; ceq; (split; [|unfold after_era in *; lia]);
      unfold number, month_days, my, mm; ceq; cbn [orb]; try lia.
    + assert (0 <= y - 1) by (unfold after_era in He; lia). unfold leap.
      destruct (Z.eqb_spec (y mod 4) 0); destruct (Z.eqb_spec (y mod 100) 0); destruct (Z.eqb_spec (y mod 400) 0); cbn [andb orb negb]; lia.
Qed.

Lemma number_lower : forall d m y, valid_date d m y -> after_era m y -> 1721119 + 365 * (y - 1) < number d m y.
Proof.
  intros d m y Hv He. destruct (valid_bounds _ _ _ Hv) as [Hm Hd].
  pose proof (my_nonneg m y He) as H0. pose proof (my_le m y) as H1. pose proof (mm_range m Hm) as H2.
  unfold number. set (Y := my m y) in *. clearbody Y. set (M := mm m) in *. clearbody M. lia.
Qed.

Lemma number_onto : forall n, 1721120 <= n -> exists d m y, valid_date d m y /\ after_era m y /\ number d m y = n.
Proof.
  intros n Hn.
  assert (A : forall k, 0 <= k -> exists d m y, valid_date d m y /\ after_era m y /\ number d m y = 1721120 + k).
  { apply natlike_ind.
    - exists 1, 3, 0. split; [split; vm_compute; split; discriminate|]. split; [right; lia|reflexivity].
    - intros k Hk (d & m & y & Hv & He & E). pose proof (next_valid d m y Hv) as V. pose proof (next_number d m y Hv He) as N.
      destruct (next_day (d, m, y)) as [[d' m'] y']. destruct N as [N1 N2]. exists d', m', y'. split; [exact V|]. split; [exact N2|]. lia. }
  destruct (A (n - 1721120) ltac:(lia)) as (d & m & y & Hv & He & E). exists d, m, y. split; [exact Hv|]. split; [exact He|]. lia.
Qed.
