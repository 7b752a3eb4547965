(** Properties C270-C271: dates as text. *)
From Coq Require Import ZifyBool ZifyNat.
From Coq Require Ascii String.
From Verif Require Import Base ChronoModel ChronoSpec ChronoProofs ChronoProps MiscModel RfcModel.
Import String.StringSyntax.

(** A reader of the dates of RFC 822 (updated by RFC 1123, section 5.2.14), written from the RFC: the day of the week (0 is Sunday) and
    day, month, year, hour, minute, second *)
Definition digit (c : Z) : option Z := if (48 <=? c) && (c <=? 57) then Some (c - 48) else None.
Fixpoint number_of (l : list Z) (acc : Z) : option Z := match l with [] => Some acc | c :: r => match digit c with Some d => number_of r (10 * acc + d) | None => None end end.
Fixpoint index_of (l : list (list Z)) (x : list Z) (i : Z) : option Z :=
  match l with [] => None | y :: r => if list_eq_dec Z.eq_dec x y then Some i else index_of r x (i + 1) end.
Definition days : list (list Z) := map chars ["Sun"; "Mon"; "Tue"; "Wed"; "Thu"; "Fri"; "Sat"]%string.
Definition months : list (list Z) := map chars ["Jan"; "Feb"; "Mar"; "Apr"; "May"; "Jun"; "Jul"; "Aug"; "Sep"; "Oct"; "Nov"; "Dec"]%string.
Definition piece (l : list Z) (p n : nat) : list Z := firstn n (skipn p l).
Definition is_there (l : list Z) (p : nat) (s : list Z) : bool := if list_eq_dec Z.eq_dec (piece l p (length s)) s then true else false.
(** "Www, DD Mon YYYY HH:MM:SS GMT" *)
Definition read_rfc822 (l : list Z) : option (Z * (Z * Z * Z) * (Z * Z * Z)) :=
  if (length l =? 29)%nat && is_there l 3 (chars ", ") && is_there l 7 (chars " ") && is_there l 11 (chars " ") && is_there l 16 (chars " ") && is_there l 19 (chars ":") && is_there l 22 (chars ":") && is_there l 25 (chars " GMT") then
    match index_of days (piece l 0 3) 0, number_of (piece l 5 2) 0, index_of months (piece l 8 3) 1, number_of (piece l 12 4) 0, number_of (piece l 17 2) 0, number_of (piece l 20 2) 0, number_of (piece l 23 2) 0 with
    | Some w, Some d, Some m, Some y, Some h, Some mi, Some s => Some (w, (d, m, y), (h, mi, s))
    | _, _, _, _, _, _, _ => None
    end
  else None.

Lemma digit_ok : forall z, 0 <= z < 10 -> digit (48 + z) = Some z.
Proof. intros z H. unfold digit. replace ((48 <=? 48 + z) && (48 + z <=? 57)) with true by lia. f_equal. lia. Qed.
Lemma two_ok : forall z, 0 <= z < 100 -> number_of (two z) 0 = Some z.
Proof. intros z H. unfold two. cbn [number_of]. rewrite !digit_ok by lia. f_equal. lia. Qed.
Lemma year_digits : forall y, 1000 <= y < 10000 -> decimal 10 y = [48 + y / 1000; 48 + y / 100 mod 10; 48 + y / 10 mod 10; 48 + y mod 10].
Proof.
  intros y H. cbn [decimal]. replace (y <? 10) with false by lia. replace (y / 10 <? 10) with false by lia. replace (y / 10 / 10 <? 10) with false by lia. replace (y / 10 / 10 / 10 <? 10) with true by lia. cbn [app].
  replace (y / 10 / 10 / 10 mod 10) with (y / 1000) by lia. replace (y / 10 / 10 mod 10) with (y / 100 mod 10) by lia. reflexivity.
Qed.
Lemma year_ok : forall y, 1000 <= y < 10000 -> number_of (decimal 10 y) 0 = Some y.
Proof. intros y H. rewrite year_digits by auto. cbn [number_of]. rewrite !digit_ok by lia. f_equal. lia. Qed.
Lemma wday_ok : forall w, 0 <= w < 7 -> index_of days (wday_name w) 0 = Some w /\ length (wday_name w) = 3%nat.
Proof. intros w H. assert (C : w = 0 \/ w = 1 \/ w = 2 \/ w = 3 \/ w = 4 \/ w = 5 \/ w = 6) by lia. repeat destruct C as [->|C]; try (split; vm_compute; reflexivity). subst. split; vm_compute; reflexivity. Qed.
Lemma month_ok : forall m, 1 <= m <= 12 -> index_of months (month_name (m - 1)) 1 = Some m /\ length (month_name (m - 1)) = 3%nat.
Proof.
  intros m H. assert (C : m = 1 \/ m = 2 \/ m = 3 \/ m = 4 \/ m = 5 \/ m = 6 \/ m = 7 \/ m = 8 \/ m = 9 \/ m = 10 \/ m = 11 \/ m = 12) by lia. repeat destruct C as [->|C]; try (split; vm_compute; reflexivity). subst. split; vm_compute; reflexivity.
Qed.
Lemma read_format : forall t, 0 <= tm_wday t < 7 -> 1 <= tm_mday t <= 31 -> 0 <= tm_mon t < 12 -> 1000 <= tm_year t + 1900 < 10000 -> 0 <= tm_hour t < 24 -> 0 <= tm_min t < 60 -> 0 <= tm_sec t < 60 ->
  read_rfc822 (rfc822_format t) = Some (tm_wday t, (tm_mday t, tm_mon t + 1, tm_year t + 1900), (tm_hour t, tm_min t, tm_sec t)).
Proof.
  intros [s mi h d mo y w] W D M Y H Mi S. cbn [tm_sec tm_min tm_hour tm_mday tm_mon tm_year tm_wday] in *. unfold rfc822_format. cbn [tm_sec tm_min tm_hour tm_mday tm_mon tm_year tm_wday].
  destruct (wday_ok w W) as [W1 W2]. destruct (month_ok (mo + 1) ltac:(lia)) as [M1 M2]. replace (mo + 1 - 1) with mo in * by lia. pose proof (two_ok d ltac:(lia)) as D1. pose proof (two_ok h ltac:(lia)) as H1. pose proof (two_ok mi ltac:(lia)) as Mi1. pose proof (two_ok s ltac:(lia)) as S1. pose proof (year_ok _ Y) as Y1.
  rewrite (year_digits _ Y) in *. unfold two in *. destruct (wday_name w) as [|w1 [|w2 [|w3 [|]]]]; cbn [length] in W2; try discriminate. destruct (month_name mo) as [|m1 [|m2 [|m3 [|]]]]; cbn [length] in M2; try discriminate.
  assert (P1 : chars ", " = [44; 32]) by reflexivity. assert (P2 : chars " " = [32]) by reflexivity. assert (P3 : chars ":" = [58]) by reflexivity. assert (P4 : chars " GMT" = [32; 71; 77; 84]) by reflexivity.
  unfold read_rfc822. rewrite P1, P2, P3, P4. unfold is_there, piece. cbn [app length Nat.eqb skipn firstn].
  repeat match goal with |- context [list_eq_dec Z.eq_dec ?a ?a] => destruct (list_eq_dec Z.eq_dec a a) as [_|N]; [|congruence] end. cbn [andb]. rewrite W1, D1, M1, Y1, H1, Mi1, S1. reflexivity.
Qed.
(** C270: the text of a time of the years 1000 to 9999 is a date of RFC 822, which says the day, month, year, hour, minute and second
    and the right day of the week (1 January 1970, day 2440588, was a Thursday) *)
Theorem rfc822_spec : forall d m y h mi s ms, valid_date d m y -> 1000 <= y < 10000 -> valid_time h mi s ms -> exists n x text,
  date_from_dmy d m y = Ret n /\ ts_from_dmy d m y h mi s ms = Ret x /\ to_rfc822 x = Ret text /\
  read_rfc822 text = Some ((4 + (n - 2440588)) mod 7, (d, m, y), (h, mi, s)).
Proof.
  intros d m y h mi s ms Hv Hy Ht. destruct (timestamp_tm d m y h mi s ms Hv ltac:(unfold after_era; lia) ltac:(lia) Ht) as (n & x & t & E1 & E2 & E3 & Ts & Tmi & Th & Td & Tm & Ty & Tw). exists n, x.
  destruct Hv as [Vm Vd]. assert (Vd' : 1 <= d <= 31) by (unfold month_days in Vd; destruct (m =? 2), (leap y), ((m =? 4) || (m =? 6) || (m =? 9) || (m =? 11)); lia). destruct Ht as (H1 & H2 & H3 & H4).
  assert (R : read_rfc822 (rfc822_format t) = Some ((4 + (n - 2440588)) mod 7, (d, m, y), (h, mi, s))).
  { rewrite read_format by (rewrite ?Ts, ?Tmi, ?Th, ?Td, ?Tm, ?Ty, ?Tw; lia). rewrite Ts, Tmi, Th, Td, Tm, Ty, Tw. replace (m - 1 + 1) with m by lia. replace (y - 1900 + 1900) with y by lia. reflexivity. }
  exists (rfc822_format t). split; auto. split; auto. split; auto. unfold to_rfc822. rewrite E3. cbn [obind]. unfold to_str, c_strftime.
  assert (L : length (rfc822_format t) = 29%nat). { unfold read_rfc822 in R. destruct (Nat.eqb_spec (length (rfc822_format t)) 29); auto. cbn [andb] in R. discriminate. }
  rewrite L. change (29 <? 1024)%nat with true. cbv iota. change (0 <? 29)%nat with true. cbv iota. rewrite <- L, firstn_all. reflexivity.
Qed.
(** in other years it is not: the year has not four digits *)
Theorem rfc822_year_refuted : exists x text, ts_from_dmy 1 3 800 0 0 0 0 = Ret x /\ to_rfc822 x = Ret text /\ length text = 28%nat.
Proof. eexists. eexists. split; [vm_compute; reflexivity|]. split; vm_compute; reflexivity. Qed.
(** two times with the same text are in the same second *)
Theorem rfc822_injective : forall d m y h mi s ms d2 m2 y2 h2 mi2 s2 ms2 x x2 text, valid_date d m y -> 1000 <= y < 10000 -> valid_time h mi s ms -> valid_date d2 m2 y2 -> 1000 <= y2 < 10000 -> valid_time h2 mi2 s2 ms2 ->
  ts_from_dmy d m y h mi s ms = Ret x -> ts_from_dmy d2 m2 y2 h2 mi2 s2 ms2 = Ret x2 -> to_rfc822 x = Ret text -> to_rfc822 x2 = Ret text -> x - ms = x2 - ms2.
Proof.
  intros d m y h mi s ms d2 m2 y2 h2 mi2 s2 ms2 x x2 text V Y T V2 Y2 T2 E E2 R R2. destruct (rfc822_spec _ _ _ _ _ _ _ V Y T) as (n & x' & t' & A & B & C & D). destruct (rfc822_spec _ _ _ _ _ _ _ V2 Y2 T2) as (n2 & x2' & t2' & A2 & B2 & C2 & D2).
  assert (x' = x) by congruence. assert (x2' = x2) by congruence. subst. assert (t' = text) by congruence. assert (t2' = text) by congruence. subst. rewrite D in D2. injection D2 as _ -> -> -> -> -> ->.
  unfold ts_from_dmy in E, E2. rewrite A in E, E2. cbn [obind] in *. destruct (ck64 (n * one_day)) as [k| |]; cbn [obind] in *; try discriminate. unfold ck64 in *.
  repeat match goal with H : (if ?b then _ else _) = Ret _ |- _ => destruct b; [|discriminate]; injection H as <- end. lia.
Qed.
(** ** C271, refuted: to_str gives the formatted text, whatever its length.  A text of as many cells as the first buffer has, or an
    empty one, goes through memory that is allocated as an array and not given back as one. *)
Theorem to_str_refuted : forall cells text, text = [] \/ (cells <= length text)%nat -> to_str cells text = UB.
Proof. intros cells text [->|L]; unfold to_str, c_strftime; [destruct cells; reflexivity|]. destruct (Nat.ltb_spec (length text) cells); [lia|]. reflexivity. Qed.
Theorem to_str_partial : forall cells text, text <> [] -> (length text < cells)%nat -> to_str cells text = Ret text.
Proof. intros cells text N L. unfold to_str, c_strftime. replace (length text <? cells)%nat with true by lia. replace (0 <? length text)%nat with true by (destruct text; [congruence|]; cbn; lia). rewrite firstn_all. reflexivity. Qed.
Example rfc822_ex : exists x, ts_from_dmy 6 11 1994 8 49 37 0 = Ret x /\ to_rfc822 x = Ret (chars "Sun, 06 Nov 1994 08:49:37 GMT").
Proof. eexists. split; [vm_compute; reflexivity|]. vm_compute. reflexivity. Qed.
