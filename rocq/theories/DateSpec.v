(** Specification of times, angles and dates (properties C211-C215), in terms of what the held parsers recognise. *)
From Verif Require Import Base StringModel ParserModel ParserSpec ParserNumModel ParserNumProps ParserPeg DateModel.

(** the number a held parser read (its value, or the place of the unit in a set) *)
Definition o_g (o : option espec) : nat -> nat -> pflags -> list Z := match o with Some p => es_g p | None => fun _ _ _ => [] end.
Definition num (o : option espec) (s e : nat) (fl : pflags) : Z := nth 0 (o_g o s e fl) 0.

Section Spec.
Context (e : nat) (fl : pflags).
(** The member [k], a parser of [o], after the match: it tells what it recognised from [fst] to [snd], or that it took no part. *)
Definition member (o : option espec) (k : pst) (w : option (nat * nat)) : Prop :=
  match w with Some (s, x) => o_f o s e fl = Some x /\ iv k = (s, x) /\ vals k = o_g o s e fl | None => iv k = no_iv end.

(** ** Times.  [hh:mm], [hh:mm:ss], [hh:mm:ss.mmm] *)
Section Time.
Context (H M S_ F Se Fs : option espec).
Definition hm_at (s a b c : nat) : Prop := o_f H s e fl = Some a /\ o_f Se a e fl = Some b /\ o_f M b e fl = Some c /\ num M b e fl < 60.
(** seconds behind [hh:mm], which ends at [c]; the first separator was at [a] *)
Definition sec_at (a c d x : nat) : Prop := o_f Se c e fl = Some d /\ num Se c e fl = num Se a e fl /\ o_f S_ d e fl = Some x /\ num S_ d e fl < 60.
Definition ms_at (x p y : nat) : Prop := o_f Fs x e fl = Some p /\ o_f F p e fl = Some y /\ num F p e fl < 1000.
(** A time from [s] to [y]: where the four parts are *)
Inductive time_at (s : nat) : nat -> nat * nat -> nat * nat -> option (nat * nat) -> option (nat * nat) -> Prop :=
| Hm : forall a b c, hm_at s a b c -> (forall d x, ~ sec_at a c d x) -> time_at s c (s, a) (b, c) None None
| Hms : forall a b c d x, hm_at s a b c -> sec_at a c d x -> (forall p y, ~ ms_at x p y) -> time_at s x (s, a) (b, c) (Some (d, x)) None
| Hmsm : forall a b c d x p y, hm_at s a b c -> sec_at a c d x -> ms_at x p y -> time_at s y (s, a) (b, c) (Some (d, x)) (Some (p, y)).
End Time.

(** ** Angles *)
Section Angle.
Context (D Ds M Ms S_ Ss Dc : option espec).
(** a part from [s] and the separator behind it, up to [y]; or neither *)
Definition unit_at (P Q : option espec) (top : option Z) (s a y : nat) : Prop :=
  o_f P s e fl = Some a /\ match top with Some t => num P s e fl < t | None => True end /\ o_f Q a e fl = Some y.
Inductive step_at (P Q : option espec) (top : option Z) (s : nat) : nat -> option (nat * nat) -> option (nat * nat) -> Prop :=
| There : forall a y, unit_at P Q top s a y -> step_at P Q top s y (Some (s, a)) (Some (a, y))
| Absent : (forall a y, ~ unit_at P Q top s a y) -> step_at P Q top s s None None.
(** seconds, whose sign may be missing *)
Inductive secs_at (s : nat) : nat -> option (nat * nat) -> option (nat * nat) -> Prop :=
| SecSign : forall a y, o_f S_ s e fl = Some a -> num S_ s e fl < 60 -> o_f Ss a e fl = Some y -> secs_at s y (Some (s, a)) (Some (a, y))
| SecBare : forall a, o_f S_ s e fl = Some a -> num S_ s e fl < 60 -> o_f Ss a e fl = None -> secs_at s a (Some (s, a)) None
| SecNone : (forall a, o_f S_ s e fl = Some a -> ~ num S_ s e fl < 60) -> secs_at s s None None.
(** taken up some text *)
Definition some_text (w : option (nat * nat)) : Prop := match w with Some (a, b) => (a < b)%nat | None => False end.
End Angle.

(** ** Dates *)
(** date_format_t: the bit of a format in the mask *)
Definition format_bit (f : dformat) : Z := match f with Dmy => 0 | Mdy => 1 | Ymd => 2 | Ym => 3 | My => 4 | Dm => 5 | Md => 6 end.
Definition allowed (mask : Z) (f : dformat) : Prop := Z.testbit mask (format_bit f) = true.
(** the day exists in the month, in some year *)
Definition month_days (m : Z) : Z := if m =? 2 then 29 else if (m =? 4) || (m =? 6) || (m =? 9) || (m =? 11) then 30 else 31.
Definition month_ok (m : Z) : Prop := 1 <= m <= 12.
Definition day_ok (d m : Z) : Prop := month_ok m /\ 1 <= d <= month_days m.
(** what the parser takes SIZE_MAX for *)
Definition or_first (z : Z) : Z := if z =? 18446744073709551615 then 1 else z.
Section Date.
Context (P : dpart -> option espec) (Se Sp : espec).
(** blanks, all there are, without a line break *)
Definition gap (x y : nat) : Prop := star_is (es_f Sp) x y e (one_line fl).
Definition reading : Type := dpart -> option (nat * nat).
Definition of_part (r : reading) (p : dpart) : Z := match r p with Some (s, _) => num (P p) s e fl | None => 0 end.
(** [p] at [s, a], blanks, a separator at [b], blanks, and [q] at [d, f] *)
Definition pair_at (p q : dpart) (s a b d f : nat) : Prop :=
  exists c, o_f (P p) s e fl = Some a /\ gap a b /\ es_f Se b e fl = Some c /\ gap c d /\ o_f (P q) d e fl = Some f.
(** behind [f] blanks and again the separator that is at [b], which ends at [h] *)
Definition again_at (b f h : nat) : Prop := exists g, gap f g /\ es_f Se g e fl = Some h /\ num (Some Se) g e fl = num (Some Se) b e fl.
Definition three_at (p q r : dpart) (s y : nat) (w : reading) : Prop :=
  exists a b d f h i, pair_at p q s a b d f /\ again_at b f h /\ gap h i /\ o_f (P r) i e fl = Some y /\
    w p = Some (s, a) /\ w q = Some (d, f) /\ w r = Some (i, y) /\ day_ok (or_first (of_part w Day)) (or_first (of_part w Month)).
Definition month_at (p q : dpart) (s y : nat) (w : reading) : Prop :=
  exists a b d, pair_at p q s a b d y /\ w p = Some (s, a) /\ w q = Some (d, y) /\ w Day = None /\ month_ok (or_first (of_part w Month)).
(** a separator behind it, as in "24. 12.", belongs to the date *)
Definition day_at (p q : dpart) (s y : nat) (w : reading) : Prop :=
  exists a b d f, pair_at p q s a b d f /\ w p = Some (s, a) /\ w q = Some (d, f) /\ w Year = None /\ day_ok (or_first (of_part w Day)) (or_first (of_part w Month)) /\
    (again_at b f y \/ (forall h, ~ again_at b f h) /\ y = f).
Definition date_at (f : dformat) : nat -> nat -> reading -> Prop :=
  match f with
  | Dmy => three_at Day Month Year | Mdy => three_at Month Day Year | Ymd => three_at Year Month Day
  | Ym => month_at Year Month | My => month_at Month Year | Dm => day_at Day Month | Md => day_at Month Day
  end.
(** the parts a format has *)
Definition has_part (f : dformat) (p : dpart) : Prop :=
  match f, p with (Ym | My), Day => False | (Dm | Md), Year => False | _, _ => True end.
End Date.
End Spec.
