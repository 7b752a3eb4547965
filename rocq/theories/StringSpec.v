(** Specification vocabulary for the string properties C30-C40.  Nothing here
    refers to the model. *)
From Verif Require Import Base.

(** The string held by a counted buffer: the units before the first zero, at
    most [n] of them; and by a zero-terminated buffer. *)
Fixpoint zstr (n : nat) (s : list Z) {struct n} : list Z :=
  match n, s with
  | S k, c :: r => if c =? 0 then [] else c :: zstr k r
  | _, _ => []
  end.
Definition cz (s : list Z) : list Z := zstr (length s) s.
(** The caller's side of "counted or zero-terminated": either [n] cells can be
    read or there is a terminator among the readable cells. *)
Definition readable (n : nat) (s : list Z) : Prop := (n <= length s)%nat \/ In 0 s.
(** Code units of an unsigned type. *)
Definition unsigned (s : list Z) : Prop := Forall (fun c => 0 <= c) s.

(** Lexicographic comparison of two strings: -1, 0 or 1. *)
Fixpoint lexcmp (a b : list Z) : Z :=
  match a, b with
  | [], [] => 0
  | [], _ :: _ => -1
  | _ :: _, [] => 1
  | x :: a', y :: b' => if x <? y then -1 else if y <? x then 1 else lexcmp a' b'
  end.

(** UTF-16 decoding as the library does it: surrogate pairs combine, a lone
    surrogate stands for itself. *)
Definition high (c : Z) : Prop := 55296 <= c <= 56319.
Definition low (c : Z) : Prop := 56320 <= c <= 57343.
Fixpoint decode16 (s : list Z) : list Z :=
  match s with
  | [] => []
  | a :: r => match r with
              | b :: r' => if (55296 <=? a) && (a <=? 56319) && (56320 <=? b) && (b <=? 57343)
                           then 65536 + (a - 55296) * 1024 + (b - 56320) :: decode16 r'
                           else a :: decode16 r
              | [] => [a]
              end
  end.

(** [k] is the least (greatest) position satisfying [P] below [n]. *)
Definition least_pos (P : nat -> Prop) (r : option nat) : Prop :=
  match r with
  | Some k => P k /\ forall j, (j < k)%nat -> ~ P j
  | None => forall j, ~ P j
  end.
Definition greatest_pos (P : nat -> Prop) (r : option nat) : Prop :=
  match r with
  | Some k => P k /\ forall j, (k < j)%nat -> ~ P j
  | None => forall j, ~ P j
  end.
(** the unit at position [k] of a string is [c] up to [f] *)
Definition unit_at (f : Z -> Z) (t : list Z) (c : Z) (k : nat) : Prop := nth_error (map f t) k = Some (f c).
(** the needle occurs at offset [k] up to [f] *)
Definition occurs_at (f : Z -> Z) (t needle : list Z) (k : nat) : Prop :=
  exists pre post, t = pre ++ post /\ length pre = k /\
    exists mid rest, post = mid ++ rest /\ map f mid = map f needle.

(** Line ends: every CR LF becomes LF. *)
Fixpoint nl (s : list Z) : list Z :=
  match s with
  | [] => []
  | c :: r => match r with
              | d :: r' => if (c =? 13) && (d =? 10) then 10 :: nl r' else c :: nl r
              | [] => [c]
              end
  end.

(** Numerals: sign, optional prefix and digits of a given radix. *)
Definition white (c : Z) : bool := (c =? 32) || ((9 <=? c) && (c <=? 13)).
Definition digit_value (c : Z) : Z :=
  if (48 <=? c) && (c <=? 57) then c - 48
  else if (65 <=? c) && (c <=? 90) then c - 55
  else if (97 <=? c) && (c <=? 122) then c - 87
  else 99.
Fixpoint take_while (p : Z -> bool) (l : list Z) : list Z :=
  match l with [] => [] | c :: r => if p c then c :: take_while p r else [] end.
Fixpoint drop_while (p : Z -> bool) (l : list Z) : list Z :=
  match l with [] => [] | c :: r => if p c then drop_while p r else l end.
Definition numeral_value (radix : Z) (ds : list Z) : Z :=
  fold_left (fun v c => v * radix + digit_value c) ds 0.
Record numeral := Numeral { negative : bool; radix_of : Z; digits_of : list Z; consumed : nat }.
(** Reading of a numeral at the start of a string: white space, a sign, the
    radix prefix, then as many digits as possible. *)
Definition read_numeral (radix : Z) (t : list Z) : numeral :=
  let w := take_while white t in
  let t1 := drop_while white t in
  let '(neg, s, t2) := match t1 with
                       | c :: r => if c =? 43 then (false, 1%nat, r) else if c =? 45 then (true, 1%nat, r) else (false, 0%nat, t1)
                       | [] => (false, 0%nat, [])
                       end in
  let '(rx, p, t3) :=
    if (radix =? 16) then match t2 with
                          | z :: x :: r => if (z =? 48) && ((x =? 120) || (x =? 88)) then (16, 2%nat, r) else (16, 0%nat, t2)
                          | _ => (16, 0%nat, t2)
                          end
    else if radix =? 0 then match t2 with
                            | z :: r => if z =? 48 then match r with
                                                        | x :: r' => if (x =? 120) || (x =? 88) then (16, 2%nat, r') else (8, 1%nat, r)
                                                        | [] => (8, 1%nat, [])
                                                        end
                                        else (10, 0%nat, t2)
                            | [] => (10, 0%nat, [])
                            end
    else (radix, 0%nat, t2) in
  let ds := take_while (fun c => digit_value c <? rx) t3 in
  Numeral neg rx ds (length w + s + p + length ds).

(** Combining marks. *)
Definition combining (c : Z) : Prop :=
  768 <= c <= 879 \/ 7616 <= c <= 7679 \/ 8400 <= c <= 8447 \/ 65056 <= c <= 65071.
