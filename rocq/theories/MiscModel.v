(** Model of further functions: string.hpp strcpy from UTF-16 to UTF-32 (1647-1660), strcoll (1340-1350), strncoll (1364-1395), strtod
    (2584-2631), strcatftime and strftime (2832-2885); memory.hpp ref_unique_ptr (151-290). *)
From Verif Require Import Base StringModel.

(** string.hpp:1647-1660; [src] is src + i; i goes on by two behind a pair *)
Fixpoint strcpy_16_32_loop (d src : list Z) (j : nat) {struct src} : outcome (list Z * nat) :=
  match src with
  | [] => UB
  | a :: r =>
      if is_high_surrogate a then
        match r with
        | [] => UB
        | b :: r2 =>
            if is_low_surrogate b then
              let c := surrogate_pair_to_ucs4 a b in
              let* d := wr d j c in if c =? 0 then Ret (d, j) else strcpy_16_32_loop d r2 (S j)
            else let* d := wr d j a in if a =? 0 then Ret (d, j) else strcpy_16_32_loop d r (S j)
        end
      else let* d := wr d j a in if a =? 0 then Ret (d, j) else strcpy_16_32_loop d r (S j)
  end.
Definition strcpy_16_32 (d src : list Z) := strcpy_16_32_loop d src 0.

(** the range [str, str + count) *)
Definition range (s : list Z) (count : nat) : outcome (list Z) := if (count <=? length s)%nat then Ret (firstn count s) else UB.
Section Collate.
(** std::collate<T>::compare *)
Context (compare : list Z -> list Z -> Z).
(** string.hpp:1340-1350 *)
Definition strcoll (s1 s2 : list Z) : outcome Z :=
  let* n1 := strlen s1 in let* n2 := strlen s2 in
  let* r1 := range s1 n1 in let* r2 := range s2 n2 in Ret (compare r1 r2).
(** string.hpp:1364-1373 *)
Definition strncoll (s1 : list Z) (count1 : nat) (s2 : list Z) (count2 : nat) : outcome Z :=
  let* r1 := range s1 count1 in let* r2 := range s2 count2 in Ret (compare r1 r2).
End Collate.
(** string.hpp:2584-2631; [conv] is strtod_l: the value and the number of code units it took *)
Definition strtod {R : Type} (conv : list Z -> R * nat) (s : list Z) (count : nat) : outcome (R * nat) :=
  let* n := strnlen s count in let* tmp := range s n in Ret (conv tmp).

(** strftime(3) for a format, a time and a locale: [text] is what it formats.  0 if it does not fit with its terminator; what it
    leaves in the buffer then is [junk]. *)
Definition c_strftime (text : list Z) (capacity : nat) : list Z * nat :=
  if (length text <? capacity)%nat then (text, length text) else ([], 0%nat).
(** string.hpp:2844-2856; resize throws beyond max_size *)
Fixpoint strcatftime_loop (fuel : nat) (max_size : nat) (str : list Z) (text : list Z) (capacity : nat) : outcome (list Z) :=
  match fuel with
  | O => UB
  | S n =>
      if (max_size <? length str + capacity)%nat then Throw
      else
        let '(written, count) := c_strftime text (capacity + 1) in
        if (0 <? count)%nat then Ret (str ++ firstn count written) else strcatftime_loop n max_size str text (capacity * 2)
  end.
(** string.hpp:2832-2857; [w] is sizeof(T) *)
Definition strcatftime (fuel w max_size : nat) (str text : list Z) : outcome (list Z) :=
  let '(buf, count) := c_strftime text (1024 / w) in
  if (0 <? count)%nat then Ret (str ++ firstn count buf) else strcatftime_loop fuel max_size str text (2 * 1024 / w).
(** string.hpp:2864-2869, 2880-2885 *)
Definition strftime_to (fuel w max_size : nat) (str text : list Z) : outcome (list Z) := strcatftime fuel w max_size [] text.

(** ** memory.hpp:151-217, 232-278.  A pointer is a number, 0 for null.  The objects not yet deleted; what the std::unique_ptr
    holds; what the ref_unique_ptr holds. *)
Record mem : Type := Mem { alive : list Z; own : Z; ptr : Z }.
(** the constructor: owner.release() *)
Definition rup_take (m : mem) : mem := Mem (alive m) 0 (own m).
(** the destructor: owner.reset(m_ptr) deletes what the owner holds *)
Definition rup_return (m : mem) : mem :=
  if ptr m =? 0 then m
  else Mem (if own m =? 0 then alive m else filter (fun p => negb (p =? own m)) (alive m)) (ptr m) 0.
(** [f(get_ptr(owner))]; the callee deletes [freed] and leaves [p] in the pointer, which it may have made *)
Definition rup_call (m : mem) (freed : list Z) (p : Z) : mem :=
  let m := rup_take m in
  let l := filter (fun x => negb (existsb (Z.eqb x) freed)) (alive m) in
  rup_return (Mem (if (p =? 0) || existsb (Z.eqb p) l then l else p :: l) (own m) p).
