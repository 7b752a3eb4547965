(** Model of include/stdex/mapping.hpp with T = size_t. *)
From Verif Require Import Base.

(** mapping.hpp:17-20 *)
Record mapping : Type := mkmap { mfrom : Z; mto : Z }.
(** mapping.hpp:75-80 *)
Definition map_invert (m : mapping) : mapping := mkmap (mto m) (mfrom m).

Section Search.
(* key: the coordinate searched; val: the other one. *)
Variables key val : mapping -> Z.

(** mapping.hpp:108-115 (192-199, 159-166, 243-250): the answer once l = r, with the index used *)
Definition map_answer (mp : list mapping) (x : Z) (l : nat) : outcome (Z * nat) :=
  match l with
  | S l' => match nth_error mp l' with Some el => Ret (u64 (val el + u64 (x - key el)), l') | None => UB end
  | O => match nth_error mp 0 with Some el => Ret (Z.min x (val el), O) | None => UB end
  end.

(** mapping.hpp:100-116 (184-200, 151-167, 235-251).  Running out of fuel cannot happen (see the
    proofs) and is reported as UB.  Simplification: indices do not wrap (a vector has fewer than
    2^60 elements). *)
Fixpoint map_loop (fuel : nat) (mp : list mapping) (x : Z) (l r : nat) : outcome (Z * nat) :=
  match fuel with
  | O => UB
  | S fuel =>
    if Nat.ltb l r then
      let m := Nat.div (l + r) 2 in
      match nth_error mp m with
      | None => UB
      | Some el =>
        if x <? key el then map_loop fuel mp x l m
        else if key el <? x then map_loop fuel mp x (m + 1) r
        else Ret (val el, m)
      end
    else map_answer mp x l
  end.

(** mapping.hpp:95-117 (179-201) *)
Definition map_search (mp : list mapping) (x : Z) : outcome Z :=
  match mp with
  | [] => Ret x
  | _ => let* p := map_loop (S (length mp)) mp x 0 (length mp) in Ret (fst p)
  end.

(** mapping.hpp:129-168 (213-252); result: value and new hint *)
Definition map_search_hint (mp : list mapping) (x : Z) (m : nat) : outcome (Z * nat) :=
  match mp with
  | [] => Ret (x, m)
  | _ =>
    match nth_error mp m with
    | None => UB
    | Some el =>
      if x <? key el then map_loop (S (length mp)) mp x 0 m
      else if key el <? x then
        if Nat.leb (length mp - 1) m then Ret (u64 (val el + u64 (x - key el)), m)
        else match nth_error mp (m + 1) with
             | None => UB
             | Some nx =>
               if x <? key nx then Ret (u64 (val el + u64 (x - key el)), m)
               else map_loop (S (length mp)) mp x (m + 1) (length mp)
             end
      else Ret (val el, m)
    end
  end.
End Search.

(** mapping.hpp:95-117 *)
Definition dst2src := map_search mto mfrom.
(** mapping.hpp:129-168 *)
Definition dst2src_hint := map_search_hint mto mfrom.
(** mapping.hpp:179-201 *)
Definition src2dst := map_search mfrom mto.
(** mapping.hpp:213-252 *)
Definition src2dst_hint := map_search_hint mfrom mto.
