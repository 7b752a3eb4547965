(** Model of include/stdex/langid.hpp: primary_langid (50-53), sub_langid (62-65), langid_from_rfc1766 (74-539),
    rfc1766_from_langid (549-991).

    A char is a signed byte value.  A name in memory is the list of chars from where the pointer points; a read past its end is
    undefined.  The keys of the table are pointers to literals. *)
From Verif Require Import Base StringModel LangidTable.

(** langid.hpp:50-53, 62-65 *)
Definition primary_langid (lang : Z) : Z := Z.land lang 1023.
Definition sub_langid (lang : Z) : Z := Z.land lang 64512.

(** langid.hpp:76-98: stricmp_less::operator() *)
Fixpoint less_loop (fuel : nat) (str1 str2 : list Z) (i : nat) : outcome bool :=
  match fuel with
  | O => UB
  | S n =>
      let* a := rd str1 i in
      let a := tolower a in
      let* b := rd str2 i in
      let b := tolower b in
      if (a =? 0) && (b =? 0) then Ret false
      else if b =? 0 then Ret false
      else if a =? 0 then Ret true
      else
        let a_punct := ispunct a in
        let b_punct := ispunct b in
        if a_punct && b_punct then less_loop n str1 str2 (S i)
        else if b_punct then Ret false
        else if a_punct then Ret true
        else if b <? a then Ret false
        else if a <? b then Ret true
        else less_loop n str1 str2 (S i)
  end.
Definition stricmp_less (str1 str2 : list Z) : outcome bool := less_loop (S (length str1)) str1 str2 0.

(** std::map: a search tree.  [map_insert] is the insertion of a key that is not there yet; libstdc++ also rotates the tree,
    which keeps the sequence of its entries: the map is any tree with the entries, in order, of the one built here.
    [map_find] is _M_lower_bound and the test that follows it. *)
Inductive tree (K V : Type) : Type := Leaf | Node (l : tree K V) (k : K) (v : V) (r : tree K V).
Arguments Leaf {K V}. Arguments Node {K V} l k v r.
Section Map.
Context {K V : Type} (less : K -> K -> outcome bool).
Fixpoint entries (t : tree K V) : list (K * V) := match t with Leaf => [] | Node l k v r => entries l ++ (k, v) :: entries r end.
Fixpoint map_insert (t : tree K V) (k : K) (v : V) : outcome (tree K V) :=
  match t with
  | Leaf => Ret (Node Leaf k v Leaf)
  | Node l k' v' r =>
      let* a := less k k' in
      if a then let* l := map_insert l k v in Ret (Node l k' v' r)
      else
        let* b := less k' k in
        if b then let* r := map_insert r k v in Ret (Node l k' v' r) else Ret t
  end.
Fixpoint map_build (t : tree K V) (l : list (K * V)) : outcome (tree K V) :=
  match l with [] => Ret t | (k, v) :: l => let* t := map_insert t k v in map_build t l end.
Fixpoint lower_bound (t : tree K V) (k : K) (y : option (K * V)) : outcome (option (K * V)) :=
  match t with
  | Leaf => Ret y
  | Node l k' v' r => let* a := less k' k in if a then lower_bound r k y else lower_bound l k (Some (k', v'))
  end.
Definition map_find (t : tree K V) (k : K) : outcome (option V) :=
  let* y := lower_bound t k None in
  match y with
  | None => Ret None
  | Some (k', v') => let* a := less k k' in Ret (if a then None else Some v')
  end.
End Map.

(** langid.hpp:99-538: [t] is the static map; the literals end with a zero *)
Definition lang_literals : list (list Z * Z) := map (fun e => (fst e ++ [0], snd e)) lang_names.
Definition langid_unknown : Z := 127.
Definition langid_from_rfc1766 (t : tree (list Z) Z) (rfc1766 : list Z) : outcome Z :=
  let* el := map_find stricmp_less t rfc1766 in
  match el with Some v => Ret (v mod 65536) | None => Ret langid_unknown end.
(** langid.hpp:549-991: [None] is the fallback *)
Definition int_less (a b : Z) : outcome bool := Ret (a <? b).
Definition rfc1766_from_langid (t : tree Z (list Z)) (lang : Z) : outcome (option (list Z)) := map_find int_less t lang.
