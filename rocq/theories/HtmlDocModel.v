(** Model of html::document<char> of include/stdex/html.hpp (1315-1595, 1613-1956).

    m_sequences is a vector of owning pointers that only grows, so a pointer to a sequence is its index; the element stack has
    its top first.  The counters are natural numbers: each is at most the number of characters.  m_source holds no terminators:
    append stops at the first one (strnlen).
    Not modelled: m_charset (1777-1800), which nothing in this class reads but itself.
    Simplified: strncmp(...) == 0 and strnicmp(...) == 0 of two ranges without terminators are equality of the ranges and
    equality after folding (C30, C31 of this development are about these functions). *)
From Verif Require Import Base StringModel ParserModel HtmlTagModel HtmlElemModel.

(** html.hpp:1315-1595: sequence and what is derived from it; [q_link] is element_start::end or element_end::start;
    [q_name] the name or the content. *)
Record sq : Type := Sq { q_type : seq_t; q_start : nat; q_end : nat; q_parent : option nat; q_code : Z; q_name : itv; q_attrs : list attr; q_link : option nat }.
(** html.hpp:1936-1955 *)
Record doc : Type := Doc {
  d_src : list Z; d_parsed : nat; d_valid : nat; d_invalid : nat; d_cdata : bool; d_rcdata : bool;
  d_ents : list (itv * list Z); d_seqs : list sq; d_stack : list nat; d_special : bool }.
(** html.hpp:1617-1652: the constructor and clear() *)
Definition doc_empty : doc := Doc [] 0 0 0 false false [] [] [] false.
Definition clear (d : doc) : doc := Doc [] 0 0 0 false false [] [] [] false.

Definition plain_seq (t : seq_t) (s e : nat) (p : option nat) : sq := Sq t s e p 0 no_itv [] None.
Definition relink (q : sq) (l : option nat) : sq := Sq (q_type q) (q_start q) (q_end q) (q_parent q) (q_code q) (q_name q) (q_attrs q) l.
(** seqs[k]->end = l *)
Fixpoint set_link (seqs : list sq) (k : nat) (l : option nat) : list sq :=
  match seqs, k with
  | [], _ => []
  | q :: r, O => relink q l :: r
  | q :: r, S k => q :: set_link r k l
  end.
Definition same (a b : list Z) : bool := if list_eq_dec Z.eq_dec a b then true else false.
(** source + x.start, x.size() *)
Definition piece (src : list Z) (x : itv) : list Z := firstn (snd x - fst x) (skipn (fst x) src).

(** html.hpp:1915-1926: the first entity that matches behind the percent sign *)
Fixpoint find_entity (src : list Z) (ents : list (itv * list Z)) (r : list Z) : option (list Z * list Z) :=
  match ents with
  | [] => None
  | (n, v) :: more =>
      let k := (snd n - fst n)%nat in
      if (k <? length r)%nat && same (firstn k r) (piece src n) && (nth k r 0 =? 59) then Some (v, skipn (S k) r) else find_entity src more r
  end.
(** html.hpp:1907-1933 *)
Fixpoint replace_entities (fuel : nat) (src : list Z) (ents : list (itv * list Z)) (input : list Z) : outcome (list Z) :=
  match fuel with
  | O => UB
  | S f =>
      match input with
      | [] => Ret []
      | c :: r =>
          if c =? 37 then
            match find_entity src ents r with
            | Some (v, rest) => let* o := replace_entities f src ents rest in Ret (v ++ o)
            | None => Throw
            end
          else let* o := replace_entities f src ents r in Ret (c :: o)
      end
  end.

(** html.hpp:1746-1757: which of the started elements this one ends; [me] is its index *)
Fixpoint close_loop (seqs : list sq) (stack : list nat) (code : Z) (me : nat) (parent : option nat) : outcome (list sq * list nat * option nat) :=
  match stack with
  | [] => Ret (seqs, [], parent)
  | s :: rest =>
      match nth_error seqs s with
      | None => UB
      | Some q => if may_contain (q_code q) code then Ret (seqs, stack, Some s) else close_loop (set_link seqs s (Some me)) rest code me (q_parent q)
      end
  end.
(** html.hpp:1808-1820: the started element an ending tag ends, and what stays on the stack *)
Fixpoint end_loop (src : list Z) (seqs : list sq) (stack : list nat) (code : Z) (name : itv) : outcome (option (nat * list nat)) :=
  match stack with
  | [] => Ret None
  | s :: rest =>
      match nth_error seqs s with
      | None => UB
      | Some q =>
          if (q_code q =? code) || ((q_code q =? e_unknown) && (code =? e_unknown) && same (map tolower (piece src (q_name q))) (map tolower (piece src name)))
          then Ret (Some (s, rest)) else end_loop src seqs rest code name
      end
  end.

Section Doc.
(** ctype.is(space, c) of the locale *)
Context (sp : Z -> bool).
(** html.hpp:1899-1902 *)
Definition active (d : doc) : option nat := hd_error (d_stack d).
Definition code_of (src : list Z) (n : itv) : outcome Z := element_code (fun c => c) (skipn (fst n) src) (snd n - fst n).
(** the text between m_num_parsed and [i], if there is any *)
Definition text_seq (d : doc) (i : nat) : list sq := if (d_parsed d <? i)%nat then [plain_seq SText (d_parsed d) i (active d)] else [].
Definition special_code (c : Z) : bool := one_of c [e_code; e_comment; e_script; e_style].
Definition str_CDATA : list Z := [67; 68; 65; 84; 65].
Definition str_RCDATA : list Z := 82 :: str_CDATA.
Definition str_IGNORE : list Z := [73; 71; 78; 79; 82; 69].
Definition str_entity : list Z := [101; 110; 116; 105; 116; 121].
Definition str_SYSTEM : list Z := [83; 89; 83; 84; 69; 77].
Definition str_PUBLIC : list Z := [80; 85; 66; 76; 73; 67].

(** html.hpp:1665-1676: inside of CDATA or RCDATA *)
Definition at_cdata_end (d : doc) (i x : nat) : doc :=
  Doc (d_src d) x (d_valid d) (d_invalid d) false false (d_ents d) (d_seqs d ++ [plain_seq (if d_cdata d then SCdata else SPcdata) (d_parsed d) i (active d)]) (d_stack d) (d_special d).
(** html.hpp:1696-1710 *)
Definition at_condition (d : doc) (cond : list Z) (x : nat) : doc :=
  let cdata := d_cdata d || same cond str_CDATA in
  let rcdata := d_rcdata d || (negb (same cond str_CDATA) && same cond str_RCDATA) in
  let inv := negb (d_invalid d =? 0)%nat || same cond str_IGNORE in
  Doc (d_src d) x (if inv then d_valid d else S (d_valid d)) (if inv then S (d_invalid d) else d_invalid d) cdata rcdata (d_ents d) (d_seqs d) (d_stack d) (d_special d).
(** html.hpp:1716-1728: the end of the special element [p]; [x] is the end of the tag *)
Definition at_special_end (d : doc) (i p : nat) (q : sq) (code : Z) (g : tag) : doc :=
  let seqs := d_seqs d ++ text_seq d i in
  let seqs := set_link seqs p (Some (length seqs)) in
  Doc (d_src d) (g_end g) (d_valid d) (d_invalid d) (d_cdata d) (d_rcdata d) (d_ents d) (seqs ++ [Sq SEnd i (g_end g) (q_parent q) code (g_name g) [] (Some p)]) (tl (d_stack d)) false.
(** html.hpp:1739-1804: an element or a starting tag *)
Definition at_element (d : doc) (i : nat) (g : tag) : outcome doc :=
  let seqs := d_seqs d ++ text_seq d i in
  let me := length seqs in
  let* code := code_of (d_src d) (g_name g) in
  let* r := close_loop seqs (d_stack d) code me None in
  let '(seqs, stack, parent) := r in
  let imm := match span code with immediate => true | _ => false end in
  let push := is_start (g_type g) && negb imm in
  Ret (Doc (d_src d) (g_end g) (d_valid d) (d_invalid d) (d_cdata d) (d_rcdata d) (d_ents d)
    (seqs ++ [Sq (g_type g) i (g_end g) parent code (g_name g) (g_attrs g) (if is_start (g_type g) && imm then Some me else None)])
    (if push then me :: stack else stack) (d_special d || (push && special_code code))).
(** html.hpp:1805-1824 *)
Definition at_end_tag (d : doc) (i : nat) (g : tag) : outcome doc :=
  let seqs := d_seqs d ++ text_seq d i in
  let me := length seqs in
  let* code := code_of (d_src d) (g_name g) in
  let* r := end_loop (d_src d) seqs (d_stack d) code (g_name g) in
  match r with
  | Some (s, rest) =>
      match nth_error seqs s with
      | None => UB
      | Some q => Ret (Doc (d_src d) (g_end g) (d_valid d) (d_invalid d) (d_cdata d) (d_rcdata d) (d_ents d)
          (set_link seqs s (Some me) ++ [Sq SEnd i (g_end g) (q_parent q) code (g_name g) [] (Some s)]) rest (d_special d))
      end
  | None => Ret (Doc (d_src d) (g_end g) (d_valid d) (d_invalid d) (d_cdata d) (d_rcdata d) (d_ents d)
      (seqs ++ [Sq SEnd i (g_end g) (active d) code (g_name g) [] None]) (d_stack d) (d_special d))
  end.
(** html.hpp:1825-1842 *)
Definition at_declaration (d : doc) (i : nat) (g : tag) : outcome doc :=
  let nm k := match nth_error (g_attrs g) k with Some a => a_name a | None => no_itv end in
  let txt k := piece (d_src d) (nm k) in
  let* ents :=
    if (3 <? length (g_attrs g))%nat && same (map tolower (txt 0%nat)) str_entity && same (txt 1%nat) [37] && negb (same (txt 3%nat) str_SYSTEM) && negb (same (txt 3%nat) str_PUBLIC)
    then let* v := replace_entities (S (length (txt 3%nat))) (d_src d) (d_ents d) (txt 3%nat) in Ret (d_ents d ++ [(nm 2%nat, v)])
    else Ret (d_ents d) in
  Ret (Doc (d_src d) (g_end g) (d_valid d) (d_invalid d) (d_cdata d) (d_rcdata d) ents
    (d_seqs d ++ text_seq d i ++ [Sq SDecl i (g_end g) (active d) 0 (g_name g) (g_attrs g) None]) (d_stack d) (d_special d)).
(** html.hpp:1843-1848 *)
Definition at_other (d : doc) (i : nat) (g : tag) : doc :=
  Doc (d_src d) (g_end g) (d_valid d) (d_invalid d) (d_cdata d) (d_rcdata d) (d_ents d)
    (d_seqs d ++ text_seq d i ++ [Sq (g_type g) i (g_end g) (active d) 0 (g_name g) [] None]) (d_stack d) (d_special d).
(** html.hpp:1733-1854 *)
Definition at_tag (d : doc) (i : nat) (g : tag) : outcome doc :=
  match g_type g with
  | SElement | SStart => at_element d i g
  | SEnd => at_end_tag d i g
  | SDecl => at_declaration d i g
  | SComment | SInstr => Ret (at_other d i g)
  | SText | SPcdata | SCdata => Throw
  end.
(** html.hpp:1664-1862: one turn of the loop at [i]: None is next_char *)
Definition turn (d : doc) (i : nat) : outcome (option doc) :=
  let n := length (d_src d) in
  let* ce := condition_end (d_src d) i n in
  if d_cdata d || d_rcdata d then Ret (option_map (at_cdata_end d i) ce) else
  if negb (d_invalid d =? 0)%nat then
    Ret (option_map (fun x => Doc (d_src d) x (d_valid d) (pred (d_invalid d)) (d_cdata d) (d_rcdata d) (d_ents d) (d_seqs d) (d_stack d) (d_special d)) ce) else
  match (if (d_valid d =? 0)%nat then None else ce) with
  | Some x => Ret (Some (Doc (d_src d) x (pred (d_valid d)) (d_invalid d) (d_cdata d) (d_rcdata d) (d_ents d) (d_seqs d ++ text_seq d i) (d_stack d) (d_special d)))
  | None =>
      let* cs := condition_start (d_src d) sp i n in
      match cs with
      | Some (c, x) =>
          let cond := piece (d_src d) c in
          let* cond := replace_entities (S (length cond)) (d_src d) (d_ents d) cond in
          Ret (Some (at_condition d cond x))
      | None =>
          let* g := html_tag (d_src d) sp (S n) i n in
          if d_special d then
            match g with
            | Some g =>
                if match g_type g with SEnd => true | _ => false end then
                  let* code := code_of (d_src d) (g_name g) in
                  match active d with
                  | None => UB
                  | Some p =>
                      match nth_error (d_seqs d) p with
                      | None => UB
                      | Some q => Ret (if code =? q_code q then Some (at_special_end d i p q code g) else None)
                      end
                  end
                else Ret None
            | None => Ret None
            end
          else match g with Some g => let* d := at_tag d i g in Ret (Some d) | None => Ret None end
      end
  end.
(** html.hpp:1664, 1856-1863 *)
Fixpoint doc_loop (fuel : nat) (d : doc) (i : nat) : outcome doc :=
  match fuel with
  | O => UB
  | S f =>
      if (i <? length (d_src d))%nat then
        let* r := turn d i in
        match r with Some d' => doc_loop f d' (d_parsed d') | None => doc_loop f d (S i) end
      else Ret d
  end.
(** html.hpp:1657-1664 *)
Definition append (d : doc) (chunk : list Z) : outcome doc :=
  let d := Doc (d_src d ++ chunk) (d_parsed d) (d_valid d) (d_invalid d) (d_cdata d) (d_rcdata d) (d_ents d) (d_seqs d) (d_stack d) (d_special d) in
  doc_loop (S (length (d_src d))) d (d_parsed d).
(** html.hpp:1869-1876 *)
Definition finalize (d : doc) : doc :=
  Doc (d_src d) (length (d_src d)) (d_valid d) (d_invalid d) (d_cdata d) (d_rcdata d) (d_ents d) (d_seqs d ++ text_seq d (length (d_src d))) [] (d_special d).
(** html.hpp:1881-1886 *)
Definition assign (d : doc) (src : list Z) : outcome doc := let* d := append (clear d) src in Ret (finalize d).
End Doc.
