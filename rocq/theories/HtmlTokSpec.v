(** Specification of rebuilding an HTML document from its sequences: what is copied and what is decoded and encoded anew. *)
From Coq Require Import String.
From Verif Require Import Base StringSpec SgmlSpec HtmlEscSpec HtmlTagModel HtmlTagSpec HtmlElemSpec HtmlElemProps HtmlDocModel HtmlDocSpec CssModel.
Import List.ListNotations.
Open Scope Z_scope.

(** each unit as the table has it, or as itself *)
Definition written_with (table : list (Z * string)) (u : list Z) : list Z :=
  flat_map (fun c => match find (fun p => fst p =? c) table with Some p => units (snd p) | None => [c] end) u.
Definition text_escapes : list (Z * string) := [(38, "&amp;"); (60, "&lt;"); (62, "&gt;"); (160, "&nbsp;")]%string.
Definition value_escapes : list (Z * string) := [(38, "&amp;"); (59, "&semi;"); (34, "&quot;"); (39, "&#x27;"); (60, "&lt;"); (62, "&gt;"); (160, "&nbsp;")]%string.
Definition css_escapes : list (Z * string) := [(92, "\\"); (10, "\n"); (13, "\r"); (9, "\t"); (34, "\"""); (39, "\'")]%string.
(** what an SGML text stands for: references are replaced *)
Definition stands_for (t u : list Z) : Prop := exists segs, segmented U32 0 t segs /\ u = flat_map (seg_dst (fun c => c)) segs.
(** the attributes that hold addresses, and those that hold text for readers *)
Definition uri_attr (code : Z) (name : list Z) : Prop := exists e, In e html_names /\ code = number e /\ has_name (uri_names e) name.
Definition title_attr (code : Z) (name : list Z) : Prop := has_name ["title"%string] name \/ exists e, In e html_names /\ code = number e /\ has_name (localizable_names e) name.
Definition named_in (names : list string) (code : Z) : Prop := In code (map number names).
(** elements whose contents are copied *)
Definition opaque_names : list string := ["address"; "code"; "comment"; "cite"; "kbd"; "samp"; "script"; "style"]%string.

Section Rebuild.
Context (src : list Z) (seqs : list sq) (sp : Z -> bool) (frames : bool).
Definition no_value (a : attr) : Prop := (snd (a_value a) <= fst (a_value a))%nat \/ Forall (fun c => white c = true) (between src (a_value a)).
(** a tag from [i] to [j]: addresses and titles are decoded and encoded anew, everything else is copied *)
Inductive tag_text (code : Z) : list attr -> nat -> nat -> list Z -> Prop :=
| tag_done : forall i j, tag_text code [] i j (between src (i, j))
| tag_keep : forall a r i j o, no_value a \/ (~ uri_attr code (between src (a_name a)) /\ ~ title_attr code (between src (a_name a))) ->
    tag_text code r i j o -> tag_text code (a :: r) i j o
| tag_uri : forall a r i j u o, ~ no_value a -> uri_attr code (between src (a_name a)) -> stands_for (between src (a_value a)) u ->
    tag_text code r (snd (a_value a)) j o -> tag_text code (a :: r) i j (between src (i, fst (a_value a)) ++ written_with value_escapes u ++ o)
| tag_title : forall a r i j u o, ~ no_value a -> ~ uri_attr code (between src (a_name a)) -> title_attr code (between src (a_name a)) -> stands_for (between src (a_value a)) u ->
    tag_text code r (snd (a_value a)) j o -> tag_text code (a :: r) i j (between src (i, fst (a_value a)) ++ written_with text_escapes u ++ o).
(** a style sheet from [i] to [j]: addresses, which must not hold terminators, are decoded and encoded anew *)
Definition css_mark (i j x : nat) : Prop := (exists c, css_comment src i j = Ret (Some (c, x))) \/ css_cdo src i j = Ret (Some x) \/ css_cdc src i j = Ret (Some x).
Definition css_addr (i j a b x : nat) : Prop := css_import src sp i j = Ret (Some ((a, b), x)) \/ css_uri src sp i j = Ret (Some ((a, b), x)).
Inductive css_text : nat -> nat -> list Z -> Prop :=
| css_done : forall i, css_text i i []
| css_copy : forall i j x o, css_mark i j x -> css_text x j o -> css_text i j (between src (i, x) ++ o)
| css_url : forall i j a b x u o, css_addr i j a b x -> css_reads (fun c => c) (between src (a, b)) u -> ~ In 0 u -> css_text x j o ->
    css_text i j (between src (i, a) ++ written_with css_escapes u ++ between src (b, x) ++ o)
| css_unit : forall i j o, (i < j)%nat -> (forall x, ~ css_mark i j x) -> (forall a b x, ~ css_addr i j a b x) -> css_text (S i) j o -> css_text i j (between src (i, S i) ++ o).
(** a document, from sequence [k] to sequence [e].  The text must not decode to anything with the unit 18, which tags of tokens
    begin with. *)
Inductive rebuilt : nat -> nat -> list Z -> Prop :=
| rb_done : forall e, rebuilt e e []
| rb_text : forall k e q u o, (k < e)%nat -> nth_error seqs k = Some q -> q_type q = SText -> stands_for (between src (extent q)) u -> ~ In 18 u ->
    rebuilt (S k) e o -> rebuilt k e (written_with text_escapes u ++ o)
| rb_copy : forall k e q o, (k < e)%nat -> nth_error seqs k = Some q -> q_type q <> SText -> ~ is_element (q_type q) ->
    rebuilt (S k) e o -> rebuilt k e (between src (extent q) ++ o)
| rb_tag : forall k e q t o, (k < e)%nat -> nth_error seqs k = Some q -> is_element (q_type q) -> (q_type q = SElement \/ ~ named_in opaque_names (q_code q)) -> (frames = true \/ q_code q <> number "frameset") ->
    tag_text (q_code q) (q_attrs q) (q_start q) (q_end q) t -> rebuilt (S k) e o -> rebuilt k e (t ++ o)
| rb_opaque : forall k e q m qe t c o, nth_error seqs k = Some q -> q_type q = SStart -> named_in opaque_names (q_code q) ->
    tag_text (q_code q) (q_attrs q) (q_start q) (q_end q) t -> q_link q = Some m -> (k < m <= e)%nat -> nth_error seqs m = Some qe ->
    (if q_code q =? number "style" then css_text (q_end q) (q_start qe) c else c = between src (q_end q, q_start qe)) ->
    rebuilt m e o -> rebuilt k e (t ++ c ++ o).
End Rebuild.
(** the elements end in an order that makes them nest: one that starts inside of another does not end behind it *)
Definition links_nest (seqs : list sq) : Prop :=
  forall j k p q l m, nth_error seqs j = Some p -> nth_error seqs k = Some q -> q_type p = SStart -> q_type q = SStart -> q_link p = Some l -> q_link q = Some m -> (j < k < l)%nat -> (m <= l)%nat.
(** the sequences are in their order inside of the source, and so are the names and attributes inside of the elements *)
Definition in_order (src : list Z) (seqs : list sq) : Prop :=
  ordered 0 (length src) (map extent seqs) /\
  forall q, In q seqs -> is_element (q_type q) -> attrs_within (q_start q) (q_end q) (q_attrs q) /\ (fst (q_name q) <= snd (q_name q) <= length src)%nat.
(** nothing has to be encoded anew: the texts and the values are free of units that are escaped, and the elements with contents
    that are copied have ends and are no style sheets *)
Definition free_of (table : list (Z * string)) (t : list Z) : Prop := Forall (fun c => ~ In c (map fst table)) t.
Definition settled (src : list Z) (seqs : list sq) (frames : bool) : Prop := forall q, In q seqs ->
  (q_type q = SText -> free_of text_escapes (between src (extent q))) /\
  (is_element (q_type q) -> (frames = true \/ q_code q <> number "frameset") /\ forall a, In a (q_attrs q) -> free_of value_escapes (between src (a_value a))) /\
  (q_type q = SStart -> named_in opaque_names (q_code q) -> q_code q <> number "style" /\ q_link q <> None).
