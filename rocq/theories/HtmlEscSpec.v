(** Specification vocabulary for the HTML, URL and CSS escapers: how such texts are read, independently of stdex. *)
From Verif Require Import Base StringSpec.

(** The value of a hexadecimal digit *)
Definition hex_value (c : Z) : option Z :=
  match find (fun p => Z.eqb (fst p) c)
    [(48, 0); (49, 1); (50, 2); (51, 3); (52, 4); (53, 5); (54, 6); (55, 7); (56, 8); (57, 9);
     (65, 10); (66, 11); (67, 12); (68, 13); (69, 14); (70, 15); (97, 10); (98, 11); (99, 12); (100, 13); (101, 14); (102, 15)] with
  | Some p => Some (snd p)
  | None => None
  end.
(** A byte as a char *)
Definition as_char (b : Z) : Z := if b <? 128 then b else b - 256.
Definition is_char (c : Z) : Prop := -128 <= c < 128.

(** Form decoding of a URL text: "+" is a space, "%hh" is the byte hh, anything else stands for itself. *)
Fixpoint form_decode (t : list Z) : list Z :=
  match t with
  | [] => []
  | c :: r =>
      if c =? 43 then 32 :: form_decode r
      else match c =? 37, r with
           | true, a :: b :: r' => match hex_value a, hex_value b with
                                   | Some h, Some l => as_char (16 * h + l) :: form_decode r'
                                   | _, _ => c :: form_decode r
                                   end
           | _, _ => c :: form_decode r
           end
  end.
(** [t] ends inside of a "%hh" *)
Definition cut_percent (t : list Z) : Prop := (exists p, t = p ++ [37]) \/ (exists p h, t = p ++ [37; h] /\ hex_value h <> None).

(** The leading hexadecimal digits, at most [k] *)
Fixpoint hex_prefix (k : nat) (t : list Z) : list Z :=
  match k, t with
  | S k', c :: r => match hex_value c with Some d => d :: hex_prefix k' r | None => [] end
  | _, _ => []
  end.
Definition hex_number (ds : list Z) : Z := fold_left (fun v d => 16 * v + d) ds 0.
(** How css_unescape is to read a text, as a relation between the text and what it stands for.  One to six hexadecimal digits
    are a code point; one space behind fewer than six digits belongs to them. *)
Inductive css_reads (cast : Z -> Z) : list Z -> list Z -> Prop :=
| css_end : css_reads cast [] []
| css_plain : forall c t o, c <> 92 -> css_reads cast t o -> css_reads cast (c :: t) (c :: o)
| css_lf : forall t o, css_reads cast t o -> css_reads cast (92 :: 110 :: t) (10 :: o)
| css_cr : forall t o, css_reads cast t o -> css_reads cast (92 :: 114 :: t) (13 :: o)
| css_tab : forall t o, css_reads cast t o -> css_reads cast (92 :: 116 :: t) (9 :: o)
| css_join : forall t o, css_reads cast t o -> css_reads cast (92 :: 10 :: t) o
| css_other : forall c t o, ~ In c [110; 114; 116; 10] -> hex_value c = None -> css_reads cast t o -> css_reads cast (92 :: c :: t) (c :: o)
| css_code : forall ds digits t rest o, map hex_value digits = map Some ds -> (1 <= length ds <= 6)%nat ->
    (length ds = 6%nat /\ rest = t \/
     (length ds < 6)%nat /\ rest = 32 :: t \/
     (length ds < 6)%nat /\ rest = t /\ (forall c r, t = c :: r -> c <> 32 /\ hex_value c = None)) ->
    css_reads cast t o -> css_reads cast (92 :: digits ++ rest) (cast (hex_number ds) :: o).
