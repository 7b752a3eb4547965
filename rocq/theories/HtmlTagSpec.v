(** Specification of HTML tags: how one writes them, and what they consist of. *)
From Verif Require Import Base StringSpec HtmlTagModel.

Section Spec.
Context (sp : Z -> bool).
(** white space *)
Definition blank (w : list Z) : Prop := Forall (fun c => sp c = true) w.
(** a name: anything but white space, '>', '=', '/' and terminators *)
Definition name_char (c : Z) : bool := negb (sp c) && negb (c =? 62) && negb (c =? 61) && negb (c =? 47).
Definition name_ok (w : list Z) : Prop := w <> [] /\ Forall (fun c => name_char c = true) w.
(** an unquoted value: no white space and no '>', does not start with a quotation mark; '/' is allowed *)
Definition value_char (c : Z) : bool := negb (sp c) && negb (c =? 62).
Definition value_ok (w : list Z) : Prop := (exists c r, w = c :: r /\ c <> 34 /\ c <> 39) /\ Forall (fun c => value_char c = true) w.

(** attributes as they are written, each with the white space behind it: name; name = value; name = 'value' *)
Inductive wattr : Type :=
| WName (n : list Z) (after : list Z)
| WPlain (n b1 b2 v after : list Z)
| WQuoted (n b1 b2 : list Z) (q : Z) (v after : list Z).
Definition wattr_text (a : wattr) : list Z :=
  match a with
  | WName n w => n ++ w
  | WPlain n b1 b2 v w => n ++ b1 ++ 61 :: b2 ++ v ++ w
  | WQuoted n b1 b2 q v w => n ++ b1 ++ 61 :: b2 ++ q :: v ++ q :: w
  end.
Definition after_of (a : wattr) : list Z := match a with WName _ w | WPlain _ _ _ _ w | WQuoted _ _ _ _ _ w => w end.
(** [last]: nothing but the end of the tag follows; otherwise names and plain values need white space behind them; a plain
    value directly in front of the end must not end in '/' *)
Definition wattr_ok (last : bool) (a : wattr) : Prop :=
  blank (after_of a) /\
  match a with
  | WName n w => name_ok n /\ (last = true \/ w <> [])
  | WPlain n b1 b2 v w => name_ok n /\ blank b1 /\ blank b2 /\ value_ok v /\ (w <> [] \/ (last = true /\ forall u, v <> u ++ [47]))
  | WQuoted n b1 b2 q v w => name_ok n /\ blank b1 /\ blank b2 /\ (q = 34 \/ q = 39) /\ ~ In q v
  end.
Fixpoint wattrs_ok (l : list wattr) : Prop :=
  match l with [] => True | a :: r => wattr_ok (match r with [] => true | _ => false end) a /\ wattrs_ok r end.
Definition wattrs_text (l : list wattr) : list Z := flat_map wattr_text l.
(** where its name and value are when it is written at [i] *)
Definition wattr_at (i : nat) (a : wattr) : attr :=
  match a with
  | WName n _ => Attr (i, i + length n)%nat no_itv
  | WPlain n b1 b2 v _ => let k := (i + length n + length b1 + 1 + length b2)%nat in Attr (i, i + length n)%nat (k, k + length v)%nat
  | WQuoted n b1 b2 _ v _ => let k := (i + length n + length b1 + 1 + length b2 + 1)%nat in Attr (i, i + length n)%nat (k, k + length v)%nat
  end.
Fixpoint wattrs_at (i : nat) (l : list wattr) : list attr :=
  match l with [] => [] | a :: r => wattr_at i a :: wattrs_at (i + length (wattr_text a)) r end.
End Spec.
(** [w] occurs in [v] *)
Definition occurs (w v : list Z) : Prop := exists a b, v = a ++ w ++ b.
(** attributes in their order inside of [i, j) *)
Fixpoint attrs_within (i j : nat) (l : list attr) : Prop :=
  match l with
  | [] => (i <= j)%nat
  | a :: r => (i <= fst (a_name a) <= snd (a_name a))%nat /\
      (a_value a = no_itv /\ attrs_within (snd (a_name a)) j r \/ (snd (a_name a) < fst (a_value a) <= snd (a_value a))%nat /\ attrs_within (snd (a_value a)) j r)
  end.

(** what is written at the start and at the end of a tag of a type: [v] is the text from '<' on, [n] the length of the tag *)
Definition starts (v : list Z) (w : list Z) : Prop := exists r, v = w ++ r.
Definition ends (v : list Z) (n : nat) (w : list Z) : Prop := exists a, firstn n v = a ++ w.
Definition type_ok (v : list Z) (n : nat) (t : seq_t) : Prop :=
  match t with
  | SStart | SElement => starts v [60] /\ ~ starts v [60; 33] /\ ~ starts v [60; 63] /\ ~ starts v [60; 47] /\ ends v n (if is_start t then [62] else [47; 62])
  | SEnd => starts v [60; 47] /\ ends v n [62]
  | SDecl => starts v [60; 33] /\ ~ starts v [60; 33; 45; 45] /\ ends v n [62]
  | SComment => starts v [60; 33; 45; 45] /\ ends v n [45; 45; 62]
  | SInstr => starts v [60; 63] /\ ends v n [62]
  | SText | SPcdata | SCdata => False
  end.
