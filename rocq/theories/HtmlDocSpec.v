(** Specification of parsed HTML documents: what the sequences of a document are, where they lie, how they nest. *)
From Coq Require Import Lia.
From Verif Require Import Base StringSpec HtmlTagModel HtmlTagSpec HtmlElemModel HtmlElemSpec HtmlDocModel.

(** which part of the source a sequence is *)
Definition extent (q : sq) : nat * nat := (q_start q, q_end q).
(** one after the other between [lo] and [hi] *)
Fixpoint ordered (lo hi : nat) (l : list (nat * nat)) : Prop :=
  match l with [] => (lo <= hi)%nat | (a, b) :: r => (lo <= a <= b)%nat /\ ordered b hi r end.
(** without gaps *)
Fixpoint tiles (lo hi : nat) (l : list (nat * nat)) : Prop :=
  match l with [] => lo = hi | (a, b) :: r => a = lo /\ (a < b)%nat /\ tiles b hi r end.
(** the units from [a] to [b] *)
Definition between (src : list Z) (x : nat * nat) : list Z := firstn (snd x - fst x) (skipn (fst x) src).
Definition is_element (t : seq_t) : Prop := t = SStart \/ t = SElement.
(** what the source holds there agrees with the type of the sequence *)
Definition written (src : list Z) (q : sq) : Prop :=
  match q_type q with
  | SText => (q_start q < q_end q)%nat
  | SCdata | SPcdata => starts (skipn (q_end q) src) [93; 93; 62]
  | t => type_ok (between src (extent q)) (q_end q - q_start q) t
  end.
(** the code of an element is that of the name that is written in it *)
Definition named (src : list Z) (q : sq) : Prop :=
  is_element (q_type q) \/ q_type q = SEnd ->
  (q_start q < fst (q_name q) <= snd (q_name q))%nat /\ (snd (q_name q) <= q_end q)%nat /\ q_code q = html_number (between src (q_name q)).

(** [p] is a starting tag in front of sequence [k] that is still open there *)
Definition open_at (seqs : list sq) (p k : nat) : Prop :=
  exists q, nth_error seqs p = Some q /\ (p < k)%nat /\ q_type q = SStart /\ span (q_code q) <> immediate /\ (q_link q = None \/ exists m, q_link q = Some m /\ (k < m)%nat).
(** sequence [e] ends the element started by sequence [k] *)
Definition ended_by (seqs : list sq) (k : nat) (q : sq) (m : nat) : Prop :=
  exists e, nth_error seqs m = Some e /\ (q_type e = SEnd /\ q_link e = Some k \/ is_element (q_type e) /\ may_contain (q_code q) (q_code e) = false).
Record item_ok (seqs : list sq) (k : nat) (q : sq) : Prop := {
  parent_open : forall p, q_parent q = Some p -> open_at seqs p k /\ (is_element (q_type q) -> exists qp, nth_error seqs p = Some qp /\ may_contain (q_code qp) (q_code q) = true);
  start_end : q_type q = SStart -> forall m, q_link q = Some m -> span (q_code q) = immediate /\ m = k \/ (k < m)%nat /\ ended_by seqs k q m;
  end_start : q_type q = SEnd -> forall s, q_link q = Some s -> (s < k)%nat /\ exists b, nth_error seqs s = Some b /\ q_type b = SStart /\ q_link b = Some k /\ q_parent q = q_parent b /\ q_code b = q_code q;
}.
Definition nested (seqs : list sq) : Prop := forall k q, nth_error seqs k = Some q -> item_ok seqs k q.
