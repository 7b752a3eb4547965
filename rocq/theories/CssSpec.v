(** Specification of CSS tokens: how one writes comments, strings and addresses (CSS 2.1, 4.1.1 and 4.3). *)
From Verif Require Import Base StringSpec HtmlTagSpec.

(** What may be between the quotation marks [q] of a string: units other than the quotation mark and the backslash, and
    backslashes each followed by a unit, whatever that is. *)
Inductive css_body (q : Z) : list Z -> Prop :=
| body_nil : css_body q []
| body_unit : forall c b, c <> q -> c <> 92 -> css_body q b -> css_body q (c :: b)
| body_escape : forall c b, css_body q b -> css_body q (92 :: c :: b).
(** [v] is [w] in either case; [w] is in small letters *)
Definition any_case (w v : list Z) : Prop := map (fun c => if (65 <=? c) && (c <=? 90) then c + 32 else c) v = w.
Definition str_url : list Z := [117; 114; 108].
Definition str_import : list Z := [105; 109; 112; 111; 114; 116].
(** the last unit *)
Definition ends_in (c : Z) (w : list Z) : Prop := exists a, w = a ++ [c].
