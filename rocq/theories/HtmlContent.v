(** What HTML elements may contain: HTML 4.01's content models (its Transitional and Frameset DTDs) and element_traits::may_contain
    of html.hpp (1113-1230). *)
From Coq Require Import String Bool.
From Verif Require Import Base StringModel StringSpec HtmlTagModel HtmlTagMore HtmlElemModel HtmlElemSpec HtmlElemProps HtmlDocModel HtmlDocSpec HtmlDocMain HtmlDocRef.
Import List.ListNotations. Open Scope Z_scope.

(** ** Specification: the DTD *)
Local Open Scope string_scope.
Definition dtd_fontstyle : list string := ["tt"; "i"; "b"; "u"; "s"; "strike"; "big"; "small"].
Definition dtd_phrase : list string := ["em"; "strong"; "dfn"; "code"; "samp"; "kbd"; "var"; "cite"; "abbr"; "acronym"].
Definition dtd_special : list string := ["a"; "img"; "applet"; "object"; "font"; "basefont"; "br"; "script"; "map"; "q"; "sub"; "sup"; "span"; "bdo"; "iframe"].
Definition dtd_formctrl : list string := ["input"; "select"; "textarea"; "label"; "button"].
Definition dtd_inline : list string := (dtd_fontstyle ++ dtd_phrase ++ dtd_special ++ dtd_formctrl)%list.
Definition dtd_heading : list string := ["h1"; "h2"; "h3"; "h4"; "h5"; "h6"].
Definition dtd_block : list string := ("p" :: dtd_heading ++ ["ul"; "ol"; "dir"; "menu"; "pre"; "dl"; "div"; "center"; "noscript"; "noframes"; "blockquote"; "form"; "isindex"; "hr"; "table"; "fieldset"; "address"])%list.
Definition dtd_flow : list string := (dtd_block ++ dtd_inline)%list.
Definition dtd_pre_exclusion : list string := ["img"; "object"; "applet"; "big"; "small"; "sub"; "sup"; "font"; "basefont"].
Definition without (l x : list string) : list string := filter (fun s => negb (existsb (String.eqb s) x)) l.
(** element and the elements its content model names, with the exclusions of the element itself *)
Definition dtd_content : list (string * list string) :=
  (map (fun e => (e, dtd_inline)) (dtd_fontstyle ++ dtd_phrase ++ dtd_heading ++ ["sub"; "sup"; "span"; "bdo"; "font"; "p"; "q"; "dt"; "legend"; "caption"]) ++
   map (fun e => (e, dtd_flow)) ["center"; "blockquote"; "ins"; "del"; "dd"; "li"; "th"; "td"; "iframe"; "noscript"; "div"] ++
   map (fun e => (e, [])) ["br"; "basefont"; "area"; "link"; "img"; "param"; "hr"; "input"; "col"; "frame"; "isindex"; "base"; "meta"; "option"; "textarea"; "title"; "style"; "script"] ++
   [("body", dtd_flow ++ ["ins"; "del"]); ("address", dtd_inline ++ ["p"]); ("a", without dtd_inline ["a"]); ("map", dtd_block ++ ["area"]); ("object", "param" :: dtd_flow); ("applet", "param" :: dtd_flow);
    ("pre", without dtd_inline dtd_pre_exclusion); ("dl", ["dt"; "dd"]); ("ol", ["li"]); ("ul", ["li"]); ("dir", ["li"]); ("menu", ["li"]); ("form", without dtd_flow ["form"]); ("label", without dtd_inline ["label"]);
    ("select", ["optgroup"; "option"]); ("optgroup", ["option"]); ("fieldset", "legend" :: dtd_flow); ("button", without dtd_flow ("a" :: dtd_formctrl ++ ["form"; "isindex"; "fieldset"; "iframe"]));
    ("table", ["caption"; "col"; "colgroup"; "thead"; "tfoot"; "tbody"]); ("colgroup", ["col"]); ("thead", ["tr"]); ("tfoot", ["tr"]); ("tbody", ["tr"]); ("tr", ["th"; "td"]);
    ("frameset", ["frameset"; "frame"; "noframes"]); ("noframes", "body" :: without dtd_flow ["noframes"]); ("head", ["title"; "isindex"; "base"; "script"; "style"; "meta"; "link"; "object"]); ("html", ["head"; "body"; "frameset"])])%list.
Definition dtd_allows (p c : string) : Prop := exists l, In (p, l) dtd_content /\ In c l.
Definition html401 : list string := map fst dtd_content.
Local Close Scope string_scope.

(** ** Theorems *)
Definition agrees (f : Z -> Z -> bool) (num : string -> Z) (content : list (string * list string)) : bool :=
  let ns := map (fun c => (c, num c)) (map fst content) in
  forallb (fun pl => let n := num (fst pl) in forallb (fun cn => Bool.eqb (f n (snd cn)) (existsb (String.eqb (fst cn)) (snd pl))) ns) content.
Lemma in_eqb : forall (c : string) l, existsb (String.eqb c) l = true <-> In c l.
Proof. intros c l. rewrite existsb_exists. split. - intros (x & I & E). apply String.eqb_eq in E. subst. auto. - intros I. exists c. split; auto. apply String.eqb_refl. Qed.
Lemma agrees_ok : forall f num content p c, agrees f num content = true -> In p (map fst content) -> In c (map fst content) -> (f (num p) (num c) = true <-> exists l, In (p, l) content /\ In c l).
Proof.
  intros f num content p c A P C. unfold agrees in A. cbv zeta in A. rewrite forallb_forall in A.
  assert (H : forall l, In (p, l) content -> (f (num p) (num c) = true <-> In c l)).
  { intros l L. specialize (A _ L). rewrite forallb_forall in A. assert (CN : In (c, num c) (map (fun c => (c, num c)) (map fst content))) by (apply (in_map (fun c => (c, num c))); exact C). specialize (A _ CN). cbn [fst snd] in A. apply eqb_prop in A. rewrite A. apply in_eqb. }
  split. - intros M. apply in_map_iff in P. destruct P as ([p' l] & E & L). cbn [fst] in E. subst p'. exists l. split; auto. apply (H l L). auto. - intros (l & L & I). apply (H l L). auto.
Qed.
Lemma dtd_agrees : agrees may_contain number dtd_content = true.
Proof. vm_compute. reflexivity. Qed.
Theorem may_contain_html401 : forall p c, In p html401 -> In c html401 -> (may_contain (number p) (number c) = true <-> dtd_allows p c).
Proof. intros p c P C. exact (agrees_ok may_contain number dtd_content p c dtd_agrees P C). Qed.
(** the 91 elements of HTML 4.01, all of them elements html.hpp knows *)
Example html401_all : length html401 = 91%nat /\ NoDup html401 /\ incl html401 html_names.
Proof.
  split; [reflexivity|]. split. - apply (NoDup_count_occ string_dec). intros x. destruct (in_dec string_dec x html401) as [I|I]; [|apply (count_occ_not_In string_dec) in I; lia].
    assert (F : forallb (fun y => (count_occ string_dec html401 y <=? 1)%nat) html401 = true) by (vm_compute; reflexivity). rewrite forallb_forall in F. apply F in I. apply Nat.leb_le in I. exact I.
  - intros x I. assert (F : forallb (fun y => existsb (String.eqb y) html_names) html401 = true) by (vm_compute; reflexivity). rewrite forallb_forall in F. apply F in I. apply in_eqb. exact I.
Qed.
(** the start tag of tbody may be omitted (HTML 4.01, 11.2.3), and ins and del may stand anywhere in body (9.4): refuted for documents.
    tr ends the table, ins the paragraph. *)
Theorem omitted_tbody_refuted : look (assign sp_c doc_empty (w "<table><tr></tr></table>")) = Ret [(SStart, w "<table>", None, Some 1%nat); (SStart, w "<tr>", None, Some 2%nat); (SEnd, w "</tr>", None, Some 1%nat); (SEnd, w "</table>", None, None)].
Proof. vm_compute. reflexivity. Qed.
Theorem ins_in_p_refuted : look (assign sp_c doc_empty (w "<p>a<ins>b</ins>c</p>")) = Ret [(SStart, w "<p>", None, Some 2%nat); (SText, w "a", Some 0%nat, None); (SStart, w "<ins>", None, Some 4%nat); (SText, w "b", Some 2%nat, None); (SEnd, w "</ins>", None, Some 2%nat); (SText, w "c", None, None); (SEnd, w "</p>", None, None)].
Proof. vm_compute. reflexivity. Qed.
Print Assumptions may_contain_html401.
