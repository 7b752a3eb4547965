(** Model of the element tables of include/stdex/html.hpp: element_t (561-672), element_traits (686-1307) and
    element::element_code (1345-1497).  Written by tools/gen_html_elem.py from the source text; an element_t is its number. *)
From Coq Require Import String.
From Verif Require Import Base StringModel.
Import List.ListNotations.
Open Scope Z_scope.

(** html.hpp:561-672 *)
Definition e_empty : Z := 0.
Definition e_a : Z := 1.
Definition e_abbr : Z := 2.
Definition e_acronym : Z := 3.
Definition e_address : Z := 4.
Definition e_applet : Z := 5.
Definition e_area : Z := 6.
Definition e_b : Z := 7.
Definition e_base : Z := 8.
Definition e_basefont : Z := 9.
Definition e_bdo : Z := 10.
Definition e_bgsound : Z := 11.
Definition e_big : Z := 12.
Definition e_blink : Z := 13.
Definition e_blockquote : Z := 14.
Definition e_body : Z := 15.
Definition e_br : Z := 16.
Definition e_button : Z := 17.
Definition e_caption : Z := 18.
Definition e_center : Z := 19.
Definition e_cite : Z := 20.
Definition e_code : Z := 21.
Definition e_col : Z := 22.
Definition e_colgroup : Z := 23.
Definition e_comment : Z := 24.
Definition e_dd : Z := 25.
Definition e_del : Z := 26.
Definition e_dfn : Z := 27.
Definition e_dir : Z := 28.
Definition e_div : Z := 29.
Definition e_dl : Z := 30.
Definition e_dt : Z := 31.
Definition e_em : Z := 32.
Definition e_embed : Z := 33.
Definition e_fieldset : Z := 34.
Definition e_font : Z := 35.
Definition e_form : Z := 36.
Definition e_frame : Z := 37.
Definition e_frameset : Z := 38.
Definition e_h1 : Z := 39.
Definition e_h2 : Z := 40.
Definition e_h3 : Z := 41.
Definition e_h4 : Z := 42.
Definition e_h5 : Z := 43.
Definition e_h6 : Z := 44.
Definition e_head : Z := 45.
Definition e_hr : Z := 46.
Definition e_html : Z := 47.
Definition e_i : Z := 48.
Definition e_iframe : Z := 49.
Definition e_img : Z := 50.
Definition e_input : Z := 51.
Definition e_ins : Z := 52.
Definition e_isindex : Z := 53.
Definition e_kbd : Z := 54.
Definition e_label : Z := 55.
Definition e_legend : Z := 56.
Definition e_li : Z := 57.
Definition e_link : Z := 58.
Definition e_listing : Z := 59.
Definition e_map : Z := 60.
Definition e_marquee : Z := 61.
Definition e_menu : Z := 62.
Definition e_meta : Z := 63.
Definition e_nextid : Z := 64.
Definition e_nobr : Z := 65.
Definition e_noembed : Z := 66.
Definition e_noframes : Z := 67.
Definition e_noscript : Z := 68.
Definition e_object : Z := 69.
Definition e_ol : Z := 70.
Definition e_optgroup : Z := 71.
Definition e_option : Z := 72.
Definition e_p : Z := 73.
Definition e_param : Z := 74.
Definition e_plaintext : Z := 75.
Definition e_pre : Z := 76.
Definition e_q : Z := 77.
Definition e_rt : Z := 78.
Definition e_ruby : Z := 79.
Definition e_s : Z := 80.
Definition e_samp : Z := 81.
Definition e_script : Z := 82.
Definition e_select : Z := 83.
Definition e_small : Z := 84.
Definition e_span : Z := 85.
Definition e_strike : Z := 86.
Definition e_strong : Z := 87.
Definition e_style : Z := 88.
Definition e_sub : Z := 89.
Definition e_sup : Z := 90.
Definition e_table : Z := 91.
Definition e_tbody : Z := 92.
Definition e_td : Z := 93.
Definition e_textarea : Z := 94.
Definition e_tfoot : Z := 95.
Definition e_th : Z := 96.
Definition e_thead : Z := 97.
Definition e_title : Z := 98.
Definition e_tr : Z := 99.
Definition e_tt : Z := 100.
Definition e_u : Z := 101.
Definition e_ul : Z := 102.
Definition e_var : Z := 103.
Definition e_wbr : Z := 104.
Definition e_xmp : Z := 105.
Definition e_unknown : Z := (-1).
Definition e_PCDATA : Z := (-2).
Definition e_CDATA : Z := (-3).

(** html.hpp:677-681 *)
Inductive span_t : Type := needs_end | end_optional | immediate.
(** html.hpp:693-807: one entry per element from a to xmp, in their order *)
Definition span_table : list span_t := [
  needs_end (* a *);
  needs_end (* abbr *);
  needs_end (* acronym *);
  needs_end (* address *);
  needs_end (* applet *);
  immediate (* area *);
  needs_end (* b *);
  immediate (* base *);
  immediate (* basefont *);
  needs_end (* bdo *);
  immediate (* bgsound *);
  needs_end (* big *);
  needs_end (* blink *);
  needs_end (* blockquote *);
  end_optional (* body *);
  immediate (* br *);
  needs_end (* button *);
  needs_end (* caption *);
  needs_end (* center *);
  needs_end (* cite *);
  needs_end (* code *);
  immediate (* col *);
  end_optional (* colgroup *);
  needs_end (* comment *);
  end_optional (* dd *);
  needs_end (* del *);
  needs_end (* dfn *);
  needs_end (* dir *);
  needs_end (* div *);
  needs_end (* dl *);
  end_optional (* dt *);
  needs_end (* em *);
  immediate (* embed *);
  needs_end (* fieldset *);
  needs_end (* font *);
  needs_end (* form *);
  immediate (* frame *);
  needs_end (* frameset *);
  needs_end (* h1 *);
  needs_end (* h2 *);
  needs_end (* h3 *);
  needs_end (* h4 *);
  needs_end (* h5 *);
  needs_end (* h6 *);
  end_optional (* head *);
  immediate (* hr *);
  end_optional (* html *);
  needs_end (* i *);
  needs_end (* iframe *);
  immediate (* img *);
  immediate (* input *);
  needs_end (* ins *);
  immediate (* isindex *);
  needs_end (* kbd *);
  needs_end (* label *);
  needs_end (* legend *);
  end_optional (* li *);
  immediate (* link *);
  needs_end (* listing *);
  needs_end (* map *);
  needs_end (* marquee *);
  needs_end (* menu *);
  immediate (* meta *);
  immediate (* nextid *);
  needs_end (* nobr *);
  needs_end (* noembed *);
  needs_end (* noframes *);
  needs_end (* noscript *);
  needs_end (* object *);
  needs_end (* ol *);
  needs_end (* optgroup *);
  end_optional (* option *);
  end_optional (* p *);
  immediate (* param *);
  end_optional (* plaintext *);
  needs_end (* pre *);
  needs_end (* q *);
  immediate (* rt *);
  needs_end (* ruby *);
  needs_end (* s *);
  needs_end (* samp *);
  needs_end (* script *);
  needs_end (* select *);
  needs_end (* small *);
  needs_end (* span *);
  needs_end (* strike *);
  needs_end (* strong *);
  needs_end (* style *);
  needs_end (* sub *);
  needs_end (* sup *);
  needs_end (* table *);
  end_optional (* tbody *);
  end_optional (* td *);
  needs_end (* textarea *);
  end_optional (* tfoot *);
  end_optional (* th *);
  end_optional (* thead *);
  needs_end (* title *);
  end_optional (* tr *);
  needs_end (* tt *);
  needs_end (* u *);
  needs_end (* ul *);
  needs_end (* var *);
  immediate (* wbr *);
  needs_end (* xmp *)].
Definition span (code : Z) : span_t :=
  if (e_a <=? code) && (code <=? e_xmp) then nth (Z.to_nat (code - e_a)) span_table needs_end else needs_end.
(** a switch with several cases *)
Definition one_of (code : Z) (l : list Z) : bool := existsb (Z.eqb code) l.

(** html.hpp:812-829 *)
Definition is_fontstyle (code : Z) : bool := one_of code [e_tt; e_i; e_b; e_u; e_s; e_strike; e_blink; e_big; e_small].
(** html.hpp:835-853 *)
Definition is_phrase (code : Z) : bool := one_of code [e_em; e_strong; e_dfn; e_code; e_samp; e_kbd; e_var; e_cite; e_abbr; e_acronym; e_xmp].
(** html.hpp:860-887 *)
Definition is_special (code : Z) : bool := one_of code [e_a; e_img; e_applet; e_object; e_embed; e_font; e_basefont; e_br; e_wbr; e_rt; e_script; e_map; e_q; e_sub; e_sup; e_ruby; e_span; e_bdo; e_iframe; e_nobr].
(** html.hpp:894-906 *)
Definition is_formctrl (code : Z) : bool := one_of code [e_input; e_select; e_textarea; e_label; e_button].
(** html.hpp:913-921 *)
Definition is_inline (code : Z) : bool := (code =? e_PCDATA) || is_fontstyle code || is_phrase code || is_special code || is_formctrl code.
(** html.hpp:928-941 *)
Definition is_heading (code : Z) : bool := one_of code [e_h1; e_h2; e_h3; e_h4; e_h5; e_h6].
(** html.hpp:948-960 *)
Definition is_list (code : Z) : bool := one_of code [e_ul; e_ol; e_dir; e_menu].
(** html.hpp:966-975 *)
Definition is_preformatted (code : Z) : bool := one_of code [e_pre; e_listing].
(** html.hpp:982-1007 *)
Definition is_block (code : Z) : bool := is_heading code || is_list code || is_preformatted code || one_of code [e_p; e_dl; e_div; e_center; e_marquee; e_noscript; e_noframes; e_noembed; e_blockquote; e_form; e_isindex; e_hr; e_table; e_fieldset; e_address].
(** html.hpp:1014-1017 *)
Definition is_flow (code : Z) : bool := is_block code || is_inline code.
(** html.hpp:1024-1035 *)
Definition is_head_content (code : Z) : bool := one_of code [e_title; e_isindex; e_base; e_nextid].
(** html.hpp:1042-1054 *)
Definition is_head_misc (code : Z) : bool := one_of code [e_script; e_style; e_meta; e_link; e_object].
(** html.hpp:1061-1080 *)
Definition is_pre_exclusion (code : Z) : bool := one_of code [e_img; e_object; e_applet; e_embed; e_big; e_small; e_sub; e_sup; e_ruby; e_font; e_basefont; e_nobr].
(** html.hpp:1087-1097 *)
Definition is_html_content (code : Z) : bool := one_of code [e_head; e_body; e_frameset].
(** html.hpp:1104-1125 *)
Definition is_group (code : Z) : bool := is_block code || is_html_content code || is_head_content code || one_of code [e_col; e_colgroup; e_dd; e_dir; e_dt; e_frame; e_iframe; e_legend; e_td; e_th; e_tr].
(** html.hpp:1135-1226 *)
Definition may_contain (parent child : Z) : bool :=
  if (child =? e_unknown) || (child =? e_comment) then true
  else if is_fontstyle parent || is_phrase parent then is_inline child
  else if is_heading parent then is_inline child
  else if parent =? e_a then is_inline child && negb (child =? e_a)
  else if parent =? e_address then is_inline child || (child =? e_p)
  else if parent =? e_applet then is_flow child || (child =? e_param)
  else if parent =? e_area then false
  else if parent =? e_base then false
  else if parent =? e_basefont then false
  else if parent =? e_bdo then is_inline child
  else if parent =? e_blockquote then is_flow child
  else if parent =? e_body then is_flow child || (child =? e_ins) || (child =? e_del)
  else if parent =? e_br then false
  else if parent =? e_button then is_flow child && negb (is_formctrl child) && negb (child =? e_a) && negb (child =? e_form) && negb (child =? e_isindex) && negb (child =? e_fieldset) && negb (child =? e_iframe)
  else if parent =? e_caption then is_inline child
  else if parent =? e_center then is_flow child
  else if parent =? e_col then false
  else if parent =? e_colgroup then (child =? e_col)
  else if parent =? e_comment then (child =? e_CDATA)
  else if parent =? e_dd then is_flow child
  else if parent =? e_del then is_flow child
  else if parent =? e_dir then (child =? e_li)
  else if parent =? e_div then is_flow child
  else if parent =? e_dl then (child =? e_dt) || (child =? e_dd)
  else if parent =? e_dt then is_inline child
  else if parent =? e_embed then is_flow child || (child =? e_param)
  else if parent =? e_fieldset then is_flow child || (child =? e_legend) || (child =? e_PCDATA)
  else if parent =? e_font then is_inline child
  else if parent =? e_form then is_flow child && negb (child =? e_form)
  else if parent =? e_frame then false
  else if parent =? e_frameset then (child =? e_frameset) || (child =? e_frame) || (child =? e_noframes)
  else if parent =? e_head then is_head_content child || is_head_misc child
  else if parent =? e_hr then false
  else if parent =? e_html then is_html_content child
  else if parent =? e_iframe then is_flow child
  else if parent =? e_img then false
  else if parent =? e_input then false
  else if parent =? e_ins then is_flow child
  else if parent =? e_isindex then false
  else if parent =? e_label then is_inline child && negb (child =? e_label)
  else if parent =? e_legend then is_inline child
  else if parent =? e_li then is_flow child
  else if parent =? e_link then false
  else if parent =? e_listing then (child =? e_CDATA)
  else if parent =? e_map then is_block child || (child =? e_area)
  else if parent =? e_marquee then is_flow child
  else if parent =? e_menu then (child =? e_li)
  else if parent =? e_meta then false
  else if parent =? e_nobr then is_inline child || (child =? e_wbr)
  else if parent =? e_noframes then (is_flow child || (child =? e_body)) && negb (child =? e_noframes)
  else if parent =? e_noscript then is_flow child
  else if parent =? e_noembed then is_flow child
  else if parent =? e_object then is_flow child || (child =? e_param)
  else if parent =? e_ol then (child =? e_li)
  else if parent =? e_optgroup then (child =? e_option)
  else if parent =? e_option then (child =? e_PCDATA)
  else if parent =? e_p then is_inline child
  else if parent =? e_param then false
  else if parent =? e_plaintext then is_flow child
  else if parent =? e_pre then is_inline child && negb (is_pre_exclusion child)
  else if parent =? e_q then is_inline child
  else if parent =? e_rt then false
  else if parent =? e_ruby then is_inline child
  else if parent =? e_script then (child =? e_CDATA)
  else if parent =? e_select then (child =? e_optgroup) || (child =? e_option)
  else if parent =? e_span then is_inline child
  else if parent =? e_style then (child =? e_CDATA)
  else if parent =? e_sub then is_inline child
  else if parent =? e_sup then is_inline child
  else if parent =? e_table then (child =? e_caption) || (child =? e_col) || (child =? e_colgroup) || (child =? e_thead) || (child =? e_tfoot) || (child =? e_tbody)
  else if parent =? e_tbody then (child =? e_tr)
  else if parent =? e_td then is_flow child
  else if parent =? e_textarea then (child =? e_PCDATA)
  else if parent =? e_tfoot then (child =? e_tr)
  else if parent =? e_th then is_flow child
  else if parent =? e_thead then (child =? e_tr)
  else if parent =? e_title then (child =? e_PCDATA)
  else if parent =? e_tr then (child =? e_td) || (child =? e_th)
  else if parent =? e_ul then (child =? e_li)
  else if parent =? e_wbr then false
  else if parent =? e_unknown then true
  else false.

(** html.hpp:1348-1456: the names and the codes *)
Definition code_units (s : string) : list Z := map (fun a => Z.of_nat (Ascii.nat_of_ascii a)) (list_ascii_of_string s).
Definition elem_mapping : list (list Z * Z) := [
  (code_units "a", e_a);
  (code_units "abbr", e_abbr);
  (code_units "acronym", e_acronym);
  (code_units "address", e_address);
  (code_units "applet", e_applet);
  (code_units "area", e_area);
  (code_units "b", e_b);
  (code_units "base", e_base);
  (code_units "basefont", e_basefont);
  (code_units "bdo", e_bdo);
  (code_units "bgsound", e_bgsound);
  (code_units "big", e_big);
  (code_units "blink", e_blink);
  (code_units "blockquote", e_blockquote);
  (code_units "body", e_body);
  (code_units "br", e_br);
  (code_units "button", e_button);
  (code_units "caption", e_caption);
  (code_units "center", e_center);
  (code_units "cite", e_cite);
  (code_units "code", e_code);
  (code_units "col", e_col);
  (code_units "colgroup", e_colgroup);
  (code_units "comment", e_comment);
  (code_units "dd", e_dd);
  (code_units "del", e_del);
  (code_units "dfn", e_dfn);
  (code_units "dir", e_dir);
  (code_units "div", e_div);
  (code_units "dl", e_dl);
  (code_units "dt", e_dt);
  (code_units "em", e_em);
  (code_units "embed", e_embed);
  (code_units "fieldset", e_fieldset);
  (code_units "font", e_font);
  (code_units "form", e_form);
  (code_units "frame", e_frame);
  (code_units "frameset", e_frameset);
  (code_units "h1", e_h1);
  (code_units "h2", e_h2);
  (code_units "h3", e_h3);
  (code_units "h4", e_h4);
  (code_units "h5", e_h5);
  (code_units "h6", e_h6);
  (code_units "head", e_head);
  (code_units "hr", e_hr);
  (code_units "html", e_html);
  (code_units "i", e_i);
  (code_units "iframe", e_iframe);
  (code_units "img", e_img);
  (code_units "input", e_input);
  (code_units "ins", e_ins);
  (code_units "isindex", e_isindex);
  (code_units "kbd", e_kbd);
  (code_units "label", e_label);
  (code_units "legend", e_legend);
  (code_units "li", e_li);
  (code_units "link", e_link);
  (code_units "listing", e_listing);
  (code_units "map", e_map);
  (code_units "marquee", e_marquee);
  (code_units "menu", e_menu);
  (code_units "meta", e_meta);
  (code_units "nextid", e_nextid);
  (code_units "nobr", e_nobr);
  (code_units "noembed", e_noembed);
  (code_units "noframes", e_noframes);
  (code_units "noscript", e_noscript);
  (code_units "object", e_object);
  (code_units "ol", e_ol);
  (code_units "optgroup", e_optgroup);
  (code_units "option", e_option);
  (code_units "p", e_p);
  (code_units "param", e_param);
  (code_units "plaintext", e_plaintext);
  (code_units "pre", e_pre);
  (code_units "q", e_q);
  (code_units "rt", e_rt);
  (code_units "ruby", e_ruby);
  (code_units "s", e_s);
  (code_units "samp", e_samp);
  (code_units "script", e_script);
  (code_units "select", e_select);
  (code_units "small", e_small);
  (code_units "span", e_span);
  (code_units "strike", e_strike);
  (code_units "strong", e_strong);
  (code_units "style", e_style);
  (code_units "sub", e_sub);
  (code_units "sup", e_sup);
  (code_units "table", e_table);
  (code_units "tbody", e_tbody);
  (code_units "td", e_td);
  (code_units "textarea", e_textarea);
  (code_units "tfoot", e_tfoot);
  (code_units "th", e_th);
  (code_units "thead", e_thead);
  (code_units "title", e_title);
  (code_units "tr", e_tr);
  (code_units "tt", e_tt);
  (code_units "u", e_u);
  (code_units "ul", e_ul);
  (code_units "var", e_var);
  (code_units "wbr", e_wbr);
  (code_units "xmp", e_xmp)].

Section Code.
(** [to_char] is static_cast<char> of a T: nothing for char, the low byte for wchar_t *)
Context (to_char : Z -> Z).
(** html.hpp:1467-1489: the order of a name of the table (from i1 on; its end is the terminator) and the name given *)
Fixpoint name_cmp (mapped : list Z) (name : list Z) (num_chars : nat) : outcome Z :=
  match mapped with
  | [] => match num_chars with
          | O => Ret 0
          | S _ => let* c := rd name 0 in Ret (if c =? 0 then 0 else -1)
          end
  | x :: r =>
      match num_chars with
      | O => Ret 1
      | S n =>
          let* c := rd name 0 in
          if c =? 0 then Ret 1
          else
            let chr := to_char (tolower c) in
            if chr <? x then Ret 1 else if x <? chr then Ret (-1) else name_cmp r (tl name) n
      end
  end.
(** html.hpp:1464-1497: the binary search *)
Fixpoint code_search (fuel i j : nat) (name : list Z) (num_chars : nat) : outcome Z :=
  match fuel with
  | O => UB
  | S f =>
      if (i <? j)%nat then
        let m := ((i + j) / 2)%nat in
        match nth_error elem_mapping m with
        | None => UB
        | Some (x, code) =>
            let* r := name_cmp x name num_chars in
            if r <? 0 then code_search f (m + 1) j name num_chars
            else if 0 <? r then code_search f i m name num_chars
            else Ret code
        end
      else Ret e_unknown
  end.
Definition element_code (name : list Z) (num_chars : nat) : outcome Z := code_search (S (length elem_mapping)) 0 (length elem_mapping) name num_chars.
End Code.

(** html.hpp:1238-1278: the attributes compared, per element *)
Definition uri_attributes : list (Z * list (list Z)) := [
  (e_a, [code_units "href"]);
  (e_applet, [code_units "code"; code_units "codebase"; code_units "src"]);
  (e_area, [code_units "href"]);
  (e_base, [code_units "href"]);
  (e_bgsound, [code_units "src"]);
  (e_blockquote, [code_units "cite"]);
  (e_body, [code_units "background"]);
  (e_comment, [code_units "data"]);
  (e_del, [code_units "cite"]);
  (e_embed, [code_units "pluginspage"; code_units "src"]);
  (e_form, [code_units "action"]);
  (e_frame, [code_units "longdesc"; code_units "src"]);
  (e_head, [code_units "profile"]);
  (e_iframe, [code_units "longdesc"; code_units "src"]);
  (e_img, [code_units "longdesc"; code_units "lowsrc"; code_units "src"; code_units "usemap"]);
  (e_input, [code_units "lowsrc"; code_units "src"; code_units "usemap"]);
  (e_ins, [code_units "cite"]);
  (e_link, [code_units "href"]);
  (e_object, [code_units "basehref"; code_units "classid"; code_units "code"; code_units "codebase"; code_units "data"; code_units "usemap"]);
  (e_q, [code_units "cite"]);
  (e_script, [code_units "src"]);
  (e_table, [code_units "background"]);
  (e_td, [code_units "background"]);
  (e_th, [code_units "background"])].
(** html.hpp:1295-1304: the attributes compared, per element *)
Definition localizable_attributes : list (Z * list (list Z)) := [
  (e_applet, [code_units "alt"]);
  (e_area, [code_units "alt"]);
  (e_img, [code_units "alt"]);
  (e_input, [code_units "alt"]);
  (e_object, [code_units "alt"]);
  (e_table, [code_units "summary"]);
  (e_td, [code_units "abbr"]);
  (e_th, [code_units "abbr"])].
Section Attr.
(** strnicmp(attr_name, num_chars, literal, SIZE_MAX) == 0, with the literal's terminator; [f] folds case *)
Context (f : Z -> Z).
Definition same_name (attr_name : list Z) (num_chars : nat) (lit : list Z) : outcome bool :=
  let* r := strnicmp4 f attr_name num_chars (lit ++ [0]) (S (length lit)) in Ret (r =? 0).
Fixpoint any_name (attr_name : list Z) (num_chars : nat) (lits : list (list Z)) : outcome bool :=
  match lits with
  | [] => Ret false
  | l :: r => let* b := same_name attr_name num_chars l in if b then Ret true else any_name attr_name num_chars r
  end.
Definition attrs_of (table : list (Z * list (list Z))) (code : Z) : list (list Z) :=
  match find (fun p => fst p =? code) table with Some (_, l) => l | None => [] end.
(** html.hpp:1234-1280 *)
Definition is_uri (code : Z) (attr_name : list Z) (num_chars : nat) : outcome bool := any_name attr_name num_chars (attrs_of uri_attributes code).
(** html.hpp:1289-1306 *)
Definition is_localizable (code : Z) (attr_name : list Z) (num_chars : nat) : outcome bool :=
  let* b := same_name attr_name num_chars (code_units "title") in
  if b then Ret true else any_name attr_name num_chars (attrs_of localizable_attributes code).
End Attr.
