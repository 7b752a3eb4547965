#!/usr/bin/env python3
"""Prints rocq/theories/HtmlElemModel.v from /repo/include/stdex/html.hpp (enum element_t, element_traits, element::element_code)."""
import re
src=open('/repo/include/stdex/html.hpp').read().split('\n')
def lines(a,b): return src[a-1:b]
# enum
codes={};n=0;order=[]
for l in lines(562,672):
    l=l.split('//')[0].strip().rstrip(',')
    if not l or l.startswith('}') : continue
    m=re.match(r'(\w+)\s*=\s*(-?\d+)$',l)
    if m: n=int(m.group(2)); nm=m.group(1)
    else: nm=l
    codes[nm]=n; order.append(nm); n+=1
print('''(** Model of the element tables of include/stdex/html.hpp: element_t (561-672), element_traits (686-1307) and
    element::element_code (1345-1497).  Written by tools/gen_html_elem.py from the source text; an element_t is its number. *)
From Coq Require Import String.
From Verif Require Import Base StringModel.
Import List.ListNotations.
Open Scope Z_scope.

(** html.hpp:561-672 *)''')
for nm in order: print(f'Definition e_{nm} : Z := {codes[nm]}.' if codes[nm]>=0 else f'Definition e_{nm} : Z := ({codes[nm]}).')
# span
sp=[]
for l in lines(695,800):
    m=re.match(r'\s*element_span_t::(\w+),\s*//\s*(\w+)',l)
    if m: sp.append((m.group(1),m.group(2)))
assert [s[1] for s in sp]==[o for o in order if 1<=codes[o]<=codes['xmp']],"span order"
print('\n(** html.hpp:677-681 *)\nInductive span_t : Type := needs_end | end_optional | immediate.\n(** html.hpp:693-807: one entry per element from a to xmp, in their order *)\nDefinition span_table : list span_t := [')
print(';\n'.join('  %s (* %s *)'%s for s in sp)+'].')
print('''Definition span (code : Z) : span_t :=
  if (e_a <=? code) && (code <=? e_xmp) then nth (Z.to_nat (code - e_a)) span_table needs_end else needs_end.
(** a switch with several cases *)
Definition one_of (code : Z) (l : list Z) : bool := existsb (Z.eqb code) l.
''')
def switch(a,b):
    return [m for l in lines(a,b) for m in re.findall(r'case element_t::(\w+):',l)]
def lst(x): return '['+'; '.join('e_'+i for i in x)+']'
simple=[('is_fontstyle',812,829),('is_phrase',835,853),('is_special',860,887),('is_formctrl',894,906)]
for n_,a,b in simple: print(f'(** html.hpp:{a}-{b} *)\nDefinition {n_} (code : Z) : bool := one_of code {lst(switch(a,b))}.')
print('(** html.hpp:913-921 *)\nDefinition is_inline (code : Z) : bool := (code =? e_PCDATA) || is_fontstyle code || is_phrase code || is_special code || is_formctrl code.')
for n_,a,b in [('is_heading',928,941),('is_list',948,960),('is_preformatted',966,975)]: print(f'(** html.hpp:{a}-{b} *)\nDefinition {n_} (code : Z) : bool := one_of code {lst(switch(a,b))}.')
print(f'(** html.hpp:982-1007 *)\nDefinition is_block (code : Z) : bool := is_heading code || is_list code || is_preformatted code || one_of code {lst(switch(982,1007))}.')
print('(** html.hpp:1014-1017 *)\nDefinition is_flow (code : Z) : bool := is_block code || is_inline code.')
for n_,a,b in [('is_head_content',1024,1035),('is_head_misc',1042,1054),('is_pre_exclusion',1061,1080),('is_html_content',1087,1097)]: print(f'(** html.hpp:{a}-{b} *)\nDefinition {n_} (code : Z) : bool := one_of code {lst(switch(a,b))}.')
print(f'(** html.hpp:1104-1125 *)\nDefinition is_group (code : Z) : bool := is_block code || is_html_content code || is_head_content code || one_of code {lst(switch(1104,1125))}.')
# may_contain
def expr(e):
    e=e.strip()
    e=re.sub(r'child != element_t::(\w+)',r'negb (child =? e_\1)',e)
    e=re.sub(r'child == element_t::(\w+)',r'(child =? e_\1)',e)
    e=re.sub(r'!(is_\w+)\(child\)',r'negb (\1 child)',e)
    e=re.sub(r'(is_\w+)\(child\)',r'\1 child',e)
    return e
rows=[];default=None
for l in lines(1144,1226):
    m=re.match(r'\s*case element_t::(\w+):\s*return (.*);$',l)
    if m: rows.append((m.group(1),expr(m.group(2).replace('||','||').replace('&&','&&'))))
print('(** html.hpp:1135-1226 *)\nDefinition may_contain (parent child : Z) : bool :=\n  if (child =? e_unknown) || (child =? e_comment) then true\n  else if is_fontstyle parent || is_phrase parent then is_inline child\n  else if is_heading parent then is_inline child')
for a,e in rows: print(f'  else if parent =? e_{a} then {e}')
print('  else false.')
# mapping
mp=[]
for l in lines(1348,1462):
    m=re.match(r'\s*\{ "(\w+)",\s*element_t::(\w+),\s*\},',l)
    if m: mp.append(m.groups())
print('\n(** html.hpp:1348-1456: the names and the codes *)\nDefinition code_units (s : string) : list Z := map (fun a => Z.of_nat (Ascii.nat_of_ascii a)) (list_ascii_of_string s).\nDefinition elem_mapping : list (list Z * Z) := [')
print(';\n'.join(f'  (code_units "{a}", e_{b})' for a,b in mp)+'].')
print(r'''
Section Code.
(** [to_char] is static_cast<char> of a T: nothing for char, the low byte for wchar_t *)
Context (to_char : Z -> Z).
(** html.hpp:1467-1489: the order of a name of the table (from i1 on; its end is the terminator) and the name given *)
Fixpoint name_cmp (mapped : list Z) (name : list Z) (num_chars : nat) : outcome Z :=
  match mapped with
  | [] => match num_chars with
          | O => Ret 0
          | S _ => let* c := rd name 0 in Ret (if c =? 0 then 0 else -1)
          end
  | x :: r =>
      match num_chars with
      | O => Ret 1
      | S n =>
          let* c := rd name 0 in
          if c =? 0 then Ret 1
          else
            let chr := to_char (tolower c) in
            if chr <? x then Ret 1 else if x <? chr then Ret (-1) else name_cmp r (tl name) n
      end
  end.
(** html.hpp:1464-1497: the binary search *)
Fixpoint code_search (fuel i j : nat) (name : list Z) (num_chars : nat) : outcome Z :=
  match fuel with
  | O => UB
  | S f =>
      if (i <? j)%nat then
        let m := ((i + j) / 2)%nat in
        match nth_error elem_mapping m with
        | None => UB
        | Some (x, code) =>
            let* r := name_cmp x name num_chars in
            if r <? 0 then code_search f (m + 1) j name num_chars
            else if 0 <? r then code_search f i m name num_chars
            else Ret code
        end
      else Ret e_unknown
  end.
Definition element_code (name : list Z) (num_chars : nat) : outcome Z := code_search (S (length elem_mapping)) 0 (length elem_mapping) name num_chars.
End Code.
''')
# is_uri / is_localizable
def attrs(a,b):
    t=' '.join(x.strip() for x in lines(a,b))
    out=[]
    for m in re.finditer(r'case element_t::(\w+):\s*return (.*?);',t):
        out.append((m.group(1),re.findall(r'"(\w+)"',m.group(2))))
    return out
for n_,a,b in [('uri_attributes',1238,1278),('localizable_attributes',1295,1304)]:
    print(f'(** html.hpp:{a}-{b}: the attributes compared, per element *)\nDefinition {n_} : list (Z * list (list Z)) := [')
    print(';\n'.join('  (e_%s, [%s])'%(x,'; '.join(f'code_units "{y}"' for y in ys)) for x,ys in attrs(a,b))+'].')
print(r'''Section Attr.
(** strnicmp(attr_name, num_chars, literal, SIZE_MAX) == 0, with the literal's terminator; [f] folds case *)
Context (f : Z -> Z).
Definition same_name (attr_name : list Z) (num_chars : nat) (lit : list Z) : outcome bool :=
  let* r := strnicmp4 f attr_name num_chars (lit ++ [0]) (S (length lit)) in Ret (r =? 0).
Fixpoint any_name (attr_name : list Z) (num_chars : nat) (lits : list (list Z)) : outcome bool :=
  match lits with
  | [] => Ret false
  | l :: r => let* b := same_name attr_name num_chars l in if b then Ret true else any_name attr_name num_chars r
  end.
Definition attrs_of (table : list (Z * list (list Z))) (code : Z) : list (list Z) :=
  match find (fun p => fst p =? code) table with Some (_, l) => l | None => [] end.
(** html.hpp:1234-1280 *)
Definition is_uri (code : Z) (attr_name : list Z) (num_chars : nat) : outcome bool := any_name attr_name num_chars (attrs_of uri_attributes code).
(** html.hpp:1289-1306 *)
Definition is_localizable (code : Z) (attr_name : list Z) (num_chars : nat) : outcome bool :=
  let* b := same_name attr_name num_chars (code_units "title") in
  if b then Ret true else any_name attr_name num_chars (attrs_of localizable_attributes code).
End Attr.''')
