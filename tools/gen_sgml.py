import textwrap
exec(open('/verif/tools/sgml_table.py').read())
o=['(** Data of include/stdex/sgml_unicode.hpp (generated by tools/gen_sgml.py from the header). *)',
'From Coq Require Import String Ascii.','From Verif Require Import Base.','',
'(** The character codes of an ASCII string. *)',
'Definition codes (s : string) : list Z := map (fun a => Z.of_N (N_of_ascii a)) (list_ascii_of_string s).',
'(** sgml_unicode.hpp:20-23: one entry; the two arrays are represented without their terminating zeros *)',
'Definition E (name : string) (uni : list Z) : list Z * list Z := (codes name, uni).','',
'Local Open Scope string_scope.',
'(** sgml_unicode.hpp:25-1561 *)','Definition sgml_unicode : list (list Z * list Z) := [']
rows=['E "%s" [%s]'%(n,';'.join(map(str,u))) for n,u in tab]
o.append(textwrap.fill('; '.join(rows).replace('" [','"~['),150,break_long_words=False).replace('~',' ')+'].')
o.append('(** sgml_unicode.hpp:1563-3099 *)\nDefinition unicode_sgml : list Z := [')
o.append(textwrap.fill('; '.join(map(str,idx)),150)+'].')
open('/verif/rocq/theories/SgmlTable.v','w').write('\n'.join(o)+'\n')
