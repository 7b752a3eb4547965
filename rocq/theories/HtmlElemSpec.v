(** Specification for the element tables: the HTML element names in alphabetical order, an element's number is its place
    (1 for a); what "the same name" is; HTML 4.01's attributes of type URI and its omissible end tags. *)
From Coq Require Import String.
From Verif Require Import Base StringSpec.
Import List.ListNotations.
Open Scope Z_scope.
Definition units (s : string) : list Z := map (fun a => Z.of_nat (Ascii.nat_of_ascii a)) (list_ascii_of_string s).
Definition html_names : list string := [
"a"; "abbr"; "acronym"; "address"; "applet"; "area"; "b"; "base"; "basefont"; "bdo"; "bgsound"; "big"; "blink";
"blockquote"; "body"; "br"; "button"; "caption"; "center"; "cite"; "code"; "col"; "colgroup"; "comment"; "dd"; "del";
"dfn"; "dir"; "div"; "dl"; "dt"; "em"; "embed"; "fieldset"; "font"; "form"; "frame"; "frameset"; "h1"; "h2"; "h3"; "h4";
"h5"; "h6"; "head"; "hr"; "html"; "i"; "iframe"; "img"; "input"; "ins"; "isindex"; "kbd"; "label"; "legend"; "li";
"link"; "listing"; "map"; "marquee"; "menu"; "meta"; "nextid"; "nobr"; "noembed"; "noframes"; "noscript"; "object";
"ol"; "optgroup"; "option"; "p"; "param"; "plaintext"; "pre"; "q"; "rt"; "ruby"; "s"; "samp"; "script"; "select";
"small"; "span"; "strike"; "strong"; "style"; "sub"; "sup"; "table"; "tbody"; "td"; "textarea"; "tfoot"; "th"; "thead";
"title"; "tr"; "tt"; "u"; "ul"; "var"; "wbr"; "xmp"]%string.
(** upper-case ASCII letters as lower-case ones *)
Definition lower (c : Z) : Z := if (65 <=? c) && (c <=? 90) then c + 32 else c.
Fixpoint place (x : list Z) (l : list (list Z)) : option nat :=
  match l with [] => None | y :: r => if list_eq_dec Z.eq_dec x y then Some 0%nat else option_map S (place x r) end.
(** the number of the element with this name in any case; -1 when there is none *)
Definition html_number (name : list Z) : Z := match place (map lower name) (map units html_names) with Some k => Z.of_nat k + 1 | None => -1 end.
Definition number (s : string) : Z := html_number (units s).

(** HTML 4.01, index of attributes: type %URI *)
Definition html401_uri : list (string * string) := [
  ("a","href"); ("applet","codebase"); ("area","href"); ("base","href"); ("blockquote","cite"); ("body","background"); ("del","cite"); ("form","action");
  ("frame","longdesc"); ("frame","src"); ("head","profile"); ("iframe","longdesc"); ("iframe","src"); ("img","longdesc"); ("img","src"); ("img","usemap");
  ("input","src"); ("input","usemap"); ("ins","cite"); ("link","href"); ("object","classid"); ("object","codebase"); ("object","data"); ("object","usemap");
  ("q","cite"); ("script","src")]%string.
(** HTML 4.01, index of elements: the end tag is forbidden *)
Definition html401_empty : list string := ["area"; "base"; "basefont"; "br"; "col"; "frame"; "hr"; "img"; "input"; "isindex"; "link"; "meta"; "param"]%string.
(** ... or may be omitted *)
Definition html401_omissible : list string := ["body"; "colgroup"; "dd"; "dt"; "head"; "html"; "li"; "option"; "p"; "tbody"; "td"; "tfoot"; "th"; "thead"; "tr"]%string.
