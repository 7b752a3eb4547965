(** Model of the tokens of include/stdex/html.hpp (1957-2685): token tags, parser<wchar_t>::parse, parse_css, link, start_tokens,
    end_tokens, append_inserted_tokens and merge.  (parser<char> does not compile: sgml2strcat needs a wide destination.)

    m_tokens only grows and owns every token, so a token is its index in m_tokens.  Its address is [addr] of that index: any
    injective function to the nonzero 64-bit numbers.  A pointer to a sequence is an index into the sequences of the document.
    The text of a token, a std::wstring, is a list of units behind which data() has a terminator.
    Not modelled: progress (2433-2437); the data member of a token, which nothing reads; make_absolute_url, which does nothing;
    stdex_assert (NDEBUG).  A pointer that does not point to a token is [UB] where it is read. *)
From Verif Require Import Base StringModel ParserModel SgmlSpec SgmlModel HtmlEscModel HtmlTagModel HtmlElemModel HtmlDocModel CssModel.

(** html.hpp:1960-1966 *)
Inductive kind : Type := KComplete | KStarting | KEnding.
(** html.hpp:2177-2181 *)
Inductive enc : Type := EPlain | ESgml | ECss.
(** html.hpp:2069-2074, 2079-2102, 2107-2133: text_token and starting_token; [t_tok], [t_txt], [t_title], [t_bullet] are the bits
    of text_type, [t_name] and [t_end] are empty for a text_token *)
Record txt : Type := Txt { t_kind : kind; t_text : list Z; t_tok : bool; t_txt : bool; t_title : bool; t_bullet : bool; t_seq : option nat; t_map : list (nat * nat); t_name : list Z; t_end : option nat }.
(** html.hpp:2187-2207: url_token *)
Inductive token : Type := TText (x : txt) | TUrl (u : list Z) (e : enc) (s : option nat).

(** printf %X: upper-case hexadecimal digits without leading zeros *)
Definition hexd (d : Z) : Z := if d <? 10 then 48 + d else 55 + d.
Fixpoint hexu (fuel : nat) (v : Z) : list Z :=
  match fuel with
  | O => []
  | S f => if v <? 16 then [hexd v] else hexu f (v / 16) ++ [hexd (v mod 16)]
  end.
(** html.hpp:2040-2046: where the unit 19 is, if it is in front of the terminator *)
Fixpoint tag_end (s : list Z) (k : nat) : outcome (option nat) :=
  match s with
  | [] => UB
  | c :: r => if c =? 0 then Ret None else if c =? 19 then Ret (Some k) else tag_end r (S k)
  end.
(** html.hpp:2033-2055: the address and the new offset *)
Definition parse_tag (s : list Z) (offset : nat) : outcome (option (Z * nat)) :=
  let* c := rd s offset in
  if negb (c =? 18) then Ret None else
  let* e := tag_end (skipn (S offset) s) (S offset) in
  match e with
  | None => Ret None
  | Some e =>
      let* (v, _) := strtouint 64 (skipn (S offset) s) (e - S offset) 16 in
      if v =? 0 then Throw else Ret (Some (v, S e))
  end.

Section Tok.
Context (addr : nat -> Z).
(** html.hpp:2013-2031 *)
Definition tag (k : nat) : list Z := 18 :: hexu 16 (addr k) ++ [19].
(** the token at address [a] *)
Fixpoint at_addr (toks : list token) (k : nat) (a : Z) : outcome token :=
  match toks with
  | [] => UB
  | t :: r => if addr k =? a then Ret t else at_addr r (S k) a
  end.
Definition deref (toks : list token) (a : Z) : outcome token := at_addr toks 0 a.

(** html.hpp:2250-2261 *)
Definition link_token (rec : bool -> list Z -> nat -> nat -> list Z -> outcome (list Z)) (x : txt) (source : list Z) : outcome (list Z) :=
  if t_tok x then rec (t_txt x) (t_text x ++ [0]) (length (t_text x)) 0%nat source
  else if t_txt x then escape_min source (t_text x ++ [0]) (length (t_text x))
  else Ret (source ++ t_text x).
(** html.hpp:2219-2245 *)
Definition link_any (rec : bool -> list Z -> nat -> nat -> list Z -> outcome (list Z)) (t : token) (source : list Z) : outcome (list Z) :=
  match t with
  | TText x => link_token rec x source
  | TUrl u EPlain _ => Ret (source ++ u)
  | TUrl u ESgml _ => escape source (u ++ [0]) (length u)
  | TUrl u ECss _ => css_escape source (u ++ [0]) (length u)
  end.
(** html.hpp:2213-2252: the loop over the [n] units of a text with token tags *)
Fixpoint link_text (fuel : nat) (toks : list token) (has_text : bool) (s : list Z) (n i : nat) (source : list Z) : outcome (list Z) :=
  match fuel with
  | O => UB
  | S f =>
      if (i <? n)%nat then
        let* c := rd s i in
        if c =? 0 then Ret source else
        let* r := parse_tag s i in
        match r with
        | Some (a, j) =>
            let* t := deref toks a in
            let* source := link_any (link_text f toks) t source in
            link_text f toks has_text s n j source
        | None => link_text f toks has_text s n (S i) (source ++ (if has_text then escape_min_chr c else [c]))
        end
      else Ret source
  end.
(** html.hpp:2204-2262: link(source, t) *)
Definition link (fuel : nat) (toks : list token) (source : list Z) (x : txt) : outcome (list Z) := link_token (link_text fuel toks) x source.

(** html.hpp:2279-2286: [from] is the rest of new_tokens *)
Fixpoint start_tokens (source : list Z) (active from : list nat) : list Z * list nat :=
  match from with
  | [] => (source, active)
  | t :: r => start_tokens (source ++ tag t) (active ++ [t]) r
  end.
(** html.hpp:2300-2307, 2321-2325: what both lists begin with, the rest of the active tokens and the rest of the new ones.
    When the active list is out the iterator into the new ones is behind the common part. *)
Fixpoint common (a b : list nat) : list nat * list nat * list nat :=
  match a, b with
  | x :: r, y :: s => if (x =? y)%nat then let '(p, u, v) := common r s in (x :: p, u, v) else ([], a, b)
  | _, _ => ([], a, b)
  end.
Definition ending_of (x : txt) : token := TText (Txt KEnding ([60; 47] ++ t_name x ++ [62]) false false false false None [] [] None).
(** html.hpp:2304-2320: ending tokens for [ts], the last one first; the dynamic_cast gives a null pointer unless the token starts an element *)
Fixpoint end_loop (toks : list token) (source : list Z) (ts : list nat) : outcome (list token * list Z) :=
  match ts with
  | [] => Ret (toks, source)
  | t :: r =>
      match nth_error toks t with
      | Some (TText x) => match t_kind x with KStarting => end_loop (toks ++ [ending_of x]) (source ++ tag (length toks)) r | _ => UB end
      | _ => UB
      end
  end.
(** html.hpp:2297-2327: m_tokens, the source, the active tokens and the rest of the new ones *)
Definition end_tokens (toks : list token) (source : list Z) (active new : list nat) : outcome (list token * list Z * list nat * list nat) :=
  let '(p, u, v) := common active new in
  let* (toks, source) := end_loop toks source (rev u) in
  Ret (toks, source, p, v).
(** html.hpp:2163-2168 *)
Record inserted : Type := Ins { i_tok : nat; i_active : list nat; i_word : nat; i_after : bool }.
(** html.hpp:2338-2354: m_tokens, the source, the inserted tokens that are left and the active tokens *)
Fixpoint append_inserted (toks : list token) (source : list Z) (ins : list inserted) (word : nat) (after : bool) (active : list nat) : outcome (list token * list Z * list inserted * list nat) :=
  match ins with
  | [] => Ret (toks, source, [], active)
  | t :: r =>
      if (i_word t =? word)%nat && Bool.eqb (i_after t) after then
        match nth_error toks (i_tok t) with
        | None => UB
        | Some tk =>
            let* (toks, source, active) :=
              match tk with
              | TText x => match t_kind x with
                           | KEnding => Ret (toks, source, active)
                           | _ => let* (toks, source, active, from) := end_tokens toks source active (i_active t) in
                                  let (source, active) := start_tokens source active from in Ret (toks, source, active)
                           end
              | TUrl _ _ _ => let* (toks, source, active, from) := end_tokens toks source active (i_active t) in
                              let (source, active) := start_tokens source active from in Ret (toks, source, active)
              end in
            append_inserted toks (source ++ tag (i_tok t)) r word after active
        end
      else
        let* (toks, source, kept, active) := append_inserted toks source r word after active in
        Ret (toks, source, t :: kept, active)
  end.
(** html.hpp:2366-2375: the inner loop: [i1 == a.end()] is tested inside of a loop that runs while i1 != a.end() *)
Fixpoint merge_one (a : list nat) (t2 : nat) : list nat :=
  match a with
  | [] => []
  | t1 :: r => if (t1 =? t2)%nat then a else t1 :: merge_one r t2
  end.
(** html.hpp:2362-2377 *)
Definition merge (a b : list nat) : list nat := fold_left merge_one b a.

(** string.append(m_source + from, to - from): the lengths are unsigned, so [to < from] asks for more than there is *)
Definition copy (src : list Z) (from to : nat) : outcome (list Z) :=
  if (from <=? to)%nat && (to <=? length src)%nat then Ret (firstn (to - from) (skipn from src)) else UB.
(** sgml2strcat(dst, src + x.start, x.size(), 0, offset, &map) *)
Definition decode_to (dst src : list Z) (x : itv) (offset : nat * nat) : outcome (list Z * list (nat * nat)) :=
  let* (t, m) := sgml2strcat U32 dst (skipn (fst x) src) (snd x - fst x) 0 in
  Ret (t, map (fun p => (fst offset + fst p, snd offset + snd p)%nat) m).

Section Parse.
(** the source and the sequences of the document, ctype.is(space, c), m_parse_frames *)
Context (src : list Z) (seqs : list sq) (sp : Z -> bool) (parse_frames : bool).
Definition blank_token (k : kind) (s : option nat) : txt := Txt k [] false false false false s [] [] None.
(** html.hpp:2466-2500: the attributes of element [k]; the tokens, the offset, the text and has_tokens *)
Fixpoint attr_tokens (k : nat) (code : Z) (attrs : list attr) (toks : list token) (offset : nat) (text : list Z) (tk : bool) : outcome (list token * nat * list Z * bool) :=
  match attrs with
  | [] => Ret (toks, offset, text, tk)
  | a :: r =>
      let v := a_value a in
      if (snd v <=? fst v)%nat then attr_tokens k code r toks offset text tk else
      let* b := isblank_n (skipn (fst v) src) (snd v - fst v) in
      if b then attr_tokens k code r toks offset text tk else
      let nm := skipn (fst (a_name a)) src in
      let nn := (snd (a_name a) - fst (a_name a))%nat in
      let* u := is_uri tolower code nm nn in
      if u then
        let* p := copy src offset (fst v) in
        let* (url, _) := decode_to [] src v (0, 0)%nat in
        attr_tokens k code r (toks ++ [TUrl url ESgml (Some k)]) (snd v) (text ++ p ++ tag (length toks)) true
      else
        let* l := is_localizable tolower code nm nn in
        if l then
          let* p := copy src offset (fst v) in
          let* (t, m) := decode_to [] src v (fst v, 0)%nat in
          attr_tokens k code r (toks ++ [TText (Txt KComplete t false true true false (Some k) ((fst v, 0)%nat :: m) [] None)]) (snd v) (text ++ p ++ tag (length toks)) true
        else attr_tokens k code r toks offset text tk
  end.
(** html.hpp:2458-2502: the token of the tag *)
Definition tag_token (k : nat) (q : sq) (toks : list token) : outcome (list token * token) :=
  let* (toks, offset, text, tk) := attr_tokens k (q_code q) (q_attrs q) toks (q_start q) [] false in
  let* p := copy src offset (q_end q) in
  let text := text ++ p in
  let starts := is_start (q_type q) && match span (q_code q) with immediate => false | _ => true end in
  let* name := (if starts then copy src (fst (q_name q)) (snd (q_name q)) else Ret []) in
  Ret (toks, TText (Txt (if starts then KStarting else KComplete) text tk false false false (Some k) [] name (if starts then q_link q else None))).
(** html.hpp:2630-2664: [start] to [e] of the source; [s] is m_offset->get() *)
Fixpoint css_loop (fuel : nat) (s : nat) (toks : list token) (start e : nat) (text : list Z) (tk : bool) : outcome (list token * list Z * bool) :=
  match fuel with
  | O => UB
  | S f =>
      let* a := css_comment src start e in
      match a with
      | Some (_, x) => let* p := copy src start x in css_loop f s toks x e (text ++ p) tk
      | None =>
      let* a := css_cdo src start e in
      match a with
      | Some x => let* p := copy src start x in css_loop f s toks x e (text ++ p) tk
      | None =>
      let* a := css_cdc src start e in
      match a with
      | Some x => let* p := copy src start x in css_loop f s toks x e (text ++ p) tk
      | None =>
      let* a := css_import src sp start e in
      let* a := (match a with Some r => Ret (Some r) | None => css_uri src sp start e end) in
      match a with
      | Some ((cs, ce), x) =>
          let* url := css_unescape (fun c => c) [] (skipn cs src) (ce - cs) in
          let* p := copy src start cs in
          let* r := copy src ce x in
          css_loop f s (toks ++ [TUrl url ECss (Some s)]) x e (text ++ p ++ tag (length toks) ++ r) true
      | None =>
          let* c := peek src start e in
          match c with
          | Some _ => let* p := copy src start (S start) in css_loop f s toks (S start) e (text ++ p) tk
          | None => Ret (toks, text, tk)
          end
      end end end end
  end.
(** html.hpp:2622-2667 *)
Definition parse_css (s : nat) (toks : list token) (start e : nat) : outcome (list token * token) :=
  let* (toks, text, tk) := css_loop (S (e - start)) s toks start e [] false in
  Ret (toks, TText (Txt KComplete text tk false false false (Some s) [] [] None)).
(** html.hpp:2511-2518 *)
Definition skips (code : Z) : bool := one_of code [e_address; e_code; e_comment; e_cite; e_kbd; e_samp; e_script; e_style].
(** html.hpp:2554-2556: from [off] on the first place that is [l], or [e] *)
Definition limit_of (l : option nat) (off e : nat) : nat :=
  match l with Some m => if (off <=? m)%nat && (m <? e)%nat then m else e | None => e end.
(** the tag of the token [t], which is appended to the tokens, is appended to the text of [x]: rel.to is the length of the
    text, as rel.to is 0 at first, is set to it behind a text and grows by what is appended elsewhere *)
Definition put (x : txt) (from : nat) (k : nat) : txt :=
  Txt (t_kind x) (t_text x ++ tag k) true (t_txt x) (t_title x) (t_bullet x) (t_seq x) (t_map x ++ [(from, length (t_text x))]) (t_name x) (t_end x).
(** html.hpp:2431-2612: the loop from sequence [off] to sequence [e] (m_offset is [e] afterwards) *)
Fixpoint parse_loop (fuel : nat) (toks : list token) (off e : nat) (x : txt) : outcome (list token * txt) :=
  match fuel with
  | O => UB
  | S f =>
      if (off =? e)%nat then Ret (toks, x) else
      match nth_error seqs off with
      | None => UB
      | Some q =>
          match q_type q with
          | SText =>
              let* (t, m) := decode_to (t_text x) src (q_start q, q_end q) (q_start q, length (t_text x)) in
              let* b := (if t_txt x then Ret true else isblank_n (skipn (q_start q) src) (q_end q - q_start q)) in
              parse_loop f toks (S off) e
                (Txt (t_kind x) t (t_tok x) (t_txt x || negb b) (t_title x) (t_bullet x) (t_seq x) (t_map x ++ (q_start q, length (t_text x)) :: m) (t_name x) (t_end x))
          | SElement | SStart =>
              if (q_code q =? e_frameset) && negb parse_frames then Throw else
              let* (toks, t) := tag_token off q toks in
              let x := put x (q_start q) (length toks) in
              let toks := toks ++ [t] in
              let off := S off in
              if negb (is_start (q_type q)) then parse_loop f toks off e x
              else if skips (q_code q) then
                match q_link q with
                | None => UB
                | Some m =>
                    match nth_error seqs m with
                    | None => UB
                    | Some qe =>
                        let* (toks, x) :=
                          (if (q_end q <? q_start qe)%nat then
                             if (off <? length seqs)%nat then
                               let* (toks, t) :=
                                 (if negb (q_code q =? e_style) then
                                    let* p := copy src (q_end q) (q_start qe) in
                                    Ret (toks, TText (Txt KComplete p false false false false (Some off) [] [] None))
                                  else parse_css off toks (q_end q) (q_start qe)) in
                               Ret (toks ++ [t], put x (q_start q) (length toks))
                             else UB
                           else Ret (toks, x)) in
                        parse_loop f toks (limit_of (Some m) off e) e x
                    end
                end
              else if is_group (q_code q) then
                let limit := limit_of (q_link q) off e in
                let inner := Txt KComplete [] false false (is_heading (q_code q) || (q_code q =? e_dt) || (q_code q =? e_title)) (is_list (q_code q)) (if (off =? limit)%nat then None else Some off) [] [] None in
                let* (toks, inner) := parse_loop f toks off limit inner in
                parse_loop f (toks ++ [TText inner]) limit e (put x (q_start q) (length toks))
              else parse_loop f toks off e x
          | _ =>
              let* p := copy src (q_start q) (q_end q) in
              let k := match q_type q with SEnd => KEnding | _ => KComplete end in
              parse_loop f (toks ++ [TText (Txt k p false false false false (Some off) [] [] None)]) (S off) e (put x (q_start q) (length toks))
          end
      end
  end.
(** html.hpp:2185-2196, 2422-2430, 2614: the tokens and the root token, the last of them *)
Definition parse : outcome (list token * txt) :=
  let root := Txt KComplete [] false false false false (if (length seqs =? 0)%nat then None else Some 0%nat) [] [] None in
  let* (toks, x) := parse_loop (S (length seqs)) [] 0 (length seqs) root in
  Ret (toks ++ [TText x], x).
End Parse.
End Tok.
