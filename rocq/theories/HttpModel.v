(** Model of the HTTP parsers of include/stdex/parser.hpp (5566-7195).

    As in HtmlTagModel.v a match gives the members the object has afterwards; None is false (the members are invalidated).  Where
    a member keeps a value of an earlier match, that value is an argument (http_weighted_value, http_agent).  [peek i e] is
    [i < end && text[i]]; [is_at i e c] is [i < end && text[i] == c] for a unit c that is not the terminator.  Units are those
    of char, which is signed: -128 to 127.  stdex::isspace and stdex::isalpha are those of StringModel.v.  Sums such as start + 2
    do not overflow here.  [UB] for exhausted fuel: the loop has not ended. *)
From Verif Require Import Base StringModel ParserModel HtmlTagModel.

(** (unsigned int)text[i]: the unit is converted to int and then modulo 2^32 *)
Definition uint (c : Z) : Z := c mod 2 ^ 32.
(** parser.hpp:5688-5707 *)
Definition token_stop (c : Z) : bool :=
  (uint c <? 32) || (uint c =? 127) || (c =? 40) || (c =? 41) || (c =? 60) || (c =? 62) || (c =? 64) || (c =? 44) || (c =? 59) || (c =? 58) ||
  (c =? 92) || (c =? 34) || (c =? 47) || (c =? 91) || (c =? 93) || (c =? 63) || (c =? 61) || (c =? 123) || (c =? 125) || isspace c.
(** parser.hpp:6040-6044 *)
Definition server_stop (c : Z) : bool := (uint c <? 32) || (uint c =? 127) || (c =? 58) || (c =? 47) || isspace c.
(** parser.hpp:6133-6137 *)
Definition segment_stop (c : Z) : bool := (uint c <? 32) || (uint c =? 127) || (c =? 63) || (c =? 47) || isspace c.
(** parser.hpp:6235-6239 *)
Definition pname_stop (c : Z) : bool := (uint c <? 32) || (uint c =? 127) || (c =? 38) || (c =? 61) || isspace c.
(** parser.hpp:6256-6259 *)
Definition pvalue_stop (c : Z) : bool := (uint c <? 32) || (uint c =? 127) || (c =? 38) || isspace c.
(** parser.hpp:6352-6354 *)
Definition query_stop (c : Z) : bool := (uint c <? 32) || (uint c =? 127) || isspace c.

(** http_value: the quoted string (interval and content) or the token *)
Inductive hvalue : Type := HQuoted (whole content : itv) | HToken (t : itv).
Definition hv_end (v : hvalue) : nat := match v with HQuoted w _ => snd w | HToken t => snd t end.
(** http_parameter (http_cookie_parameter, and http_cookie without params) and the end of the interval *)
Record hparam : Type := HParam { hp_start : nat; hp_name : itv; hp_value : hvalue; hp_end : nat }.
(** http_media_type; for http_media_range [hm_params] is [] *)
Record hmedia : Type := HMedia { hm_type : itv; hm_subtype : itv; hm_params : list hparam; hm_end : nat }.
(** http_url_port: interval and value *)
Record hport : Type := HPort { ho_itv : itv; ho_value : Z }.
(** http_url_parameter; [hu_value] is no_itv when there is none *)
Record huparam : Type := HUParam { hu_name : itv; hu_value : itv; hu_end : nat }.
(** http_url *)
Record hurl : Type := HUrl { ur_server : itv; ur_port : hport; ur_path : itv; ur_segments : list itv; ur_params : list huparam; ur_end : nat }.
(** http_weight: the interval and the three numbers whose quotient and sum is the value, (float)((double)n_int + (double)n_num / n_den);
    [None] for the value 1.0f of an invalidated object.  The conversion to floating point is not modelled. *)
Record hweight : Type := HWeight { hw_itv : itv; hw_int : Z; hw_num : Z; hw_den : Z }.

Section Http.
Context (txt : list Z).

(** [for (;;) if (i < end && text[i]) if (stop) break; else i++; else break;], with which http_token (5686-5714), http_url_server
    (6038-6050), http_url_path_segment (6131-6143), http_url_parameter (6233-6245, 6254-6265), http_language (6410-6419) and
    http_agent (6776-6789) find where something ends *)
Fixpoint run (stop : Z -> bool) (fuel i e : nat) : outcome nat :=
  match fuel with
  | O => UB
  | S f => let* r := peek txt i e in match r with Some c => if stop c then Ret i else run stop f (S i) e | None => Ret i end
  end.
Definition run_all (stop : Z -> bool) (i e : nat) : outcome nat := run stop (S (e - i)) i e.

(** parser.hpp:5572-5599: the end *)
Definition line_break (s e : nat) : outcome (option nat) :=
  let* r := peek txt s e in
  match r with
  | Some c =>
      if c =? 13 then let* b := is_at txt (S s) e 10 in Ret (if b then Some (S (S s)) else None)
      else Ret (if c =? 10 then Some (S s) else None)
  | None => Ret None
  end.
(** parser.hpp:5618-5623 and 5625-5630: white space from [i] on, at least one unit *)
Definition spaces1 (i e : nat) : outcome (option nat) :=
  let* r := peek txt i e in
  match r with
  | Some c => if isspace c then let* j := skip_space txt isspace (S (e - i)) (S i) e in Ret (Some j) else Ret None
  | None => Ret None
  end.
(** parser.hpp:5608-5634 *)
Definition http_space (s e : nat) : outcome (option nat) :=
  let* b := line_break s e in
  match b with Some i => spaces1 i e | None => spaces1 s e end.
(** parser.hpp:5644-5666 *)
Definition http_text_char (s e : nat) : outcome (option nat) :=
  let* b := http_space s e in
  match b with
  | Some i => Ret (Some i)
  | None => let* r := peek txt s e in match r with Some c => Ret (if 32 <=? c then Some (S s) else None) | None => Ret None end
  end.
(** parser.hpp:5677-5722 *)
Definition http_token (s e : nat) : outcome (option nat) :=
  let* i := run_all token_stop s e in Ret (if (s <? i)%nat then Some i else None).
(** parser.hpp:5752-5776: the position of the quotation mark that ends the string *)
Fixpoint quoted_loop (fuel i e : nat) : outcome (option nat) :=
  match fuel with
  | O => UB
  | S f =>
      let* r := peek txt i e in
      match r with
      | None => Ret None
      | Some c =>
          if c =? 34 then Ret (Some i)
          else if c =? 92 then let* r := peek txt (S i) e in match r with Some _ => quoted_loop f (S (S i)) e | None => Ret None end
          else let* t := http_text_char i e in match t with Some _ => quoted_loop f (S i) e | None => Ret None end
      end
  end.
(** parser.hpp:5741-5783.  Line 5748 lets start >= end pass, but then the loop fails at once: the same as failing here *)
Definition http_quoted_string (s e : nat) : outcome (option (itv * nat)) :=
  let* b := is_at txt s e 34 in
  if b then let* q := quoted_loop (S (e - s)) (S s) e in Ret (option_map (fun i => ((S s, i), S i)) q) else Ret None.
(** parser.hpp:5805-5828 *)
Definition http_value (s e : nat) : outcome (option hvalue) :=
  let* q := http_quoted_string s e in
  match q with
  | Some (c, y) => Ret (Some (HQuoted (s, y) c))
  | None => let* t := http_token s e in Ret (option_map (fun y => HToken (s, y)) t)
  end.
(** [while (m_space.match(...)) interval.end = m_space.interval.end;] *)
Fixpoint spaces (fuel i e : nat) : outcome nat :=
  match fuel with
  | O => UB
  | S f => let* r := http_space i e in match r with Some j => spaces f j e | None => Ret i end
  end.
Definition spaces_all (i e : nat) : outcome nat := spaces (S (e - i)) i e.

(** parser.hpp:5849-5879 *)
Definition http_parameter (s e : nat) : outcome (option hparam) :=
  let* n := http_token s e in
  match n with
  | None => Ret None
  | Some i =>
      let* j := spaces_all i e in
      let* b := is_at txt j e 61 in
      let* k := if b then Ret (S j) else spaces_all j e in
      let* v := http_value k e in
      Ret (option_map (fun v => HParam s (s, i) v (hv_end v)) v)
  end.
(** parser.hpp:5890-5912 *)
Definition http_any_type (s e : nat) : outcome (option nat) :=
  let* b := and_then (is_at txt s e 42) (and_then (is_at txt (S s) e 47) (is_at txt (S (S s)) e 42)) in
  if b then Ret (Some (s + 3)%nat)
  else let* b := is_at txt s e 42 in Ret (if b then Some (S s) else None).
(** parser.hpp:5933-5963 *)
Definition http_media_range (s e : nat) : outcome (option hmedia) :=
  let* t := http_token s e in
  match t with
  | None => Ret None
  | Some i =>
      let* j := spaces_all i e in
      let* b := is_at txt j e 47 in
      if b then
        let* k := spaces_all (S j) e in
        let* u := http_token k e in
        Ret (option_map (fun y => HMedia (s, i) (k, y) [] y) u)
      else Ret None
  end.
(** parser.hpp:5993-6013 and 6705-6725: the list of parameters; [item] is http_parameter or http_cookie_parameter *)
Fixpoint params_loop (item : nat -> nat -> outcome (option hparam)) (fuel i e : nat) (l : list hparam) : outcome (list hparam) :=
  match fuel with
  | O => UB
  | S f =>
      let* r := peek txt i e in
      match r with
      | None => Ret l
      | Some c =>
          let* w := http_space i e in
          match w with
          | Some j => params_loop item f j e l
          | None =>
              if c =? 59 then
                let* j := spaces_all (S i) e in
                let* p := item j e in
                match p with Some p => params_loop item f (hp_end p) e (l ++ [p]) | None => Ret l end
              else Ret l
          end
      end
  end.
(** params.empty() ? x : params.back().interval.end *)
Definition params_end (x : nat) (l : list hparam) : nat := match rev l with p :: _ => hp_end p | [] => x end.
(** parser.hpp:5983-6020 *)
Definition http_media_type (s e : nat) : outcome (option hmedia) :=
  let* m := http_media_range s e in
  match m with
  | None => Ret None
  | Some m =>
      let* l := params_loop http_parameter (S (e - hm_end m)) (hm_end m) e [] in
      Ret (Some (HMedia (hm_type m) (hm_subtype m) l (params_end (snd (hm_subtype m)) l)))
  end.

(** parser.hpp:6030-6057 *)
Definition http_url_server (s e : nat) : outcome (option nat) :=
  let* i := run_all server_stop s e in Ret (if (s <? i)%nat then Some i else None).
(** parser.hpp:6090-6107: None for a value that is too large *)
Fixpoint port_loop (fuel i e : nat) (value : Z) : outcome (option (nat * Z)) :=
  match fuel with
  | O => UB
  | S f =>
      let* r := peek txt i e in
      match r with
      | Some c =>
          if (48 <=? c) && (c <=? 57) then
            let v := value * 10 + (c - 48) in
            if v >? 65535 then Ret None else port_loop f (S i) e v
          else Ret (Some (i, value))
      | None => Ret (Some (i, value))
      end
  end.
(** parser.hpp:6081-6113.  A failed match leaves the value 0 *)
Definition http_url_port (s e : nat) : outcome (option hport) :=
  let* r := port_loop (S (e - s)) s e 0 in
  Ret (match r with Some (i, v) => if (s <? i)%nat then Some (HPort (s, i) v) else None | None => None end).
(** parser.hpp:6123-6146: always a match; the end *)
Definition http_url_segment (s e : nat) : outcome nat := run_all segment_stop s e.
(** parser.hpp:6183-6195: the segments, and the end of the last one *)
Fixpoint path_loop (fuel i e : nat) (l : list itv) : outcome (list itv * nat) :=
  match fuel with
  | O => UB
  | S f =>
      let* b := is_at txt i e 47 in
      if b then let* j := http_url_segment (S i) e in path_loop f j e (l ++ [(S i, j)]) else Ret (l, i)
  end.
(** parser.hpp:6165-6202.  At line 6176 only start < end is checked before the first slash is skipped *)
Definition http_url_path (s e : nat) : outcome (option (list itv * nat)) :=
  let* bad := if (s <? e)%nat then let* c := rd txt s in Ret (negb (c =? 47)) else Ret false in
  if bad then Ret None
  else
    let* j := http_url_segment (S s) e in
    let* r := path_loop (S (e - s)) j e [(S s, j)] in
    Ret (Some r).
(** parser.hpp:6224-6279.  Line 6250 does not check that interval.end < end *)
Definition http_url_parameter (s e : nat) : outcome (option huparam) :=
  let* i := run_all pname_stop s e in
  if (s <? i)%nat then
    let* c := rd txt i in
    if c =? 61 then
      let* j := run_all pvalue_stop (S i) e in Ret (Some (HUParam (s, i) (S i, j) j))
    else Ret (Some (HUParam (s, i) no_itv i))
  else Ret None.
(** parser.hpp:6350-6370: the parameters and the end *)
Fixpoint query_loop (fuel i e : nat) (l : list huparam) : outcome (list huparam * nat) :=
  match fuel with
  | O => UB
  | S f =>
      let* r := peek txt i e in
      match r with
      | None => Ret (l, i)
      | Some c =>
          if query_stop c then Ret (l, i)
          else if c =? 38 then query_loop f (S i) e l
          else
            let* p := http_url_parameter i e in
            match p with Some p => query_loop f (hu_end p) e (l ++ [p]) | None => Ret (l, i) end
      end
  end.
(** http:// *)
Definition str_http : list Z := [104; 116; 116; 112; 58; 47; 47].
(** parser.hpp:6308-6378; [tolow] is ctype.tolower *)
Definition http_url (tolow : Z -> Z) (s e : nat) : outcome (option hurl) :=
  let* abs := if (s + 7 <=? e)%nat then let* r := strnicmp4 tolow (skipn s txt) 7 str_http 7 in Ret (r =? 0) else Ret false in
  let* head :=
    if abs then
      let* sv := http_url_server (s + 7) e in
      match sv with
      | None => Ret None
      | Some i =>
          let* b := is_at txt i e 58 in
          if b then
            let* p := http_url_port (S i) e in
            Ret (Some ((s + 7, i)%nat, match p with Some p => p | None => HPort no_itv 0 end, match p with Some p => snd (ho_itv p) | None => S i end))
          else Ret (Some ((s + 7, i)%nat, HPort no_itv 80, i))
      end
    else Ret (Some (no_itv, HPort no_itv 80, s)) in
  match head with
  | None => Ret None
  | Some (server, port, i) =>
      let* p := http_url_path i e in
      match p with
      | None => Ret None
      | Some (segs, j) =>
          let* b := is_at txt j e 63 in
          let* q := if b then query_loop (S (e - j)) (S j) e [] else Ret ([], j) in
          Ret (Some (HUrl server port (i, j) segs (fst q) (snd q)))
      end
  end.

(** parser.hpp:6406-6434: the components *)
Fixpoint lang_loop (fuel i e : nat) (l : list itv) : outcome (list itv) :=
  match fuel with
  | O => UB
  | S f =>
      let* j := run_all (fun c => negb (isalpha c)) i e in
      if (i <? j)%nat then
        let* b := is_at txt j e 45 in
        if b then lang_loop f (S j) e (l ++ [(i, j)]) else Ret (l ++ [(i, j)])
      else Ret l
  end.
(** parser.hpp:6395-6440 *)
Definition http_language (s e : nat) : outcome (option (list itv * nat)) :=
  let* l := lang_loop (S (e - s)) s e [] in
  Ret (match rev l with k :: _ => Some (l, snd k) | [] => None end).

(** parser.hpp:6480-6492: the digits behind the point *)
Fixpoint fraction_loop (fuel i e : nat) (num den : Z) : outcome (Z * Z * nat) :=
  match fuel with
  | O => UB
  | S f =>
      let* r := peek txt i e in
      match r with
      | Some c => if (48 <=? c) && (c <=? 57) then fraction_loop f (S i) e (u64 (num * 10 + (c - 48))) (u64 (den * 10)) else Ret (num, den, i)
      | None => Ret (num, den, i)
      end
  end.
(** parser.hpp:6472-6500 *)
Fixpoint weight_loop (fuel i e : nat) (int : Z) : outcome (Z * Z * Z * nat) :=
  match fuel with
  | O => UB
  | S f =>
      let* r := peek txt i e in
      match r with
      | Some c =>
          if (48 <=? c) && (c <=? 57) then weight_loop f (S i) e (u64 (int * 10 + (c - 48)))
          else if c =? 46 then let* (q, j) := fraction_loop (S (e - i)) (S i) e 0 1 in Ret (int, fst q, snd q, j)
          else Ret (int, 0, 1, i)
      | None => Ret (int, 0, 1, i)
      end
  end.
(** parser.hpp:6463-6509 *)
Definition http_weight (s e : nat) : outcome (option hweight) :=
  let* (q, i) := weight_loop (S (e - s)) s e 0 in
  Ret (if (s <? i)%nat then Some (HWeight (s, i) (fst (fst q)) (snd (fst q)) (snd q)) else None).
(** parser.hpp:6518-6531 *)
Definition http_asterisk (s e : nat) : outcome (option nat) := let* b := is_at txt s e 42 in Ret (if b then Some (S s) else None).

(** parser.hpp:6559-6603.  [asterisk] and [value] are the matchers of T_asterisk and T, [vend] the end of a value; [old] is what
    factor holds from before (None: an invalid interval and the value 1).  The result: asterisk or value, factor and the end *)
Definition http_weighted {V : Type} (asterisk : nat -> nat -> outcome (option nat)) (value : nat -> nat -> outcome (option V)) (vend : V -> nat)
    (old : option hweight) (s e : nat) : outcome (option ((itv + V) * option hweight * nat)) :=
  let* a := asterisk s e in
  let* x := match a with
            | Some y => Ret (Some (inl (s, y), y))
            | None => let* v := value s e in Ret (option_map (fun v => (inr v, vend v)) v)
            end in
  match x with
  | None => Ret None
  | Some (v, last) =>
      let ws i := skip_space txt isspace (S (e - i)) i e in
      let* i := ws last in
      let* b := is_at txt i e 59 in
      let* (fac, i) :=
        if b then
          let* i := ws (S i) in
          let* r := peek txt i e in
          if match r with Some c => (c =? 113) || (c =? 81) | None => false end then
            let* i := ws (S i) in
            let* b := is_at txt i e 61 in
            if b then
              let* i := ws (S i) in
              let* w := http_weight i e in
              match w with Some w => Ret (Some w, snd (hw_itv w)) | None => Ret (None, i) end
            else Ret (old, i)
          else Ret (old, i)
        else Ret (old, i) in
      match fac with Some w => Ret (Some (v, Some w, i)) | None => Ret (Some (v, None, last)) end
  end.

(** parser.hpp:6631-6651, 6690-6704: name, =, value, with white space on both sides of the sign; the interval starts at [s] *)
Definition assignment (s i e : nat) : outcome (option hparam) :=
  let* n := http_token i e in
  match n with
  | None => Ret None
  | Some j =>
      let* k := spaces_all j e in
      let* b := is_at txt k e 61 in
      if b then
        let* k := spaces_all (S k) e in
        let* v := http_value k e in
        Ret (option_map (fun v => HParam s (i, j) v (hv_end v)) v)
      else Ret None
  end.
(** parser.hpp:6624-6658 *)
Definition http_cookie_parameter (s e : nat) : outcome (option hparam) :=
  let* b := is_at txt s e 36 in if b then assignment s (S s) e else Ret None.
(** parser.hpp:6682-6735: name and value, the parameters, the end *)
Definition http_cookie (s e : nat) : outcome (option (hparam * list hparam * nat)) :=
  let* c := assignment s s e in
  match c with
  | None => Ret None
  | Some c =>
      let* l := params_loop http_cookie_parameter (S (e - hp_end c)) (hp_end c) e [] in
      Ret (Some (c, l, params_end (hp_end c) l))
  end.

(** parser.hpp:6760-6812.  [old] is what version holds from before: it is not assigned if there is no slash.  Type, version, end *)
Definition http_agent (old : itv) (s e : nat) : outcome (option (itv * itv * nat)) :=
  let* i := run_all (fun c => (c =? 47) || isspace c) s e in
  let* b := is_at txt i e 47 in
  if b then let* j := run_all isspace (S i) e in Ret (Some ((s, i), (S i, j), j))
  else Ret (if (s <? i)%nat then Some ((s, i), old, i) else None).

(** http_protocol *)
Record hproto : Type := HProto { pr_type : itv; pr_maj : itv; pr_min : itv; pr_version : Z; pr_end : nat }.
(** strtoui of a part of the text (64-bit), converted to uint16_t *)
Definition number16 (x : itv) : outcome Z := let* (v, _) := strtouint 64 (skipn (fst x) txt) (snd x - fst x) 10 in Ret (u16 v).
(** parser.hpp:6845-6911 *)
Definition http_protocol (s e : nat) : outcome (option hproto) :=
  let* i := run_all (fun c => (c =? 47) || isspace c) s e in
  let* b := is_at txt i e 47 in
  if b then
    let* j := run_all (fun c => (c =? 46) || isspace c) (S i) e in
    let* r := peek txt j e in
    match r with
    | None => Ret None
    | Some c =>
        if c =? 46 then
          let* k := run_all isspace (S j) e in
          let* r := peek txt k e in
          match r with
          | None => Ret None
          | Some _ =>
              let* maj := number16 (S i, j) in
              let* min := number16 (S j, k) in
              Ret (Some (HProto (s, i) (S i, j) (S j, k) (u16 (maj * 256 + min)) k))
          end
        else
          let* maj := number16 (S i, j) in
          Ret (Some (HProto (s, i) (S i, j) no_itv (u16 (maj * 256)) j))
    end
  else Ret None.

(** [for (;;) if (m_line_break.match(...)) A else if (i < end && text[i]) if (isspace == b) i++ else B else C], the loops of http_request
    and http_header.  [stop] tells the units at which B is reached *)
Inductive line_stop : Type := LBreak (y : nat) | LUnit (i : nat) (c : Z) | LEnd (i : nat).
Fixpoint line_run (stop : Z -> bool) (fuel i e : nat) : outcome line_stop :=
  match fuel with
  | O => UB
  | S f =>
      let* b := line_break i e in
      match b with
      | Some y => Ret (LBreak y)
      | None =>
          let* r := peek txt i e in
          match r with
          | Some c => if stop c then Ret (LUnit i c) else line_run stop f (S i) e
          | None => Ret (LEnd i)
          end
      end
  end.
Definition line_all (stop : Z -> bool) (i e : nat) : outcome line_stop := line_run stop (S (e - i)) i e.
(** http_request *)
Record hrequest : Type := HRequest { rq_verb : itv; rq_url : hurl; rq_proto : option hproto; rq_end : nat }.
(** parser.hpp:6943-7044; protocol is None when invalidated (version 0x009) *)
Definition http_request (tolow : Z -> Z) (s e : nat) : outcome (option hrequest) :=
  let nonspace c := negb (isspace c) in
  let* a := line_all nonspace s e in
  match a with
  | LUnit i _ =>
      let* a := line_all isspace i e in
      match a with
      | LUnit j _ =>
          let* a := line_all nonspace (S j) e in
          match a with
          | LUnit k _ =>
              let* u := http_url tolow k e in
              match u with
              | None => Ret None
              | Some u =>
                  let* a := line_all nonspace (ur_end u) e in
                  match a with
                  | LBreak y => Ret (Some (HRequest (i, j) u None y))
                  | LEnd y => Ret (Some (HRequest (i, j) u None y))
                  | LUnit y _ =>
                      let* b := line_break y e in
                      match b with
                      | Some z => Ret (Some (HRequest (i, j) u None z))
                      | None =>
                          let* p := http_protocol y e in
                          match p with
                          | None => Ret (Some (HRequest (i, j) u None y))
                          | Some p =>
                              let* a := line_all (fun _ => false) (pr_end p) e in
                              match a with
                              | LBreak z => Ret (Some (HRequest (i, j) u (Some p) z))
                              | LEnd z => Ret (Some (HRequest (i, j) u (Some p) z))
                              | LUnit _ _ => Ret None (* not reached *)
                              end
                          end
                      end
                  end
              end
          | _ => Ret None
          end
      | _ => Ret None
      end
  | _ => Ret None
  end.

(** http_header: the value is None while value.start is SIZE_MAX *)
Record hheader : Type := HHeader { hh_name : itv; hh_value : option itv; hh_end : nat }.
(** parser.hpp:7120-7141 *)
Fixpoint hvalue_loop (fuel i e : nat) (v : option itv) : outcome (option itv * nat) :=
  match fuel with
  | O => UB
  | S f =>
      let* b := line_break i e in
      match b with
      | Some y =>
          let* b := line_break y e in
          let* r := peek txt y e in
          match b, r with
          | None, Some c => if isspace c then hvalue_loop f (S y) e v else Ret (v, y)
          | _, _ => Ret (v, y)
          end
      | None =>
          let* r := peek txt i e in
          match r with
          | Some c => if isspace c then hvalue_loop f (S i) e v else hvalue_loop f (S i) e (Some (match v with Some x => fst x | None => i end, S i))
          | None => Ret (v, i)
          end
      end
  end.
(** parser.hpp:7068-7148 *)
Definition http_header (s e : nat) : outcome (option hheader) :=
  let* b := line_break s e in
  let* r := peek txt s e in
  match b, r with
  | Some _, _ => Ret None
  | None, r =>
      if match r with Some c => isspace c | None => false end then Ret None
      else
        let* a := line_all (fun c => isspace c || (c =? 58)) s e in
        let* n := match a with
                  | LUnit i c =>
                      if isspace c then
                        let* a := line_all (fun c => negb (isspace c)) (S i) e in
                        match a with LUnit j d => Ret (if d =? 58 then Some (i, S j) else None) | _ => Ret None end
                      else Ret (Some (i, S i))
                  | _ => Ret None
                  end in
        match n with
        | None => Ret None
        | Some (i, j) => let* (v, y) := hvalue_loop (S (e - j)) j e None in Ret (Some (HHeader (s, i) v y))
        end
  end.

(** parser.hpp:7159-7179: insert.  [item] is the match of a new KEY, [vend] the end of its interval, [put] T::insert *)
Fixpoint collect_loop {V C : Type} (item : nat -> nat -> outcome (option V)) (vend : V -> nat) (put : C -> V -> C) (fuel i e : nat) (acc : C) : outcome C :=
  match fuel with
  | O => UB
  | S f =>
      if (i <? e)%nat then
        let ws i := skip_space txt isspace (S (e - i)) i e in
        let* i := ws i in
        let* b := is_at txt i e 44 in
        let* i := if b then ws (S i) else Ret i in
        let* el := item i e in
        match el with Some v => collect_loop item vend put f (vend v) e (put acc v) | None => Ret acc end
      else Ret acc
  end.
End Http.

(** std::multiset::insert(value) with the order [more] (parser.hpp:7182-7194: http_factor_more): the value goes behind all the
    elements that do not come after it, which is where the standard library puts it.  The comparison of floats is not modelled. *)
Fixpoint multiset_insert {V : Type} (more : V -> V -> bool) (l : list V) (x : V) : list V :=
  match l with [] => [x] | y :: r => if more x y then x :: y :: r else y :: multiset_insert more r x end.
