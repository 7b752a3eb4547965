(** Model of include/stdex/minisign.hpp: untrusted_comment (18-60), line_break (65-93), parse_minisig (103-125).

    The stream is an arbitrary device of StreamModel.  A char of the line is its byte value: the parser compares with ASCII
    characters and the decoder ignores what is not ASCII, signed or not. *)
From Verif Require Import Base StringModel StreamModel Base64Model ParserModel.

(** "untrusted comment:" *)
Definition untrusted : list Z := [117; 110; 116; 114; 117; 115; 116; 101; 100; 32; 99; 111; 109; 109; 101; 110; 116; 58].
(** a chain of comparisons text[start + k] == pat[k], && between *)
Fixpoint compares (pat txt : list Z) (i : nat) : outcome bool :=
  match pat with
  | [] => Ret true
  | p :: pat => let* c := rd txt i in if c =? p then compares pat txt (S i) else Ret false
  end.
(** minisign.hpp:27-59 *)
Definition untrusted_comment (txt : list Z) : pcls := {|
  p_init := new_pst [] [];
  p_match := fun st s e fl =>
    let* r := (if (s + 17 <? e)%nat then compares untrusted txt s else Ret false) in
    if r then Ret (set_interval st s (s + 18), true) else Ret (no_interval st, false);
  p_inval := no_interval |}.
(** minisign.hpp:65-93 *)
Definition line_break (txt : list Z) : pcls := {|
  p_init := new_pst [] [];
  p_match := fun st s e fl =>
    let* r := (if (s + 1 <? e)%nat then compares [13; 10] txt s else Ret false) in
    if r then Ret (set_interval st s (s + 2), true)
    else
      let* r := (if (s <? e)%nat then compares [10] txt s else Ret false) in
      if r then Ret (set_interval st s (s + 1), true) else Ret (no_interval st, false);
  p_inval := no_interval |}.

Section Minisig.
Context {St : Type} (D : dev St).
(** minisign.hpp:108-118: the stream and data afterwards; [rf] is the fuel of readln *)
Fixpoint minisig_data (fuel rf : nat) (s : St) : outcome (St * list Z) :=
  match fuel with
  | O => UB
  | S n =>
      let* (s, line) := readln_and_attach D rf s 1 [] in
      if negb (d_ok D s) then Ret (s, [])
      else
        let* skip := (match line with
                      | [] => Ret true
                      | _ => let* (_, b) := p_match (untrusted_comment line) (new_pst [] []) 0 (length line) (PFlags false false) in Ret b
                      end) in
        if skip then minisig_data n rf s
        else let '(_, data, _) := dec_decode dec_new [] line in Ret (s, data)
  end.
(** minisign.hpp:103-125: the stream afterwards, algorithm, key_id, signature *)
Definition parse_minisig (fuel rf : nat) (s : St) : outcome (St * Z * list Z * list Z) :=
  let* (s, data) := minisig_data fuel rf s in
  if (length data <? 74)%nat then Throw
  else if negb (nth 0 data 0 =? 69) then Throw
  else Ret (s, nth 1 data 0, firstn 8 (skipn 2 data), firstn 64 (skipn 10 data)).
End Minisig.
