(** Model of include/stdex/wav.hpp.

    Files are as in IdrecModel.v: an [fdev] F whose state flag can be set ([fset]); identifiers and lengths have 4 bytes, the
    alignment is 2.  The host is little-endian.  The memory_file members extra and content are the bytes they hold (seek(0),
    write_stream, truncate leave exactly what was copied, C88).  Allocation failures (resize with a number from the file) are not
    modelled.  [UB] for exhausted fuel: a loop has not ended. *)
From Verif Require Import Base StreamModel StreamSpec StringModel ConvModel MemFileModel FileConvModel IdrecModel.

(** wav.hpp:64, 72, 154, 179, 201, 234, 312, 347, 382, 390 *)
Definition id_riff : Z := 0x46464952.
Definition id_wave : Z := 0x45564157.
Definition id_fmt : Z := 0x20746D66.
Definition id_data : Z := 0x61746164.
Definition id_slnt : Z := 0x746E6C73.
Definition id_cue : Z := 0x20657563.
Definition id_ltxt : Z := 0x7478746C.
Definition id_labl : Z := 0x6C62616C.
Definition id_note : Z := 0x65746F6E.
Definition id_list : Z := 0x5453494C.
(** the bytes of adtl and of ICRD, read as a number (426, 546, 626) *)
Definition id_adtl : Z := 0x6C746461.
Definition id_icrd : Z := 0x44524349.

(** wav.hpp:78-99 *)
Record format : Type := Format { fm_compression : Z; fm_channels : Z; fm_rate : Z; fm_bps : Z; fm_align : Z; fm_bits : Z; fm_extra : list Z }.
(** wav.hpp:207-215 *)
Record cue : Type := Cue { cu_id : Z; cu_pos : Z; cu_chunk : Z; cu_offset : Z; cu_start : Z; cu_block : Z }.
Definition cue0 : cue := Cue 0 0 0 0 0 0.
(** wav.hpp:265-274, without the id *)
Record about : Type := About { ab_duration : Z; ab_purpose : Z; ab_country : Z; ab_language : Z; ab_dialect : Z; ab_charset : Z; ab_description : list Z }.
Definition about0 : about := About 0 0 0 0 0 0 [].
(** wav.hpp:396-407 *)
Record cue_ex : Type := CueEx { cx_cue : cue; cx_about : about; cx_title : list Z; cx_note : list Z }.
Definition cue_ex0 : cue_ex := CueEx cue0 about0 [] [].

(** The structures over any stream *)
Section Struct.
Context {S : Type} (D : dev S).

(** dat << a << b << ...: each is written only in state ok (stream.hpp:293-304) *)
Fixpoint write_fields (s : S) (l : list (nat * Z)) : outcome S :=
  match l with [] => Ret s | (w, v) :: r => let* s' := write_data D s w v in write_fields s' r end.
(** dat >> a >> b >> ... *)
Fixpoint read_fields (s : S) (l : list nat) : outcome (S * list Z) :=
  match l with [] => Ret (s, []) | w :: r => let* (s1, v) := read_data D s w [] in let* (s2, vs) := read_fields s1 r in Ret (s2, v :: vs) end.

(** wav.hpp:45-49 and 51-62 (header, wave, list); silence (189-199) is the same but for the value after an error, which
    operator>> of the number has set to 0 anyway (stream.hpp:265-279) *)
Definition write_header (s : S) (v : Z) : outcome S := write_data D s 4 v.
Definition read_header (s : S) : outcome (S * Z) :=
  let* (s', v) := read_data D s 4 [] in Ret (s', if d_ok D s' then v else 0).

(** wav.hpp:101-119 *)
Definition write_format (s : S) (f : format) : outcome S :=
  let* s1 := write_fields s [(2, fm_compression f); (2, fm_channels f); (4, fm_rate f); (4, fm_bps f); (2, fm_align f); (2, fm_bits f)]%nat in
  let size := Z.of_nat (length (fm_extra f)) in
  if size =? 0 then Ret s1
  else if 65535 <? size then Throw
  else let* s2 := write_data D s1 2 size in if d_ok D s2 then Ret (fst (d_write D s2 (fm_extra f))) else Ret s2.
(** wav.hpp:121-152 *)
Definition read_format (fuel : nat) (s : S) : outcome (S * format) :=
  let* (s1, compression) := read_data D s 2 [] in
  if negb (d_ok D s1) then Ret (s1, Format 0 0 0 0 0 0 [])
  else
    let* (s2, l) := read_fields s1 [2; 4; 4; 2; 2]%nat in
    match l with
    | [channels; rate; bps; align; bits] =>
        let* (s3, size) := read_data D s2 2 [] in
        if negb (d_ok D s3) || (size =? 0) then Ret (s3, Format compression channels rate bps align bits [])
        else
          let* (m, s4, _) := write_stream array_dev D fuel ([], StOk) s3 (Z.to_nat size) in
          Ret (s4, Format compression channels rate bps align bits (fst m))
    | _ => UB
    end.

(** wav.hpp:164-169 *)
Definition write_content (s : S) (b : list Z) : outcome S := if negb (d_ok D s) then Ret s else Ret (fst (d_write D s b)).
(** wav.hpp:171-177 *)
Definition read_content (fuel : nat) (s : S) : outcome (S * list Z) :=
  let* (m, s', _) := write_stream array_dev D fuel ([], StOk) s (Z.to_nat (M64 - 1)) in Ret (s', fst m).

(** the memory of a cue (24 bytes) *)
Definition cue_fields (c : cue) : list Z := [cu_id c; cu_pos c; cu_chunk c; cu_offset c; cu_start c; cu_block c].
Definition cue_mem (c : cue) : list Z := flat_map (le_bytes 4) (cue_fields c).
Definition mem_cue (b : list Z) : cue :=
  match units_of 6 4 b with [i; p; c; o; s; k] => Cue i p c o s k | _ => cue0 end.
Fixpoint mem_cues (n : nat) (b : list Z) : list cue :=
  match n with O => [] | Datatypes.S k => mem_cue (firstn 24 b) :: mem_cues k (skipn 24 b) end.
(** wav.hpp:237-246 *)
Definition write_cues_plain (s : S) (l : list cue) : outcome S :=
  if 4294967295 <? Z.of_nat (length l) then Throw
  else
    let* s1 := write_data D s 4 (Z.of_nat (length l)) in
    if d_ok D s1 then let* (s2, _) := write_array D s1 (flat_map cue_mem l) 24 (length l) in Ret s2 else Ret s1.
(** wav.hpp:248-260; new cues are zeros *)
Definition read_cues_plain (s : S) : outcome (S * list cue) :=
  let* (s1, num) := read_data D s 4 [] in
  if negb (d_ok D s1) then Ret (s1, [])
  else let* (s2, b, n) := read_array D s1 24 (Z.to_nat num) in Ret (s2, mem_cues n (b ++ repeat 0 (24 * n - length b))).

(** wav.hpp:285-288, 326-329, 361-364: a text with its terminator, if there is a text *)
Definition write_text (s : S) (t : list Z) : outcome S :=
  if negb (length t =? 0)%nat && d_ok D s then
    let* (s1, _) := write_array D s t 1 (length t) in write_data D s1 1 0
  else Ret s.
(** wav.hpp:301-308, 336-343, 371-378; the text is what precedes the first zero *)
Definition read_text (fuel : nat) (s : S) : outcome (S * list Z) :=
  if d_ok D s then
    let* (s', tmp) := read_remainder D fuel s (Z.to_nat (M64 - 1)) in
    let* n := strnlen tmp (length tmp) in
    Ret (s', firstn n tmp)
  else Ret (s, []).
(** wav.hpp:276-290 *)
Definition write_ltxt (s : S) (id : Z) (a : about) : outcome S :=
  let* s1 := write_fields s [(4, id); (4, ab_duration a); (4, ab_purpose a); (2, ab_country a); (2, ab_language a); (2, ab_dialect a); (2, ab_charset a)]%nat in
  write_text s1 (ab_description a).
(** wav.hpp:292-310 *)
Definition read_ltxt (fuel : nat) (s : S) : outcome (S * (Z * about)) :=
  let* (s1, l) := read_fields s [4; 4; 4; 2; 2; 2; 2]%nat in
  let* (s2, t) := read_text fuel s1 in
  match l with [id; du; pu; co; la; di; ch] => Ret (s2, (id, About du pu co la di ch t)) | _ => UB end.
(** wav.hpp:323-331 and 358-366 (label, note) *)
Definition write_label (s : S) (id : Z) (t : list Z) : outcome S := let* s1 := write_data D s 4 id in write_text s1 t.
(** wav.hpp:333-345 and 368-380 *)
Definition read_label (fuel : nat) (s : S) : outcome (S * (Z * list Z)) :=
  let* (s1, id) := read_data D s 4 [] in let* (s2, t) := read_text fuel s1 in Ret (s2, (id, t)).
End Struct.

Section Files.
Context {S : Type} (F : fdev S) (fset : S -> sstate -> S).
Let FD := file_dev F fset.

(** operator<< of a record (idrec.hpp:438-448) whose data [user] writes *)
Definition write_rec (s : S) (id : Z) (user : S -> outcome S) : outcome S :=
  let* (s1, start) := open F fset 4 4 s id in
  if negb (is_ok (f_state F s1)) then Ret s1
  else let* s2 := user s1 in let* (s3, _) := close F fset 4 4 2 s2 start in Ret s3.
(** operator>> of a record (idrec.hpp:507-527); [old] is what the data was *)
Definition read_rec {A : Type} (s : S) (old : A) (user : @limiter S -> outcome (@limiter S * A)) : outcome (S * A) :=
  let* (s1, size) := read_data FD s 4 [] in
  if negb (is_ok (f_state F s1)) then Ret (s1, old)
  else
    let start := f_tell F s1 in
    let* (c, a) := user (limiter_new FD s1 size 0) in
    match lm_st c with
    | StFail => Ret (lm_src c, a)
    | _ => Ret (f_seek F (lm_src c) (start + Z.to_nat (tsize 4 (size + padding 2 size))), a)
    end.

(** wav.hpp:421-422 *)
Fixpoint write_cue_mems (s : S) (l : list cue_ex) : outcome S :=
  match l with
  | [] => Ret s
  | c :: r => if is_ok (f_state F s) then let* (s1, _) := write_array FD s (cue_mem (cx_cue c)) 24 1 in write_cue_mems s1 r else Ret s
  end.
(** wav.hpp:427-451 *)
Fixpoint write_texts (s : S) (l : list cue_ex) : outcome S :=
  match l with
  | [] => Ret s
  | c :: r =>
      if is_ok (f_state F s) then
        let* s1 := write_rec s id_ltxt (fun s => write_ltxt FD s (cu_id (cx_cue c)) (cx_about c)) in
        let* s2 := if (length (cx_title c) =? 0)%nat then Ret s1 else write_rec s1 id_labl (fun s => write_label FD s (cu_id (cx_cue c)) (cx_title c)) in
        let* s3 := if (length (cx_note c) =? 0)%nat then Ret s2 else write_rec s2 id_note (fun s => write_label FD s (cu_id (cx_cue c)) (cx_note c)) in
        write_texts s3 r
      else Ret s
  end.
(** wav.hpp:414-455 *)
Definition write_cues (s : S) (l : list cue_ex) : outcome S :=
  let* (s1, start) := open F fset 4 4 s id_cue in
  if 4294967295 <? Z.of_nat (length l) then Throw
  else
    let* s2 := write_data FD s1 4 (Z.of_nat (length l)) in
    let* s3 := write_cue_mems s2 l in
    let* (s4, _) := close F fset 4 4 2 s3 start in
    let* (s5, start) := open F fset 4 4 s4 id_list in
    let* s6 := write_data FD s5 4 id_adtl in
    let* s7 := write_texts s6 l in
    let* (s8, _) := close F fset 4 4 2 s7 start in
    Ret s8.

(** wav.hpp:457-487: where the block found ends; None is false.  [limit]: block_end, None is fpos_max.  The end is an unsigned
    number of 64 bits, so (2 - end) % 2 is end % 2. *)
Fixpoint wav_find_first (fuel : nat) (s : S) (id subid : Z) (limit : option nat) : outcome (S * option nat) :=
  match fuel with
  | O => UB
  | Datatypes.S f =>
      if below F limit s then
        let* (s1, b) := find F fset 4 4 2 f s id limit in
        if negb b then Ret (s1, None)
        else
          let* (s2, size) := read_data FD s1 4 [] in
          if negb (is_ok (f_state F s2)) then Ret (s2, None)
          else
            let e := (f_tell F s2 + Z.to_nat size)%nat in
            let* (s3, v) := read_data FD s2 4 [] in
            if negb (is_ok (f_state F s3)) then Ret (s3, None)
            else if v =? subid then Ret (s3, Some e)
            else wav_find_first f (f_seek F s3 (e + e mod 2)) id subid limit
      else Ret (s, None)
  end.
(** wav.hpp:501-507 *)
Definition find_content (fuel : nat) (s : S) (limit : option nat) : outcome (S * option nat) := wav_find_first fuel s id_riff id_wave limit.
(** wav.hpp:489-499; [reader] is operator>> of the structure *)
Definition read_first {A : Type} (fuel : nat) (s : S) (id : Z) (old : A) (reader : @limiter S -> outcome (@limiter S * A)) (limit : option nat) : outcome (S * A * bool) :=
  let* (s1, b) := find F fset 4 4 2 fuel s id limit in
  if negb b then Ret (s1, old, false)
  else let* (s2, a) := read_rec s1 old reader in Ret (s2, a, is_ok (f_state F s2)).

(** stream.hpp:1691-1794: a file_window as a stream *)
Definition fw_dev : dev (@fwindow S) := {|
  d_read := fw_read F; d_write := fw_write F; d_state := fw_st;
  d_set := fun c st => FWindow (fw_src c) st (fw_off c) (fw_start c) (fw_end c) |}.

(** std::sort with cue_less, and std::bsearch with compare_by_id: the index found *)
Context (sort : list cue_ex -> list cue_ex) (bsearch : Z -> list cue_ex -> option nat).
Definition key_of (c : cue_ex) : Z := cu_id (cx_cue c).
(** wav.hpp:529-535: the cues read; [old] is what cues held *)
Fixpoint read_cue_mems (n : nat) (w : @fwindow S) (old : list cue_ex) : outcome (@fwindow S * list cue_ex) :=
  match n with
  | O => Ret (w, [])
  | Datatypes.S k =>
      let* (w1, b, _) := read_array fw_dev w 24 1 in
      if negb (is_ok (fw_st w1)) then Ret (w1, [])
      else
        let o := hd cue_ex0 old in
        let c := CueEx (mem_cue b) (cx_about o) (cx_title o) (cx_note o) in
        let* (w2, r) := read_cue_mems k w1 (tl old) in Ret (w2, c :: r)
  end.
(** wav.hpp:533-534: whether no cue is less than the one before it *)
Fixpoint ordered (l : list cue_ex) : bool :=
  match l with a :: (b :: _) as r => negb (key_of b <? key_of a) && ordered r | _ => true end.
(** wav.hpp:517-540; None is false *)
Fixpoint cues_loop (fuel : nat) (s : S) (cues : list cue_ex) (limit : option nat) : outcome (S * option (list cue_ex)) :=
  match fuel with
  | O => UB
  | Datatypes.S f =>
      if below F limit s then
        let* (s1, b) := find F fset 4 4 2 f s id_cue limit in
        if negb b then cues_loop f s1 cues limit
        else
          let* (s2, size) := read_data FD s1 4 [] in
          if negb (is_ok (f_state F s2)) then Ret (s2, None)
          else
            let w := fw_new F s2 (f_tell F s2) (Z.to_nat size) in
            let* (w1, num) := read_data fw_dev w 4 [] in
            if negb (is_ok (fw_st w1)) then Ret (fw_src w1, None)
            else
              let* (w2, l) := read_cue_mems (Z.to_nat num) w1 cues in
              cues_loop f (fw_src w2) (if ordered l then l else sort l) limit
      else Ret (s, Some cues)
  end.
(** the element [k] of [l] is changed *)
Fixpoint change (k : nat) (g : cue_ex -> cue_ex) (l : list cue_ex) : list cue_ex :=
  match l, k with [], _ => [] | c :: r, O => g c :: r | c :: r, Datatypes.S k => c :: change k g r end.
Definition set_about (a : about) (c : cue_ex) : cue_ex := CueEx (cx_cue c) a (cx_title c) (cx_note c).
Definition set_title (t : list Z) (c : cue_ex) : cue_ex := CueEx (cx_cue c) (cx_about c) t (cx_note c).
Definition set_note (t : list Z) (c : cue_ex) : cue_ex := CueEx (cx_cue c) (cx_about c) (cx_title c) t.
Definition with_id (id : Z) (g : cue_ex -> cue_ex) (l : list cue_ex) : list cue_ex :=
  match bsearch id l with Some k => change k g l | None => l end.
(** wav.hpp:547-588: the records of one list; None is false *)
Fixpoint texts_loop (fuel : nat) (s : S) (cues : list cue_ex) (e : nat) : outcome (S * option (list cue_ex)) :=
  match fuel with
  | O => UB
  | Datatypes.S f =>
      if (f_tell F s <? e)%nat then
        let* (s1, id) := read_data FD s 4 [] in
        if negb (is_ok (f_state F s1)) then Ret (s1, Some cues)
        else if id =? id_ltxt then
          let* (s2, x) := read_rec s1 (0, about0) (read_ltxt (limiter_dev FD) f) in
          texts_loop f s2 (with_id (fst x) (set_about (snd x)) cues) e
        else if id =? id_labl then
          let* (s2, x) := read_rec s1 (0, []) (read_label (limiter_dev FD) f) in
          texts_loop f s2 (with_id (fst x) (set_title (snd x)) cues) e
        else if id =? id_note then
          let* (s2, x) := read_rec s1 (0, []) (read_label (limiter_dev FD) f) in
          texts_loop f s2 (with_id (fst x) (set_note (snd x)) cues) e
        else
          let* (s2, b) := ignore F fset 4 2 s1 in
          if negb b then Ret (s2, None) else texts_loop f s2 cues e
      else Ret (s, Some cues)
  end.
(** wav.hpp:544-590 *)
Fixpoint lists_loop (fuel : nat) (s : S) (cues : list cue_ex) (limit : option nat) : outcome (S * option (list cue_ex)) :=
  match fuel with
  | O => UB
  | Datatypes.S f =>
      if below F limit s then
        let* (s1, r) := wav_find_first f s id_list id_adtl limit in
        match r with
        | None => lists_loop f s1 cues limit
        | Some e =>
            let* (s2, x) := texts_loop f s1 cues e in
            match x with None => Ret (s2, None) | Some cues' => lists_loop f s2 cues' limit end
        end
      else Ret (s, Some cues)
  end.
(** wav.hpp:509-594: what cues are afterwards; None is false *)
Definition read_cues (fuel : nat) (s : S) (cues : list cue_ex) (limit : option nat) : outcome (S * option (list cue_ex)) :=
  let start := f_tell F s in
  let* (s1, x) := cues_loop fuel s cues limit in
  match x with
  | None => Ret (s1, None)
  | Some l =>
      let* (s2, y) := lists_loop fuel (f_seek F s1 start) l limit in
      match y with None => Ret (s2, None) | Some l' => Ret (f_seek F s2 start, Some l') end
  end.
End Files.

Section Remove.
(** the input and the output *)
Context {A B : Type} (F : fdev A) (fset : A -> sstate -> A) (G : fdev B) (gset : B -> sstate -> B).
(** wav.hpp:601-606 *)
Definition removable (id : Z) : bool := (id =? id_cue) || (id =? id_ltxt) || (id =? id_labl) || (id =? id_note).
(** wav.hpp:624-625: strupr of the four bytes *)
Definition upper_id (id : Z) : outcome Z :=
  let* b := map_units toupper8 (map i8 (le_bytes 4 id)) 4 in Ret (le_value (map (fun c => c mod 256) b)).
(** wav.hpp:596-655; the result of the function *)
Fixpoint remove_cues (fuel : nat) (a : A) (b : B) (limit : option nat) : outcome (A * B * bool) :=
  match fuel with
  | O => UB
  | S f =>
      if below F limit a then
        let* (a1, id) := read_data (file_dev F fset) a 4 [] in
        if negb (is_ok (f_state F a1)) then Ret (a1, f_truncate G b, true)
        else if negb (removable id) then
          let* (a2, ok) := ignore F fset 4 2 a1 in
          if negb ok then Ret (a2, b, false) else remove_cues f a2 b limit
        else
          let* (a2, size) := read_data (file_dev F fset) a1 4 [] in
          if negb (is_ok (f_state F a2)) then Ret (a2, b, false)
          else
            let* (b1, start) := open G gset 4 4 b id in
            let* id2 := upper_id id in
            if negb (id =? id2) || (id =? id_icrd) then
              if negb (is_ok (f_state G b1)) then Ret (a2, b1, false)
              else
                let* (b2, a3, _) := write_stream (file_dev G gset) (file_dev F fset) f b1 a2 (Z.to_nat size) in
                if negb (is_ok (f_state F a3)) then Ret (a3, b2, false)
                else
                  let* (b3, _) := close G gset 4 4 2 b2 start in
                  let pad := (2 - size) mod 4294967296 mod 2 in
                  remove_cues f (if pad =? 0 then a3 else f_seek F a3 (f_tell F a3 + Z.to_nat pad)) b3 limit
            else
              let* (a3, id3) := read_data (file_dev F fset) a2 4 [] in
              if negb (is_ok (f_state F a3)) then Ret (a3, b1, false)
              else
                let* b2 := write_data (file_dev G gset) b1 4 id3 in
                if negb (is_ok (f_state G b2)) then Ret (a3, b2, false)
                else
                  let e := f_tell G b2 in
                  let* (a4, b3, ok) := remove_cues f a3 b2 (Some (f_tell F a3 + Z.to_nat size - 4)%nat) in
                  if negb ok then Ret (a4, b3, false)
                  else
                    let* b4 := if (e =? f_tell G b3)%nat then Ret (f_seek G b3 start) else let* (b4, _) := close G gset 4 4 2 b3 start in Ret b4 in
                    remove_cues f a4 b4 limit
      else Ret (a, f_truncate G b, true)
  end.
End Remove.
