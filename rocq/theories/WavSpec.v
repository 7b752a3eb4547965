(** WAV files: what the structures look like in a file, and what reading the cues of a file gives. *)
From Coq Require Import Permutation Sorted.
From Verif Require Import Base StreamModel StringSpec IdrecSpec WavModel.

(** ** The bytes of the structures.  Numbers are little-endian. *)
Definition fits (w : nat) (v : Z) : Prop := 0 <= v < 256 ^ Z.of_nat w.
Definition bytes (b : list Z) : Prop := Forall (fun c => 0 <= c < 256) b.
Definition format_bytes (f : format) : list Z :=
  le_bytes 2 (fm_compression f) ++ le_bytes 2 (fm_channels f) ++ le_bytes 4 (fm_rate f) ++ le_bytes 4 (fm_bps f) ++ le_bytes 2 (fm_align f) ++ le_bytes 2 (fm_bits f) ++
  match fm_extra f with [] => [] | x => le_bytes 2 (Z.of_nat (length x)) ++ x end.
Definition format_ok (f : format) : Prop :=
  fits 2 (fm_compression f) /\ fits 2 (fm_channels f) /\ fits 4 (fm_rate f) /\ fits 4 (fm_bps f) /\ fits 2 (fm_align f) /\ fits 2 (fm_bits f) /\
  Z.of_nat (length (fm_extra f)) < 65536.
Definition cue_bytes (c : cue) : list Z :=
  le_bytes 4 (cu_id c) ++ le_bytes 4 (cu_pos c) ++ le_bytes 4 (cu_chunk c) ++ le_bytes 4 (cu_offset c) ++ le_bytes 4 (cu_start c) ++ le_bytes 4 (cu_block c).
Definition cue_ok (c : cue) : Prop := fits 4 (cu_id c) /\ fits 4 (cu_pos c) /\ fits 4 (cu_chunk c) /\ fits 4 (cu_offset c) /\ fits 4 (cu_start c) /\ fits 4 (cu_block c).
Definition cues_bytes (l : list cue) : list Z := le_bytes 4 (Z.of_nat (length l)) ++ flat_map cue_bytes l.
(** a text and its terminator; nothing for an empty text *)
Definition text_bytes (t : list Z) : list Z := match t with [] => [] | _ => t ++ [0] end.
Definition text_fine (t : list Z) : Prop := Forall (fun c => c <> 0) t.
Definition about_head (id : Z) (a : about) : list Z :=
  le_bytes 4 id ++ le_bytes 4 (ab_duration a) ++ le_bytes 4 (ab_purpose a) ++ le_bytes 2 (ab_country a) ++ le_bytes 2 (ab_language a) ++ le_bytes 2 (ab_dialect a) ++ le_bytes 2 (ab_charset a).
Definition ltxt_bytes (id : Z) (a : about) : list Z := about_head id a ++ text_bytes (ab_description a).
Definition head_ok (id : Z) (a : about) : Prop :=
  fits 4 id /\ fits 4 (ab_duration a) /\ fits 4 (ab_purpose a) /\ fits 2 (ab_country a) /\ fits 2 (ab_language a) /\ fits 2 (ab_dialect a) /\ fits 2 (ab_charset a).
Definition label_bytes (id : Z) (t : list Z) : list Z := le_bytes 4 id ++ text_bytes t.

(** a record whose padding is the one the library writes *)
Definition rec_of (id : Z) (data : list Z) : chunk := Chunk id data (repeat 0 (length data mod 2)).
(** what precedes the first zero *)
Definition cstr (b : list Z) : list Z := zstr (length b) b.

(** ** The records operator<< makes of cues *)
Definition texts_of (c : cue_ex) : list chunk :=
  rec_of id_ltxt (ltxt_bytes (key_of c) (cx_about c)) ::
  (match cx_title c with [] => [] | t => [rec_of id_labl (label_bytes (key_of c) t)] end) ++
  (match cx_note c with [] => [] | t => [rec_of id_note (label_bytes (key_of c) t)] end).
Definition list_data (sub : Z) (l : list chunk) : list Z := le_bytes 4 sub ++ chunks 4 4 l.
Definition cue_records (l : list cue_ex) : list chunk :=
  [rec_of id_cue (cues_bytes (map cx_cue l)); rec_of id_list (list_data id_adtl (flat_map texts_of l))].
Definition cue_ex_ok (c : cue_ex) : Prop :=
  cue_ok (cx_cue c) /\ head_ok (key_of c) (cx_about c) /\ text_fine (ab_description (cx_about c)) /\ text_fine (cx_title c) /\ text_fine (cx_note c).

(** ** What the records of a file say about the cues *)
Definition by_id (a b : cue_ex) : Prop := key_of a <= key_of b.
Definition in_order (l : list cue_ex) : Prop := StronglySorted by_id l.
(** the cues read take the place of [old]: what is not read from here stays *)
Fixpoint attach (cs : list cue) (old : list cue_ex) : list cue_ex :=
  match cs with [] => [] | c :: r => let o := hd cue_ex0 old in CueEx c (cx_about o) (cx_title o) (cx_note o) :: attach r (tl old) end.
(** the cues behind the records, [old] before *)
Inductive loaded : list chunk -> list cue_ex -> list cue_ex -> Prop :=
| ld_end : forall old, loaded [] old old
| ld_other : forall c l old new, c_id c <> id_cue -> loaded l old new -> loaded (c :: l) old new
| ld_cue : forall c l cs old mid new, c_id c = id_cue -> c_data c = cues_bytes cs -> Forall cue_ok cs -> Permutation (attach cs old) mid -> in_order mid -> loaded l mid new -> loaded (c :: l) old new.
(** a cue with the id is changed; nothing is, when there is none *)
Definition marked (id : Z) (g : cue_ex -> cue_ex) (l l' : list cue_ex) : Prop :=
  (exists l1 c l2, l = l1 ++ c :: l2 /\ key_of c = id /\ l' = l1 ++ g c :: l2) \/ (Forall (fun c => key_of c <> id) l /\ l' = l).
(** the records in an associated data list *)
Inductive noted : list chunk -> list cue_ex -> list cue_ex -> Prop :=
| nt_end : forall l, noted [] l l
| nt_ltxt : forall c r l m n id a b, c_id c = id_ltxt -> c_data c = about_head id a ++ b -> head_ok id a -> ab_description a = cstr b -> marked id (set_about a) l m -> noted r m n -> noted (c :: r) l n
| nt_label : forall c r l m n id b, c_id c = id_labl -> c_data c = le_bytes 4 id ++ b -> fits 4 id -> marked id (set_title (cstr b)) l m -> noted r m n -> noted (c :: r) l n
| nt_note : forall c r l m n id b, c_id c = id_note -> c_data c = le_bytes 4 id ++ b -> fits 4 id -> marked id (set_note (cstr b)) l m -> noted r m n -> noted (c :: r) l n
| nt_other : forall c r l n, c_id c <> id_ltxt -> c_id c <> id_labl -> c_id c <> id_note -> noted r l n -> noted (c :: r) l n.
(** the lists among the records *)
Inductive listed : list chunk -> list cue_ex -> list cue_ex -> Prop :=
| ls_end : forall l, listed [] l l
| ls_other : forall c r l n, c_id c <> id_list -> listed r l n -> listed (c :: r) l n
| ls_list : forall c r l n sub b, c_id c = id_list -> c_data c = le_bytes 4 sub ++ b -> fits 4 sub -> sub <> id_adtl -> listed r l n -> listed (c :: r) l n
| ls_adtl : forall c r l m n sub, c_id c = id_list -> c_data c = list_data id_adtl sub -> Forall (chunk_ok 4 4 2) sub -> noted sub l m -> listed r m n -> listed (c :: r) l n.
(** Well-formed records: those that matter have the shape they should have *)
Definition text_rec_ok (c : chunk) : Prop :=
  chunk_ok 4 4 2 c /\
  (c_id c = id_ltxt -> exists id a b, c_data c = about_head id a ++ b /\ head_ok id a) /\
  (c_id c = id_labl \/ c_id c = id_note -> exists id b, c_data c = le_bytes 4 id ++ b /\ fits 4 id).
Definition wav_rec_ok (c : chunk) : Prop :=
  chunk_ok 4 4 2 c /\
  (c_id c = id_cue -> exists cs, c_data c = cues_bytes cs /\ Forall cue_ok cs) /\
  (c_id c = id_list -> (exists sub b, c_data c = le_bytes 4 sub ++ b /\ fits 4 sub /\ sub <> id_adtl) \/ (exists l, c_data c = list_data id_adtl l /\ Forall text_rec_ok l)).
(** what is asked of std::sort and std::bsearch *)
Definition sorts (sort : list cue_ex -> list cue_ex) : Prop := forall l, Permutation l (sort l) /\ in_order (sort l).
Definition searches (bsearch : Z -> list cue_ex -> option nat) : Prop := forall id l, in_order l ->
  match bsearch id l with Some k => exists c, nth_error l k = Some c /\ key_of c = id | None => Forall (fun c => key_of c <> id) l end.
