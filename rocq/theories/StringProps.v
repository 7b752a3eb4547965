(** Final theorems about include/stdex/string.hpp: properties C30-C40. *)
From Verif Require Import Base Bits StringModel StringSpec StringProofs StringSearch StringTrim.
From Coq Require Import ZifyBool ZifyNat.

(** ** C30: comparison *)
Definition total_preorder {A} (le_cmp : A -> A -> Z) : Prop :=
  (forall a, le_cmp a a = 0) /\ (forall a b, le_cmp b a = - le_cmp a b) /\
  (forall a b c, le_cmp a b <= 0 -> le_cmp b c <= 0 -> le_cmp a c <= 0).
Theorem lexicographic_total_order : total_preorder lexcmp /\ forall a b, lexcmp a b = 0 <-> a = b.
Proof. exact (conj (conj lex_refl (conj lex_anti lex_trans)) lex_eq). Qed.
Theorem strcmp_spec : forall s1 s2, In 0 s1 -> In 0 s2 -> unsigned s1 -> unsigned s2 ->
  strcmp s1 s2 = Ret (lexcmp (cz s1) (cz s2)).
Proof. intros. rewrite strcmp_lex by auto. rewrite lex_term by (apply unsigned_pos; auto). reflexivity. Qed.
(* with signed units the order is the one in which the terminator counts as a zero unit: still a total order on strings *)
Theorem strcmp_signed_spec : forall s1 s2, In 0 s1 -> In 0 s2 ->
  strcmp s1 s2 = Ret (lexcmp (cz s1 ++ [0]) (cz s2 ++ [0])).
Proof. exact strcmp_lex. Qed.
Theorem strncmp_common_spec : forall n s1 s2, readable n s1 -> readable n s2 -> unsigned s1 -> unsigned s2 ->
  strncmp3 s1 s2 n = Ret (lexcmp (zstr n s1) (zstr n s2)).
Proof. intros. rewrite strncmp3_lex by auto. rewrite zt_lex by auto. reflexivity. Qed.
Theorem strncmp_spec : forall n1 s1 n2 s2, readable n1 s1 -> readable n2 s2 -> unsigned s1 -> unsigned s2 ->
  strncmp4 s1 n1 s2 n2 = Ret (lexcmp (zstr n1 s1) (zstr n2 s2)).
Proof.
  intros. unfold strncmp4. rewrite strnicmp4_lex by (try tauto; rewrite map_id; auto). rewrite !map_id. reflexivity.
Qed.
Theorem strncmp_utf32_utf16_spec : forall n1 s1 n2 s2, readable n1 s1 -> readable n2 s2 ->
  strncmp_32_16 s1 n1 s2 n2 = Ret (lexcmp (zstr n1 s1) (decode16 (zstr n2 s2))).
Proof. intros. exact (strncmp_32_16_lex n1 s1 n2 s2 H H0). Qed.
Theorem strrcmp_spec : forall s1 s2, In 0 s1 -> In 0 s2 -> strrcmp s1 s2 = Ret (lexcmp (rev (cz s1)) (rev (cz s2))).
Proof.
  intros s1 s2 H1 H2. unfold strrcmp. rewrite !strlen_cz by auto. cbn [obind]. unfold cz.
  destruct (zstr_prefix (length s1) s1) as (r1 & E1 & _). destruct (zstr_prefix (length s2) s2) as (r2 & E2 & _).
  rewrite E1 at 1. rewrite E2 at 1. apply strr_loop_lex.
Qed.
Theorem strrncmp_spec : forall n1 s1 n2 s2, readable n1 s1 -> readable n2 s2 ->
  strrncmp4 s1 n1 s2 n2 = Ret (lexcmp (rev (zstr n1 s1)) (rev (zstr n2 s2))).
Proof.
  intros n1 s1 n2 s2 H1 H2. unfold strrncmp4. rewrite !strnlen_zstr by auto. cbn [obind].
  destruct (zstr_prefix n1 s1) as (r1 & E1 & _). destruct (zstr_prefix n2 s2) as (r2 & E2 & _).
  rewrite E1 at 1. rewrite E2 at 1. apply strr_loop_lex.
Qed.
(* with signed units the counted comparison is no order: "" counted without its terminator,
   "" counted with it, and the one-unit string (-23): equal, less, greater *)
Theorem strncmp_signed_refuted : exists a na b nb c nc,
  readable na a /\ readable nb b /\ readable nc c /\ zstr na a = zstr nb b /\
  strncmp4 a na b nb = Ret 0 /\ strncmp4 a na c nc = Ret (-1) /\ strncmp4 b nb c nc = Ret 1.
Proof.
  exists [], 0%nat, [0], 1%nat, [-23], 1%nat. repeat split; try (left; cbn; lia); vm_compute; reflexivity.
Qed.
Example strncmp_ex : strncmp4 [97; 98; 0; 7] 4 [97; 99] 2 = Ret (-1) /\ readable 4 [97; 98; 0; 7] /\ strncmp4 [97] 1 [97; 0] 5 = Ret 0.
Proof. repeat split; try (vm_compute; reflexivity). left; cbn; lia. Qed.

(** ** C31: case-insensitive comparison *)
Theorem stricmp_spec : forall f s1 s2, (forall c, f c = 0 <-> c = 0) -> unsigned (map f s1) -> unsigned (map f s2) ->
  In 0 s1 -> In 0 s2 -> stricmp f s1 s2 = Ret (lexcmp (map f (cz s1)) (map f (cz s2))).
Proof. intros. apply stricmp_lex; auto. Qed.
Theorem strnicmp_common_spec : forall f n s1 s2, (forall c, f c = 0 <-> c = 0) -> unsigned (map f s1) -> unsigned (map f s2) ->
  readable n s1 -> readable n s2 -> strnicmp3 f s1 s2 n = Ret (lexcmp (map f (zstr n s1)) (map f (zstr n s2))).
Proof. intros. rewrite strnicmp3_4 by auto. apply strnicmp4_lex; auto. Qed.
Theorem strnicmp_spec : forall f n1 s1 n2 s2, (forall c, f c = 0 <-> c = 0) -> unsigned (map f s1) -> unsigned (map f s2) ->
  readable n1 s1 -> readable n2 s2 -> strnicmp4 f s1 n1 s2 n2 = Ret (lexcmp (map f (zstr n1 s1)) (map f (zstr n2 s2))).
Proof. intros. apply strnicmp4_lex; auto. Qed.
Theorem ascii_folding : forall c, tolower c = (if (65 <=? c) && (c <=? 90) then c + 32 else c) /\ (tolower c = 0 <-> c = 0) /\ (0 <= c -> 0 <= tolower c).
Proof.
  intros c. assert (E : tolower c = (if (65 <=? c) && (c <=? 90) then c + 32 else c)).
  { unfold tolower, isupper. destruct ((65 <=? c) && (c <=? 90)) eqn:E; auto.
    assert (H : 0 <= c < 91) by lia.
    pose proof (all_below_spec (fun x => if (65 <=? x) then Z.lor x 32 =? x + 32 else true) 91 ltac:(vm_compute; reflexivity) c H) as K.
    cbn beta in K. replace (65 <=? c) with true in K by lia. lia. }
  rewrite E. dif; repeat split; lia.
Qed.
Example stricmp_ex : stricmp tolower [65; 98; 0] [97; 66; 0] = Ret 0 /\ unsigned (map tolower [65; 98; 0]).
Proof. split; [vm_compute; reflexivity|]. repeat constructor; vm_compute; discriminate. Qed.

(** ** C32: searching *)
Lemma shift0 : forall r, shift 0 r = r.
Proof. destruct r; reflexivity. Qed.
Lemma unit_id : forall t c k, unit_at (fun c => c) t c k <-> nth_error t k = Some c.
Proof. intros. unfold unit_at. rewrite map_id. tauto. Qed.
Lemma least_ext : forall (P Q : nat -> Prop) r, (forall k, P k <-> Q k) -> least_pos P r -> least_pos Q r.
Proof. intros P Q [k|] H; cbn; [intros [A B]; split; [apply H; auto|intros j Hj F; apply (B j Hj), H; auto]|intros A j F; apply (A j), H; auto]. Qed.
Lemma greatest_ext : forall (P Q : nat -> Prop) r, (forall k, P k <-> Q k) -> greatest_pos P r -> greatest_pos Q r.
Proof. intros P Q [k|] H; cbn; [intros [A B]; split; [apply H; auto|intros j Hj F; apply (B j Hj), H; auto]|intros A j F; apply (A j), H; auto]. Qed.
Theorem strchr_spec : forall s chr, In 0 s ->
  exists r, strchr s chr = Ret r /\ least_pos (fun k => nth_error (cz s) k = Some chr) r.
Proof.
  intros. unfold strchr. rewrite strchr_n by auto. destruct (strnchr_spec (fun c => c) (length s) s chr 0 ltac:(right; auto)) as (r & E & L).
  exists r. rewrite shift0 in E. split; auto. eapply least_ext; [|exact L]. intros. apply unit_id.
Qed.
Theorem strnchr_correct : forall s n chr, readable n s ->
  exists r, strnchr s n chr = Ret r /\ least_pos (fun k => nth_error (zstr n s) k = Some chr) r.
Proof.
  intros. unfold strnchr. destruct (strnchr_spec (fun c => c) n s chr 0 H) as (r & E & L).
  exists r. rewrite shift0 in E. split; auto. eapply least_ext; [|exact L]. intros. apply unit_id.
Qed.
Theorem strichr_spec : forall f s chr, In 0 s ->
  exists r, strichr f s chr = Ret r /\ least_pos (unit_at f (cz s) chr) r.
Proof.
  intros. unfold strichr. rewrite strchr_n by auto. destruct (strnchr_spec f (length s) s chr 0 ltac:(right; auto)) as (r & E & L).
  exists r. rewrite shift0 in E. split; auto.
Qed.
Theorem strnichr_spec : forall f s n chr, readable n s ->
  exists r, strnichr f s n chr = Ret r /\ least_pos (unit_at f (zstr n s) chr) r.
Proof.
  intros. unfold strnichr. destruct (strnchr_spec f n s chr 0 H) as (r & E & L). exists r. rewrite shift0 in E. split; auto.
Qed.
Theorem strrchr_spec : forall s chr, In 0 s ->
  exists r, strrchr s chr = Ret r /\ greatest_pos (fun k => nth_error (cz s) k = Some chr) r.
Proof.
  intros. unfold strrchr. rewrite strrchr_n by auto. destruct (strrnchr_spec (fun c => c) (length s) s chr 0 None ltac:(right; auto)) as (r & E & L).
  exists r. split; [rewrite E; destruct r; reflexivity|]. eapply greatest_ext; [|exact L]. intros. apply unit_id.
Qed.
Theorem strrnchr_correct : forall s n chr, readable n s ->
  exists r, strrnchr s n chr = Ret r /\ greatest_pos (fun k => nth_error (zstr n s) k = Some chr) r.
Proof.
  intros. unfold strrnchr. destruct (strrnchr_spec (fun c => c) n s chr 0 None H) as (r & E & L).
  exists r. split; [rewrite E; destruct r; reflexivity|]. eapply greatest_ext; [|exact L]. intros. apply unit_id.
Qed.
Theorem strrichr_spec : forall f s n chr, readable n s ->
  exists r, strrnichr f s n chr = Ret r /\ greatest_pos (unit_at f (zstr n s) chr) r.
Proof.
  intros. unfold strrnichr. destruct (strrnchr_spec f n s chr 0 None H) as (r & E & L).
  exists r. split; [rewrite E; destruct r; reflexivity|]. auto.
Qed.
(* needle and haystack up to the folding function f; f = identity for strstr/strnstr *)
Theorem strstr_spec : forall f s sample, In 0 s -> In 0 sample ->
  exists r, stristr f s sample = Ret r /\ least_pos (occurs_at f (cz s) (cz sample)) r.
Proof.
  intros. unfold stristr. rewrite (strstr_n f s sample 0 (length s)) by auto.
  destruct (strnstr_spec_aux f s (length s) sample 0 H0 ltac:(right; auto)) as (r & E & L). exists r. rewrite shift0 in E. auto.
Qed.
Theorem strnstr_spec : forall f s n sample, readable n s -> In 0 sample ->
  exists r, strnistr f s n sample = Ret r /\ least_pos (occurs_at f (zstr n s) (cz sample)) r.
Proof.
  intros. unfold strnistr. destruct (strnstr_spec_aux f s n sample 0 H0 H) as (r & E & L). exists r. rewrite shift0 in E. auto.
Qed.
Theorem plain_search_is_folded_search : forall s n sample,
  strstr s sample = stristr (fun c => c) s sample /\ strnstr s n sample = strnistr (fun c => c) s n sample.
Proof. intros. split; reflexivity. Qed.
Example search_ex : strstr [97; 97; 98; 0] [97; 98; 0] = Ret (Some 1%nat) /\ strchr [97; 98; 97; 0] 97 = Ret (Some 0%nat) /\ strrchr [97; 98; 97; 0] 97 = Ret (Some 2%nat)
  /\ strnstr [97; 98; 99] 2 [98; 99; 0] = Ret None.
Proof. vm_compute. auto. Qed.

(** ** C33: copying.  [copied out d true] is [out], a terminator, then the rest of d. *)
Theorem strcpy_spec : forall cast d src, In 0 (map cast src) -> (length (cz (map cast src)) < length d)%nat ->
  strcpy cast d src = Ret (cz (map cast src) ++ 0 :: skipn (S (length (cz (map cast src)))) d, length (cz (map cast src))).
Proof.
  intros cast d src H Hd. unfold strcpy. rewrite (copy_z_n cast src d (S (length src)) 0) by (auto; lia).
  pose proof (copy_n_spec cast (S (length src)) src [] d ltac:(right; auto)) as K. cbv zeta in K. cbn [app] in K.
  change (length (@nil Z)) with 0%nat in K. cbn [Nat.add] in K.
  assert (E : zstr (S (length src)) (map cast src) = cz (map cast src)) by (apply zstr_all; rewrite map_length; lia). rewrite E in K.
  rewrite K by lia. pose proof (zstr_le (length (map cast src)) (map cast src)) as L. fold (cz (map cast src)) in L. rewrite map_length in L.
  replace (length (cz (map cast src)) <? S (length src))%nat with true by lia. reflexivity.
Qed.
Theorem strcat_spec : forall cast d src, In 0 (map cast src) -> In 0 d ->
  (length (cz d) + length (cz (map cast src)) < length d)%nat ->
  strcat cast d src = Ret (cz d ++ cz (map cast src) ++ 0 :: skipn (length (cz d) + S (length (cz (map cast src)))) d,
                           (length (cz d) + length (cz (map cast src)))%nat).
Proof.
  intros cast d src H Hz Hd. unfold strcat. rewrite strlen_cz by auto. cbn [obind].
  rewrite (copy_z_n cast src d (S (length src)) (length (cz d))) by (auto; lia).
  destruct (zstr_prefix (length d) d) as (rest & Ed & _). fold (cz d) in Ed.
  assert (Lr : length d = (length (cz d) + length rest)%nat) by (rewrite <- app_length, <- Ed; reflexivity).
  pose proof (copy_n_spec cast (S (length src)) src (cz d) rest ltac:(right; auto)) as K. cbv zeta in K. rewrite <- Ed in K.
  assert (E : zstr (S (length src)) (map cast src) = cz (map cast src)) by (apply zstr_all; rewrite map_length; lia). rewrite E in K.
  rewrite K by lia. pose proof (zstr_le (length (map cast src)) (map cast src)) as L. fold (cz (map cast src)) in L. rewrite map_length in L.
  replace (length (cz (map cast src)) <? S (length src))%nat with true by lia. unfold copied.
  set (k := S (length (cz (map cast src)))) in *. assert (S1 : skipn k rest = skipn (length (cz d) + k) d).
  { transitivity (skipn (length (cz d) + k) (cz d ++ rest)); [|rewrite <- Ed; reflexivity]. rewrite skipn_app, (@skipn_all2 _ _ (cz d)) by lia. replace (length (cz d) + k - length (cz d))%nat with k by lia. reflexivity. }
  rewrite S1. reflexivity.
Qed.
(* at most count cells are written, the terminator only when there is room *)
Theorem strncpy_common_spec : forall cast d src count, readable count (map cast src) -> (count <= length d)%nat ->
  let out := zstr count (map cast src) in
  strncpy3 cast d src count = Ret (if (length out <? count)%nat then out ++ 0 :: skipn (S (length out)) d else out ++ skipn count d, length out).
Proof.
  intros cast d src count H Hd out. unfold strncpy3.
  pose proof (copy_n_spec cast count src [] d H) as K. cbv zeta in K. cbn [app] in K. change (length (@nil Z)) with 0%nat in K. cbn [Nat.add] in K.
  rewrite K by lia. fold out. unfold copied. pose proof (zstr_le count (map cast src)) as L. fold out in L.
  destruct (length out <? count)%nat eqn:E; auto. replace count with (length out) by lia. reflexivity.
Qed.
Theorem strncpy_spec : forall cast d count_dst src count_src, readable (Nat.min count_dst count_src) (map cast src) -> (count_dst <= length d)%nat ->
  let out := zstr (Nat.min count_dst count_src) (map cast src) in
  strncpy4 cast d count_dst src count_src =
    Ret (if (length out <? count_dst)%nat then out ++ 0 :: skipn (S (length out)) d else out ++ skipn count_dst d, length out).
Proof.
  intros cast d cd src csr H Hd out. unfold strncpy4.
  pose proof (copy_nn_spec cast cd src (Some csr) [] d H Hd) as K. cbv zeta in K. cbn [app] in K. change (length (@nil Z)) with 0%nat in K. cbn [Nat.add] in K.
  rewrite K. fold out. unfold copied. pose proof (zstr_le (Nat.min cd csr) (map cast src)) as L. fold out in L.
  destruct (length out <? cd)%nat eqn:E; auto. replace cd with (length out) by lia. reflexivity.
Qed.
Theorem strncpy_utf16_utf32_spec : forall d count_dst src count_src, readable count_src src -> (count_dst <= length d)%nat ->
  let out := firstn count_dst (decode16 (zstr count_src src)) in
  strncpy_16_32 d count_dst src count_src =
    Ret (if (length out <? count_dst)%nat then out ++ 0 :: skipn (S (length out)) d else out ++ skipn count_dst d, length out).
Proof.
  intros d cd src csr H Hd out. unfold strncpy_16_32.
  pose proof (copy_16_32_spec cd src csr [] d H Hd) as K. cbv zeta in K. cbn [app] in K. change (length (@nil Z)) with 0%nat in K. cbn [Nat.add] in K.
  rewrite K. fold out. unfold copied. assert (L : (length out <= cd)%nat) by (unfold out; rewrite firstn_length; lia).
  destruct (length out <? cd)%nat eqn:E; auto. replace cd with (length out) by lia. reflexivity.
Qed.
Theorem strncat_spec : forall cast d count_dst src count_src, readable count_src (map cast src) -> (count_dst <= length d)%nat ->
  let old := zstr count_dst d in
  let out := zstr (Nat.min (count_dst - length old) count_src) (map cast src) in
  strncat4 cast d count_dst src count_src =
    Ret (if (length old + length out <? count_dst)%nat then old ++ out ++ 0 :: skipn (length old + S (length out)) d else old ++ out ++ skipn count_dst d,
         (length old + length out)%nat).
Proof.
  intros cast d cd src csr H Hd old out. unfold strncat4. rewrite strnlen_zstr by (left; lia). cbn [obind]. fold old.
  destruct (zstr_prefix cd d) as (rest & Ed & _). fold old in Ed.
  assert (Lr : length d = (length old + length rest)%nat) by (rewrite <- app_length, <- Ed; reflexivity).
  pose proof (zstr_le cd d) as L0. fold old in L0.
  assert (H' : readable (Nat.min (cd - length old) csr) (map cast src)) by (destruct H; [left; lia|right; auto]).
  pose proof (copy_nn_spec cast (cd - length old) src (Some csr) old rest H' ltac:(lia)) as K. cbv zeta in K. rewrite <- Ed in K. rewrite K. fold out.
  pose proof (zstr_le (Nat.min (cd - length old) csr) (map cast src)) as L. fold out in L. unfold copied.
  assert (SK : forall k, skipn k rest = skipn (length old + k) d).
  { intros k. transitivity (skipn (length old + k) (old ++ rest)); [|rewrite <- Ed; reflexivity]. rewrite skipn_app, (@skipn_all2 _ _ old) by lia. replace (length old + k - length old)%nat with k by lia. reflexivity. }
  rewrite !SK. destruct (length old + length out <? cd)%nat eqn:E.
  - replace (length out <? cd - length old)%nat with true by lia. reflexivity.
  - replace (length out <? cd - length old)%nat with false by lia. replace (length old + length out)%nat with cd by lia. reflexivity.
Qed.
Theorem strdup_spec : forall fresh s, (forall n, length (fresh n) = n) -> In 0 s -> strdup fresh s = Ret (cz s ++ [0]).
Proof.
  intros fresh s HF H. unfold strdup. rewrite strlen_cz by auto. cbn [obind].
  pose proof (copy_nn_spec (fun c => c) (length (cz s) + 1) s None [] (fresh (length (cz s) + 1)%nat)) as K. cbv zeta in K. rewrite map_id in K.
  cbn [app] in K. change (length (@nil Z)) with 0%nat in K. cbn [Nat.add] in K. rewrite K by (try (right; auto); rewrite HF; lia). clear K.
  cbn [obind fst].
  assert (E : zstr (length (cz s) + 1) s = cz s).
  { destruct (zstr_prefix (length s) s) as (rest & E1 & E2). fold (cz s) in E1, E2. pose proof (zstr_le (length s) s) as L. fold (cz s) in L.
    assert (R : exists r, rest = 0 :: r). { destruct E2 as [E2|[E2|E2]]; auto.
      - assert (rest = []). { apply (f_equal (@length Z)) in E1. rewrite app_length in E1. destruct rest; auto. cbn in E1. lia. } subst rest.
        rewrite app_nil_r in E1. rewrite E1 in H. apply zstr_nonzero in H. lia.
      - subst rest. rewrite app_nil_r in E1. rewrite E1 in H. apply zstr_nonzero in H. lia. }
    destruct R as (r & ->). rewrite E1 at 2. apply zstr_app0; [|lia]. intros c Hc. apply zstr_nonzero in Hc. auto. }
  rewrite E. unfold copied. replace (length (cz s) <? length (cz s) + 1)%nat with true by lia.
  rewrite skipn_all2 by (rewrite HF; lia). reflexivity.
Qed.
(* strncat(dst, src, count) does not terminate dst when count characters were appended:
   appending 2 characters of "bcd" to "a" in a 6-cell buffer yields "abcyz" *)
Theorem strncat_common_refuted : exists d src d' n, In 0 d /\ (length (cz d) + 2 < length d)%nat /\ readable 2 src /\
  strncat3 (fun c => c) d src 2 = Ret (d', n) /\ cz d' <> cz d ++ zstr 2 src.
Proof.
  exists [97; 0; 120; 121; 122; 0], [98; 99; 100], [97; 98; 99; 121; 122; 0], 3%nat.
  split; [right; left; reflexivity|]. split; [vm_compute; lia|]. split; [left; cbn; lia|]. split; [vm_compute; reflexivity|vm_compute; discriminate].
Qed.
(* when src ends within count the result is right *)
Theorem strncat_common_partial : forall cast d src count, readable count (map cast src) -> In 0 d ->
  let out := zstr count (map cast src) in
  (length out < count)%nat -> (length (cz d) + length out < length d)%nat ->
  strncat3 cast d src count = Ret (cz d ++ out ++ 0 :: skipn (length (cz d) + S (length out)) d, (length (cz d) + length out)%nat).
Proof.
  intros cast d src count H Hz out Ho Hd. unfold strncat3. rewrite strlen_cz by auto. cbn [obind].
  destruct (zstr_prefix (length d) d) as (rest & Ed & _). fold (cz d) in Ed.
  assert (Lr : length d = (length (cz d) + length rest)%nat) by (rewrite <- app_length, <- Ed; reflexivity).
  pose proof (copy_n_spec cast count src (cz d) rest H) as K. cbv zeta in K. rewrite <- Ed in K. fold out in K. rewrite K by lia.
  replace (length out <? count)%nat with true by lia. unfold copied.
  assert (S1 : skipn (S (length out)) rest = skipn (length (cz d) + S (length out)) d).
  { transitivity (skipn (length (cz d) + S (length out)) (cz d ++ rest)); [|rewrite <- Ed; reflexivity]. rewrite skipn_app, (@skipn_all2 _ _ (cz d)) by lia. replace (length (cz d) + S (length out) - length (cz d))%nat with (S (length out)) by lia. reflexivity. }
  rewrite S1. reflexivity.
Qed.
(* strndup allocates count units and leaves no room for the terminator *)
Theorem strndup_refuted : exists s count r, readable count s /\
  strndup (fun n => repeat 255 n) s count = Ret r /\ ~ In 0 r.
Proof. exists [97; 98; 0], 2%nat, [97; 98]. split; [left; cbn; lia|]. split; [vm_compute; reflexivity|]. cbn. lia. Qed.
Theorem strndup_partial : forall fresh s count, (forall n, length (fresh n) = n) -> readable count s -> (length (zstr count s) < count)%nat ->
  exists r, strndup fresh s count = Ret (zstr count s ++ 0 :: r).
Proof.
  intros fresh s count HF H Hl. unfold strndup. pose proof (copy_nn_spec (fun c => c) count s None [] (fresh count)) as K. cbv zeta in K. rewrite map_id in K.
  cbn [app] in K. change (length (@nil Z)) with 0%nat in K. cbn [Nat.add] in K. rewrite K by (auto; rewrite HF; lia). cbn [obind fst].
  unfold copied. replace (length (zstr count s) <? count)%nat with true by lia. eauto.
Qed.
(* what the copies write is a string of the narrowed units: narrowing may shorten it *)
Example copy_ex : strncpy4 u8 [1; 2; 3; 4] 4 [65; 256; 66; 0] 4 = Ret ([65; 0; 3; 4], 1%nat) /\ strncpy3 (fun c => c) [1; 2; 3] [65; 66; 67] 2 = Ret ([65; 66; 3], 2%nat)
  /\ strcat (fun c => c) [97; 0; 9; 9] [98; 0] = Ret ([97; 98; 0; 9], 2%nat).
Proof. vm_compute. auto. Qed.

(** ** C34: trimming *)
Definition left_trimmed (sp : Z -> bool) (t u : list Z) : Prop :=
  exists w, t = w ++ u /\ forallb sp w = true /\ (u = [] \/ exists c r, u = c :: r /\ sp c = false).
Definition right_trimmed (sp : Z -> bool) (t u : list Z) : Prop :=
  exists w, t = u ++ w /\ forallb sp w = true /\ (u = [] \/ exists c r, u = r ++ [c] /\ sp c = false).
Lemma drop_left : forall sp t, left_trimmed sp t (drop_while sp t).
Proof.
  intros sp. induction t as [|c t IH]; cbn; [exists []; auto|]. destruct (sp c) eqn:E.
  - destruct IH as (w & E1 & E2 & E3). exists (c :: w). cbn. rewrite E. split; [f_equal; auto|auto].
  - exists []. repeat split; auto. right. eauto.
Qed.
Lemma rtrim_right : forall sp t, right_trimmed sp t (rtrim_str sp t).
Proof.
  intros sp t. unfold rtrim_str. rewrite ltrim_str_drop. destruct (drop_left sp (rev t)) as (w & E1 & E2 & E3).
  exists (rev w). split; [|split].
  - rewrite <- rev_app_distr, <- E1, rev_involutive. reflexivity.
  - apply forallb_forall. intros x Hx. rewrite <- in_rev in Hx. rewrite forallb_forall in E2. auto.
  - destruct E3 as [E3|(c & r & E3 & Hc)]; [left; rewrite E3; reflexivity|]. right. exists c, (rev r). rewrite E3. split; auto.
Qed.
(* the buffer keeps its length, nothing beyond count changes, and the string it now holds is the trimmed one *)
Theorem ltrim_spec : forall sp m count, readable count m ->
  exists m' u, ltrim sp m count = Ret (m', length u) /\ zstr count m' = u /\ left_trimmed sp (zstr count m) u /\
               length m' = length m /\ skipn count m' = skipn count m.
Proof.
  intros sp m count H. exists (ltrimmed sp m count), (drop_while sp (zstr count m)).
  destruct (ltrimmed_spec sp m count H) as (A & B & C). repeat split; auto; [apply ltrim_exact; auto|apply drop_left].
Qed.
Theorem rtrim_spec : forall sp m count, readable count m ->
  exists m' u, rtrim sp m count = Ret (m', length u) /\ zstr count m' = u /\ right_trimmed sp (zstr count m) u /\
               length m' = length m /\ skipn count m' = skipn count m.
Proof.
  intros sp m count H. destruct (rtrim_exact sp m count H) as (m' & A & B & C & D & _).
  exists m', (rtrim_str sp (zstr count m)). repeat split; auto. apply rtrim_right.
Qed.
Theorem trim_spec : forall sp m count, readable count m ->
  exists m' u v, trim sp m count = Ret (m', length v) /\ zstr count m' = v /\
               right_trimmed sp (zstr count m) u /\ left_trimmed sp u v /\
               length m' = length m /\ skipn count m' = skipn count m.
Proof.
  intros sp m count H. destruct (rtrim_exact sp m count H) as (m1 & A & B & C & D & E & F). set (u := rtrim_str sp (zstr count m)) in *.
  pose proof (zstr_le count m1) as L. rewrite B in L.
  unfold trim. rewrite A. cbn [obind].
  assert (R1 : readable (length u) m1) by (left; lia). rewrite ltrim_exact by auto.
  destruct (ltrimmed_spec sp m1 (length u) R1) as (G1 & G2 & G3).
  assert (Zu : zstr (length u) m1 = u). { rewrite (zstr_shrink count) by lia. rewrite B. apply firstn_all. }
  rewrite Zu in *.
  exists (ltrimmed sp m1 (length u)), u, (drop_while sp u). split; [reflexivity|]. split; [|split; [apply rtrim_right|split; [apply drop_left|split; [congruence|]]]].
  - unfold ltrimmed. rewrite Zu. destruct (length (drop_while sp u) =? length u)%nat eqn:EQ.
    + rewrite drop_while_same by lia. exact B.
    + pose proof (drop_while_len sp u). apply zstr_app0; [|lia]. intros c Hc. apply drop_while_in in Hc. apply (zstr_nonzero count m1). rewrite B. auto.
  - rewrite <- D. assert (GG : forall a b (l : list Z), skipn a (skipn b l) = skipn (b + a) l).
    { intros a b. induction b; intros [|y l]; cbn; auto; rewrite ?skipn_nil; auto. }
    pose proof (GG (count - length u)%nat (length u)) as G4. replace (length u + (count - length u))%nat with count in G4 by lia. rewrite <- !G4. rewrite G3. reflexivity.
Qed.
Theorem trim_string_spec : forall sp s,
  left_trimmed sp s (ltrim_str sp s) /\ right_trimmed sp s (rtrim_str sp s) /\
  right_trimmed sp (ltrim_str sp s) (trim_str sp s).
Proof. intros. split; [rewrite ltrim_str_drop; apply drop_left|]. unfold trim_str. split; apply rtrim_right. Qed.
Example trim_ex : trim isspace [32; 9; 97; 32; 98; 32; 0; 7] 8 = Ret ([97; 32; 98; 0; 98; 0; 0; 7], 3%nat).
Proof. vm_compute. reflexivity. Qed.

(** ** C35: line ends *)
Theorem crlf2nl_buffer_spec : forall d src, In 0 src -> (length (nl (cz src)) < length d)%nat ->
  crlf2nl d src = Ret (nl (cz src) ++ 0 :: skipn (S (length (nl (cz src)))) d, length (nl (cz src))).
Proof.
  intros d src H Hd. pose proof (crlf_buf_spec (length src) src [] d ltac:(lia) H Hd) as K. cbn [app] in K. exact K.
Qed.
Theorem crlf2nl_string_spec : forall dst src, In 0 src -> crlf2nl_str [] src = Ret (nl (cz src)) /\ crlf2nl_self dst = Ret (nl dst).
Proof. intros dst src H. split; [exact (crlf_str_spec (length src) src [] ltac:(lia) H)|apply crlf_self_spec]. Qed.
Theorem crlf2nl_idempotent : forall s, (forall a b, s <> a ++ [13; 13; 10] ++ b) -> nl (nl s) = nl s.
Proof. intros s H. exact (nl_idem (length s) s ltac:(lia) H). Qed.
Theorem crlf2nl_units : forall s, (length (nl s) <= length s)%nat /\ (forall c, c <> 13 -> filter (Z.eqb c) (nl s) = filter (Z.eqb c) s).
Proof.
  intros s. split.
  - assert (G : forall n s, (length s <= n)%nat -> (length (nl s) <= length s)%nat).
    { induction n; intros [|c [|d r]] H; cbn [length] in *; try (cbn; lia). rewrite nl_cons2. destruct (_ && _); cbn [length].
      - specialize (IHn r ltac:(lia)). lia.
      - specialize (IHn (d :: r) ltac:(cbn [length]; lia)). cbn [length] in IHn. lia. }
    exact (G _ s (le_n _)).
  - intros c Hc. assert (G : forall n s, (length s <= n)%nat -> filter (Z.eqb c) (nl s) = filter (Z.eqb c) s).
    { induction n; intros [|x [|d r]] H; cbn [length] in *; try reflexivity; try lia. rewrite nl_cons2. destruct ((x =? 13) && (d =? 10)) eqn:E.
      - replace x with 13 by lia. replace d with 10 by lia. cbn [filter]. replace (c =? 13) with false by lia. rewrite IHn by lia. reflexivity.
      - cbn [filter]. rewrite (IHn (d :: r)) by (cbn [length]; lia). cbn [filter]. reflexivity. }
    exact (G _ s (le_n _)).
Qed.
Example crlf_ex : crlf2nl_self [97; 13; 10; 13; 98; 10; 13] = Ret [97; 10; 13; 98; 10; 13].
Proof. vm_compute. reflexivity. Qed.

(** ** C36: numerals *)
Definition clamp (lo hi v : Z) : Z := Z.max lo (Z.min hi v).
(* unsigned, no minus sign: the value, or the largest value on overflow *)
Theorem strtouint_spec : forall b s count radix, 8 <= b -> readable count s -> radix = 0 \/ 2 <= radix <= 36 ->
  let q := read_numeral radix (zstr count s) in
  negative q = false ->
  strtouint b s count radix = Ret (clamp 0 (2 ^ b - 1) (numeral_value (radix_of q) (digits_of q)), consumed q).
Proof.
  intros b s count radix Hb HR Hr q Hq. assert (P : 0 < 2 ^ b) by (apply Z.pow_pos_nonneg; lia).
  destruct (strtoint_core_spec (2 ^ b - 1) s count radix ltac:(lia) HR Hr) as (v' & E & R & V). fold q in E, V. unfold strtouint. rewrite E. cbn [obind nv nend nneg novf].
  rewrite Hq. set (v := numeral_value (radix_of q) (digits_of q)) in *. unfold clamp.
  assert (0 <= v). { unfold v, numeral_value. apply (fold_grows (radix_of q) (digits_of q) 0); [|lia].
    unfold q, read_numeral. destruct (match drop_while white (zstr count s) with [] => _ | _ => _ end) as [[ng sg] t2].
    destruct (radix =? 16) eqn:E16; [|destruct (radix =? 0) eqn:E0].
    - destruct t2 as [|z [|x r]]; cbn [radix_of]; try lia. destruct (_ && _); cbn [radix_of]; lia.
    - destruct t2 as [|z r]; cbn [radix_of]; try lia. destruct (z =? 48); cbn [radix_of]; [|lia]. destruct r; cbn [radix_of]; [lia|]. destruct (_ || _); cbn [radix_of]; lia.
    - cbn [radix_of]. lia. }
  destruct (v <=? 2 ^ b - 1) eqn:EV; cbn [negb].
  - rewrite V by lia. do 2 f_equal. lia.
  - do 2 f_equal. lia.
Qed.
Lemma numeral_nonneg : forall radix t, radix = 0 \/ 2 <= radix <= 36 ->
  0 <= numeral_value (radix_of (read_numeral radix t)) (digits_of (read_numeral radix t)).
Proof.
  intros radix t Hr. apply (fold_grows (radix_of (read_numeral radix t)) _ 0); [|lia].
  unfold read_numeral. destruct (match drop_while white t with [] => _ | _ => _ end) as [[ng sg] t2].
  destruct (radix =? 16) eqn:E16; [|destruct (radix =? 0) eqn:E0].
  - destruct t2 as [|z [|x r]]; cbn [radix_of]; try lia. destruct (_ && _); cbn [radix_of]; lia.
  - destruct t2 as [|z r]; cbn [radix_of]; try lia. destruct (z =? 48); cbn [radix_of]; [|lia]. destruct r; cbn [radix_of]; [lia|]. destruct (_ || _); cbn [radix_of]; lia.
  - cbn [radix_of]. lia.
Qed.
(* signed: right for negative numerals, for positive ones up to 2^(b-1)-1, and from 2^b on (saturates) *)
Theorem strtoint_partial : forall b s count radix, b = 8 \/ b = 16 \/ b = 32 \/ b = 64 -> readable count s -> radix = 0 \/ 2 <= radix <= 36 ->
  let q := read_numeral radix (zstr count s) in
  let v := numeral_value (radix_of q) (digits_of q) in
  negative q = true \/ v < 2 ^ (b - 1) \/ 2 ^ b <= v ->
  strtoint b s count radix = Ret (clamp (- 2 ^ (b - 1)) (2 ^ (b - 1) - 1) (if negative q then - v else v), consumed q).
Proof.
  intros b s count radix Hb HR Hr q v Hq.
  assert (P : 2 ^ b = 2 * 2 ^ (b - 1)). { rewrite <- Z.pow_succ_r by lia. f_equal. lia. }
  assert (P0 : 0 < 2 ^ (b - 1)) by (apply Z.pow_pos_nonneg; lia).
  destruct (strtoint_core_spec (2 ^ b - 1) s count radix ltac:(lia) HR Hr) as (v' & E & R & V). fold q in E, V. fold v in E, V.
  pose proof (numeral_nonneg radix (zstr count s) Hr) as NN. fold q in NN. fold v in NN.
  unfold strtoint. rewrite E. cbn [obind nv nend nneg novf].
  assert (S0 : forall x, 0 <= x < 2 ^ (b - 1) -> sint b x = x).
  { intros x Hx. unfold sint. rewrite Z.mod_small by lia. lia. }
  assert (S1 : forall x, 2 ^ (b - 1) <= x < 2 ^ b -> sint b x = x - 2 ^ b).
  { intros x Hx. unfold sint. rewrite <- (Z.mod_add _ (-1)) by lia. rewrite Z.mod_small by lia. lia. }
  assert (S2 : forall x, 0 <= x < 2 ^ (b - 1) -> sint b (- x) = - x).
  { intros x Hx. unfold sint. rewrite Z.mod_small by lia. lia. }
  (* the sign bit *)
  assert (SB : forall x, 0 <= x < 2 ^ b -> (Z.land (sint b x) (2 ^ (b - 1)) =? 0) = (x <? 2 ^ (b - 1))).
  { intros x Hx. assert (T : Z.land (sint b x) (2 ^ (b - 1)) = Z.land x (2 ^ (b - 1))).
    { apply Z.bits_inj'. intros n Hn. rewrite !Z.land_spec. destruct (Z.eq_dec n (b - 1)) as [->|Hne].
      - rewrite Z.pow2_bits_true by lia. rewrite !andb_true_r. unfold sint.
        destruct (x <? 2 ^ (b - 1)) eqn:EX.
        + rewrite Z.mod_small by lia. f_equal. lia.
        + rewrite <- (Z.mod_add _ (-1)) by lia. rewrite Z.mod_small by lia.
          replace (x + 2 ^ (b - 1) + -1 * 2 ^ b - 2 ^ (b - 1)) with (x + -1 * 2 ^ b) by lia.
          rewrite <- (Z.mod_pow2_bits_low (x + -1 * 2 ^ b) b (b - 1)) by lia. rewrite Z.mod_add by lia. rewrite Z.mod_pow2_bits_low by lia. reflexivity.
      - rewrite !Z.pow2_bits_false by lia. rewrite !andb_false_r. reflexivity. }
    rewrite T. destruct (x <? 2 ^ (b - 1)) eqn:EX.
    - apply Z.eqb_eq. apply Z.bits_inj'. intros n Hn. rewrite Z.land_spec, Z.bits_0. destruct (Z.eq_dec n (b - 1)) as [->|Hne].
      + rewrite Z.testbit_eqb, Z.div_small by lia. reflexivity.
      + rewrite Z.pow2_bits_false by lia. apply andb_false_r.
    - apply Z.eqb_neq. intros K. assert (B : Z.testbit (Z.land x (2 ^ (b - 1))) (b - 1) = false) by (rewrite K; apply Z.bits_0).
      rewrite Z.land_spec, Z.pow2_bits_true, andb_true_r, Z.testbit_eqb in B by lia.
      assert (x / 2 ^ (b - 1) = 1) as Q. { symmetry. apply (Z.div_unique x _ 1 (x - 2 ^ (b - 1))); lia. } rewrite Q in B. discriminate. }
  rewrite SB by lia. unfold clamp. clear SB Hb Hr E HR. clearbody v.
  set (hb := 2 ^ (b - 1)) in *. set (fb := 2 ^ b) in *. clearbody hb fb.
  destruct (v <=? fb - 1) eqn:EV; cbn [negb orb].
  - assert (v' = v) by (apply V; lia). subst v'. destruct (negative q) eqn:EN; cbn [andb].
    + destruct (v <? hb) eqn:EX; cbn [negb].
      * rewrite (S0 v) by lia. rewrite (S2 v) by lia. do 2 f_equal. lia.
      * rewrite (S1 (hb)) by lia. do 2 f_equal. lia.
    + destruct Hq as [Hq|[Hq|Hq]]; [discriminate| |lia]. rewrite (S0 v) by lia. do 2 f_equal. lia.
  - destruct (negative q) eqn:EN.
    + rewrite (S1 (hb)) by lia. do 2 f_equal. lia.
    + do 2 f_equal. lia.
Qed.
(* strto8("200") = -56 *)
Theorem strtoint_refuted : exists s count, readable count s /\
  (let q := read_numeral 10 (zstr count s) in negative q = false /\ numeral_value (radix_of q) (digits_of q) = 200) /\
  strtoint 8 s count 10 = Ret (-56, 3%nat).
Proof. exists [50; 48; 48; 0], 4%nat. split; [left; cbn; lia|]. vm_compute. auto. Qed.
Example strtouint_ex : strtouint 16 [32; 48; 120; 70; 70; 103; 0] 7 0 = Ret (255, 5%nat) /\ strtouint 8 [50; 53; 54; 0] 9 10 = Ret (255, 3%nat)
  /\ strtoint 8 [45; 49; 50; 57; 0] 9 10 = Ret (-128, 4%nat) /\ negative (read_numeral 0 [32; 48; 120; 70; 70; 103]) = false.
Proof. vm_compute. auto. Qed.

(** ** C37: strtouint("-1") is 2^b - 2, not 2^b - 1 *)
Theorem strtouint_negative_refuted : exists s count, readable count s /\
  (let q := read_numeral 10 (zstr count s) in negative q = true /\ numeral_value (radix_of q) (digits_of q) = 1) /\
  strtouint 32 s count 10 = Ret (2 ^ 32 - 2, 2%nat) /\ 2 ^ 32 - 2 <> (- (1)) mod 2 ^ 32.
Proof. exists [45; 49; 0], 3%nat. split; [left; cbn; lia|]. vm_compute. split; [auto|split; [auto|discriminate]]. Qed.
(* in general it is one less than the two's complement negation *)
Theorem strtouint_negative_partial : forall b s count radix, 8 <= b -> readable count s -> radix = 0 \/ 2 <= radix <= 36 ->
  let q := read_numeral radix (zstr count s) in
  let v := numeral_value (radix_of q) (digits_of q) in
  negative q = true -> v < 2 ^ b ->
  strtouint b s count radix = Ret ((- v - 1) mod 2 ^ b, consumed q).
Proof.
  intros b s count radix Hb HR Hr q v Hq Hv. assert (P : 0 < 2 ^ b) by (apply Z.pow_pos_nonneg; lia).
  destruct (strtoint_core_spec (2 ^ b - 1) s count radix ltac:(lia) HR Hr) as (v' & E & R & V). fold q in E, V. fold v in E, V.
  unfold strtouint. rewrite E. cbn [obind nv nend nneg novf]. rewrite Hq. replace (v <=? 2 ^ b - 1) with true by lia. cbn [negb].
  rewrite V by lia. unfold Z.lnot. replace (Z.pred (- v)) with (- v - 1) by lia. reflexivity.
Qed.

(** ** C38: surrogates *)
Theorem surrogate_classes : forall c,
  (is_high_surrogate c = true <-> high c) /\ (is_low_surrogate c = true <-> low c).
Proof. intros. unfold is_high_surrogate, is_low_surrogate, high, low. lia. Qed.
Theorem surrogate_round_trip : forall c, 65536 <= c <= 1114111 ->
  let '(h, l) := ucs4_to_surrogate_pair c in high h /\ low l /\ surrogate_pair_to_ucs4 h l = c.
Proof.
  intros c Hc. unfold ucs4_to_surrogate_pair. change 1023 with (2 ^ 10 - 1).
  rewrite !land_ones_mod by lia. rewrite Z.shiftr_div_pow2 by lia. change (2 ^ 10) with 1024.
  assert (H1 : 0 <= (c - 65536) / 1024 < 1024) by (split; [apply Z.div_pos|apply Z.div_lt_upper_bound]; lia).
  pose proof (Z.mod_pos_bound (c - 65536) 1024 ltac:(lia)). pose proof (Z.div_mod (c - 65536) 1024 ltac:(lia)).
  rewrite (Z.mod_small ((c - 65536) / 1024)) by lia. rewrite (u16_small ((c - 65536) / 1024)) by lia. rewrite (u16_small ((c - 65536) mod 1024)) by lia.
  rewrite !u16_small by lia. unfold high, low, surrogate_pair_to_ucs4. rewrite Z.shiftl_mul_pow2 by lia. change (2 ^ 10) with 1024. repeat split; lia.
Qed.
Theorem surrogate_round_trip_inv : forall h l, high h -> low l ->
  ucs4_to_surrogate_pair (surrogate_pair_to_ucs4 h l) = (h, l) /\ 65536 <= surrogate_pair_to_ucs4 h l <= 1114111.
Proof.
  unfold high, low. intros h l Hh Hl. unfold surrogate_pair_to_ucs4. rewrite Z.shiftl_mul_pow2 by lia. change (2 ^ 10) with 1024. split; [|lia].
  unfold ucs4_to_surrogate_pair. change 1023 with (2 ^ 10 - 1). rewrite !land_ones_mod by lia. rewrite Z.shiftr_div_pow2 by lia. change (2 ^ 10) with 1024.
  replace ((h - 55296) * 1024 + (l - 56320) + 65536 - 65536) with ((l - 56320) + (h - 55296) * 1024) by lia.
  rewrite Z.div_add, Z.mod_add by lia. rewrite (Z.div_small (l - 56320)) by lia. rewrite (Z.mod_small (l - 56320)) by lia. rewrite Z.add_0_l.
  rewrite (Z.mod_small (h - 55296)) by lia. rewrite (u16_small (h - 55296)), (u16_small (l - 56320)) by lia.
  rewrite !u16_small by lia. f_equal; lia.
Qed.
Example surrogate_ex : ucs4_to_surrogate_pair 128512 = (55357, 56832).
Proof. vm_compute. reflexivity. Qed.

(** ** C39: classification *)
Theorem character_classes : forall c,
  (isspace c = true <-> c = 32 \/ 9 <= c <= 13) /\ (islbreak c = true <-> c = 10 \/ c = 13) /\
  (isdigit c = true <-> 48 <= c <= 57) /\ (isalpha c = true <-> 65 <= c <= 90 \/ 97 <= c <= 122) /\
  (is7bit c = true <-> 0 <= c <= 127) /\
  (ispunct c = true <-> 33 <= c <= 126 /\ isdigit c = false /\ isalpha c = false) /\
  tolower c = (if (65 <=? c) && (c <=? 90) then c + 32 else c).
Proof.
  intros c. split; [|split; [|split; [|split; [|split; [|split]]]]].
  - rewrite isspace_white. unfold white. lia.
  - unfold islbreak. lia.
  - unfold isdigit. lia.
  - unfold isalpha, islower, isupper. lia.
  - unfold is7bit. lia.
  - unfold ispunct, isdigit, isalpha, islower, isupper. lia.
  - apply ascii_folding.
Qed.
(* toupper('a') is not 'A': it is (char)-1 for every lower-case letter *)
Theorem toupper_refuted : forall c, 97 <= c <= 122 -> toupper8 c = -1.
Proof.
  intros c Hc. assert (K := all_below_spec (fun c => (c <? 97) || (toupper8 c =? -1)) 123 ltac:(vm_compute; reflexivity) c ltac:(lia)). cbn beta in K. lia.
Qed.
(* a lone line break that is the whole buffer is not recognised *)
Theorem islbreak_counted_refuted : islbreak_n [10] 1 = Ret 0%nat /\ islbreak 10 = true.
Proof. vm_compute. auto. Qed.
Theorem islbreak_counted_partial : forall a b r n, (2 <= n)%nat -> (n <= length (a :: b :: r))%nat ->
  islbreak_n (a :: b :: r) n = Ret (if ((a =? 13) && (b =? 10)) || ((a =? 10) && (b =? 13)) then 2%nat else if islbreak a then 1%nat else 0%nat).
Proof.
  intros a b r n Hn Hl. unfold islbreak_n, rd, islbreak. cbn [nth_error obind]. replace (2 <=? n)%nat with true by lia. cbn [obind].
  destruct (_ || _); auto. replace (1 <? n)%nat with true by lia. cbn [obind]. destruct ((a =? 10) || (a =? 13)); reflexivity.
Qed.
(* strlwr folds exactly the string in the buffer *)
Theorem strlwr_spec : forall n s, readable n s -> exists rest, s = zstr n s ++ rest /\ strlwr s n = Ret (map tolower (zstr n s) ++ rest).
Proof.
  unfold strlwr. induction n; intros s H; [exists s; destruct s; auto|]. destruct s as [|c r]; [apply readable_nil in H; lia|]. cbn [zstr map_units].
  destruct (c =? 0) eqn:E; [exists (c :: r); auto|]. destruct (IHn r) as (rest & E1 & E2). { eapply readable_cons; eauto; lia. }
  exists rest. rewrite E2. cbn. split; [f_equal; auto|auto].
Qed.
Theorem isblank_spec : forall n s, readable n s -> isblank_n s n = Ret (forallb isspace (zstr n s)) /\ is7bit_n s n = Ret (forallb is7bit (zstr n s)).
Proof.
  assert (G : forall p n s, readable n s -> all_units p s n = Ret (forallb p (zstr n s))).
  { intros p. induction n; intros s H; [destruct s; auto|]. destruct s as [|c r]; [apply readable_nil in H; lia|]. cbn [zstr all_units].
    destruct (c =? 0) eqn:E; auto. cbn [forallb]. destruct (p c); cbn [negb andb]; auto. apply IHn. eapply readable_cons; eauto; lia. }
  intros. split; apply G; auto.
Qed.

(** ** C40: glyphs *)
Lemma iscombining_spec : forall c, iscombining c = true <-> combining c.
Proof. intros. unfold iscombining, combining. lia. Qed.
Lemma combining_run_spec : forall n s i, (n <= length s)%nat ->
  exists k, combining_run s n i = Ret (i + k)%nat /\ (k <= n)%nat /\
    (forall j c, (j < k)%nat -> nth_error s j = Some c -> combining c) /\
    (k = n \/ exists c, nth_error s k = Some c /\ ~ combining c).
Proof.
  induction n; intros s i H; cbn [combining_run].
  - exists 0%nat. repeat split; try lia; auto. 
  - destruct s as [|c r]; [cbn in H; lia|]. destruct (iscombining c) eqn:E.
    + destruct (IHn r (S i) ltac:(cbn in H; lia)) as (k & E1 & E2 & E3 & E4). exists (S k). split; [rewrite E1; f_equal; lia|]. split; [lia|]. split.
      * intros [|j] x Hj Hx; [injection Hx as <-; apply iscombining_spec; auto|]. apply (E3 j); auto. lia.
      * destruct E4 as [->|E4]; auto.
    + exists 0%nat. split; [f_equal; lia|]. split; [lia|]. split; [intros; lia|]. right. exists c. split; auto. rewrite <- iscombining_spec. congruence.
Qed.
(* length of the unit sequence of the base character: a surrogate pair within the count, else one *)
Definition base_len (s : list Z) (count b : nat) : Prop :=
  (b = 2%nat /\ (2 <= count)%nat /\ exists h l r, s = h :: l :: r /\ high h /\ low l) \/
  (b = 1%nat /\ ~ ((2 <= count)%nat /\ exists h l r, s = h :: l :: r /\ high h /\ low l)).
Theorem glyphlen_utf16_spec : forall s count, (0 < count)%nat -> (count <= length s)%nat ->
  exists n b, glyphlen16 s count = Ret n /\ (1 <= n <= count)%nat /\ base_len s count b /\ (b <= n)%nat /\
    (forall j c, (b <= j < n)%nat -> nth_error s j = Some c -> combining c) /\
    (n = count \/ exists c, nth_error s n = Some c /\ ~ combining c).
Proof.
  intros s count H Hl. unfold glyphlen16. destruct count as [|m]; [lia|]. set (count := S m) in *.
  assert (B : exists b, (let* p := (if (count <? 2)%nat then Ret false else is_surrogate_pair s) in Ret (if p then 2%nat else 1%nat)) = Ret b /\ base_len s count b /\ (1 <= b <= count)%nat).
  { destruct (count <? 2)%nat eqn:E.
    - exists 1%nat. split; auto. split; [right; split; auto; intros [K _]; lia|lia].
    - destruct s as [|a [|c r]]; [cbn in Hl; lia|cbn in Hl; lia|]. rewrite surr_dec. destruct (is_high_surrogate a) eqn:EH; [destruct (is_low_surrogate c) eqn:EL|].
      + exists 2%nat. split; auto. split; [left; split; auto; split; [lia|]|lia]. exists a, c, r. apply surrogate_classes in EH, EL. auto.
      + exists 1%nat. split; auto. split; [right; split; auto|lia]. intros (_ & h & l & r' & K & Kh & Kl). injection K as <- <- <-. apply surrogate_classes in Kl. congruence.
      + exists 1%nat. split; auto. split; [right; split; auto|lia]. intros (_ & h & l & r' & K & Kh & Kl). injection K as <- <- <-. apply surrogate_classes in Kh. congruence. }
  destruct B as (b & EB & BL & Hb).
  assert (EQ : (let* sp2 := (if (count <? 2)%nat then Ret false else is_surrogate_pair s) in
     let i := if sp2 then 2%nat else 1%nat in combining_run (skipn i s) (count - i) i) = combining_run (skipn b s) (count - b) b).
  { destruct (if (count <? 2)%nat then Ret false else is_surrogate_pair s) as [p| |]; cbn [obind] in *; try discriminate. injection EB as ->. reflexivity. }
  destruct (combining_run_spec (count - b) (skipn b s) b) as (k & E1 & E2 & E3 & E4). { rewrite skipn_length. lia. }
  exists (b + k)%nat, b. split; [etransitivity; [exact EQ|exact E1]|]. split; [lia|]. split; auto. split; [lia|].
  assert (NS : forall j, nth_error (skipn b s) j = nth_error s (b + j)).
  { intros j. clear. revert s. induction b as [|b IHb]; intros [|x s]; cbn; auto. destruct j; auto. }
  split.
  - intros j c Hj Hc. apply (E3 (j - b)%nat); [lia|]. rewrite NS. replace (b + (j - b))%nat with j by lia. auto.
  - destruct E4 as [E4|(c & E4 & E5)]; [left; lia|]. right. exists c. rewrite NS in E4. auto.
Qed.
Theorem glyphlen_utf32_spec : forall s count, (0 < count)%nat -> (count <= length s)%nat ->
  exists n, glyphlen32 s count = Ret n /\ (1 <= n <= count)%nat /\
    (forall j c, (1 <= j < n)%nat -> nth_error s j = Some c -> combining c) /\
    (n = count \/ exists c, nth_error s n = Some c /\ ~ combining c).
Proof.
  intros s count H Hl. unfold glyphlen32. destruct count as [|m]; [lia|]. set (count := S m) in *.
  destruct s as [|x s]; [cbn in Hl; lia|]. cbn [skipn].
  destruct (combining_run_spec (count - 1) s 1) as (k & E1 & E2 & E3 & E4). { cbn in Hl. lia. }
  exists (1 + k)%nat. split; auto. split; [lia|]. split.
  - intros [|j] c Hj Hc; [lia|]. apply (E3 j); [lia|auto].
  - destruct E4 as [E4|E4]; [left; lia|]. right. exact E4.
Qed.
(* the last glyph: the units from its base character on; the base is not a combining mark
   and is a whole surrogate pair when the units form one *)
Theorem glyphrlen_utf16_spec : forall s count, (0 < count)%nat -> (count <= length s)%nat ->
  exists n, glyphrlen16 s count = Ret n /\ (1 <= n <= count)%nat /\
    ((n = count /\ forall j c, (j < count)%nat -> nth_error s j = Some c -> combining c) \/
     exists i c, (i < count)%nat /\ nth_error s i = Some c /\ ~ combining c /\
       (forall j d, (i < j < count)%nat -> nth_error s j = Some d -> combining d) /\
       ((low c /\ (exists p, (0 < i)%nat /\ nth_error s (i - 1) = Some p /\ high p) /\ n = (count - (i - 1))%nat) \/
        (~ (low c /\ exists p, (0 < i)%nat /\ nth_error s (i - 1) = Some p /\ high p) /\ n = (count - i)%nat))).
Proof.
  intros s count H Hl.
  assert (G : forall i, (i <= count)%nat -> (forall j d, (i <= j < count)%nat -> nth_error s j = Some d -> combining d) ->
   exists n, glyphrlen16_loop s count i = Ret n /\ (1 <= n <= count)%nat /\
    ((n = count /\ forall j c, (j < count)%nat -> nth_error s j = Some c -> combining c) \/
     exists i c, (i < count)%nat /\ nth_error s i = Some c /\ ~ combining c /\
       (forall j d, (i < j < count)%nat -> nth_error s j = Some d -> combining d) /\
       ((low c /\ (exists p, (0 < i)%nat /\ nth_error s (i - 1) = Some p /\ high p) /\ n = (count - (i - 1))%nat) \/
        (~ (low c /\ exists p, (0 < i)%nat /\ nth_error s (i - 1) = Some p /\ high p) /\ n = (count - i)%nat)))).
  { induction i as [|k IH]; intros Hi HF; cbn [glyphrlen16_loop].
    - exists count. split; auto. split; [lia|]. left. split; auto. intros j c Hj Hc. apply (HF j c); auto. lia.
    - destruct (nth_error s k) as [c|] eqn:EC; [|apply nth_error_None in EC; lia]. rewrite (rd_nth s k c EC). cbn [obind].
      destruct (iscombining c) eqn:E; cbn [negb].
      + apply IH; [lia|]. intros j d Hj Hd. destruct (Nat.eq_dec j k) as [->|Hn]; [rewrite EC in Hd; injection Hd as <-; apply iscombining_spec; auto|]. apply (HF j d); auto. lia.
      + assert (NC : ~ combining c) by (rewrite <- iscombining_spec; congruence).
        assert (Plain : ~ (low c /\ exists p, (0 < k)%nat /\ nth_error s (k - 1) = Some p /\ high p) ->
           (1 <= count - k <= count)%nat /\ ((count - k)%nat = count /\ (forall j c, (j < count)%nat -> nth_error s j = Some c -> combining c) \/
     exists i c, (i < count)%nat /\ nth_error s i = Some c /\ ~ combining c /\
       (forall j d, (i < j < count)%nat -> nth_error s j = Some d -> combining d) /\
       ((low c /\ (exists p, (0 < i)%nat /\ nth_error s (i - 1) = Some p /\ high p) /\ (count - k)%nat = (count - (i - 1))%nat) \/
        (~ (low c /\ exists p, (0 < i)%nat /\ nth_error s (i - 1) = Some p /\ high p) /\ (count - k)%nat = (count - i)%nat)))).
        { intros NP. split; [lia|]. right. exists k, c. repeat split; auto; try lia; intros j d Hj Hd; apply (HF j d); auto; lia. }
        destruct (is_low_surrogate c) eqn:EL; cbn [negb orb].
        * destruct (k =? 0)%nat eqn:E0.
          -- exists (count - k)%nat. split; auto. apply Plain. intros (_ & p & K & _). lia.
          -- destruct (nth_error s (k - 1)) as [p|] eqn:EP; [|apply nth_error_None in EP; lia]. rewrite (rd_nth s (k - 1) p EP). cbn [obind].
             destruct (is_high_surrogate p) eqn:EH; cbn [negb].
             ++ exists (count - (k - 1))%nat. split; auto. split; [lia|]. right. exists k, c. split; [lia|]. split; auto. split; auto. split; [intros j d Hj Hd; apply (HF j d); auto; lia|].
                left. apply surrogate_classes in EL, EH. split; auto. split; auto. exists p. split; [lia|auto].
             ++ exists (count - k)%nat. split; auto. apply Plain. intros (_ & p' & _ & K & K2). assert (p' = p) by congruence. subst. apply surrogate_classes in K2. congruence.
        * exists (count - k)%nat. split; auto. apply Plain. intros (K & _). apply surrogate_classes in K. congruence. }
  apply (G count); [lia|]. intros; lia.
Qed.
(* UTF-32: the last glyph of "ab" is reported as two units long *)
Theorem glyphrlen_utf32_refuted : glyphrlen32 [97; 98] 2 = Ret 2%nat /\ ~ combining 98.
Proof. split; [vm_compute; reflexivity|]. unfold combining. lia. Qed.
(* it is right only when the whole buffer is a single glyph *)
Theorem glyphrlen_utf32_partial : forall s count, (0 < count)%nat -> (count <= length s)%nat ->
  (forall j d, (0 < j < count)%nat -> nth_error s j = Some d -> combining d) -> glyphrlen32 s count = Ret count.
Proof.
  intros s count H Hl HF. unfold glyphrlen32. assert (G : forall i, (i <= count)%nat -> glyphrlen32_loop s count i = Ret count); [|apply G; lia].
  induction i as [|k IH]; intros Hi; cbn [glyphrlen32_loop]; auto.
  destruct (nth_error s k) as [c|] eqn:EC; [|apply nth_error_None in EC; lia]. rewrite (rd_nth s k c EC). cbn [obind].
  destruct k as [|k].
  - cbn [Nat.eqb]. rewrite Nat.sub_0_r. destruct (negb (iscombining c)); auto.
  - assert (iscombining c = true) as -> by (apply iscombining_spec; apply (HF (S k) c); auto; lia). cbn [negb]. apply IH. lia.
Qed.
Example glyph_ex : glyphlen16 [55357; 56832; 769; 97] 4 = Ret 3%nat /\ glyphrlen16 [97; 55357; 56832; 769] 4 = Ret 3%nat.
Proof. vm_compute. auto. Qed.

Print Assumptions strcmp_spec.
Print Assumptions trim_spec.
Print Assumptions strtoint_partial.
Print Assumptions glyphrlen_utf16_spec.
Print Assumptions crlf2nl_string_spec.
