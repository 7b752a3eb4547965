(** The decoder and the checker segment any text as [segmented] says. *)
From Coq Require Import ZifyBool ZifyNat.
From Verif Require Import Base Bits StringModel StringSpec StringProofs StringSearch StringTrim StringProps SgmlTable SgmlSpec SgmlModel SgmlSearch SgmlDecode SgmlCodec SgmlRound.
Ltac Zify.zify_post_hook ::= Z.div_mod_to_equations.

Lemma ref_char_dec : forall c, ref_char c <-> (c =? 59) = false /\ (c =? 0) || (c =? 38) || isspace c = false.
Proof. intros c. unfold ref_char, isspace. cbn [In]. lia. Qed.

Lemma sgmlend_spec : forall n str, (n <= length str)%nat ->
  exists r, sgmlend str n = Ret r /\
    match r with
    | Some k => (k < n)%nat /\ Forall ref_char (firstn k str) /\ exists rest, str = firstn k str ++ 59 :: rest
    | None => forall name rest, (length name < n)%nat -> str = name ++ 59 :: rest -> ~ Forall ref_char name
    end.
Proof.
  induction n; intros str L; cbn [sgmlend].
  - exists None. split; auto. intros; lia.
  - destruct str as [|c str]; [cbn in L; lia|]. cbn [length] in L. destruct (c =? 59) eqn:E1.
    { exists (Some O). split; auto. split; [lia|]. split; [constructor|]. exists str. cbn. f_equal. lia. }
    destruct ((c =? 0) || (c =? 38) || isspace c) eqn:E2.
    { exists None. split; auto. intros name rest _ Hs HF. destruct name as [|x name]; [cbn in Hs; injection Hs; lia|]. cbn in Hs. injection Hs as -> _. inversion HF; subst.
      apply ref_char_dec in H1. destruct H1. congruence. }
    destruct (IHn str ltac:(lia)) as (r & Er & Hr). rewrite Er. cbn [obind]. destruct r as [k|].
    + exists (Some (S k)). split; auto. destruct Hr as (H1 & H2 & rest & H3). split; [lia|]. cbn [firstn]. split; [constructor; auto; apply ref_char_dec; auto|].
      exists rest. cbn [app]. f_equal. exact H3.
    + exists None. split; auto. intros name rest Hl Hs HF. destruct name as [|x name]; [cbn in Hs; injection Hs; lia|]. cbn in Hs. injection Hs as -> Hs. inversion HF; subst.
      apply (Hr name rest); auto. cbn in Hl. lia.
Qed.

Lemma ref_unique : forall n1 n2 r1 r2, Forall ref_char n1 -> Forall ref_char n2 -> n1 ++ 59 :: r1 = n2 ++ 59 :: r2 -> n1 = n2 /\ r1 = r2.
Proof.
  induction n1; intros n2 r1 r2 F1 F2 E; destruct n2 as [|b n2]; cbn in E.
  - injection E as E. auto.
  - injection E as <- _. inversion F2; subst. unfold ref_char in H1. tauto.
  - injection E as -> _. inversion F1; subst. unfold ref_char in H1. tauto.
  - injection E as -> E. inversion F1; inversion F2; subst. destruct (IHn1 n2 r1 r2) as [-> ->]; auto.
Qed.

Lemma radix_keep : forall radix t, radix = 10 \/ radix = 16 -> radix_of (read_numeral radix t) = radix.
Proof.
  intros radix t H. unfold read_numeral. destruct (match drop_while white t with [] => _ | _ => _ end) as [[ng sg] t2].
  destruct H; subst.
  - reflexivity.
  - ceq. destruct t2 as [|z [|x r]]; try reflexivity. destruct (_ && _); reflexivity.
Qed.
Lemma char_number_spec : forall s count radix, radix = 10 \/ radix = 16 -> (count <= length s)%nat ->
  exists k, strtouint 32 s count radix = Ret (char_number radix (zstr count s), k).
Proof.
  intros s count radix Hr Hl. unfold char_number.
  destruct (negative (read_numeral radix (zstr count s))) eqn:EN.
  - destruct (strtoint_core_spec (2 ^ 32 - 1) s count radix ltac:(lia) (readable_len _ _ Hl) ltac:(lia)) as (v' & E & R & V). cbn zeta in *.
    unfold strtouint. rewrite E. cbn [obind nv nend nneg novf]. rewrite EN. set (v := numeral_value _ _) in *. eexists. do 2 f_equal. change (2 ^ 32) with 4294967296 in *. clearbody v.
    destruct (v <=? 4294967296 - 1) eqn:E1; cbn [negb].
    + replace (v <? 4294967296) with true by lia. rewrite (V ltac:(lia)). reflexivity.
    + replace (v <? 4294967296) with false by lia. reflexivity.
  - rewrite strtouint_spec; auto; try lia. 2: apply readable_len; auto.
    eexists. do 2 f_equal. unfold clamp. set (v := numeral_value _ _).
    assert (0 <= v). { unfold v, numeral_value. apply (fold_grows _ _ 0); [|lia]. rewrite radix_keep by auto. lia. }
    lia.
Qed.

Lemma char_number_range : forall radix t, radix = 10 \/ radix = 16 -> 0 <= char_number radix t < 4294967296.
Proof.
  intros radix t Hr. destruct (char_number_spec t (length t) radix Hr (le_n _)) as (k & E).
  unfold char_number. change (2 ^ 32) with 4294967296. set (q := read_numeral radix t). set (v := numeral_value _ _).
  assert (0 <= v). { unfold v, numeral_value. apply (fold_grows _ _ 0); [|lia]. unfold q. rewrite radix_keep by auto. lia. }
  destruct (negative q); [destruct (v <? 4294967296)|]; lia.
Qed.

Lemma expansion_nil : expansion [] = None.
Proof. vm_compute. reflexivity. Qed.

Theorem sgml2uni_spec : forall entity count, (count <= length entity)%nat -> Forall (fun c => c <> 0) (firstn count entity) -> (0 < count)%nat \/ hd 0 entity = 59 ->
  sgml2uni entity count = Ret (reference (firstn count entity)).
Proof.
  intros entity count Hl HF H0. destruct count as [|count].
  { destruct H0 as [H0|H0]; [lia|]. destruct entity as [|x e]; [discriminate|]. cbn in H0. subst x. cbn [firstn reference]. rewrite expansion_nil. vm_compute. reflexivity. }
  destruct entity as [|h e]; [cbn in Hl; lia|]. destruct count as [|count].
  { rewrite sgml2uni_name; auto; try lia. rewrite zstr_firstn by auto. reflexivity. }
  destruct e as [|a e]; [cbn in Hl; lia|]. cbn [firstn reference]. destruct (h =? 35) eqn:E.
  - replace h with 35 in * by lia. unfold sgml2uni. replace (S (S count) <? 2)%nat with false by lia. unfold rd. cbn [nth_error obind]. ceq. cbn [negb obind nth_error].
    cbn [firstn] in HF. inversion HF as [|x l _ HF1]; subst. inversion HF1 as [|x l Ha HF2]; subst. cbn [length] in Hl.
    assert (ON : forall v, cz [i32 v; 0] = one_char (i32 v)) by (intros v; unfold cz, one_char; cbn [length zstr]; destruct (i32 v =? 0); reflexivity).
    destruct ((a =? 120) || (a =? 88)) eqn:EX; cbn [skipn].
    + replace (S (S count) - 2)%nat with count by lia. destruct (char_number_spec e count 16) as (k & EK); [lia|lia|]. rewrite EK. cbn [obind fst]. rewrite ON. rewrite zstr_firstn by auto. reflexivity.
    + replace (S (S count) - 1)%nat with (S count) by lia. destruct (char_number_spec (a :: e) (S count) 10) as (k & EK); [lia|cbn [length]; lia|]. rewrite EK. cbn [obind fst]. rewrite ON.
      rewrite zstr_firstn by auto. reflexivity.
  - rewrite sgml2uni_name; auto; try lia. 2: cbn [hd]; right; lia. rewrite zstr_firstn by auto. reflexivity.
Qed.

Lemma reference_cases : forall name u, reference name = Some u -> (exists n, In (n, u) sgml_unicode) \/ exists v, u = one_char (i32 v).
Proof.
  intros name u H. assert (X : forall n, expansion n = Some u -> exists n, In (n, u) sgml_unicode).
  { intros n Hx. unfold expansion in Hx. destruct (find _ sgml_unicode) as [[n' u']|] eqn:E; [|discriminate]. injection Hx as ->. apply find_some in E as [E _]. eauto. }
  unfold reference in H. destruct name as [|h [|a r]]; eauto. destruct (h =? 35); eauto. injection H as <-. eauto.
Qed.
Lemma text_of_spec : forall w name u, reference name = Some u -> utf32_to_wstr w u = Ret (text_of w u).
Proof.
  intros w name u H. destruct (reference_cases name u H) as [(n & Hi)|(v & ->)].
  - destruct (entry_in n u Hi) as [_ Hu]. rewrite wstr_table by auto. destruct w; auto. cbn [text_of]. apply uni_ok_spec in Hu as [_ Hu]. f_equal.
    clear Hi H. induction Hu; auto. cbn [flat_map]. unfold unit16_of at 1. replace (x <? 65536) with true by lia. rewrite Z.mod_small by lia. cbn. f_equal. auto.
  - destruct w; auto. cbn [utf32_to_wstr text_of]. unfold one_char. destruct (i32 v =? 0); auto. assert (R : -2147483648 <= i32 v < 2147483648) by (unfold i32; lia). set (c := i32 v) in *. clearbody c.
    cbn [to16 flat_map]. unfold unit16_of. destruct (c <? 65536) eqn:E; [cbn; reflexivity|]. unfold ucs4_to_surrogate_pair. cbn [length Nat.leb app].
    do 2 f_equal; [|f_equal].
    + rewrite Z.shiftr_div_pow2 by lia. change 1023 with (2 ^ 10 - 1). rewrite land_ones_mod by lia. change (2 ^ 10) with 1024. unfold u16. lia.
    + change 1023 with (2 ^ 10 - 1). rewrite land_ones_mod by lia. change (2 ^ 10) with 1024. unfold u16. lia.
Qed.

Lemma clear_in_false : forall f x, clear_in f x = false <-> Z.land f x <> 0.
Proof. intros. unfold clear_in. lia. Qed.
Lemma converts_spec : forall skip c, converts skip c = true <-> ~ flagged skip c.
Proof.
  intros skip c. split.
  - intros H (f & cs & Hi & Hf & Hc). unfold converts in H. repeat (apply andb_prop in H as [H ?]).
    unfold flag_chars in Hi. cbn [In] in Hi.
    unfold clear_in, sgml_quot, sgml_apos, sgml_amp, sgml_lt_gt, sgml_bsol, sgml_dollar, sgml_percnt, sgml_commat, sgml_num, sgml_lpar_rpar, sgml_lcub_rcub, sgml_lsqb_rsqb in *.
    repeat (destruct Hi as [Hi|Hi]; [injection Hi as <- <-; cbn [In] in Hc; match type of Hf with ?L <> 0 =>
      match goal with Q : (L =? 0) || _ = true |- _ => clear - Q Hf Hc; replace (L =? 0) with false in Q by lia; clear Hf; cbn [orb] in Q; lia
      | Q : (L =? 0) || _ = true |- _ => idtac end end|]). destruct Hi.
  - intros H. assert (G : forall f cs x, In (f, cs) flag_chars -> In x cs -> clear_in skip f || negb (c =? x) = true).
    { intros f cs x Hi Hx. destruct (clear_in skip f) eqn:E1; auto. destruct (c =? x) eqn:E2; auto. exfalso. apply H. exists f, cs. split; auto. split; [apply clear_in_false; auto|]. replace c with x by lia. auto. }
    unfold converts. rewrite !andb_true_iff. unfold flag_chars in G. cbn [In] in G.
    assert (G2 : forall f cs x y, In (f, cs) flag_chars -> In x cs -> In y cs -> clear_in skip f || (negb (c =? x) && negb (c =? y)) = true).
    { intros f cs x y Hi Hx Hy. pose proof (G f cs x Hi Hx). pose proof (G f cs y Hi Hy). destruct (clear_in skip f); auto. cbn [orb] in *. rewrite H0, H1. reflexivity. }
    unfold flag_chars in G2. cbn [In] in G2.
    unfold sgml_quot, sgml_apos, sgml_amp, sgml_lt_gt, sgml_bsol, sgml_dollar, sgml_percnt, sgml_commat, sgml_num, sgml_lpar_rpar, sgml_lcub_rcub, sgml_lsqb_rsqb.
    repeat split; first [eapply (G _ [_]) | eapply (G2 _ [_; _])]; try (cbn; tauto).
Qed.

(** one step of the decoder *)
Lemma entity_at_spec : forall w skip src n', (S n' <= length src)%nat -> hd 0 src = 38 -> Forall (fun c => c <> 0) (firstn (S n') src) ->
  (exists name t rest, entity_at w skip src n' = Ret (Some (t, length name)) /\ firstn (S n') src = 38 :: name ++ 59 :: rest /\ is_ref w skip name t) \/
  (entity_at w skip src n' = Ret None /\ forall name t rest, firstn (S n') src = 38 :: name ++ 59 :: rest -> ~ is_ref w skip name t).
Proof.
  intros w skip src n' Hl Hh HF. destruct src as [|a s]; [cbn in Hl; lia|]. cbn [hd] in Hh. subst a. cbn [length] in Hl. cbn [firstn] in *. inversion HF as [|x l _ HF']; subst.
  unfold entity_at. cbn [skipn]. destruct (sgmlend_spec n' s ltac:(lia)) as (r & Er & Hr). rewrite Er. cbn [obind]. destruct r as [k|].
  - destruct Hr as (Hk & Fk & rest & Es). assert (Lk : length (firstn k s) = k) by (apply firstn_length_le; lia).
    assert (HS : firstn n' s = firstn k s ++ 59 :: firstn (n' - k - 1) rest).
    { rewrite Es at 1. rewrite firstn_app, Lk. rewrite firstn_all2 by lia. f_equal. destruct (n' - k)%nat as [|p] eqn:EP; [lia|]. cbn [firstn]. do 2 f_equal. lia. }
    assert (NZ : Forall (fun c => c <> 0) (firstn k s)) by (eapply Forall_impl; [|exact Fk]; intros c (H & _); exact H).
    rewrite sgml2uni_spec; [|lia|exact NZ|].
    2: { destruct k; [right|left; lia]. cbn in Es. rewrite Es. reflexivity. }
    cbn [obind]. destruct (reference (firstn k s)) as [u|] eqn:EU.
    + rewrite (text_of_spec w _ _ EU). cbn [obind]. destruct (converts skip (hd 0 (text_of w u))) eqn:EC.
      * left. exists (firstn k s), (text_of w u), (firstn (n' - k - 1) rest). rewrite Lk. split; auto. split; [rewrite HS; reflexivity|]. split; auto. split; [rewrite EU; reflexivity|]. apply converts_spec. auto.
      * right. split; auto. intros name t rest' E (F & R & C). injection E as E. rewrite HS in E. destruct (ref_unique _ _ _ _ Fk F E) as [<- <-]. rewrite EU in R. injection R as <-.
        apply converts_spec in C. congruence.
    + right. split; auto. intros name t rest' E (F & R & C). injection E as E. rewrite HS in E. destruct (ref_unique _ _ _ _ Fk F E) as [<- <-]. rewrite EU in R. discriminate.
  - right. split; auto. intros name t rest E (F & R & C). injection E as E. apply (Hr name (rest ++ skipn n' s)); auto.
    + apply (f_equal (@length Z)) in E. rewrite app_length in E. cbn [length] in E. rewrite firstn_length_le in E by lia. lia.
    + rewrite <- (firstn_skipn n' s) at 1. rewrite E. rewrite <- app_assoc. reflexivity.
Qed.

Lemma firstn_ref : forall src n' name rest, (S n' <= length src)%nat -> firstn (S n') src = 38 :: name ++ 59 :: rest ->
  (length name + 2 <= S n')%nat /\ firstn (n' - length name - 1) (skipn (length name + 2) src) = rest /\ (n' - length name - 1 <= length (skipn (length name + 2) src))%nat.
Proof.
  intros src n' name rest Hl E. assert (L : (length name + 2 <= S n')%nat).
  { apply (f_equal (@length Z)) in E. cbn [length] in E. rewrite app_length in E. cbn [length] in E. rewrite firstn_length_le in E by lia. lia. }
  split; auto. split; [|rewrite skipn_length; lia].
  rewrite firstn_skipn_comm. replace (length name + 2 + (n' - length name - 1))%nat with (S n') by lia. rewrite E.
  replace (38 :: name ++ 59 :: rest) with ((38 :: name ++ [59]) ++ rest) by (cbn; rewrite <- app_assoc; reflexivity).
  replace (length name + 2)%nat with (length (38 :: name ++ [59])) by (cbn [length]; rewrite app_length; cbn; lia). rewrite skipn_app, skipn_all, Nat.sub_diag. reflexivity.
Qed.
Lemma forall_ref : forall P name rest, Forall P (38 :: name ++ 59 :: rest) -> Forall P rest.
Proof. intros P name rest F. inversion F; subst. apply Forall_app in H2 as [_ H2]. inversion H2; auto. Qed.

Lemma sgml2str_spec : forall f w skip src n i dst map, (n < f)%nat -> (n <= length src)%nat -> Forall (fun c => c <> 0) (firstn n src) ->
  exists segs, segmented w skip (firstn n src) segs /\
    sgml2str_loop f w skip src n i dst map = Ret (dst ++ flat_map (seg_dst (cast_unit w)) segs, map ++ boundaries i (length dst) segs).
Proof.
  induction f; intros w skip src n i dst map Hf Hl HF; [lia|]. cbn [sgml2str_loop]. destruct n as [|n'].
  { exists []. split; [constructor|]. cbn. rewrite !app_nil_r. reflexivity. }
  destruct src as [|c s]; [cbn in Hl; lia|]. unfold rd. cbn [nth_error obind].
  assert (RAW : (forall name t rest, firstn (S n') (c :: s) = 38 :: name ++ 59 :: rest -> ~ is_ref w skip name t) ->
    exists segs, segmented w skip (firstn (S n') (c :: s)) segs /\
     sgml2str_loop f w skip s n' (i + 1) (dst ++ [cast_unit w c]) map = Ret (dst ++ flat_map (seg_dst (cast_unit w)) segs, map ++ boundaries i (length dst) segs)).
  { intros HN. destruct (IHf w skip s n' (i + 1)%nat (dst ++ [cast_unit w c]) map) as (segs & Hs & ->); try lia. { cbn [length] in Hl; lia. } { cbn [firstn] in HF. inversion HF; auto. }
    exists (Raw c :: segs). split; [cbn [firstn] in *; constructor; auto|]. cbn [flat_map seg_dst boundaries]. rewrite <- app_assoc. rewrite app_length. cbn [length].
    replace (i + 1)%nat with (S i) by lia. replace (length dst + 1)%nat with (S (length dst)) by lia. reflexivity. }
  destruct (c =? 38) eqn:E.
  - destruct (entity_at_spec w skip (c :: s) n') as [(name & t & rest & Ea & Ef & Hr)|(Ea & HN)]; auto; [cbn [hd]; lia| |].
    + rewrite Ea. cbn [obind]. destruct (firstn_ref (c :: s) n' name rest Hl Ef) as (L1 & L2 & L3).
      destruct (IHf w skip (skipn (length name + 2) (c :: s)) (n' - length name - 1)%nat (i + length name + 2)%nat (dst ++ t)
        (map ++ [(i, length dst); (i + length name + 2, length (dst ++ t))%nat])) as (segs & Hs & Es); auto; try lia.
      { rewrite L2. rewrite Ef in HF. eapply forall_ref; eauto. }
      rewrite Es. rewrite L2 in Hs. exists (Ref name t :: segs). split; [rewrite Ef; constructor; auto|]. cbn [flat_map seg_dst boundaries]. rewrite <- !app_assoc. rewrite app_length. reflexivity.
    + rewrite Ea. cbn [obind skipn]. apply RAW. exact HN.
  - cbn [obind skipn]. apply RAW. intros name t rest Hx. cbn [firstn] in Hx. injection Hx as -> _. discriminate.
Qed.

Lemma flagged_0 : forall c, ~ flagged 0 c.
Proof. intros c (f & cs & _ & H & _). apply H. reflexivity. Qed.


(** ** The checker *)
Lemma zstr_skip : forall k n s, (k <= length (zstr n s))%nat -> zstr (n - k) (skipn k s) = skipn k (zstr n s) /\ (k <= n)%nat /\ (readable n s -> readable (n - k) (skipn k s)).
Proof.
  induction k; intros n s H; cbn [skipn]. { rewrite Nat.sub_0_r. auto with arith. }
  destruct n; [destruct s; cbn in H; lia|]. destruct s as [|c s]; [cbn in H; lia|]. cbn [zstr] in *. destruct (c =? 0) eqn:E; [cbn in H; lia|]. cbn [length] in H.
  destruct (IHk n s ltac:(lia)) as (H1 & H2 & H3). cbn [Nat.sub]. split; auto. split; [lia|]. intros R. apply H3. eapply readable_cons; eauto; lia.
Qed.
Lemma sgmlend_zstr : forall n s, readable n s -> sgmlend s n = sgmlend s (length (zstr n s)).
Proof.
  induction n; intros s R; [destruct s; reflexivity|]. destruct s as [|c s]; [apply readable_nil in R; lia|]. cbn [sgmlend zstr]. destruct (c =? 0) eqn:E.
  - replace (c =? 59) with false by lia. reflexivity.
  - cbn [length sgmlend]. rewrite E. rewrite IHn by (eapply readable_cons; eauto; lia). reflexivity.
Qed.
Lemma zstr_len_le : forall n s, (length (zstr n s) <= length s)%nat.
Proof. induction n; intros [|c s]; cbn; try lia. destruct (c =? 0); cbn; [lia|]. specialize (IHn s). lia. Qed.
Lemma sgmlerr_zstr : forall f src n i what, readable n src -> sgmlerr_loop f src n i what = sgmlerr_loop f src (length (zstr n src)) i what.
Proof.
  induction f; intros src n i what R; [reflexivity|]. destruct n as [|n]; [destruct src; reflexivity|]. destruct src as [|c s]; [apply readable_nil in R; lia|].
  cbn [zstr]. destruct (c =? 0) eqn:E. { cbn. rewrite E. reflexivity. }
  assert (R' : readable n s) by (eapply readable_cons; eauto; lia).
  cbn [length sgmlerr_loop]. unfold rd. cbn [nth_error obind skipn]. rewrite E. destruct (c =? 38).
  - rewrite (sgmlend_zstr n s R'). destruct (sgmlend_spec (length (zstr n s)) s) as (r & Er & Hr). { apply zstr_len_le. }
    rewrite Er. cbn [obind]. destruct r as [k|]; auto. destruct (sgml2uni s k) as [[u|]| |]; auto. cbn [obind]. replace (k + 2)%nat with (S (k + 1)) by lia. cbn [skipn].
    destruct Hr as (Hk & _). destruct (zstr_skip (k + 1) n s ltac:(lia)) as (Z1 & Z2 & Z3). replace (n - k - 1)%nat with (n - (k + 1))%nat by lia. rewrite IHf by auto.
    rewrite Z1, skipn_length. f_equal. lia.
  - destruct (clear_in what sgml_full && negb (is7bit c)); auto.
Qed.
Lemma zstr_as_firstn : forall n s, firstn (length (zstr n s)) s = zstr n s /\ Forall (fun c => c <> 0) (zstr n s).
Proof.
  induction n; intros s; [destruct s; cbn; auto|]. destruct s as [|c s]; cbn; auto. destruct (c =? 0) eqn:E; cbn; auto. destruct (IHn s) as [H1 H2]. rewrite H1. split; auto. constructor; auto. lia.
Qed.

Lemma sgmlerr_seg : forall f src n i what, (n < f)%nat -> (n <= length src)%nat -> Forall (fun c => c <> 0) (firstn n src) ->
  exists segs, segmented U32 0 (firstn n src) segs /\ sgmlerr_loop f src n i what = Ret (first_bad (negb (clear_in what sgml_full)) i segs).
Proof.
  induction f; intros src n i what Hf Hl HF; [lia|]. cbn [sgmlerr_loop]. destruct n as [|n'].
  { exists []. split; [constructor|reflexivity]. }
  destruct src as [|c s]; [cbn in Hl; lia|]. unfold rd. cbn [nth_error obind].
  assert (Hc : c <> 0) by (cbn [firstn] in HF; inversion HF; auto). replace (c =? 0) with false by lia.
  assert (TL : exists segs, segmented U32 0 (firstn n' s) segs /\ sgmlerr_loop f s n' (i + 1) what = Ret (first_bad (negb (clear_in what sgml_full)) (i + 1) segs)).
  { apply IHf; try lia. cbn [length] in Hl; lia. cbn [firstn] in HF. inversion HF; auto. }
  destruct TL as (segs & Hs & Es).
  destruct (c =? 38) eqn:E.
  - destruct (entity_at_spec U32 0 (c :: s) n') as [(name & t & rest & Ea & Ef & Hr)|(Ea & HN)]; auto; [cbn [hd]; lia| |]; unfold entity_at in Ea.
    + destruct (sgmlend (skipn 1 (c :: s)) n') as [[k|]| |]; try discriminate. cbn [obind] in Ea |- *. destruct (sgml2uni (skipn 1 (c :: s)) k) as [[u|]| |]; try discriminate. cbn [obind utf32_to_wstr] in Ea |- *.
      rewrite converts_0 in Ea. injection Ea as -> ->. destruct (firstn_ref (c :: s) n' name rest Hl Ef) as (L1 & L2 & L3).
      destruct (IHf (skipn (length name + 2) (c :: s)) (n' - length name - 1)%nat (i + length name + 2)%nat what) as (segs2 & Hs2 & Es2); auto; try lia.
      { rewrite L2. rewrite Ef in HF. eapply forall_ref; eauto. }
      rewrite Es2. rewrite L2 in Hs2. exists (Ref name t :: segs2). split; [rewrite Ef; constructor; auto|reflexivity].
    + assert (B : (let* e := sgmlend (skipn 1 (c :: s)) n' in match e with Some k => let* u := sgml2uni (skipn 1 (c :: s)) k in match u with Some _ => sgmlerr_loop f (skipn (k + 2) (c :: s)) (n' - k - 1) (i + k + 2) what | None => Ret (Some i) end | None => Ret (Some i) end) = Ret (Some i)).
      { destruct (sgmlend (skipn 1 (c :: s)) n') as [[k|]| |]; try discriminate; auto. cbn [obind] in Ea |- *. destruct (sgml2uni (skipn 1 (c :: s)) k) as [[u|]| |]; try discriminate; auto. }
      rewrite B. exists (Raw c :: segs). cbn [firstn] in *. split; [constructor; auto|]. cbn [first_bad]. rewrite E. reflexivity.
  - exists (Raw c :: segs). split. { cbn [firstn]. constructor; auto. intros name t rest Hx. injection Hx as -> _. discriminate. }
    cbn [first_bad]. rewrite E. cbn [orb skipn]. rewrite Es. rewrite negb_involutive. replace ((c <? 0) || (127 <? c)) with (negb (is7bit c)) by (unfold is7bit; lia).
    replace (i + 1)%nat with (S i) by lia. destruct (_ && _); reflexivity.
Qed.
