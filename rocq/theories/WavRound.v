(** WAV files: cues written and read back. *)
From Coq Require Import ZifyBool ZifyNat Permutation Sorted.
From Verif Require Import Base StreamModel StreamSpec StreamProps StringModel StringSpec ConvModel ConvProps MemFileModel FileConvModel FileConvSpec IdrecModel IdrecSpec IdrecProps WavModel WavSpec WavProps WavWrite WavRead WavCues.
Ltac Zify.zify_post_hook ::= Z.div_mod_to_equations.

(** ** A cue with a given id is the only one *)
Definition upd (id : Z) (g : cue_ex -> cue_ex) (l : list cue_ex) : list cue_ex := map (fun x => if key_of x =? id then g x else x) l.
Lemma upd_none : forall id g l, Forall (fun c => key_of c <> id) l -> upd id g l = l.
Proof. induction 1 as [|c l H F IH]; cbn [upd map]; auto. fold (upd id g l). rewrite IH. replace (key_of c =? id) with false by lia. reflexivity. Qed.
Lemma marked_upd : forall id g l l', NoDup (map key_of l) -> marked id g l l' -> l' = upd id g l.
Proof.
  intros id g l l' ND [(l1 & c & l2 & -> & K & ->)|[H ->]]; [|symmetry; apply upd_none; auto].
  rewrite map_app in ND. cbn [map] in ND. apply NoDup_remove_2 in ND. unfold upd. rewrite map_app. cbn [map]. fold (upd id g l1) (upd id g l2). rewrite K, Z.eqb_refl, !upd_none; auto.
  - apply Forall_forall. intros x Hx E. apply ND. apply in_or_app. right. rewrite K, <- E. apply in_map. auto.
  - apply Forall_forall. intros x Hx E. apply ND. apply in_or_app. left. rewrite K, <- E. apply in_map. auto.
Qed.
Lemma upd_keys : forall id g l, (forall c, key_of (g c) = key_of c) -> map key_of (upd id g l) = map key_of l.
Proof. intros id g l G. unfold upd. rewrite map_map. apply map_ext. intros c. destruct (_ =? _); auto. Qed.
Lemma upd_upd : forall id g h l, (forall c, key_of (g c) = key_of c) -> upd id h (upd id g l) = upd id (fun c => h (g c)) l.
Proof. intros id g h l G. unfold upd. rewrite map_map. apply map_ext. intros c. destruct (key_of c =? id) eqn:E; [rewrite G, E|rewrite E]; reflexivity. Qed.

(** ** The bytes determine what was written *)
Lemma le_same : forall w a b x y, fits w a -> fits w b -> le_bytes w a ++ x = le_bytes w b ++ y -> a = b /\ x = y.
Proof.
  intros w a b x y Fa Fb E. apply app_eq_app in E as (m & E). assert (m = []) as ->. { apply length_zero_iff_nil. destruct E as [[E _]|[E _]]; apply (f_equal (@length Z)) in E; rewrite app_length, !le_bytes_length in E; lia. }
  rewrite !app_nil_r in E. cbn [app] in E. destruct E as [[E <-]|[E <-]]; split; auto; apply (f_equal le_value) in E; rewrite !le_value_bytes in E by auto; auto.
Qed.
Lemma app_inj_len : forall (a b x y : list Z), length a = length b -> a ++ x = b ++ y -> a = b /\ x = y.
Proof. induction a as [|c a IH]; intros [|d b] x y L E; cbn [length app] in *; try discriminate; auto. injection E as -> E. apply IH in E as [-> ->]; auto. Qed.
Lemma head_same : forall id a id' a' x y, head_ok id a -> head_ok id' a' -> about_head id a ++ x = about_head id' a' ++ y ->
  id = id' /\ x = y /\ ab_duration a = ab_duration a' /\ ab_purpose a = ab_purpose a' /\ ab_country a = ab_country a' /\ ab_language a = ab_language a' /\ ab_dialect a = ab_dialect a' /\ ab_charset a = ab_charset a'.
Proof.
  intros id a id' a' x y (H1 & H2 & H3 & H4 & H5 & H6 & H7) (G1 & G2 & G3 & G4 & G5 & G6 & G7) E. unfold about_head in E. rewrite <- !app_assoc in E.
  apply le_same in E as [E1 E]; auto. apply le_same in E as [E2 E]; auto. apply le_same in E as [E3 E]; auto. apply le_same in E as [E4 E]; auto. apply le_same in E as [E5 E]; auto. apply le_same in E as [E6 E]; auto. apply le_same in E as [E7 E]; auto. repeat split; auto.
Qed.
(** well-formed records are told apart by their bytes *)
Lemma chunks_unique : forall l l', Forall (chunk_ok 4 4 2) l -> Forall (chunk_ok 4 4 2) l' -> chunks 4 4 l = chunks 4 4 l' -> l = l'.
Proof.
  unfold chunks. induction l as [|c l IH]; intros [|c' l'] K K' E; cbn [flat_map] in E; auto.
  - apply (f_equal (@length Z)) in E. rewrite app_length, clen in E. cbn [length] in E. lia.
  - apply (f_equal (@length Z)) in E. rewrite app_length, clen in E. cbn [length] in E. lia.
  - inversion K as [|? ? K1 K2]; subst. inversion K' as [|? ? G1 G2]; subst. destruct K1 as (A1 & A2 & A3 & A4), G1 as (B1 & B2 & B3 & B4). unfold chunk_bytes in E. rewrite <- !app_assoc in E.
    apply le_same in E as [E1 E]; auto. apply le_same in E as [E2 E]; [|unfold fits; lia|unfold fits; lia]. assert (L1 : length (c_data c) = length (c_data c')) by lia. rewrite (app_assoc (c_data c)), (app_assoc (c_data c')) in E.
    assert (L2 : length (c_pad c) = length (c_pad c')) by lia. apply app_inj_len in E as [E3 E4]; [|rewrite !app_length; lia]. apply app_inj_len in E3 as [E5 E6]; auto. destruct c, c'. cbn in *. subst. f_equal. apply IH; auto.
Qed.
(** what the records of the cue [c] do to a cue with the same id *)
Definition fill (c x : cue_ex) : cue_ex :=
  CueEx (cx_cue x) (cx_about c) (match cx_title c with [] => cx_title x | t => t end) (match cx_note c with [] => cx_note x | t => t end).
Ltac not_this := match goal with H : c_id _ = _ |- _ => vm_compute in H; discriminate | H : c_id _ <> _ |- _ => exfalso; apply H; reflexivity end.
Lemma noted_ltxt : forall id a r m n, head_ok id a -> text_fine (ab_description a) -> noted (rec_of id_ltxt (ltxt_bytes id a) :: r) m n -> exists m', marked id (set_about a) m m' /\ noted r m' n.
Proof.
  intros id a r m n H T N. inversion N; subst; try not_this. cbn [c_data rec_of] in *. unfold ltxt_bytes in *.
  match goal with E : _ ++ _ = about_head _ _ ++ _, G : head_ok ?i ?x |- _ => lazymatch x with a => fail | _ => destruct (head_same _ _ _ _ _ _ H G E) as (Q1 & Q2 & E1 & E2 & E3 & E4 & E5 & E6); assert (x = a) as Ex end end.
  { match goal with X : _ = cstr _ |- ?y = _ => rewrite <- Q2, cstr_text in X by auto; destruct a, y; cbn in *; congruence end. }
  rewrite Ex in *. rewrite <- Q1 in *. eauto.
Qed.
Lemma noted_label : forall id t r m n, fits 4 id -> text_fine t -> noted (rec_of id_labl (label_bytes id t) :: r) m n -> exists m', marked id (set_title t) m m' /\ noted r m' n.
Proof.
  intros id t r m n H T N. inversion N; subst; try not_this. cbn [c_data rec_of] in *. unfold label_bytes in *. match goal with E : _ ++ _ = le_bytes 4 _ ++ _ |- _ => apply le_same in E; auto; destruct E as (<- & <-) end. rewrite cstr_text in * by auto. eauto.
Qed.
Lemma noted_note : forall id t r m n, fits 4 id -> text_fine t -> noted (rec_of id_note (label_bytes id t) :: r) m n -> exists m', marked id (set_note t) m m' /\ noted r m' n.
Proof.
  intros id t r m n H T N. inversion N; subst; try not_this. cbn [c_data rec_of] in *. unfold label_bytes in *. match goal with E : _ ++ _ = le_bytes 4 _ ++ _ |- _ => apply le_same in E; auto; destruct E as (<- & <-) end. rewrite cstr_text in * by auto. eauto.
Qed.
Lemma noted_one : forall c r m n, cue_ex_ok c -> NoDup (map key_of m) -> noted (texts_of c ++ r) m n -> noted r (upd (key_of c) (fill c) m) n.
Proof.
  intros c r m n (_ & H & T1 & T2 & T3) ND N. unfold texts_of in N. cbn [app] in N. apply noted_ltxt in N as (m1 & M1 & N); auto. apply marked_upd in M1; auto. subst m1. rewrite <- app_assoc in N.
  assert (Fk : fits 4 (key_of c)) by apply H. set (id := key_of c) in *. clearbody id.
  assert (exists g, noted (match cx_note c with [] => [] | t => [rec_of id_note (label_bytes id t)] end ++ r) (upd id g m) n /\ forall x, key_of (g x) = key_of x /\ g x = CueEx (cx_cue x) (cx_about c) (match cx_title c with [] => cx_title x | t => t end) (cx_note x)) as (g & N2 & G).
  { destruct (cx_title c) as [|t0 t] eqn:Et; [exists (set_about (cx_about c)); auto|]. rewrite <- Et in *. cbn [app] in N. apply noted_label in N as (m1 & M1 & N); auto. apply marked_upd in M1; [|rewrite upd_keys; auto]. subst m1. rewrite upd_upd in N by reflexivity. eexists. split; [exact N|]. intros x. split; reflexivity. }
  destruct (cx_note c) as [|t0 t] eqn:En.
  - cbn [app] in N2. replace (upd id (fill c) m) with (upd id g m); auto. unfold upd. apply map_ext. intros x. destruct (_ =? _); auto. destruct (G x) as [_ ->]. unfold fill. rewrite En. reflexivity.
  - rewrite <- En in *. cbn [app] in N2. apply noted_note in N2 as (m1 & M1 & N2); auto. apply marked_upd in M1; [|rewrite upd_keys; auto; apply G]. subst m1. rewrite upd_upd in N2 by apply G.
    replace (upd id (fill c) m) with (upd id (fun x => set_note (cx_note c) (g x)) m); auto. unfold upd. apply map_ext. intros x. destruct (_ =? _); auto. destruct (G x) as [_ ->]. unfold fill, set_note. cbn. rewrite En. reflexivity.
Qed.
Definition fill_all (l : list cue_ex) (x : cue_ex) : cue_ex := fold_left (fun x c => if key_of x =? key_of c then fill c x else x) l x.
Lemma noted_all : forall l m n, Forall cue_ex_ok l -> NoDup (map key_of m) -> noted (flat_map texts_of l) m n -> n = map (fill_all l) m.
Proof.
  induction l as [|c l IH]; intros m n K ND N; cbn [flat_map] in N.
  - inversion N; subst. symmetry. apply map_id.
  - inversion K; subst. apply noted_one in N; auto. apply IH in N; auto; [|rewrite upd_keys; auto]. subst n. unfold upd. rewrite map_map. apply map_ext. intros x. cbn [fill_all fold_left]. destruct (_ =? _); reflexivity.
Qed.
Definition bare (c : cue) : cue_ex := CueEx c about0 [] [].
Lemma attach_bare : forall cs, attach cs [] = map bare cs.
Proof. induction cs; cbn [attach map]; auto. cbn [hd tl]. rewrite IHcs. reflexivity. Qed.
Lemma fill_other : forall l x, ~ In (key_of x) (map key_of l) -> fill_all l x = x.
Proof. induction l as [|c l IH]; intros x H; auto. cbn [fill_all fold_left map In] in *. replace (key_of x =? key_of c) with false by (symmetry; apply Z.eqb_neq; intros E; apply H; auto). apply IH. tauto. Qed.
Lemma fill_self : forall l c, In c l -> NoDup (map key_of l) -> fill_all l (bare (cx_cue c)) = c.
Proof.
  intros l c I ND. apply in_split in I as (l1 & l2 & ->). rewrite map_app in ND. cbn [map] in ND. apply NoDup_remove_2 in ND. unfold fill_all. rewrite fold_left_app. cbn [fold_left]. fold (fill_all l1 (bare (cx_cue c))).
  rewrite (fill_other l1) by (intros X; apply ND; apply in_or_app; left; exact X). change (key_of (bare (cx_cue c))) with (key_of c). rewrite Z.eqb_refl. replace (fill c (bare (cx_cue c))) with c by (destruct c as [cu ab [|t0 t] [|n0 n]]; reflexivity).
  fold (fill_all l2 c). apply fill_other. intros X. apply ND. apply in_or_app. auto.
Qed.
(** ** The records of cues are well-formed *)
Lemma texts_ok : forall c, cue_ex_ok c -> Forall (fun r => Z.of_nat (length (c_data r) + length (c_pad r)) < 2 ^ 32) (texts_of c) -> Forall text_rec_ok (texts_of c).
Proof.
  intros c (_ & H & T1 & T2 & T3) L. assert (Fk : fits 4 (key_of c)) by apply H. unfold texts_of in *. inversion L as [|? ? L1 L2]; subst. apply Forall_app in L2 as [L2 L3]. cbn [c_data c_pad rec_of] in L1. rewrite repeat_length in L1. constructor; [|apply Forall_app; split].
  - split; [apply rec_of_ok; auto; unfold fits, id_ltxt; cbn; lia|]. cbn [c_id c_data rec_of]. split; [intros _|intros [X|X]; vm_compute in X; discriminate]. exists (key_of c), (cx_about c), (text_bytes (ab_description (cx_about c))). auto.
  - destruct (cx_title c) as [|t0 t]; [constructor|]. inversion L2 as [|? ? L4 _]; subst. cbn [c_data c_pad rec_of] in L4. rewrite repeat_length in L4. constructor; [|constructor]. split; [apply rec_of_ok; auto; unfold fits, id_labl; cbn; lia|]. cbn [c_id c_data rec_of]. split; [intros X; vm_compute in X; discriminate|]. intros _. exists (key_of c), (text_bytes (t0 :: t)). auto.
  - destruct (cx_note c) as [|t0 t]; [constructor|]. inversion L3 as [|? ? L4 _]; subst. cbn [c_data c_pad rec_of] in L4. rewrite repeat_length in L4. constructor; [|constructor]. split; [apply rec_of_ok; auto; unfold fits, id_note; cbn; lia|]. cbn [c_id c_data rec_of]. split; [intros X; vm_compute in X; discriminate|]. intros _. exists (key_of c), (text_bytes (t0 :: t)). auto.
Qed.
Lemma chunks_bound : forall r l, In r l -> (8 + length (c_data r) + length (c_pad r) <= length (chunks 4 4 l))%nat.
Proof. intros r l I. apply in_split in I as (l1 & l2 & ->). rewrite mid_len, clen. lia. Qed.
Lemma all_texts_ok : forall l, Forall cue_ex_ok l -> Z.of_nat (length (list_data id_adtl (flat_map texts_of l))) < 2 ^ 32 -> Forall text_rec_ok (flat_map texts_of l) /\ Forall texts_short l.
Proof.
  intros l K L. unfold list_data in L. rewrite app_length in L.
  assert (B : forall c, In c l -> Forall (fun r => Z.of_nat (length (c_data r) + length (c_pad r)) < 2 ^ 32) (texts_of c)).
  { intros c I. apply Forall_forall. intros r Ir. pose proof (chunks_bound r (flat_map texts_of l) ltac:(apply in_flat_map; eauto)). lia. }
  rewrite Forall_forall in K. split.
  - apply Forall_flat_map. apply Forall_forall. intros c I. apply texts_ok; auto.
  - apply Forall_forall. intros c I. unfold texts_short. eapply Forall_impl; [|apply B; auto]. cbn beta. lia.
Qed.
Lemma records_ok : forall l, Forall cue_ex_ok l -> 24 * Z.of_nat (length l) + 4 < 2 ^ 32 -> Z.of_nat (length (list_data id_adtl (flat_map texts_of l))) < 2 ^ 32 -> Forall wav_rec_ok (cue_records l).
Proof.
  intros l K L1 L2. destruct (all_texts_ok l K L2) as [T _]. assert (TO : Forall (chunk_ok 4 4 2) (flat_map texts_of l)) by (revert T; apply Forall_impl; intros x X; apply X). pose proof (chunks_even _ TO) as EV. constructor; [|constructor; [|constructor]].
  - assert (LC : length (cues_bytes (map cx_cue l)) = (4 + 24 * length l)%nat) by (unfold cues_bytes; rewrite app_length, le_bytes_length, cues_len, map_length; lia).
    split; [apply rec_of_ok; [unfold fits, id_cue; cbn; lia|rewrite LC; lia]|]. cbn [c_id c_data rec_of]. split; [|intros X; vm_compute in X; discriminate]. intros _. exists (map cx_cue l). split; auto. apply Forall_map. eapply Forall_impl; [|exact K]. intros c Kc. apply Kc.
  - assert (LC : length (list_data id_adtl (flat_map texts_of l)) = (4 + length (chunks 4 4 (flat_map texts_of l)))%nat) by (unfold list_data; rewrite app_length, le_bytes_length; lia).
    split; [apply rec_of_ok; [unfold fits, id_list; cbn; lia|]|]. { replace (length (list_data id_adtl (flat_map texts_of l)) mod 2)%nat with 0%nat by lia. lia. } cbn [c_id c_data rec_of]. split; [intros X; vm_compute in X; discriminate|]. intros _. right. exists (flat_map texts_of l). auto.
Qed.
(** ** The order is determined by the ids *)
Lemma order_unique : forall l l', Permutation l l' -> in_order l -> in_order l' -> NoDup (map key_of l) -> l = l'.
Proof.
  induction l as [|a l IH]; intros l' P I1 I2 ND. { symmetry. apply Permutation_nil. auto. }
  destruct l' as [|b l']. { symmetry in P. apply Permutation_nil in P. discriminate. }
  inversion I1 as [|? ? I3 F3]; subst. inversion I2 as [|? ? I4 F4]; subst. cbn [map] in ND. inversion ND as [|? ? ND1 ND2]; subst. rewrite Forall_forall in F3, F4.
  assert (a = b) as <-. { assert (Hb : In b (a :: l)) by (eapply Permutation_in; [symmetry; exact P|left; auto]). assert (Ha : In a (b :: l')) by (eapply Permutation_in; [exact P|left; auto]). destruct Hb as [|Hb]; auto. destruct Ha as [|Ha]; auto. apply F3 in Hb as Hb'. apply F4 in Ha. unfold by_id in *. exfalso. apply ND1. replace (key_of a) with (key_of b) by lia. apply in_map. auto. }
  f_equal. apply IH; auto. eapply Permutation_cons_inv. exact P.
Qed.

Section Files.
Context {S : Type} (F : fdev S) (fset : S -> sstate -> S) (content : S -> list Z) (HF : settable_file F fset content).
Context (sort : list cue_ex -> list cue_ex) (bsearch : Z -> list cue_ex -> option nat) (SORT : sorts sort) (SEARCH : searches bsearch).
(** Cues written at an even position and read back: the same cues, ordered by id. *)
Theorem cues_round_trip : forall l s pre post, f_state F s = StOk -> content s = pre ++ post -> f_tell F s = length pre -> (length pre mod 2 = 0)%nat -> Forall cue_ex_ok l -> NoDup (map key_of l) ->
  24 * Z.of_nat (length l) + 4 < 2 ^ 32 -> Z.of_nat (length (list_data id_adtl (flat_map texts_of l))) < 2 ^ 32 ->
  exists s1, write_cues F fset s l = Ret s1 /\ f_state F s1 = StOk /\ content s1 = pre ++ chunks 4 4 (cue_records l) ++ skipn (length (chunks 4 4 (cue_records l))) post /\ f_tell F s1 = (length pre + length (chunks 4 4 (cue_records l)))%nat /\
  forall fuel, (length (content s1) + 3 < fuel)%nat -> exists s2 new, read_cues F fset sort bsearch fuel (f_seek F s1 (length pre)) [] (Some (f_tell F s1)) = Ret (s2, Some new) /\ Permutation l new /\ in_order new /\ content s2 = content s1.
Proof.
  intros l s pre post O C T EV K ND L1 L2. destruct (all_texts_ok l K L2) as [TX TS]. destruct (cues_ex_written F fset content HF l TS L1 L2 s pre post) as (s1 & E1 & O1 & C1 & T1). { split; auto. }
  exists s1. rewrite app_length in T1. rewrite <- app_assoc in C1. split; auto. split; auto. split; auto. split; auto. intros fuel Hf.
  destruct (pf_seek F content (sf_plain _ _ _ HF) s1 (length pre)) as (C2 & T2 & O2).
  destruct (read_cues_spec F fset content HF sort bsearch SORT SEARCH (cue_records l) (f_seek F s1 (length pre)) pre (skipn (length (chunks 4 4 (cue_records l))) post) [] fuel) as (s2 & mid & new & E3 & C3 & O3 & T3 & LD & LS & IN); auto; try congruence.
  { apply records_ok; auto. } { constructor. }
  rewrite T1. exists s2, new. split; auto. split; [|split; [auto|congruence]].
  unfold cue_records in LD, LS. inversion LD as [|? ? ? ? N ? |? ? cs ? m2 ? _ D KC P IM R]; subst; [exfalso; apply N; reflexivity|]. inversion R as [|? ? ? ? _ R2|? ? ? ? ? ? X]; subst; [|vm_compute in X; discriminate]. inversion R2; subst.
  inversion LS as [|? ? ? ? _ R3|? ? ? ? ? ? X|? ? ? ? ? ? X]; subst; [|vm_compute in X; discriminate|vm_compute in X; discriminate]. inversion R3 as [|? ? ? ? N|? ? ? ? sub b _ Db Fs Ns R4|? ? ? m3 ? sub _ Ds KS NT R4]; subst; [exfalso; apply N; reflexivity| |].
  - cbn [c_data rec_of] in Db. unfold list_data in Db. apply le_same in Db as [X _]; auto; [congruence|unfold fits, id_adtl; cbn; lia].
  - inversion R4; subst. cbn [c_data rec_of] in D, Ds.
    assert (cs = map cx_cue l) as ->.
    { unfold cues_bytes in D. assert (LL : length cs = length (map cx_cue l)). { apply (f_equal (@length Z)) in D. rewrite !app_length, !le_bytes_length, !cues_len in D. lia. } rewrite LL in D. apply app_inv_head in D. rewrite <- (mem_cues_bytes cs KC), <- (mem_cues_bytes (map cx_cue l)), LL, D; auto. apply Forall_map. eapply Forall_impl; [|exact K]. intros c Kc. apply Kc. }
    rewrite attach_bare, map_map in P.
    assert (flat_map texts_of l = sub) as <-. { apply chunks_unique; [revert TX; apply Forall_impl; intros x X; apply X|auto|]. unfold list_data in Ds. apply app_inv_head in Ds. exact Ds. }
    assert (NDm : NoDup (map key_of mid)). { eapply Permutation_NoDup; [apply Permutation_map; exact P|]. rewrite map_map. exact ND. }
    apply noted_all in NT; auto. subst new. eapply Permutation_trans; [|apply Permutation_map; exact P]. rewrite map_map.
    replace (map (fun x => fill_all l (bare (cx_cue x))) l) with l; auto. rewrite <- (map_id l) at 1. apply map_ext_in. intros c Ic. symmetry. apply fill_self; auto.
Qed.
End Files.
