(** Properties C41-C43 and C70-C73 (SGML). *)
From Coq Require Import ZifyBool ZifyNat.
From Verif Require Import Base Bits StringModel StringSpec StringProofs StringSearch StringTrim StringProps SgmlTable SgmlSpec SgmlModel SgmlSearch SgmlDecode SgmlCodec SgmlRound SgmlText.
Ltac Zify.zify_post_hook ::= Z.div_mod_to_equations.

(** ** C41: lookup *)
(** A name is found with its first listed expansion, anything else is not found. *)
Theorem sgml_lookup : forall name rest, name <> [] -> Forall (fun c => c <> 0) name -> hd 0 name <> 35 ->
  sgml2uni (name ++ rest) (length name) = Ret (expansion name).
Proof.
  intros name rest H0 HF H. assert (F : firstn (length name) (name ++ rest) = name) by (rewrite firstn_app, Nat.sub_diag, firstn_all; cbn [firstn]; apply app_nil_r).
  rewrite sgml2uni_name.
  - rewrite zstr_firstn; rewrite F; auto.
  - destruct name; [congruence|cbn; lia].
  - rewrite app_length. lia.
  - right. destruct name; [congruence|]. exact H.
Qed.
(** what "first listed" means *)
Theorem expansion_first : forall name u, expansion name = Some u <->
  exists before after, sgml_unicode = before ++ (name, u) :: after /\ ~ In name (map fst before).
Proof.
  intros name u. unfold expansion. generalize sgml_unicode. induction l as [|[n v] l IH]; cbn [find fst].
  - cbn. split; [discriminate|]. intros ([|] & b & E & _); discriminate.
  - destruct (list_eq_dec Z.eq_dec n name) as [->|N]; cbn [option_map snd].
    + split.
      * intros E. injection E as ->. exists [], l. auto.
      * intros ([|[n' v'] a] & b & E & NI); cbn in E; injection E; [intros _ ->; auto|]. intros _ -> ->. exfalso. apply NI. left. reflexivity.
    + rewrite IH. split; intros (a & b & E & NI).
      * exists ((n, v) :: a), b. rewrite E. split; auto. cbn. intros [|]; auto.
      * destruct a as [|[n' v'] a]; cbn in E; injection E; [congruence|]. intros E2 -> ->. exists a, b. split; auto. intros Q. apply NI. right. exact Q.
Qed.
Theorem expansion_unknown : forall name, expansion name = None <-> ~ In name (map fst sgml_unicode).
Proof.
  intros name. unfold expansion. generalize sgml_unicode. induction l as [|[n v] l IH]; cbn [find fst map In].
  - cbn. tauto.
  - destruct (list_eq_dec Z.eq_dec n name) as [->|N]; cbn [option_map]; [|rewrite IH; tauto]. split; [discriminate|tauto].
Qed.
(* "amp", "hellip", and an unknown one *)
Example sgml_lookup_ex : sgml2uni [104; 101; 108; 108; 105; 112] 6 = Ret (Some [8230]) /\ sgml2uni [97; 109; 113] 3 = Ret None.
Proof. vm_compute. auto. Qed.
Example sgml_lookup_ex2 : sgml2uni [97; 109; 112; 59] 3 = Ret (Some [38]) /\ sgml2uni [35; 120; 52; 49; 59] 4 = Ret (Some [65]) /\ sgml2uni [35; 54; 54; 59] 3 = Ret (Some [66]).
Proof. vm_compute. auto. Qed.

(** ** C73: decoding replaces exactly the references *)
Theorem sgml2strcat_spec : forall w dst src count skip, readable count src ->
  exists segs, segmented w skip (zstr count src) segs /\
    sgml2strcat w dst src count skip = Ret (dst ++ flat_map (seg_dst (cast_unit w)) segs, boundaries 0 (length dst) segs).
Proof.
  intros w dst src count skip R. unfold sgml2strcat. rewrite strnlen_zstr by auto. cbn [obind]. destruct (zstr_as_firstn count src) as [E F].
  destruct (sgml2str_spec (S (length (zstr count src))) w skip src (length (zstr count src)) 0 dst []) as (segs & Hs & ->); auto; try lia.
  - apply zstr_len_le.
  - rewrite E. auto.
  - rewrite E in Hs. exists segs. auto.
Qed.
(** The segmentation is unique and covers the source. *)
Theorem segmented_src : forall w skip s segs, segmented w skip s segs -> flat_map seg_src segs = s.
Proof. induction 1; cbn; auto; [|congruence]. rewrite IHsegmented, <- app_assoc. reflexivity. Qed.
Theorem segmented_unique : forall w skip s a, segmented w skip s a -> forall b, segmented w skip s b -> a = b.
Proof.
  induction 1 as [|name text rest segs Hr Hs IH|c rest segs Hn Hs IH]; intros b Hb.
  - inversion Hb; auto.
  - remember (38 :: name ++ 59 :: rest) as s eqn:Es. destruct Hb as [|name2 text2 rest2 segs2 Hr2 Hs2|c2 rest2 segs2 Hn2 Hs2]; [discriminate| |].
    + injection Es as Es. destruct Hr as (F1 & R1 & C1), Hr2 as (F2 & R2 & C2). destruct (ref_unique _ _ _ _ F2 F1 Es) as [-> ->]. rewrite (IH _ Hs2). f_equal. f_equal. congruence.
    + exfalso. apply (Hn2 name text rest); auto.
  - remember (c :: rest) as s eqn:Es. destruct Hb as [|name2 text2 rest2 segs2 Hr2 Hs2|c2 rest2 segs2 Hn2 Hs2]; [discriminate| |].
    + exfalso. apply (Hn name2 text2 rest2); auto.
    + injection Es as -> ->. rewrite (IH _ Hs2). reflexivity.
Qed.
(* "a &amp; &b;" with and without the ampersand protected *)
Example sgml2strcat_ex :
  sgml2strcat U32 [] [97; 32; 38; 97; 109; 112; 59; 32; 38; 98; 59; 0] 99 0 = Ret ([97; 32; 38; 32; 38; 98; 59], [(2, 2); (7, 3)]%nat) /\
  sgml2strcat U32 [] [97; 32; 38; 97; 109; 112; 59; 32; 38; 98; 59; 0] 99 4 = Ret ([97; 32; 38; 97; 109; 112; 59; 32; 38; 98; 59], []) /\
  sgml2strcat U16 [] [38; 35; 120; 49; 102; 54; 48; 48; 59] 9 0 = Ret ([55357; 56832], [(0, 0); (9, 2)]%nat).
Proof. vm_compute. auto. Qed.

(** ** C72: the recorded mapping ties source and destination positions.  Every recorded pair (i, j)
    splits source and destination at corresponding places: decoding the first i units gives the first
    j units, and decoding the rest gives the rest. *)
Lemma segmented_split : forall w skip s segs, segmented w skip s segs -> forall a b, segs = a ++ b ->
  (match b with Ref _ _ :: _ => True | _ => match rev a with Ref _ _ :: _ => True | _ => False end end) ->
  segmented w skip (flat_map seg_src a) a /\ segmented w skip (flat_map seg_src b) b.
Proof.
  induction 1 as [|name text rest segs Hr Hs IH|c rest segs Hn Hs IH]; intros a b E HB.
  - destruct a; [|discriminate]. destruct b; [|discriminate]. cbn in HB. destruct HB.
  - destruct a as [|x a].
    + cbn in E. subst b. split; [constructor|]. cbn [flat_map seg_src]. rewrite (segmented_src _ _ _ _ Hs). cbn. rewrite <- app_assoc. constructor; auto.
    + cbn in E. injection E as <- E. destruct a as [|y a].
      * cbn in E. subst b. split; [|rewrite (segmented_src _ _ _ _ Hs); auto]. cbn [flat_map seg_src]. rewrite app_nil_r. constructor; auto. constructor.
      * destruct (IH (y :: a) b E) as [H1 H2]. { destruct b as [|[|] b]; auto; cbn [rev] in HB |- *; destruct (rev a ++ [y]) eqn:Q; try (destruct (rev a); discriminate); exact HB. }
        split; auto. cbn [flat_map seg_src] in *. cbn [app]. rewrite <- app_assoc. constructor; auto.
  - destruct a as [|x a].
    + cbn in E. subst b. split; [constructor|]. cbn in HB. destruct HB.
    + cbn in E. injection E as <- E. destruct a as [|y a].
      * cbn in E. subst b. cbn [rev app] in HB. destruct segs as [|[|] segs]; try destruct HB. split; [|rewrite (segmented_src _ _ _ _ Hs); auto].
        cbn. constructor; [|constructor]. intros nm tx r' Q _. injection Q as _ Q. destruct nm; discriminate.
      * destruct (IH (y :: a) b E) as [H1 H2]. { destruct b as [|[|] b]; auto; cbn [rev] in HB |- *; destruct (rev a ++ [y]) eqn:Q; try (destruct (rev a); discriminate); exact HB. }
        split; auto. cbn [flat_map seg_src app]. constructor; auto. intros nm tx r' Q. apply (Hn nm tx (r' ++ flat_map seg_src b)).
        rewrite <- (segmented_src _ _ _ _ Hs), E. rewrite flat_map_app. injection Q as -> Q. cbn [flat_map]. cbn [flat_map] in Q. rewrite Q. rewrite <- app_assoc. reflexivity.
Qed.
Lemma boundaries_in : forall segs i j p, In p (boundaries i j segs) -> forall cast, exists a b, segs = a ++ b /\
  p = (i + length (flat_map seg_src a), j + length (flat_map (seg_dst cast) a))%nat /\
  (match b with Ref _ _ :: _ => True | _ => match rev a with Ref _ _ :: _ => True | _ => False end end).
Proof.
  induction segs as [|[c|name t] segs IH]; intros i j p H cast; cbn [boundaries] in H.
  - destruct H.
  - destruct (IH _ _ _ H cast) as (a & b & E & Ep & HB). exists (Raw c :: a), b. split; [cbn; congruence|]. split.
    + rewrite Ep. cbn. f_equal; lia.
    + destruct b as [|[|] b]; auto; cbn [rev]; destruct (rev a); try destruct HB; exact HB.
  - destruct H as [<-|[<-|H]].
    + exists [], (Ref name t :: segs). cbn. repeat split; f_equal; lia.
    + exists [Ref name t], segs. split; auto. split; [|destruct segs as [|[|]]; exact I]. cbn. rewrite !app_nil_r, app_length. cbn. f_equal; lia.
    + destruct (IH _ _ _ H cast) as (a & b & E & Ep & HB). exists (Ref name t :: a), b. split; [cbn; congruence|]. split.
      * rewrite Ep. cbn [flat_map seg_src seg_dst]. rewrite !app_length. cbn [length]. rewrite !app_length. cbn [length]. f_equal; lia.
      * destruct b as [|[|] b]; auto; cbn [rev]; destruct (rev a); try destruct HB; exact HB.
Qed.
Lemma Forall_fst : forall (P : Z -> Prop) n l, Forall P l -> Forall P (firstn n l).
Proof. intros P n l H. rewrite <- (firstn_skipn n l) in H. apply Forall_app in H. tauto. Qed.
Lemma Forall_skp : forall (P : Z -> Prop) n l, Forall P l -> Forall P (skipn n l).
Proof. intros P n l H. rewrite <- (firstn_skipn n l) in H. apply Forall_app in H. tauto. Qed.
Lemma readable_firstn_z : forall s, readable (length s) s. Proof. intros. left. lia. Qed.
Theorem sgml2strcat_map : forall w src count skip out map i j, readable count src -> sgml2strcat w [] src count skip = Ret (out, map) -> In (i, j) map ->
  let s := zstr count src in
  (i <= length s)%nat /\ (j <= length out)%nat /\
  (exists m, sgml2strcat w [] (firstn i s) i skip = Ret (firstn j out, m)) /\
  (exists m, sgml2strcat w [] (skipn i s) (length s - i) skip = Ret (skipn j out, m)).
Proof.
  intros w src count skip out map i j R E Hi s. destruct (sgml2strcat_spec w [] src count skip R) as (segs & Hs & E2). rewrite E in E2. injection E2 as Eo Em. subst map. cbn [app length] in *. fold s in Hs.
  destruct (boundaries_in _ _ _ _ Hi (cast_unit w)) as (a & b & Es & Ep & HB). injection Ep as Ei Ej. cbn [Nat.add] in *.
  destruct (segmented_split _ _ _ _ Hs a b Es HB) as [Ha Hb]. pose proof (segmented_src _ _ _ _ Hs) as Q. rewrite Es, flat_map_app in Q. subst out. rewrite Es, flat_map_app in *.
  assert (NZ : Forall (fun c => c <> 0) s) by apply (zstr_as_firstn count src).
  assert (Fi : firstn i s = flat_map seg_src a). { rewrite <- Q, Ei. rewrite firstn_app, Nat.sub_diag, firstn_all. cbn [firstn]. apply app_nil_r. }
  assert (Si : skipn i s = flat_map seg_src b). { rewrite <- Q, Ei. rewrite skipn_app, Nat.sub_diag, skipn_all. reflexivity. }
  assert (Li : length s = (i + length (flat_map seg_src b))%nat) by (rewrite <- Q, app_length; lia).
  rewrite !app_length. split; [lia|]. split; [lia|].
  assert (G : forall x, Forall (fun c => c <> 0) x -> zstr (length x) x = x). { intros x Fx. rewrite zstr_firstn by (rewrite firstn_all; auto). apply firstn_all. }
  assert (NZa : Forall (fun c => c <> 0) (flat_map seg_src a)) by (rewrite <- Fi; apply Forall_fst; auto).
  assert (NZb : Forall (fun c => c <> 0) (flat_map seg_src b)) by (rewrite <- Si; apply Forall_skp; auto).
  split.
  - rewrite Fi. rewrite Ei. destruct (sgml2strcat_spec w [] (flat_map seg_src a) (length (flat_map seg_src a)) skip (readable_firstn_z _)) as (sa & Hsa & ->). rewrite G in Hsa by auto.
    rewrite (segmented_unique _ _ _ _ Hsa _ Ha). eexists. do 2 f_equal. cbn [app]. rewrite Ej. rewrite firstn_app, Nat.sub_diag, firstn_all. cbn [firstn]. symmetry. apply app_nil_r.
  - rewrite Si. replace (length s - i)%nat with (length (flat_map seg_src b)) by lia. destruct (sgml2strcat_spec w [] (flat_map seg_src b) (length (flat_map seg_src b)) skip (readable_firstn_z _)) as (sb & Hsb & ->). rewrite G in Hsb by auto.
    rewrite (segmented_unique _ _ _ _ Hsb _ Hb). eexists. do 2 f_equal. cbn [app]. rewrite Ej. rewrite skipn_app, Nat.sub_diag, skipn_all. reflexivity.
Qed.

(** ** C70a: the checker reports the first plain '&' or (unless told otherwise) non-ASCII character *)
Theorem sgmlerr_spec : forall src count what, readable count src ->
  exists segs, segmented U32 0 (zstr count src) segs /\ sgmlerr src count what = Ret (first_bad (negb (Z.land what 0x40000000 =? 0)) 0 segs).
Proof.
  intros src count what R. unfold sgmlerr. rewrite sgmlerr_zstr by auto. destruct (zstr_as_firstn count src) as [E F].
  assert (L : (length (zstr count src) <= count)%nat) by apply zstr_le.
  destruct (sgmlerr_seg (S count) src (length (zstr count src)) 0 what) as (segs & Hs & Es); auto; try lia.
  - apply zstr_len_le.
  - rewrite E. auto.
  - rewrite E in Hs. exists segs. split; auto.
Qed.
Example sgmlerr_ex : sgmlerr [97; 38; 97; 109; 112; 59; 38; 98; 59; 0] 99 0 = Ret (Some 6%nat) /\ sgmlerr [97; 38; 97; 109; 112; 59; 233; 0] 99 0 = Ret (Some 6%nat) /\ sgmlerr [97; 38; 97; 109; 112; 59; 233; 0] 99 sgml_full = Ret None.
Proof. vm_compute. auto. Qed.

(** ** C42: round trip *)
Definition text_ok (w : width) (s : list Z) : Prop := match w with U16 => units16 s | U32 => units32 s end.
Lemma text_ok_units : forall w s, text_ok w s -> Forall (ok_unit w) s.
Proof. intros [] s H; exact H. Qed.

Lemma encoded_value : forall w items s, encoded w items s -> (forall u, aliased u -> ~ occurs u s) -> flat_map (item_value w) items = s.
Proof.
  intros w items s (G & ps & F & <-) HA. revert HA. induction F as [|x p items ps Hx F IH]; intros HA; auto.
  inversion G; subst. cbn [flat_map concat]. f_equal.
  - destruct x as [c|name|v]; cbn [item_from item_value] in *; auto. destruct Hx as (u & Hi & ->). destruct (expansion_in name u Hi) as (u' & Eu & Iu). rewrite Eu.
    destruct (list_eq_dec Z.eq_dec u' u) as [->|N]; auto. exfalso. apply (HA u).
    + exists name. split; auto. congruence.
    + exists [], (concat ps). cbn. f_equal. destruct (entry_in _ _ Hi). apply units_table. auto.
  - apply IH; auto. intros u Au (a & b & E). apply (HA u Au). exists (p ++ a), b. cbn [concat]. rewrite E. rewrite <- app_assoc. reflexivity.
Qed.

Lemma str2sgml_items : forall w dst src count what, readable count src -> text_ok w (zstr count src) ->
  exists items, encode (S (length (zstr count src))) w what src (length (zstr count src)) = Ret items /\ encoded w items (zstr count src) /\
    str2sgmlcat w dst src count what = Ret (dst ++ flat_map item_text items).
Proof.
  intros w dst src count what R T. unfold str2sgmlcat. rewrite strnlen_zstr by auto. cbn [obind]. destruct (zstr_as_firstn count src) as [E F].
  destruct (encode_spec (S (length (zstr count src))) w what src (length (zstr count src))) as (items & Ei & Hi); try lia.
  - apply zstr_len_le.
  - rewrite E. apply text_ok_units. auto.
  - rewrite Ei. rewrite E in Hi. exists items. auto.
Qed.
Lemma ascii_nz : forall s, Forall (fun c => 0 < c <= 127) s -> zstr (length s) s = s.
Proof. intros s H. rewrite zstr_firstn. apply firstn_all. rewrite firstn_all. eapply Forall_impl; [|exact H]. cbn. lia. Qed.

Lemma decode_of_items : forall w items, Forall (item_good w) items -> let t := flat_map item_text items in
  exists map, sgml2strcat w [] t (length t) 0 = Ret (flat_map (item_value w) items, map).
Proof.
  intros w items G t. pose proof (items_ascii w items G) as A. fold t in A. unfold sgml2strcat. rewrite strnlen_zstr by (left; lia). rewrite ascii_nz by auto. cbn [obind].
  destruct (decode_items w items [] (S (length t)) 0 [] [] G) as (map & E). { fold t. lia. } fold t in E. rewrite app_nil_r in E. rewrite E. eauto.
Qed.

(** Full statement: for every zero-free text the decoder undoes the encoder.  It is false: *)
Theorem sgml_round_trip_refuted : exists s t map, text_ok U16 s /\ str2sgmlcat U16 [] s (length s) 0 = Ret t /\
  sgml2strcat U16 [] t (length t) 0 = Ret (map) /\ fst map <> s.
Proof.
  exists [108; 775], [38; 108; 100; 111; 116; 59]. eexists. split; [repeat constructor; lia|]. split; [vm_compute; reflexivity|]. split; [vm_compute; reflexivity|]. discriminate.
Qed.
(** also for the single character U+02BC *)
Theorem sgml_round_trip_refuted2 : exists t map, str2sgmlcat U32 [] [700] 1 0 = Ret t /\ sgml2strcat U32 [] t (length t) 0 = Ret map /\ fst map = [39].
Proof. eexists. eexists. split; [vm_compute; reflexivity|]. split; vm_compute; reflexivity. Qed.
(** Missing: texts that contain an expansion listed under a name whose first listing expands to
    something else. *)
Theorem sgml_round_trip_partial : forall w src count what, readable count src ->
  let s := zstr count src in text_ok w s -> (forall u, aliased u -> ~ occurs u s) ->
  exists t map, str2sgmlcat w [] src count what = Ret t /\ sgml2strcat w [] t (length t) 0 = Ret (s, map).
Proof.
  intros w src count what R s T HA. destruct (str2sgml_items w [] src count what R T) as (items & _ & Hi & E). cbn [app] in E.
  destruct (decode_of_items w items) as (map & D); [apply Hi|]. exists (flat_map item_text items), map. split; auto. rewrite D. do 2 f_equal. apply encoded_value; auto.
Qed.
(** The texts that are excluded: every aliased expansion *)
Definition aliased_list : list (list Z) :=
  map snd (filter (fun e => match expansion (fst e) with Some u => if list_eq_dec Z.eq_dec u (snd e) then false else true | None => true end) sgml_unicode).
Theorem aliased_iff : forall u, aliased u <-> In u aliased_list.
Proof.
  intros u. unfold aliased_list. rewrite in_map_iff. split.
  - intros (name & Hi & N). exists (name, u). split; [reflexivity|]. rewrite filter_In. split; [exact Hi|]. cbn [fst snd]. destruct (expansion name) as [v|]; auto. destruct (list_eq_dec Z.eq_dec v u); auto. congruence.
  - intros ([name v] & E & H). cbn in E. subst v. rewrite filter_In in H. destruct H as [Hi H]. exists name. split; auto. cbn [fst snd] in H. intros Q. rewrite Q in H. destruct (list_eq_dec Z.eq_dec u u); [discriminate|congruence].
Qed.
Example sgml_round_trip_ex : let s := [72; 233; 38; 60; 228; 8230; 55357; 56832; 20013; 101; 813] in
  text_ok U16 s /\ (forall u, aliased u -> ~ occurs u s) /\ readable 11 s /\ zstr 11 s = s.
Proof.
  cbn zeta. split; [repeat constructor; lia|]. split; [|split; [left; cbn; lia|reflexivity]].
  intros u Hu. apply aliased_iff in Hu. intros (a & b & E).
  assert (H : existsb (fun u => existsb (fun i => if list_eq_dec Z.eq_dec (firstn (length u) (skipn i [72; 233; 38; 60; 228; 8230; 55357; 56832; 20013; 101; 813])) u then true else false) (seq 0 12)) aliased_list = false) by (vm_compute; reflexivity).
  rewrite <- not_true_iff_false in H. apply H. apply existsb_exists. exists u. split; [exact Hu|]. apply existsb_exists. exists (length a). split.
  - apply in_seq. apply (f_equal (@length Z)) in E. rewrite !app_length in E. cbn [length] in E. lia.
  - rewrite E. rewrite skipn_app, skipn_all, Nat.sub_diag. cbn [app skipn]. rewrite firstn_app, Nat.sub_diag, firstn_all. cbn [firstn]. rewrite app_nil_r. destruct (list_eq_dec Z.eq_dec u u); congruence.
Qed.

(** ** C70: the encoder's output is 7-bit, contains no zero and no invalid reference *)
Theorem str2sgml_valid : forall w dst src count what what', readable count src -> text_ok w (zstr count src) ->
  exists t, str2sgmlcat w dst src count what = Ret (dst ++ t) /\ Forall (fun c => 0 < c <= 127) t /\ sgmlerr t (length t) what' = Ret None.
Proof.
  intros w dst src count what what' R T. destruct (str2sgml_items w dst src count what R T) as (items & _ & (G & _) & E).
  exists (flat_map item_text items). split; auto. split; [eapply items_ascii; eauto|]. unfold sgmlerr.
  pose proof (err_items w items [] (S (length (flat_map item_text items))) 0 what' G ltac:(lia)) as H. rewrite app_nil_r in H. exact H.
Qed.
Example str2sgml_ex : str2sgmlcat U16 [] [72; 233; 38; 55357; 56832] 5 0 = Ret ([72] ++ [38; 101; 97; 99; 117; 116; 101; 59] ++ [38; 97; 109; 112; 59] ++ [38; 35; 120; 49; 102; 54; 48; 48; 59]) /\ text_ok U16 [72; 233; 38; 55357; 56832].
Proof. split; [vm_compute; reflexivity|repeat constructor; lia]. Qed.

(** ** C71: characters the caller asked to encode do not appear as plain characters *)
Definition raw_ok (what c : Z) : Prop := c <> 38 /\ ~ flagged what c /\ (Z.land what 0x40000000 <> 0 -> forall name, ~ In (name, [c]) sgml_unicode).
Definition item_raw (what : Z) (x : item) : Prop := match x with IChar c => raw_ok what c | _ => True end.
Lemma flag_chars_known : forall f cs c, In (f, cs) flag_chars -> In c cs -> exists name, In (name, [c]) sgml_unicode.
Proof.
  intros f cs c H1 H2. assert (T : forallb (fun p => forallb (fun c => existsb (fun e => if list_eq_dec Z.eq_dec (snd e) [c] then true else false) sgml_unicode) (snd p)) flag_chars = true) by (vm_compute; reflexivity).
  rewrite forallb_forall in T. specialize (T _ H1). cbn [snd] in T. rewrite forallb_forall in T. specialize (T _ H2). apply existsb_exists in T as ([n u] & Hi & E). cbn [snd] in E.
  destruct (list_eq_dec Z.eq_dec u [c]); [|discriminate]. subst. eauto.
Qed.
Lemma raw_unknown : forall w what c s, (forall name u, In (name, u) sgml_unicode -> units w u <> firstn 1 (c :: s)) -> raw_ok what c.
Proof.
  intros w what c s H. assert (X : forall name, ~ In (name, [c]) sgml_unicode).
  { intros name Hi. apply (H _ _ Hi). destruct (entry_in _ _ Hi). rewrite units_table by auto. reflexivity. }
  split; [intros ->; apply (X _ amp_in)|]. split; auto. intros (f & cs & H1 & _ & H3). destruct (flag_chars_known _ _ _ H1 H3) as (name & Hi). apply (X name Hi).
Qed.
Lemma raw_plain : forall what c, plain what c = true -> raw_ok what c.
Proof.
  intros what c H. split; [intros ->; rewrite plain_amp in H; discriminate|].
  assert (FU : clear_in what sgml_full = true) by (unfold plain in H; repeat (apply andb_prop in H as [H ?]); auto).
  split; [|intros Q; exfalso; apply clear_in_false in Q; change 0x40000000 with sgml_full in Q; congruence].
  assert (C38 : c <> 38) by (intros ->; rewrite plain_amp in H; discriminate).
  apply converts_spec. unfold plain in H. repeat (apply andb_prop in H as [H ?]). unfold converts. rewrite !andb_true_iff. repeat split; auto.
  replace (c =? 38) with false by lia. apply orb_true_r.
Qed.
Lemma decompose_raw : forall what fuel w s n items, (n <= length s)%nat -> Forall (ok_unit w) (firstn n s) -> decompose fuel w s n = Ret items -> Forall (item_raw what) items.
Proof.
  induction fuel; intros w s n items Hl HF E; [discriminate|]. cbn [decompose] in E. destruct n as [|m]; [injection E as <-; constructor|]. set (n := S m) in *.
  destruct (ok_first w s 1 n ltac:(lia) HF) as [F1 F1'].
  destruct (chr2sgml_spec w s 1 ltac:(lia) ltac:(lia) F1) as (r & Er & Sr & Cr). rewrite Er in E. cbn [obind] in E. destruct s as [|c s']; [cbn in Hl; lia|].
  destruct r as [name|].
  - destruct (decompose fuel w (skipn 1 (c :: s')) (n - 1)) as [l| |] eqn:El; try discriminate. cbn [obind] in E. injection E as <-. constructor; [exact I|]. eapply IHfuel; [| |exact El]; auto. rewrite skipn_length. lia.
  - unfold rd in E. cbn [nth_error obind] in E. destruct (is7bit c).
    + destruct (decompose fuel w (skipn 1 (c :: s')) (n - 1)) as [l| |] eqn:El; try discriminate. cbn [obind] in E. injection E as <-. constructor; [eapply raw_unknown; eauto|]. eapply IHfuel; [| |exact El]; auto. rewrite skipn_length. lia.
    + destruct (wstr_to_utf32_spec w (c :: s') n ltac:(lia) Hl HF) as (v & k & Ev & Hk & _). rewrite Ev in E. cbn [obind] in E.
      destruct (decompose fuel w (skipn k (c :: s')) (n - k)) as [l| |] eqn:El; try discriminate. cbn [obind] in E. injection E as <-. constructor; [exact I|]. eapply IHfuel; [| |exact El].
      rewrite skipn_length. lia. apply (ok_first w (c :: s') k n); auto. lia.
Qed.
Lemma encode_raw : forall what fuel w s n items, (n <= length s)%nat -> Forall (ok_unit w) (firstn n s) -> encode fuel w what s n = Ret items -> Forall (item_raw what) items.
Proof.
  induction fuel; intros w s n items Hl HF E; [discriminate|]. cbn [encode] in E. destruct n as [|m]; [injection E as <-; constructor|]. set (n := S m) in *.
  assert (IH : forall k l, (k <= n)%nat -> encode fuel w what (skipn k s) (n - k) = Ret l -> Forall (item_raw what) l).
  { intros k l Hk El. eapply IHfuel; [| |exact El]. rewrite skipn_length. lia. apply (ok_first w s k n); auto. }
  destruct (glyphlen_range w s n ltac:(lia) Hl) as (g & Eg & Rg). rewrite Eg in E. cbn [obind] in E. destruct s as [|c s']; [cbn in Hl; lia|]. unfold rd in E. cbn [nth_error obind] in E.
  destruct ((g =? 1)%nat && plain what c) eqn:EP.
  - destruct (encode fuel w what (skipn 1 (c :: s')) (n - 1)) as [l| |] eqn:El; try discriminate. cbn [obind] in E. injection E as <-. constructor; [|eapply IH; [|exact El]; lia].
    apply andb_prop in EP as [_ EP]. apply raw_plain. auto.
  - destruct (chr2sgml_spec w (c :: s') g ltac:(lia) ltac:(lia)) as (r & Er & Sr & Cr); [apply (ok_first w (c :: s') g n); [lia|exact HF]|]. rewrite Er in E. cbn [obind] in E.
    destruct r as [name|].
    + destruct (encode fuel w what (skipn g (c :: s')) (n - g)) as [l| |] eqn:El; try discriminate. cbn [obind] in E. injection E as <-. constructor; [exact I|]. eapply IH; [|exact El]. lia.
    + destruct (g =? 1)%nat eqn:Eg1.
      * destruct (encode fuel w what (skipn 1 (c :: s')) (n - 1)) as [l| |] eqn:El; try discriminate. cbn [obind] in E. injection E as <-. replace g with 1%nat in * by lia. constructor; [|eapply IH; [|exact El]; lia].
        destruct (is7bit c); [|exact I]. eapply raw_unknown; eauto.
      * destruct (decompose (S g) w (c :: s') g) as [d| |] eqn:Ed; try discriminate. cbn [obind] in E.
        destruct (encode fuel w what (skipn g (c :: s')) (n - g)) as [l| |] eqn:El; try discriminate. cbn [obind] in E. injection E as <-. apply Forall_app. split; [|eapply IH; [|exact El]; lia].
        eapply decompose_raw; [| |exact Ed]. lia. apply (ok_first w (c :: s') g n); auto. lia.
Qed.
Lemma items_segmented : forall w what items, Forall (item_good w) items -> Forall (item_raw what) items ->
  exists segs, segmented U32 0 (flat_map item_text items) segs /\ (forall c, In (Raw c) segs -> raw_ok what c).
Proof.
  induction items as [|x items IH]; intros G RW; [exists []; split; [constructor|intros c []]|]. inversion G; inversion RW; subst. destruct IH as (segs & Hs & Hr); auto.
  cbn [flat_map]. destruct (item_entity w x) as [(c & ->)|(body & u & ET & FB & HU & _)]; auto.
  - cbn [item_good item_raw item_text] in *. assert (Ci : i8 c = c) by (unfold i8; lia). rewrite Ci. exists (Raw c :: segs). split.
    + cbn [app]. constructor; auto. intros name t rest E. injection E; intros; lia.
    + intros c' [Hc|Hc]; auto. injection Hc as ->. auto.
  - rewrite ET. exists (Ref body u :: segs). split; [|intros c' [Hc|Hc]; [discriminate|auto]]. cbn [app]. rewrite <- app_assoc. cbn [app]. constructor; auto.
    assert (RF : reference body = Some u).
    { specialize (HU (flat_map item_text items)). rewrite sgml2uni_spec in HU.
      - rewrite firstn_app, Nat.sub_diag, firstn_all in HU. cbn [firstn] in HU. rewrite app_nil_r in HU. congruence.
      - rewrite app_length. lia.
      - rewrite firstn_app, Nat.sub_diag, firstn_all. cbn [firstn]. rewrite app_nil_r. eapply Forall_impl; [|exact FB]. cbn. lia.
      - destruct body; cbn; [right; reflexivity|left; lia]. }
    split; [|split; [rewrite RF; reflexivity|apply flagged_0]]. eapply Forall_impl; [|exact FB]. cbn. intros a Ha. unfold ref_char. cbn [In]. lia.
Qed.
Theorem str2sgml_flagged : forall w dst src count what, readable count src -> text_ok w (zstr count src) ->
  exists t segs, str2sgmlcat w dst src count what = Ret (dst ++ t) /\ segmented U32 0 t segs /\
    forall c, In (Raw c) segs -> c <> 38 /\ ~ flagged what c /\ (Z.land what 0x40000000 <> 0 -> forall name, ~ In (name, [c]) sgml_unicode).
Proof.
  intros w dst src count what R T. destruct (str2sgml_items w dst src count what R T) as (items & Ee & (G & _) & E). destruct (zstr_as_firstn count src) as [EF _].
  destruct (items_segmented w what items G) as (segs & Hs & Hr).
  - eapply encode_raw; [| |exact Ee]. apply zstr_len_le. rewrite EF. apply text_ok_units. auto.
  - exists (flat_map item_text items), segs. auto.
Qed.

(** ** C43: destinations of limited size *)
Lemma wrs_spec : forall t a b, (length t <= length b)%nat -> wrs (a ++ b) (length a) t = Ret (a ++ t ++ skipn (length t) b).
Proof.
  induction t; intros x b H; [reflexivity|]. destruct b as [|y b]; [cbn in H; lia|]. cbn [wrs length] in *. rewrite wr_app. cbn [obind].
  replace (x ++ a :: b) with ((x ++ [a]) ++ b) by (rewrite <- app_assoc; reflexivity). replace (S (length x)) with (length (x ++ [a])) by (rewrite app_length; cbn; lia).
  rewrite IHt by lia. rewrite <- app_assoc. reflexivity.
Qed.
Lemma wr_end : forall a b, (0 < length b)%nat -> wr (a ++ b) (length a) 0 = Ret (a ++ 0 :: skipn 1 b).
Proof. intros a [|y b] H; [cbn in H; lia|]. apply wr_app. Qed.
Lemma skip_more : forall (b : list Z) n m, skipn n (skipn m b) = skipn (m + n) b.
Proof. intros b n m. revert b. induction m; intros b; [reflexivity|]. destruct b; [destruct n; reflexivity|]. cbn [skipn Nat.add]. apply IHm. Qed.

Lemma sgml2buf_str : forall f w skip cap src n i a b map out map', (cap <= length (a ++ b))%nat ->
  sgml2str_loop f w skip src n i a map = Ret (a ++ out, map') ->
  sgml2buf_loop f w skip cap src n (a ++ b) (length a) =
    if (length a + length out <? cap)%nat then Ret (a ++ out ++ 0 :: skipn (S (length out)) b, (length a + length out)%nat) else Throw.
Proof.
  induction f; intros w skip cap src n i a b map out map' Hc E; [discriminate|]. cbn [sgml2str_loop sgml2buf_loop] in *. rewrite app_length in Hc. destruct n as [|n'].
  - injection E as E _. rewrite <- (app_nil_r a) in E at 1. apply app_inv_head in E. subst out. cbn [length app]. rewrite Nat.add_0_r. destruct (cap <=? length a)%nat eqn:EC.
    + replace (length a <? cap)%nat with false by lia. reflexivity.
    + replace (length a <? cap)%nat with true by lia. rewrite wr_end by lia. reflexivity.
  - destruct (rd src 0) as [c| |]; try discriminate. cbn [obind] in *.
    assert (ST : forall t s2 n2 i2 m2, sgml2str_loop f w skip s2 n2 i2 (a ++ t) m2 = Ret (a ++ out, map') ->
      (if (cap <=? length a + length t)%nat then Throw else let* d' := wrs (a ++ b) (length a) t in sgml2buf_loop f w skip cap s2 n2 d' (length a + length t)) =
      if (length a + length out <? cap)%nat then Ret (a ++ out ++ 0 :: skipn (S (length out)) b, (length a + length out)%nat) else Throw).
    { intros t s2 n2 i2 m2 E2.
      assert (Ho : exists o2, out = t ++ o2).
      { assert (GR : forall f s n i d m o mm, sgml2str_loop f w skip s n i d m = Ret (o, mm) -> exists x, o = d ++ x).
        { clear. induction f; intros s n i d m o mm E; [discriminate|]. cbn [sgml2str_loop] in E. destruct n; [injection E as <- _; exists []; rewrite app_nil_r; auto|].
          destruct (rd s 0) as [c| |]; try discriminate. cbn [obind] in E. destruct (if c =? 38 then _ else _) as [[[t k]|]| |]; try discriminate; cbn [obind] in E; apply IHf in E as (x & ->); rewrite <- app_assoc; eauto. }
        apply GR in E2 as (x & E2). rewrite <- app_assoc in E2. apply app_inv_head in E2. eauto. }
      destruct Ho as (o2 & ->). rewrite app_length. destruct (cap <=? length a + length t)%nat eqn:EC.
      - replace (length a + (length t + length o2) <? cap)%nat with false by lia. reflexivity.
      - rewrite wrs_spec by lia. cbn [obind]. rewrite app_assoc in E2. rewrite (app_assoc a). replace (length a + length t)%nat with (length (a ++ t)) by (rewrite app_length; lia).
        rewrite (IHf w skip cap s2 n2 i2 (a ++ t) (skipn (length t) b) m2 o2 map'); [|rewrite !app_length, skipn_length; lia|exact E2].
        rewrite app_length. rewrite skip_more. rewrite <- !app_assoc. replace (length a + length t + length o2)%nat with (length a + (length t + length o2))%nat by lia.
        replace (length t + S (length o2))%nat with (S (length t + length o2)) by lia. reflexivity. }
    destruct (if c =? 38 then _ else _) as [[[t k]|]| |]; try discriminate; cbn [obind] in *.
    + eapply ST. exact E.
    + specialize (ST [cast_unit w c] _ _ _ _ E). cbn [length wrs] in ST. destruct (cap <=? length a + 1)%nat; auto.
      destruct (wr (a ++ b) (length a) (cast_unit w c)); cbn [obind] in ST |- *; auto.
Qed.

(** Decoding to a buffer: all or nothing, never out of bounds *)
Theorem sgml2bufcat_spec : forall w d cap src count skip, readable count src -> (cap <= length d)%nat ->
  exists out map, sgml2strcat w (zstr cap d) src count skip = Ret (zstr cap d ++ out, map) /\
    sgml2bufcat w d cap src count skip =
      let n := (length (zstr cap d) + length out)%nat in
      if (n <? cap)%nat then Ret (zstr cap d ++ out ++ 0 :: skipn (S n) d, n) else Throw.
Proof.
  intros w d cap src count skip R Hc. destruct (sgml2strcat_spec w (zstr cap d) src count skip R) as (segs & _ & E). set (out := flat_map _ segs) in *. clearbody out.
  exists out. eexists. split; [exact E|]. unfold sgml2strcat in E. unfold sgml2bufcat. rewrite strnlen_zstr by (left; auto). cbn [obind]. rewrite strnlen_zstr in E |- * by auto. cbn [obind] in *.
  destruct (zstr_as_firstn cap d) as [EF _]. set (a := zstr cap d) in *. assert (Ed : d = a ++ skipn (length a) d) by (rewrite <- EF at 1; symmetry; apply firstn_skipn).
  rewrite Ed at 1. rewrite (sgml2buf_str _ _ _ _ _ _ _ _ _ _ _ _ ltac:(rewrite <- Ed; exact Hc) E). cbn zeta. rewrite skip_more. replace (length a + S (length out))%nat with (S (length a + length out)) by lia. reflexivity.
Qed.
Example sgml2bufcat_ex : sgml2bufcat U16 [97; 0; 7; 7; 7] 4 [38; 97; 109; 112; 59; 98] 6 0 = Ret ([97; 38; 98; 0; 7], 3%nat) /\ sgml2bufcat U16 [97; 0; 7; 7; 7] 3 [38; 97; 109; 112; 59; 98] 6 0 = Throw.
Proof. vm_compute. auto. Qed.

(** Encoding to a buffer can write past its end: the room check of numeric references ignores what is
    already in the buffer (sgml.hpp:750-752, 776-778). *)
Theorem str2sgmlbuf_refuted : exists d cap src, cap = length d /\ text_ok U32 src /\ str2sgmlbuf U32 d cap src (length src) 0 = UB.
Proof. exists (repeat 0 9), 9%nat, [0x4E00; 0x4E00]. split; auto. split; [repeat constructor; lia|]. vm_compute. reflexivity. Qed.
Lemma put_items_fit : forall items cap a b, (cap <= length (a ++ b))%nat -> let t := flat_map item_text items in
  (length a + length t < cap)%nat -> put_items cap (a ++ b) (length a) items = Ret (a ++ t ++ 0 :: skipn (S (length t)) b, (length a + length t)%nat).
Proof.
  induction items as [|x items IH]; intros cap a b Hc t Ht; rewrite app_length in Hc; unfold t in *; clear t; cbn [flat_map put_items] in *.
  - cbn [length app] in *. rewrite Nat.add_0_r in *. replace (cap <=? length a)%nat with false by lia. rewrite wr_end by lia. reflexivity.
  - rewrite app_length in Ht. unfold put_item.
    replace (match x with IChar _ => (cap <=? length a + 1)%nat | IEnt name => (cap <=? length a + length name + 2)%nat | INum _ => (cap <=? length (item_text x))%nat end) with false.
    2: { destruct x; cbn [item_text length] in Ht |- *; rewrite ?app_length in *; cbn [length] in *; lia. }
    rewrite wrs_spec by lia. cbn [obind]. rewrite (app_assoc a). replace (length a + length (item_text x))%nat with (length (a ++ item_text x)) by (rewrite app_length; lia).
    rewrite IH; [|rewrite !app_length, skipn_length; lia|rewrite app_length; lia]. rewrite skip_more. rewrite <- !app_assoc. rewrite !app_length.
    replace (length (item_text x) + S (length (flat_map item_text items)))%nat with (S (length (item_text x) + length (flat_map item_text items))) by lia. rewrite Nat.add_assoc. reflexivity.
Qed.
Lemma put_items_full : forall items cap a b, (cap <= length (a ++ b))%nat -> (forall v, ~ In (INum v) items) -> let t := flat_map item_text items in
  (cap <= length a + length t)%nat -> put_items cap (a ++ b) (length a) items = Throw.
Proof.
  induction items as [|x items IH]; intros cap a b Hc HN t Ht; rewrite app_length in Hc; unfold t in *; clear t; cbn [flat_map put_items] in *.
  - cbn [length] in *. replace (cap <=? length a)%nat with true by lia. reflexivity.
  - rewrite app_length in Ht. unfold put_item.
    assert (NR : match x with IChar _ => (cap <=? length a + 1)%nat | IEnt name => (cap <=? length a + length name + 2)%nat | INum _ => (cap <=? length (item_text x))%nat end = (cap <=? length a + length (item_text x))%nat).
    { destruct x as [| |v]; cbn [item_text length]; rewrite ?app_length; cbn [length]; try (f_equal; lia). exfalso. apply (HN v). left. reflexivity. }
    rewrite NR. destruct (cap <=? length a + length (item_text x))%nat eqn:E; auto.
    rewrite wrs_spec by lia. cbn [obind]. rewrite (app_assoc a). replace (length a + length (item_text x))%nat with (length (a ++ item_text x)) by (rewrite app_length; lia).
    apply IH. rewrite !app_length, skipn_length; lia. intros v Hv; apply (HN v); right; auto. rewrite app_length; lia.
Qed.
(** Missing: when the encoding does not fit and it contains a numeric reference. *)
Theorem str2sgmlbuf_partial : forall w d cap src count what, readable count src -> text_ok w (zstr count src) -> (cap <= length d)%nat ->
  exists t, str2sgmlcat w (zstr cap d) src count what = Ret (zstr cap d ++ t) /\
    let n := (length (zstr cap d) + length t)%nat in
    ((n < cap)%nat -> str2sgmlbuf w d cap src count what = Ret (zstr cap d ++ t ++ 0 :: skipn (S n) d, n)) /\
    ((cap <= n)%nat -> ~ occurs [38; 35; 120] t -> str2sgmlbuf w d cap src count what = Throw).
Proof.
  intros w d cap src count what R T Hc. destruct (str2sgml_items w (zstr cap d) src count what R T) as (items & Ee & _ & E). exists (flat_map item_text items). split; auto.
  unfold str2sgmlbuf. rewrite strnlen_zstr by (left; auto). cbn [obind]. rewrite strnlen_zstr by auto. cbn [obind]. rewrite Ee. cbn [obind].
  destruct (zstr_as_firstn cap d) as [EF _]. set (a := zstr cap d) in *. assert (Ed : d = a ++ skipn (length a) d) by (rewrite <- EF at 1; symmetry; apply firstn_skipn).
  cbn zeta. split.
  - intros H. rewrite Ed at 1. rewrite put_items_fit; auto. 2: rewrite <- Ed; auto. rewrite skip_more. replace (length a + S _)%nat with (S (length a + length (flat_map item_text items))) by lia. reflexivity.
  - intros H NO. rewrite Ed. apply put_items_full; auto. { rewrite <- Ed; auto. }
    intros v Hv. apply in_split in Hv as (i1 & i2 & ->). apply NO. rewrite flat_map_app. cbn [flat_map item_text]. exists (flat_map item_text i1), ((print_hex 8 (u32 v) ++ [59]) ++ flat_map item_text i2). reflexivity.
Qed.
Example str2sgmlbuf_ex : str2sgmlbuf U16 (repeat 0 14) 14 [233; 38] 2 0 = Ret ([38; 101; 97; 99; 117; 116; 101; 59; 38; 97; 109; 112; 59; 0], 13%nat) /\ str2sgmlbuf U16 (repeat 0 14) 13 [233; 38] 2 0 = Throw /\ text_ok U16 [233; 38].
Proof. split; [vm_compute; reflexivity|split; [vm_compute; reflexivity|repeat constructor; lia]]. Qed.

Print Assumptions sgml_lookup.
Print Assumptions sgml2strcat_spec.
Print Assumptions sgml2strcat_map.
Print Assumptions sgmlerr_spec.
Print Assumptions sgml_round_trip_partial.
Print Assumptions str2sgml_valid.
Print Assumptions str2sgml_flagged.
Print Assumptions sgml2bufcat_spec.
Print Assumptions str2sgmlbuf_partial.
