(** The HTML, URL and CSS escapers of html.hpp (C115-C119). *)
From Verif Require Import Base StringModel StringSpec StringProofs SgmlTable SgmlSpec SgmlModel SgmlProps HtmlEscModel HtmlEscSpec.
From Coq Require Import ZifyBool ZifyNat.
Ltac Zify.zify_post_hook ::= Z.div_mod_to_equations.

Lemma each_spec : forall f n dst src, readable n src -> each f dst src n = Ret (dst ++ flat_map f (zstr n src)).
Proof.
  intros f. induction n; intros dst src R; cbn [each zstr flat_map]. { rewrite app_nil_r. auto. }
  destruct src as [|c r]. { destruct R as [R|R]; cbn in R; [lia|tauto]. }
  destruct (c =? 0) eqn:E; cbn [flat_map]. { rewrite app_nil_r. auto. }
  rewrite IHn. { rewrite <- app_assoc. auto. }
  destruct R as [R|[R|R]]; [left; cbn in R; lia|lia|right; auto].
Qed.
Lemma zstr_self : forall s r, Forall (fun c => c <> 0) s -> zstr (length s) (s ++ r) = s.
Proof. induction s; intros r F; cbn; auto. inversion F; subst. replace (a =? 0) with false by lia. rewrite IHs; auto. Qed.
Lemma zstr_self0 : forall s n, Forall (fun c => c <> 0) s -> (length s < n)%nat -> zstr n (s ++ [0]) = s.
Proof. induction s; intros n F L; destruct n; cbn in *; try lia; auto. inversion F; subst. replace (a =? 0) with false by lia. rewrite IHs; auto. lia. Qed.
Lemma zstr_nz : forall n s, Forall (fun c => c <> 0) (zstr n s).
Proof. induction n; intros [|c s]; cbn; auto. destruct (c =? 0) eqn:E; auto. constructor; auto; lia. Qed.

(** ** C115: escaped HTML text *)
(** what is appended does not depend on what was there, and every unit of the text is escaped on its own *)
Theorem escape_spec : forall dst src n, readable n src -> escape dst src n = Ret (dst ++ flat_map escape_chr (zstr n src)) /\
  escape_min dst src n = Ret (dst ++ flat_map escape_min_chr (zstr n src)).
Proof. intros; split; apply each_spec; auto. Qed.
Ltac cases_in t := unfold t; repeat match goal with |- context [if ?b then _ else _] => destruct b eqn:? end.
(** no character that could start or end markup or an attribute value is left *)
Theorem escape_safe : forall src n out, readable n src -> escape [] src n = Ret out -> Forall (fun c => ~ In c [34; 39; 60; 62; 160; 0]) out.
Proof.
  intros src n out R E. destruct (escape_spec [] src n R) as [E' _]. rewrite E in E'. injection E' as ->. cbn [app].
  pose proof (zstr_nz n src) as F. clear E R. induction (zstr n src) as [|c s IH]; cbn [flat_map]; auto. inversion F; subst.
  apply Forall_app. split; auto. cases_in escape_chr; repeat constructor; cbn [In]; lia.
Qed.
Theorem escape_min_safe : forall src n out, readable n src -> escape_min [] src n = Ret out -> Forall (fun c => ~ In c [60; 62; 160; 0]) out.
Proof.
  intros src n out R E. destruct (escape_spec [] src n R) as [_ E']. rewrite E in E'. injection E' as ->. cbn [app].
  pose proof (zstr_nz n src) as F. clear E R. induction (zstr n src) as [|c s IH]; cbn [flat_map]; auto. inversion F; subst.
  apply Forall_app. split; auto. cases_in escape_min_chr; repeat constructor; cbn [In]; lia.
Qed.

(** reading the references of the result gives the text back (and every '&' in it is the start of one) *)
Definition seg_of (f : Z -> list Z) (c : Z) : segment :=
  match f c with 38 :: t => Ref (removelast t) [c] | _ => Raw c end.
Lemma not_flagged : forall c, ~ flagged 0 c.
Proof. intros c (f & cs & _ & H & _). rewrite Z.land_0_l in H. auto. Qed.
Ltac ref_char_tac := repeat constructor; unfold ref_char; cbn [In]; lia.
Ltac ref_tac := split; [repeat constructor; try lia; cbn [In]; lia|split; [vm_compute; reflexivity|apply not_flagged]].
Definition escapes_ok (f : Z -> list Z) : Prop := forall c, c <> 0 ->
  (f c = [c] /\ c <> 38) \/ (exists name, f c = 38 :: name ++ [59] /\ is_ref U32 0 name [c]).
Lemma segmented_escape : forall f, escapes_ok f -> forall s, Forall (fun c => c <> 0 /\ -2147483648 <= c < 2147483648) s ->
  exists segs, segmented U32 0 (flat_map f s) segs /\ flat_map (seg_dst (cast_unit U32)) segs = s.
Proof.
  intros f OK. induction s as [|c s IH]; intros F. { exists []. split; [constructor|auto]. }
  inversion F as [|? ? [Hc Rc] Fs]; subst. destruct (IH Fs) as (segs & Sg & D). cbn [flat_map]. destruct (OK c Hc) as [[E N]|(name & E & Rf)]; rewrite E.
  - exists (Raw c :: segs). split.
    + apply seg_raw; auto. intros name text rest' H. cbn [app] in H. injection H. intros. congruence.
    + cbn [flat_map seg_dst]. rewrite D. cbn [cast_unit app]. f_equal. unfold i32. lia.
  - exists (Ref name [c] :: segs). split.
    + cbn [app]. rewrite <- app_assoc. cbn [app]. apply seg_ref; auto.
    + cbn [flat_map seg_dst app]. rewrite D. auto.
Qed.
Lemma ref1 : is_ref U32 0 [97; 109; 112] [38]. Proof. ref_tac. Qed.
Lemma ref2 : is_ref U32 0 [115; 101; 109; 105] [59]. Proof. ref_tac. Qed.
Lemma ref3 : is_ref U32 0 [113; 117; 111; 116] [34]. Proof. ref_tac. Qed.
Lemma ref4 : is_ref U32 0 [35; 120; 50; 55] [39]. Proof. ref_tac. Qed.
Lemma ref5 : is_ref U32 0 [108; 116] [60]. Proof. ref_tac. Qed.
Lemma ref6 : is_ref U32 0 [103; 116] [62]. Proof. ref_tac. Qed.
Lemma ref7 : is_ref U32 0 [110; 98; 115; 112] [160]. Proof. ref_tac. Qed.
Ltac by_ref l := right; eexists; split; [|apply l]; reflexivity.
Lemma escape_ok : escapes_ok escape_chr.
Proof.
  intros c Hc. unfold escape_chr.
  destruct (c =? 38) eqn:E1; [apply Z.eqb_eq in E1; subst; by_ref ref1|].
  destruct (c =? 59) eqn:E2; [apply Z.eqb_eq in E2; subst; by_ref ref2|].
  destruct (c =? 34) eqn:E3; [apply Z.eqb_eq in E3; subst; by_ref ref3|].
  destruct (c =? 39) eqn:E4; [apply Z.eqb_eq in E4; subst; by_ref ref4|].
  destruct (c =? 60) eqn:E5; [apply Z.eqb_eq in E5; subst; by_ref ref5|].
  destruct (c =? 62) eqn:E6; [apply Z.eqb_eq in E6; subst; by_ref ref6|].
  destruct (c =? 160) eqn:E7; [apply Z.eqb_eq in E7; subst; by_ref ref7|]. left. split; auto; lia.
Qed.
Lemma escape_min_ok : escapes_ok escape_min_chr.
Proof.
  intros c Hc. unfold escape_min_chr.
  destruct (c =? 38) eqn:E1; [apply Z.eqb_eq in E1; subst; by_ref ref1|].
  destruct (c =? 60) eqn:E5; [apply Z.eqb_eq in E5; subst; by_ref ref5|].
  destruct (c =? 62) eqn:E6; [apply Z.eqb_eq in E6; subst; by_ref ref6|].
  destruct (c =? 160) eqn:E7; [apply Z.eqb_eq in E7; subst; by_ref ref7|]. left. split; auto; lia.
Qed.
Lemma flat_nz : forall f, (forall c, c <> 0 -> Forall (fun x => x <> 0) (f c)) -> forall s, Forall (fun c => c <> 0) s -> Forall (fun c => c <> 0) (flat_map f s).
Proof. intros f H s. induction 1; cbn; auto. apply Forall_app. auto. Qed.
Lemma escape_decodes_by : forall f, escapes_ok f -> (forall c, c <> 0 -> Forall (fun x => x <> 0) (f c)) ->
  forall s, Forall (fun c => c <> 0 /\ -2147483648 <= c < 2147483648) s ->
  exists map, sgml2strcat U32 [] (flat_map f s) (length (flat_map f s)) 0 = Ret (s, map).
Proof.
  intros f OK NZ s F. destruct (segmented_escape f OK s F) as (segs & Sg & D).
  destruct (sgml2strcat_spec U32 [] (flat_map f s) (length (flat_map f s)) 0) as (segs' & Sg' & E). { left. auto. }
  rewrite <- (app_nil_r (flat_map f s)) in Sg' at 2. rewrite zstr_self in Sg'.
  2: { apply flat_nz; auto. eapply Forall_impl; [|exact F]. cbn. tauto. }
  rewrite (segmented_unique _ _ _ _ Sg' _ Sg) in E. rewrite E. cbn [app]. rewrite D. eauto.
Qed.
Theorem escape_decodes : forall src n out, readable n src -> Forall (fun c => -2147483648 <= c < 2147483648) src ->
  escape [] src n = Ret out -> exists map, sgml2strcat U32 [] out (length out) 0 = Ret (zstr n src, map).
Proof.
  intros src n out R F E. destruct (escape_spec [] src n R) as [E' _]. rewrite E in E'. injection E' as ->. cbn [app].
  apply escape_decodes_by. { apply escape_ok. }
  { intros c Hc. cases_in escape_chr; repeat constructor; lia. }
  clear E R. revert src F. induction n; intros [|c r] F; cbn; auto. inversion F; subst. destruct (c =? 0) eqn:E0; auto. constructor; auto. lia.
Qed.
Theorem escape_min_decodes : forall src n out, readable n src -> Forall (fun c => -2147483648 <= c < 2147483648) src ->
  escape_min [] src n = Ret out -> exists map, sgml2strcat U32 [] out (length out) 0 = Ret (zstr n src, map).
Proof.
  intros src n out R F E. destruct (escape_spec [] src n R) as [_ E']. rewrite E in E'. injection E' as ->. cbn [app].
  apply escape_decodes_by. { apply escape_min_ok. }
  { intros c Hc. cases_in escape_min_chr; repeat constructor; lia. }
  clear E R. revert src F. induction n; intros [|c r] F; cbn; auto. inversion F; subst. destruct (c =? 0) eqn:E0; auto. constructor; auto. lia.
Qed.
(* a<'b'>&;. *)
Example escape_ex : escape [97] [60; 39; 98; 39; 62; 38; 59; 46; 0; 7] 20 =
  Ret [97; 38; 108; 116; 59; 38; 35; 120; 50; 55; 59; 98; 38; 35; 120; 50; 55; 59; 38; 103; 116; 59; 38; 97; 109; 112; 59; 38; 115; 101; 109; 105; 59; 46].
Proof. vm_compute. reflexivity. Qed.

(** ** C116: URL escaping *)
Lemma nibble_hex : forall c, url_nibble c = hex_value c.
Proof.
  intros c. unfold hex_value. destruct (Z_le_dec 48 c); [destruct (Z_le_dec c 102)|].
  - assert (In c [48;49;50;51;52;53;54;55;56;57;58;59;60;61;62;63;64;65;66;67;68;69;70;71;72;73;74;75;76;77;78;79;80;81;82;83;84;85;86;87;88;89;90;91;92;93;94;95;96;97;98;99;100;101;102]) by (cbn [In]; lia).
    cbn [In] in H. repeat (destruct H as [<-|H]; [vm_compute; reflexivity|]). tauto.
  - unfold url_nibble. cbn [find fst]. repeat match goal with |- context [Z.eqb ?a c] => replace (Z.eqb a c) with false by lia end.
    replace (c <=? 57) with false by lia. replace (c <=? 70) with false by lia. replace (c <=? 102) with false by lia. rewrite !andb_false_r. reflexivity.
  - unfold url_nibble. cbn [find fst]. repeat match goal with |- context [Z.eqb ?a c] => replace (Z.eqb a c) with false by lia end.
    replace (48 <=? c) with false by lia. replace (65 <=? c) with false by lia. replace (97 <=? c) with false by lia. reflexivity.
Qed.
Lemma nibble_range : forall c d, url_nibble c = Some d -> 0 <= d < 16 /\ c <> 43 /\ c <> 37 /\ c <> 0.
Proof. intros c d. unfold url_nibble. repeat match goal with |- context [if ?b then _ else _] => destruct b eqn:? end; intros H; inversion H; subst; lia. Qed.
Lemma byte_of : forall h l, 0 <= h < 16 -> 0 <= l < 16 -> i8 (Z.lor (i8 (Z.shiftl h 4)) (i8 l)) = as_char (16 * h + l).
Proof.
  intros h l Hh Hl. assert (In h [0;1;2;3;4;5;6;7;8;9;10;11;12;13;14;15]) by (cbn [In]; lia). assert (In l [0;1;2;3;4;5;6;7;8;9;10;11;12;13;14;15]) by (cbn [In]; lia).
  cbn [In] in *. clear Hh Hl. repeat (destruct H as [<-|H]; [repeat (destruct H0 as [<-|H0]; [vm_compute; reflexivity|]); tauto|]). tauto.
Qed.
Lemma rd_app2 : forall (p t : list Z) c, rd (p ++ c :: t) (length p) = Ret c.
Proof. intros. unfold rd. rewrite nth_error_app2 by lia. rewrite Nat.sub_diag. reflexivity. Qed.
Lemma rd_app3 : forall (p t : list Z) a c, rd (p ++ a :: c :: t) (length p + 1) = Ret c.
Proof. intros. unfold rd. rewrite nth_error_app2 by lia. replace (length p + 1 - length p)%nat with 1%nat by lia. reflexivity. Qed.
Lemma rd_app4 : forall (p t : list Z) a b c, rd (p ++ a :: b :: c :: t) (length p + 2) = Ret c.
Proof. intros. unfold rd. rewrite nth_error_app2 by lia. replace (length p + 2 - length p)%nat with 2%nat by lia. reflexivity. Qed.
Lemma app_assoc1 : forall (p t : list Z) c, p ++ c :: t = (p ++ [c]) ++ t.
Proof. intros. rewrite <- app_assoc. reflexivity. Qed.
(* the text is [t], of length n - |p|; behind it: nothing that is read, or a unit that is not a hexadecimal digit *)
Lemma form_decode_step : forall c r, form_decode (c :: r) =
      if c =? 43 then 32 :: form_decode r
      else match c =? 37, r with
           | true, a :: b :: r' => match hex_value a, hex_value b with
                                   | Some h, Some l => as_char (16 * h + l) :: form_decode r'
                                   | _, _ => c :: form_decode r
                                   end
           | _, _ => c :: form_decode r
           end.
Proof. reflexivity. Qed.
Lemma cut_tail : forall c t, ~ cut_percent (c :: t) -> ~ cut_percent t.
Proof. intros c t H [(p & ->)|(p & h & -> & N)]; apply H; [left; exists (c :: p); auto|right; exists (c :: p), h; auto]. Qed.
Lemma url_unescape_loop_spec : forall f t dst p tail n, (length t < f)%nat -> n = (length p + length t)%nat -> Forall (fun c => c <> 0) t ->
  (cut_percent t -> exists c u, tail = c :: u /\ hex_value c = None) ->
  url_unescape_loop f dst (p ++ t ++ tail) (length p) n = Ret (dst ++ form_decode t).
Proof.
  induction f; intros t dst p tail n Hf Hn F C; [lia|]. cbn [url_unescape_loop]. destruct t as [|c t].
  { replace (length p <? n)%nat with false by (cbn in Hn; lia). cbn. rewrite app_nil_r. auto. }
  inversion F as [|? ? Hc Ft]; subst. cbn [length] in *. replace (length p <? length p + S (length t))%nat with true by lia.
  cbn [app]. rewrite rd_app2. cbn [obind]. replace (c =? 0) with false by lia.
  assert (C' : cut_percent t -> exists c u, tail = c :: u /\ hex_value c = None).
  { intros [(q & ->)|(q & h & -> & N)]; apply C; [left; exists (c :: q); auto|right; exists (c :: q), h; auto]. }
  assert (Plain : forall x, url_unescape_loop f (dst ++ x) (p ++ c :: t ++ tail) (length p + 1) (length p + S (length t)) = Ret (dst ++ x ++ form_decode t)).
  { intros x. rewrite app_assoc1. replace (length p + 1)%nat with (length (p ++ [c])) by (rewrite app_length; cbn; lia).
    rewrite IHf; auto; try lia. { rewrite <- app_assoc. auto. } { rewrite app_length. cbn. lia. } }
  rewrite form_decode_step. destruct (c =? 43) eqn:E43. { rewrite Plain. auto. }
  destruct (c =? 37) eqn:E37. 2: { rewrite Plain. auto. }
  apply Z.eqb_eq in E37. subst c. destruct t as [|a t].
  - (* % is the last *)
    destruct C as (x & u & -> & Hx). { left. exists []. auto. }
    cbn [app]. rewrite rd_app3. cbn [obind]. rewrite nibble_hex, Hx. specialize (Plain [37]). cbn [app length] in Plain |- *. rewrite Plain. auto.
  - cbn [app]. rewrite rd_app3. cbn [obind]. rewrite nibble_hex. destruct (hex_value a) as [h|] eqn:Ha.
    2: { specialize (Plain [37]). cbn [app length] in *. rewrite Plain. destruct t; auto. }
    inversion Ft as [|? ? Na Ft']; subst.
    destruct t as [|b t].
    + destruct C as (x & u & -> & Hx). { right. exists [], a. split; auto. congruence. }
      cbn [app]. rewrite rd_app4. cbn [obind]. rewrite nibble_hex, Hx. destruct f as [|f]; [cbn in Hf; lia|]. cbn [url_unescape_loop].
      replace (length p + 2 <? length p + S (length [a]))%nat with false by (cbn [length]; lia). cbn [form_decode].
      rewrite <- nibble_hex in Ha. apply nibble_range in Ha. replace (a =? 43) with false by lia. replace (a =? 37) with false by lia. auto.
    + cbn [app]. rewrite rd_app4. cbn [obind]. rewrite nibble_hex. destruct (hex_value b) as [l|] eqn:Hb.
      * pose proof Ha as Ra. pose proof Hb as Rb. rewrite <- nibble_hex in Ra, Rb. apply nibble_range in Ra. apply nibble_range in Rb. rewrite byte_of by lia.
        replace (p ++ 37 :: a :: b :: t ++ tail) with ((p ++ [37; a; b]) ++ t ++ tail) by (rewrite <- app_assoc; reflexivity).
        replace (length p + 3)%nat with (length (p ++ [37; a; b])) by (rewrite app_length; cbn; lia).
        rewrite IHf. { rewrite <- app_assoc. auto. } { cbn in Hf. lia. } { rewrite app_length. cbn. lia. } { inversion Ft'; auto. }
        { intros [(q & ->)|(q & h' & -> & N)]; apply C'; [left; exists (a :: b :: q); auto|right; exists (a :: b :: q), h'; auto]. }
      * pose proof Ha as Ra. rewrite <- nibble_hex in Ra. apply nibble_range in Ra.
        replace (p ++ 37 :: a :: b :: t ++ tail) with ((p ++ [37; a]) ++ (b :: t) ++ tail) by (rewrite <- app_assoc; reflexivity).
        replace (length p + 2)%nat with (length (p ++ [37; a])) by (rewrite app_length; cbn; lia).
        rewrite IHf; auto. { rewrite <- app_assoc. cbn [app]. rewrite (form_decode_step a). replace (a =? 43) with false by lia. replace (a =? 37) with false by lia. auto. }
        { cbn in *. lia. } { rewrite app_length. cbn. lia. }
        { intros [(q & E)|(q & h' & E & N)]; apply C'; rewrite E; [left; exists (a :: q); auto|right; exists (a :: q), h'; auto]. }
Qed.
(** [src] starts with the zero-free text [t]; the limit is its length, or [t] is followed by a zero.  The decoder gives the
    form decoding of t, unless t is cut inside of an escape and what is behind t is not a terminator. *)
Theorem url_unescape_spec : forall dst t tail n, Forall (fun c => c <> 0) t ->
  (n = length t \/ (length t < n)%nat /\ exists u, tail = 0 :: u) ->
  (cut_percent t -> exists c u, tail = c :: u /\ hex_value c = None) ->
  url_unescape dst (t ++ tail) n = Ret (dst ++ form_decode t).
Proof.
  intros dst t tail n F [->|(L & u & ->)] C; unfold url_unescape.
  - apply (url_unescape_loop_spec (S (length t)) t dst [] tail (length t)); auto.
  - assert (G : forall f n t dst p, (length t < f)%nat -> (length p + length t < n)%nat -> Forall (fun c => c <> 0) t ->
      url_unescape_loop f dst (p ++ t ++ 0 :: u) (length p) n = url_unescape_loop f dst (p ++ t ++ 0 :: u) (length p) (length p + length t)).
    { clear. induction f; intros n t dst p Hf Hn F; [lia|]. cbn [url_unescape_loop]. destruct t as [|c t].
      { cbn [app length] in *. replace (length p <? n)%nat with true by lia. rewrite rd_app2. cbn [obind]. ceq. replace (length p <? length p + 0)%nat with false by lia. auto. }
      cbn [length] in *. replace (length p <? n)%nat with true by lia. replace (length p <? length p + S (length t))%nat with true by lia.
      inversion F as [|? ? Hc Ft]; subst. cbn [app]. rewrite rd_app2. cbn [obind]. replace (c =? 0) with false by lia.
      assert (G1 : forall d, url_unescape_loop f d (p ++ c :: t ++ 0 :: u) (length p + 1) n = url_unescape_loop f d (p ++ c :: t ++ 0 :: u) (length p + 1) (length p + S (length t))).
      { intros d. rewrite app_assoc1. replace (length p + 1)%nat with (length (p ++ [c])) by (rewrite app_length; cbn; lia).
        rewrite IHf; auto; try lia. f_equal. rewrite app_length. cbn. lia. rewrite app_length. cbn. lia. }
      destruct (c =? 43); auto. destruct (c =? 37) eqn:E37; auto.
      destruct t as [|a t]. { cbn [app]. rewrite rd_app3. cbn [obind]. replace (url_nibble 0) with (@None Z) by reflexivity. apply G1. }
      cbn [app]. rewrite rd_app3. cbn [obind]. destruct (url_nibble a) as [h|] eqn:Ha. 2: apply G1.
      inversion Ft as [|? ? Na Ft']; subst. destruct t as [|b t].
      { cbn [app]. rewrite rd_app4. cbn [obind]. replace (url_nibble 0) with (@None Z) by reflexivity. cbn [length] in *.
        destruct f; [lia|]. cbn [url_unescape_loop]. replace (length p + 2 <? n)%nat with true by lia. replace (length p + 2 <? length p + 2)%nat with false by lia.
        rewrite rd_app4. cbn [obind]. ceq. auto. }
      cbn [app]. rewrite rd_app4. cbn [obind]. destruct (url_nibble b) as [l|].
      - replace (p ++ c :: a :: b :: t ++ 0 :: u) with ((p ++ [c; a; b]) ++ t ++ 0 :: u) by (rewrite <- app_assoc; reflexivity).
        replace (length p + 3)%nat with (length (p ++ [c; a; b])) by (rewrite app_length; cbn; lia). cbn [length] in *.
        rewrite IHf; auto; try lia. f_equal. rewrite app_length. cbn. lia. rewrite app_length. cbn. lia. inversion Ft'; auto.
      - replace (p ++ c :: a :: b :: t ++ 0 :: u) with ((p ++ [c; a]) ++ (b :: t) ++ 0 :: u) by (rewrite <- app_assoc; reflexivity).
        replace (length p + 2)%nat with (length (p ++ [c; a])) by (rewrite app_length; cbn; lia). cbn [length] in *.
        rewrite IHf; auto; try (cbn; lia). f_equal. rewrite app_length. cbn. lia. rewrite app_length. cbn. lia. }
    assert (M : forall f g n t dst p r, (f <= g)%nat -> url_unescape_loop f dst (p ++ t) (length p) n = Ret r -> url_unescape_loop g dst (p ++ t) (length p) n = Ret r).
    { clear. intros f g n t dst p r H. generalize (length p) as i. generalize (p ++ t) as s. clear p t. revert g dst H. induction f; intros g dst H s i; cbn [url_unescape_loop]; [discriminate|].
      destruct g; [lia|]. cbn [url_unescape_loop]. destruct (i <? n)%nat; auto. destruct (rd s i) as [c| |]; cbn [obind]; auto.
      destruct (c =? 0); auto. destruct (c =? 43). { apply IHf; lia. } destruct (c =? 37). 2: { apply IHf; lia. }
      destruct (rd s (i + 1)) as [a| |]; cbn [obind]; auto. destruct (url_nibble a). 2: { apply IHf; lia. }
      destruct (rd s (i + 2)) as [b| |]; cbn [obind]; auto. destruct (url_nibble b); apply IHf; lia. }
    apply (M (S (length t)) (S n) n (t ++ 0 :: u) dst []); [lia|].
    change ([] ++ t ++ 0 :: u) with ([] ++ (t ++ 0 :: u)). rewrite (G (S (length t)) n t dst []) by (auto; cbn; lia).
    apply (url_unescape_loop_spec (S (length t)) t dst [] (0 :: u) (length t)); auto.
Qed.
(** The unit at which the limit cuts decides: the result for a counted text depends on what is behind it. *)
Theorem url_unescape_overread_refuted : exists t a b, url_unescape [] (t ++ a) (length t) <> url_unescape [] (t ++ b) (length t) /\
  url_unescape [] t (length t) = UB.
Proof. exists [97; 37], [52; 49], [0]. vm_compute. split; [discriminate|reflexivity]. Qed.
Theorem url_unescape_overread_any : forall dst t, Forall (fun c => c <> 0) t -> cut_percent t -> url_unescape dst t (length t) = UB.
Proof.
  intros dst t F C. unfold url_unescape.
  assert (G : forall f t dst p, (length t < f)%nat -> Forall (fun c => c <> 0) t -> cut_percent t ->
      url_unescape_loop f dst (p ++ t) (length p) (length p + length t) = UB).
  { clear. induction f; intros t dst p Hf F C; [lia|]. cbn [url_unescape_loop]. destruct t as [|c t]. { destruct C as [([|] & C)|([|] & h & C & _)]; discriminate. }
    cbn [length] in *. replace (length p <? length p + S (length t))%nat with true by lia. inversion F as [|? ? Hc Ft]; subst. rewrite rd_app2. cbn [obind]. replace (c =? 0) with false by lia.
    assert (P : forall d, cut_percent t -> url_unescape_loop f d (p ++ c :: t) (length p + 1) (length p + S (length t)) = UB).
    { intros d Ct. rewrite app_assoc1. replace (length p + 1)%nat with (length (p ++ [c])) by (rewrite app_length; cbn; lia).
      replace (length p + S (length t))%nat with (length (p ++ [c]) + length t)%nat by (rewrite app_length; cbn; lia). apply IHf; auto; lia. }
    assert (Sub : forall q, (1 < length (q ++ t))%nat \/ t <> [] -> c <> 37 -> cut_percent t).
    { intros q Hl Hne. destruct C as [([|x q'] & C)|([|x q'] & h & C & N)]; cbn in C; inversion C; subst; try congruence.
      - left. eauto. - right. eauto. }
    destruct (c =? 37) eqn:E37.
    2: { replace (cut_percent t) with (cut_percent t) in P by auto. assert (Ct : cut_percent t). { destruct C as [([|x q'] & C)|([|x q'] & h & C & N)]; cbn in C; inversion C; subst; try lia. left; eauto. right; eauto. }
         destruct (c =? 43); apply P; auto. }
    replace (c =? 43) with false by lia. assert (c = 37) by lia. subst c.
    destruct t as [|a t]. { unfold rd. rewrite (proj2 (nth_error_None _ _)). reflexivity. rewrite app_length. cbn. lia. }
    rewrite rd_app3. cbn [obind]. destruct (url_nibble a) as [h|] eqn:Ha.
    2: { apply P. destruct C as [([|x q'] & C)|([|x q'] & h & C & N)]; cbn in C; inversion C; subst. left; eauto. rewrite <- nibble_hex in N. congruence. right; eauto. }
    destruct t as [|b t]. { unfold rd. rewrite (proj2 (nth_error_None _ _)). reflexivity. rewrite app_length. cbn. lia. }
    rewrite rd_app4. cbn [obind]. pose proof (nibble_range _ _ Ha).
    assert (Cb : cut_percent (b :: t)). { destruct C as [([|x [|y q']] & C)|([|x [|y q']] & h' & C & N)]; cbn in C; inversion C; subst; try lia. left; eauto. right; eauto. }
    inversion Ft as [|? ? Na Ft']; subst.
    destruct (url_nibble b) as [l|] eqn:Hb.
    - pose proof (nibble_range _ _ Hb). replace (p ++ 37 :: a :: b :: t) with ((p ++ [37; a; b]) ++ t) by (rewrite <- app_assoc; reflexivity).
      replace (length p + 3)%nat with (length (p ++ [37; a; b])) by (rewrite app_length; cbn; lia).
      replace (length p + S (length (a :: b :: t)))%nat with (length (p ++ [37%Z; a; b]) + length t)%nat by (rewrite app_length; cbn; lia).
      apply IHf. { cbn in Hf. lia. } { inversion Ft'; auto. } destruct Cb as [([|x q'] & C')|([|x q'] & h' & C' & N)]; cbn in C'; inversion C'; subst; try lia. left; eauto. right; eauto.
    - replace (p ++ 37 :: a :: b :: t) with ((p ++ [37; a]) ++ b :: t) by (rewrite <- app_assoc; reflexivity).
      replace (length p + 2)%nat with (length (p ++ [37; a])) by (rewrite app_length; cbn; lia).
      replace (length p + S (length (a :: b :: t)))%nat with (length (p ++ [37%Z; a]) + length (b :: t))%nat by (rewrite app_length; cbn; lia).
      apply IHf; auto. cbn in *. lia. }
  apply (G (S (length t)) t dst []); auto.
Qed.

(** ** C117: escaped URL text *)
Lemma all_chars : forall c, is_char c -> exists k, (k < 256)%nat /\ c = Z.of_nat k - 128.
Proof. intros c [H1 H2]. exists (Z.to_nat (c + 128)). lia. Qed.
Definition url_chr_ok (c : Z) : bool :=
  match url_escape_chr c with
  | [x] => (x =? c) && ((33 <=? c) && (c <=? 126) &&
           negb (existsb (Z.eqb c) [35; 36; 37; 38; 43; 47; 58; 59; 60; 61; 62; 63; 64; 91; 92; 93; 94; 96; 123; 124; 125; 126]))
  | [p; a; b] => (p =? 37) && match hex_value a, hex_value b with Some h, Some l => as_char (16 * h + l) =? c | _, _ => false end &&
                 ((48 <=? a) && (a <=? 57) || (65 <=? a) && (a <=? 70)) && ((48 <=? b) && (b <=? 57) || (65 <=? b) && (b <=? 70))
  | _ => false
  end.
Lemma url_all : forallb (fun k => url_chr_ok (Z.of_nat k - 128)) (seq 0 256) = true.
Proof. vm_compute. reflexivity. Qed.
Lemma url_chr : forall c, is_char c -> url_chr_ok c = true.
Proof. intros c H. destruct (all_chars c H) as (k & L & ->). pose proof url_all as A. rewrite forallb_forall in A. apply (A k). apply in_seq. lia. Qed.
Lemma url_chr_shape : forall c, is_char c ->
  (url_escape_chr c = [c] /\ 33 <= c <= 126 /\ ~ In c [35; 36; 37; 38; 43; 47; 58; 59; 60; 61; 62; 63; 64; 91; 92; 93; 94; 96; 123; 124; 125; 126]) \/
  (exists a b h l, url_escape_chr c = [37; a; b] /\ hex_value a = Some h /\ hex_value b = Some l /\ as_char (16 * h + l) = c /\
     (48 <= a <= 57 \/ 65 <= a <= 70) /\ (48 <= b <= 57 \/ 65 <= b <= 70)).
Proof.
  intros c H. pose proof (url_chr c H) as A. unfold url_chr_ok in A. destruct (url_escape_chr c) as [|x [|a [|b [|]]]]; try discriminate.
  - left. apply andb_prop in A as [A1 A2]. apply andb_prop in A2 as [A2 A3]. assert (x = c) by lia. subst. split; auto. split. lia.
    intros I. apply negb_true_iff in A3. rewrite (proj2 (existsb_exists _ _)) in A3; [discriminate|]. exists c. split; [auto|apply Z.eqb_refl].
  - right. apply andb_prop in A as [A A4]. apply andb_prop in A as [A A3]. apply andb_prop in A as [A1 A2].
    destruct (hex_value a) as [h|] eqn:Ha; [|discriminate]. destruct (hex_value b) as [l|] eqn:Hb; [|discriminate]. exists a, b, h, l.
    assert (x = 37) by lia. subst. repeat split; auto; clear Ha Hb; lia.
Qed.
(** the escaped text is printable ASCII, none of the characters listed is in it, and '%' only starts an escape *)
Theorem url_escape_safe : forall src n out, readable n src -> Forall is_char src -> url_escape [] src n = Ret out ->
  Forall (fun c => 33 <= c <= 126 /\ ~ In c [35; 36; 38; 43; 47; 58; 59; 60; 61; 62; 63; 64; 91; 92; 93; 94; 96; 123; 124; 125; 126]) out.
Proof.
  intros src n out R F E. unfold url_escape in E. rewrite each_spec in E by auto. injection E as <-. cbn [app].
  assert (F' : Forall is_char (zstr n src)). { clear R. revert src F. induction n; intros [|c r] F; cbn; auto. inversion F; subst. destruct (c =? 0); auto. }
  induction F' as [|c s Hc F' IH]; cbn [flat_map]; auto. apply Forall_app. split; auto.
  destruct (url_chr_shape c Hc) as [(-> & R1 & N)|(a & b & h & l & -> & _ & _ & _ & Ra & Rb)].
  - constructor; auto. split; auto. cbn [In] in *. tauto.
  - repeat constructor; cbn [In]; lia.
Qed.
Lemma form_decode_escaped : forall s, Forall is_char s -> form_decode (flat_map url_escape_chr s) = s /\ ~ cut_percent (flat_map url_escape_chr s).
Proof.
  induction 1 as [|c s Hc F [IH1 IH2]]. { split; auto. intros [(p & C)|(p & h & C & _)]; destruct p; discriminate. }
  cbn [flat_map]. destruct (url_chr_shape c Hc) as [(-> & R1 & N)|(a & b & h & l & -> & Ha & Hb & E & Ra & Rb)].
  - cbn [app]. rewrite form_decode_step. replace (c =? 43) with false by (cbn [In] in N; lia). replace (c =? 37) with false by (cbn [In] in N; lia). rewrite IH1. split; auto.
    intros [([|x p] & C)|([|x p] & h & C & Nh)]; cbn in C; inversion C; subst; try (cbn [In] in N; lia); apply IH2; [left|right]; eauto.
  - cbn [app]. rewrite form_decode_step. ceq. rewrite Ha, Hb, E, IH1. split; auto.
    intros [([|x [|y [|z p]]] & C)|([|x [|y [|z p]]] & h' & C & Nh)]; cbn in C; inversion C; subst; try lia; apply IH2; [left|right]; eauto.
Qed.
(** un-escaping the escaped text gives the text back, whether it is given with its length or with a terminator *)
Theorem url_round_trip : forall src n out, readable n src -> Forall is_char src -> url_escape [] src n = Ret out ->
  (forall dst tail, url_unescape dst (out ++ tail) (length out) = Ret (dst ++ zstr n src)) /\
  (forall dst m u, (length out < m)%nat -> url_unescape dst (out ++ 0 :: u) m = Ret (dst ++ zstr n src)).
Proof.
  intros src n out R F E. pose proof (url_escape_safe src n out R F E) as Sf. unfold url_escape in E. rewrite each_spec in E by auto. injection E as E. cbn [app] in E. subst out.
  assert (F' : Forall is_char (zstr n src)). { clear - F. revert src F. induction n; intros [|c r] F; cbn; auto. inversion F; subst. destruct (c =? 0); auto. }
  destruct (form_decode_escaped _ F') as [D C].
  assert (NZ : Forall (fun c => c <> 0) (flat_map url_escape_chr (zstr n src))) by (eapply Forall_impl; [|exact Sf]; cbn; lia).
  split.
  - intros dst tail. rewrite url_unescape_spec; auto; [rewrite D; auto|tauto].
  - intros dst m u L. rewrite url_unescape_spec; auto; [rewrite D; auto| |tauto]. right. split; eauto.
Qed.
(* "a b%+\xe4" *)
Example url_ex : url_escape [] [97; 32; 98; 37; 43; -28; 0] 99 = Ret [97; 37; 50; 48; 98; 37; 50; 53; 37; 50; 66; 37; 69; 52] /\
  url_unescape [] [97; 37; 50; 48; 98; 37; 50; 53; 37; 50; 66; 37; 69; 52; 43; 37; 52; 120; 37] 18 = Ret [97; 32; 98; 37; 43; -28; 32; 37; 52; 120].
Proof. vm_compute. auto. Qed.

Print Assumptions escape_decodes. Print Assumptions escape_min_decodes. Print Assumptions escape_safe. Print Assumptions url_unescape_spec.
Print Assumptions url_unescape_overread_any. Print Assumptions url_round_trip. Print Assumptions url_escape_safe.
