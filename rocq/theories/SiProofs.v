(** SI references: the checks and the parts (for properties C208, C209 and C210). *)
From Coq Require Import ZifyBool ZifyNat.
From Verif Require Import Base StringModel StringSpec StringProofs ParserModel ParserSpec ParserProps ParserNumModel ParserNumProps ParserPeg ParserInt ParserIpModel ParserRefModel ParserRefSpec ParserRefNum ParserRef ParserRef2 HttpModel HttpSpec HttpProps SiModel SiSpec.
Ltac Zify.zify_post_hook ::= Z.div_mod_to_equations.

(** ** The checks *)
Definition digits (l : list Z) : Prop := Forall (fun c => is_dec c = true) l.
(** the cells of [txt] from [x] are [d] *)
Definition cells (txt : list Z) (x : nat) (d : list Z) : Prop := forall i c, nth_error d i = Some c -> nth_error txt (x + i) = Some c.
Lemma weigh_app : forall a w b, weigh w (a ++ b) = weigh w a + weigh (w + Z.of_nat (length a)) b.
Proof.
  induction a as [|c a IH]; intros w b; cbn [app weigh length]. { rewrite Z.add_0_r. lia. }
  rewrite IH. replace (w + 1 + Z.of_nat (length a)) with (w + Z.of_nat (S (length a))) by lia. lia.
Qed.
Lemma u32_small : forall x, 0 <= x < 2 ^ 32 -> u32 x = x.
Proof. intros x H. unfold u32. apply Z.mod_small. exact H. Qed.
Lemma ponder_spec : forall txt d part nom pon, digits d -> cells txt part d -> 2 <= pon -> pon + Z.of_nat (length d) <= 100 -> 0 <= nom <= 900 * pon ->
  ponder_loop txt (length d) part nom pon = Ret (nom + weigh pon (rev d), pon + Z.of_nat (length d)) /\ 0 <= nom + weigh pon (rev d) <= 900 * (pon + Z.of_nat (length d)).
Proof.
  intros txt d. induction d as [|c d IH] using rev_ind; intros part nom pon D C P L N. { cbn [length rev weigh]. cbn [ponder_loop]. split; [do 2 f_equal; lia|lia]. }
  apply Forall_app in D. destruct D as [D Dc]. inversion_clear Dc as [|? ? Dc' _]. unfold is_dec in Dc'. rewrite app_length in *. cbn [length] in *. rewrite Nat.add_1_r. cbn [ponder_loop]. unfold rd.
  assert (E : nth_error txt (part + length d) = Some c) by (apply C; rewrite nth_error_app2, Nat.sub_diag by lia; reflexivity). rewrite E. cbn [obind].
  rewrite (u32_small (c - 48)) by lia. assert (B : 0 <= (c - 48) * pon <= 900) by nia. rewrite (u32_small ((c - 48) * pon)), (u32_small (nom + _)), (u32_small (pon + 1)) by lia.
  destruct (IH part (nom + (c - 48) * pon) (pon + 1)) as [-> B2]; [auto| |lia|lia|lia|]. { intros i x Hx. apply C. rewrite nth_error_app1; auto. apply nth_error_Some. congruence. }
  rewrite rev_app_distr. cbn [rev app weigh]. split; [f_equal; f_equal; lia|lia].
Qed.
(** boolean forms *)
Definition checksb (l : list Z) : bool := control_digit (removelast l) =? last l 48 - 48.
Definition not_eleven (l : list Z) : bool := negb (weigh 2 (rev (removelast l)) mod 11 =? 0).
Lemma checks_b : forall l, l <> [] -> checks l <-> checksb l = true.
Proof.
  intros l N. unfold checks, checksb. split.
  - intros (ds & k & -> & E). rewrite removelast_last, last_last. lia.
  - intros E. exists (removelast l), (last l 48). split; [apply app_removelast_last; auto|lia].
Qed.
Lemma weigh_nonneg : forall l w, digits l -> 0 <= w -> 0 <= weigh w l.
Proof. induction l as [|c l IH]; intros w D W; cbn [weigh]; [lia|]. inversion_clear D as [|? ? Dc Dl]. unfold is_dec in Dc. specialize (IH (w + 1) Dl ltac:(lia)). nia. Qed.
Lemma digits_rl : forall l, digits l -> digits (removelast l).
Proof. induction l as [|c l IH]; intros D; [constructor|]. cbn [removelast]. inversion_clear D. destruct l; [constructor|]. constructor; auto. apply IH; auto. Qed.
Lemma digits_last : forall l, digits l -> 48 <= last l 48 <= 57.
Proof. induction l as [|c l IH]; intros D; cbn [last]; [lia|]. inversion_clear D as [|? ? Dc Dl]. unfold is_dec in Dc. destruct l; [lia|auto]. Qed.
Lemma cells_rl : forall txt x d, cells txt x d -> cells txt x (removelast d).
Proof.
  intros txt x d C. destruct d as [|a d'] using rev_ind; auto. rewrite removelast_last. intros i c E. apply C. rewrite nth_error_app1; auto. apply nth_error_Some. congruence.
Qed.
Lemma rl_length : forall (l : list Z), length (removelast l) = (length l - 1)%nat.
Proof. intros l. destruct l as [|a l'] using rev_ind; [reflexivity|]. rewrite removelast_last, app_length. cbn [length]. lia. Qed.
Lemma cells_last : forall txt x d, cells txt x d -> d <> [] -> nth_error txt (x + (length d - 1)) = Some (last d 48).
Proof.
  intros txt x d C N. destruct d as [|a d'] using rev_ind; [congruence|]. rewrite last_last. apply C. rewrite app_length. cbn [length]. rewrite nth_error_app2 by lia. replace (length d' + 1 - 1 - length d')%nat with 0%nat by lia. reflexivity.
Qed.
Definition ivl (x : nat) (d : list Z) : nat * nat := (x, (x + length d)%nat).
Lemma ivl_size : forall x d, iv_size (ivl x d) = length d.
Proof. intros. unfold iv_size, ivl. cbn. lia. Qed.
Lemma chk1_spec : forall txt x d, digits d -> cells txt x d -> d <> [] -> (length d <= 20)%nat -> chk1 txt (ivl x d) = Ret (checksb d).
Proof.
  intros txt x d D C N L. unfold chk1, check11_1. rewrite ivl_size. cbn [fst ivl]. rewrite <- rl_length. destruct (ponder_spec txt (removelast d) x 0 2) as [-> _]; [apply digits_rl; auto|apply cells_rl; auto|lia|rewrite rl_length; lia|lia|]. cbn [obind]. rewrite rl_length. unfold rd. rewrite (cells_last _ _ _ C N). cbn [obind]. rewrite Z.add_0_l. reflexivity.
Qed.
Lemma rl_app : forall (a b : list Z), b <> [] -> removelast (a ++ b) = a ++ removelast b.
Proof. intros. apply removelast_app. auto. Qed.
Lemma last_app' : forall (a b : list Z) d, b <> [] -> last (a ++ b) d = last b d.
Proof. intros a b d N. destruct b as [|z b'] using rev_ind; [congruence|]. rewrite app_assoc, !last_last. reflexivity. Qed.
Lemma eleven_b : forall w k, 0 <= w -> 0 <= k <= 9 -> ((if 11 - w mod 11 =? 10 then 0 else 11 - w mod 11) =? k) = ((let c := 11 - w mod 11 in if 10 <=? c then 0 else c) =? k) && negb (w mod 11 =? 0).
Proof. intros w k W K. cbv zeta. assert (0 <= w mod 11 < 11) by (apply Z.mod_pos_bound; lia). generalize dependent (w mod 11). intros m M. destruct (11 - m =? 10) eqn:E1, (10 <=? 11 - m) eqn:E2; lia. Qed.
Lemma chk2_spec : forall txt x y d f, digits d -> digits f -> cells txt x d -> cells txt y f -> f <> [] -> (length d <= 20)%nat -> (length f <= 20)%nat ->
  chk2 txt (ivl x d) (ivl y f) = Ret (checksb (d ++ f) && not_eleven (d ++ f)).
Proof.
  intros txt x y d f D F Cd Cf N Ld Lf. unfold chk2, check11_2. rewrite !ivl_size. cbn [fst ivl]. rewrite <- (rl_length f).
  destruct (ponder_spec txt (removelast f) y 0 2) as [-> B]; [apply digits_rl; auto|apply cells_rl; auto|lia|rewrite rl_length; lia|lia|]. cbn [obind]. rewrite Z.add_0_l in *.
  destruct (ponder_spec txt d x (weigh 2 (rev (removelast f))) (2 + Z.of_nat (length (removelast f)))) as [-> B2]; auto; [lia|rewrite rl_length; lia|]. cbn [obind]. rewrite !rl_length in *. unfold rd. rewrite (cells_last _ _ _ Cf N). cbn [obind]. f_equal.
  unfold checksb, control_digit, not_eleven. rewrite rl_app, last_app', rev_app_distr, weigh_app, rev_length, rl_length by auto. pose proof (digits_last f F). apply eleven_b; lia.
Qed.
(** the check of three parts *)
Definition third_check (d f g : list Z) : bool :=
  let w := weigh 2 (rev (removelast (d ++ f ++ g))) mod 11 in (if 11 - w =? 10 then 0 else 11 - w) =? nth (length g - 1) (f ++ 45 :: g) 48 - 48.
Lemma chk3_spec : forall txt x y z d f g, digits d -> digits f -> digits g -> cells txt x d -> cells txt y (f ++ 45 :: g) -> z = (y + length f + 1)%nat -> g <> [] -> (length d <= 20)%nat -> (length f <= 20)%nat -> (length g <= 20)%nat ->
  chk3 txt (ivl x d) (ivl y f) (ivl z g) = Ret (third_check d f g).
Proof.
  intros txt x y z d f g D F G Cd C -> N Ld Lf Lg. assert (Cf : cells txt y f) by (intros i c E; apply C; rewrite nth_error_app1; auto; apply nth_error_Some; congruence).
  assert (Cg : cells txt (y + length f + 1) g). { intros i c E. replace (y + length f + 1 + i)%nat with (y + (length f + S i))%nat by lia. apply C. rewrite nth_error_app2 by lia. replace (length f + S i - length f)%nat with (S i) by lia. exact E. }
  unfold chk3, check11_3. rewrite !ivl_size. cbn [fst ivl]. rewrite <- (rl_length g) at 1.
  destruct (ponder_spec txt (removelast g) (y + length f + 1) 0 2) as [-> B]; [apply digits_rl; auto|apply cells_rl; auto|lia|rewrite rl_length; lia|lia|]. cbn [obind]. rewrite Z.add_0_l in *.
  destruct (ponder_spec txt f y (weigh 2 (rev (removelast g))) (2 + Z.of_nat (length (removelast g)))) as [-> B2]; auto; [lia|rewrite rl_length; lia|]. cbn [obind].
  pose proof (rl_length g) as Lr. pose proof (ponder_spec txt d x _ (2 + Z.of_nat (length (removelast g)) + Z.of_nat (length f)) D Cd ltac:(lia) ltac:(lia) B2) as [-> B3]. cbn [obind]. unfold rd.
  assert (Hn : exists c, nth_error (f ++ 45 :: g) (length g - 1) = Some c). { destruct (nth_error (f ++ 45 :: g) (length g - 1)) eqn:E; eauto. apply nth_error_None in E. rewrite app_length in E. cbn [length] in E. lia. }
  destruct Hn as (c & Hc). rewrite (C _ _ Hc). cbn [obind]. unfold third_check. rewrite (nth_error_nth _ _ _ Hc). assert (Er : rev (removelast (d ++ f ++ g)) = rev (removelast g) ++ rev f ++ rev d) by (rewrite rl_app, rl_app, !rev_app_distr, app_assoc by (auto; intros Q; apply app_eq_nil in Q; tauto); reflexivity). rewrite Er, !weigh_app, !rev_length, Z.add_assoc. reflexivity.
Qed.

Section Match.
Context (txt : list Z) (toup : Z -> Z) (sp : option espec) (Gp : o_good txt sp).
Local Notation text_ok := (text_ok txt).
Local Notation vis := (vis txt).
Local Notation spf := (o_f sp).
Lemma vis_cells : forall d r x e, text_ok x e -> vis x e = d ++ r -> cells txt x d.
Proof.
  induction d as [|c d IH]; intros r x e H V i k E; [destruct i; discriminate|]. destruct (vis_cons txt x e c (d ++ r) H V) as (_ & H1 & V1 & _ & N). destruct i as [|i]; cbn [nth_error] in E.
  - rewrite Nat.add_0_r. congruence.
  - replace (x + S i)%nat with (S x + i)%nat by lia. eapply IH; eauto.
Qed.
Lemma take_digits : forall v, digits (take_while is_dec v).
Proof. induction v as [|c v IH]; cbn [take_while]; [constructor|]. destruct (is_dec c) eqn:E; constructor; auto. Qed.
Lemma part_spec : forall x e, text_ok x e -> let d := take_while is_dec (vis x e) in
  si_part txt x e = Ret (if (length d =? 0)%nat then no_iv else ivl x d) /\ text_ok (x + length d) e /\ vis x e = d ++ vis (x + length d) e.
Proof.
  intros x e H d. unfold si_part, run_all. destruct (vis_end txt x e H) as [V1 V2]. rewrite run_spec by (auto; lia).
  assert (E : len_while (fun c => negb (not_digit c)) (vis x e) = length d). { unfold len_while, d. f_equal. apply take_while_ext. intros c. unfold not_digit, is_dec. lia. } rewrite E. cbn [obind].
  destruct (vis_app txt x e d (drop_while is_dec (vis x e)) H) as [H1 Vd]. { apply split_while. }
  split; [|split; auto]. 2:{ rewrite Vd. apply split_while. } f_equal. unfold ivl. destruct (length d =? 0)%nat eqn:E0; [replace (x <? x + length d)%nat with false by lia|replace (x <? x + length d)%nat with true by lia]; reflexivity.
Qed.
Lemma delim_spec : forall x e, text_ok x e -> si_delim txt x e = Ret (match vis x e with 45 :: _ => Some (x + 1)%nat | _ => None end).
Proof.
  intros x e H. unfold si_delim. destruct (x <? e)%nat eqn:L.
  - destruct (rd_vis txt toup x e H ltac:(lia)) as (c & -> & Z0 & Z1). cbn [obind]. destruct (Z.eq_dec c 0) as [->|N]; [rewrite (Z0 eq_refl); reflexivity|]. destruct (Z1 N) as (r & ->). destruct (c =? 45) eqn:E; [replace c with 45 by lia; reflexivity|]. destruct c as [|c|c]; auto. do 6 (destruct c as [c|c|]; auto). discriminate.
  - destruct (vis_end txt x e H) as [V _]. destruct (vis x e); [reflexivity|]. cbn [length] in V. lia.
Qed.
Lemma ivl_ok : forall x d, iv_ok (ivl x d) = true.
Proof. intros. unfold iv_ok, ivl. cbn [fst snd]. lia. Qed.
Lemma split_S : forall k v, split_parts (S k) v = match take_while is_dec v with [] => [] | d => d :: match skipn (length d) v with 45 :: r => split_parts k r | _ => [] end end.
Proof. reflexivity. Qed.
(** one part: none, or digits and what is behind them *)
Lemma split_case : forall k x e, text_ok x e ->
  (split_parts (S k) (vis x e) = [] /\ si_part txt x e = Ret no_iv) \/
  (exists d, d <> [] /\ digits d /\ si_part txt x e = Ret (ivl x d) /\ text_ok (x + length d) e /\ vis x e = d ++ vis (x + length d) e /\
     ((si_delim txt (x + length d) e = Ret None /\ split_parts (S k) (vis x e) = [d]) \/
      (exists r, si_delim txt (x + length d) e = Ret (Some (x + length d + 1)%nat) /\ vis (x + length d) e = 45 :: r /\ vis (x + length d + 1) e = r /\ text_ok (x + length d + 1) e /\ split_parts (S k) (vis x e) = d :: split_parts k r))).
Proof.
  intros k x e H. destruct (part_spec x e H) as (E & H1 & V). set (d := take_while is_dec (vis x e)) in *. rewrite split_S. fold d. assert (Dd : digits d) by apply take_digits. clearbody d. destruct d as [|c d].
  - left. auto.
  - right. exists (c :: d). split; [discriminate|]. split; auto. split; auto. split; auto. split; auto. rewrite (delim_spec _ e H1). set (w := vis (x + length (c :: d)) e) in *. assert (Sk : skipn (length (c :: d)) (vis x e) = w) by (rewrite V, skipn_app, skipn_all, Nat.sub_diag; reflexivity). cbv beta iota zeta. rewrite Sk.
    assert (Q : (exists r, w = 45 :: r) \/ (match w with 45 :: _ => Some (x + length (c :: d) + 1)%nat | _ => None end = None /\ match w with 45 :: r => split_parts k r | _ => [] end = [])).
    { destruct w as [|z w']; auto. destruct (Z.eq_dec z 45) as [->|N]; [left; eauto|]. right. destruct z as [|z|z]; auto. do 6 (destruct z as [z|z|]; auto). congruence. }
    destruct Q as [(r & Er)|(Q1 & Q2)]; [|left; rewrite Q1, Q2; auto]. right. exists r. rewrite Er. destruct (vis_cons txt _ e 45 r H1 Er) as (_ & H2 & V2 & _). replace (x + length (c :: d) + 1)%nat with (S (x + length (c :: d))) by lia. auto.
Qed.
(** the parts, with the cells of the text they are in *)
Definition parts_in (x : nat) (ps : list (list Z)) : Prop :=
  match ps with
  | [] => True
  | [d] => digits d /\ d <> [] /\ cells txt x d
  | [d; f] => digits d /\ d <> [] /\ cells txt x d /\ digits f /\ f <> [] /\ cells txt (x + length d + 1) f
  | [d; f; g] => digits d /\ d <> [] /\ cells txt x d /\ digits f /\ f <> [] /\ cells txt (x + length d + 1) (f ++ 45 :: g) /\ digits g /\ g <> [] /\ cells txt (x + length d + 1 + length f + 1) g
  | _ => False
  end.
Lemma parts_spec : forall x e, text_ok x e -> let ps := split_parts 3 (vis x e) in let ivs := part_ivs x ps in
  si_parts txt x e = Ret (nth 0 ivs no_iv, nth 1 ivs no_iv, nth 2 ivs no_iv) /\ parts_in x ps.
Proof.
  intros x e H. cbv zeta. unfold si_parts. destruct (split_case 2 x e H) as [(-> & ->)|(d & N1 & D1 & -> & H1 & V1 & [(E1 & ->)|(r & E1 & W1 & Vr & H2 & ->)])]; cbn [obind].
  - split; [reflexivity|exact I].
  - rewrite ivl_ok. cbn [negb ivl snd]. rewrite E1. cbn [obind]. split; [reflexivity|]. split; auto. split; auto. eapply vis_cells; eauto.
  - rewrite ivl_ok. cbn [negb ivl snd]. rewrite E1. cbn [obind]. rewrite <- Vr. pose proof (vis_cells _ _ _ _ H V1) as C1.
    destruct (split_case 1 _ e H2) as [(-> & ->)|(f & N2 & D2 & -> & H3 & V2 & [(E2 & ->)|(r2 & E2 & W2 & Vr2 & H4 & ->)])]; cbn [obind].
    + split; [reflexivity|]. cbn [parts_in]. auto.
    + rewrite ivl_ok. cbn [negb ivl snd]. rewrite E2. cbn [obind]. split; [reflexivity|]. cbn [parts_in]. pose proof (vis_cells _ _ _ _ H2 V2) as C2. auto 8.
    + rewrite ivl_ok. cbn [negb ivl snd]. rewrite E2. cbn [obind]. rewrite <- Vr2. pose proof (vis_cells _ _ _ _ H2 V2) as C2.
      destruct (split_case 0 _ e H4) as [(-> & ->)|(g & N3 & D3 & -> & H5 & V3 & Q)]; cbn [obind].
      * split; [reflexivity|]. cbn [parts_in]. auto 8.
      * assert (Qs : split_parts 1 (vis (x + length d + 1 + length f + 1) e) = [g]) by (destruct Q as [(_ & ->)|(r3 & _ & _ & _ & _ & ->)]; reflexivity). rewrite Qs. split; [reflexivity|]. cbn [parts_in].
        assert (C3 : cells txt (x + length d + 1) (f ++ 45 :: g)). { apply (vis_cells _ (vis (x + length d + 1 + length f + 1 + length g) e) _ e H2). rewrite V2, W2, <- Vr2, V3, <- app_assoc. reflexivity. }
        pose proof (vis_cells _ _ _ _ H4 V3) as C4. auto 12.
Qed.

(** ** Validity.  What the code computes for parts [ps]: *)
Definition check_b (g : list (list Z)) : bool :=
  match g with [d] => checksb d | [d; f] => checksb (d ++ f) && not_eleven (d ++ f) | [d; f; g] => third_check d f g | _ => false end.
(** the groups, unjoined *)
Definition ugroups (m : Z) (ps : list (list Z)) : option (list (list (list Z))) :=
  match ps with
  | [p; q; r] =>
      match m with
      | 0 => Some [] | 1 => Some [[p; q; r]] | 2 => Some [[q]; [r]] | 3 => Some [[p]; [q]; [r]] | 4 => Some [[p]; [r]] | 5 | 55 => Some [[p]]
      | 6 => Some [[q; r]] | 7 => Some [[q]] | 8 => Some [[p; q]; [r]] | 9 => Some [[p; q]] | 10 => Some [[p]; [q; r]]
      | 11 | 18 | 19 | 28 | 38 | 40 | 41 | 48 | 49 | 51 | 58 => Some [[p]; [q]] | _ => None
      end
  | [p; q] =>
      match m with
      | 0 => Some [] | 1 => Some [[p; q]] | 5 | 55 => Some [[p]] | 6 => Some [[q]] | 7 => Some [[q]] | 9 => Some [[p; q]] | 10 => Some [[p]; [q]]
      | 11 | 18 | 19 | 28 | 38 | 40 | 41 | 48 | 49 | 51 | 58 => Some [[p]; [q]] | 21 | 31 => Some [[p]] | _ => None
      end
  | [p] => match m with 0 => Some [] | 1 => Some [[p]] | 5 | 55 => Some [[p]] | 9 => Some [[p]] | 12 => Some [[p]] | _ => None end
  | _ => None
  end.
Definition sizes_b (m : Z) (ps : list (list Z)) : bool :=
  if m =? 12 then forallb (fun p => (length p <=? 13)%nat) ps else forallb (fun p => (length p <=? 12)%nat) ps && (length (concat ps) <=? 20)%nat.
Definition known_b (m : Z) : bool := existsb (Z.eqb m) [0; 1; 2; 3; 4; 5; 6; 7; 8; 9; 10; 11; 12; 18; 19; 21; 28; 31; 38; 40; 41; 48; 49; 51; 55; 58].
Definition code_ok (m : Z) (ps : list (list Z)) : bool :=
  negb (known_b m) || match ugroups m ps with Some gs => sizes_b m ps && forallb check_b gs | None => false end.
Ltac dec_cases c := let X := fresh in assert (X : c = 48 \/ c = 49 \/ c = 50 \/ c = 51 \/ c = 52 \/ c = 53 \/ c = 54 \/ c = 55 \/ c = 56 \/ c = 57) by lia; destruct X as [-> | [-> | [-> | [-> | [-> | [-> | [-> | [-> | [-> | ->]]]]]]]]].
Ltac model_lit := match goal with |- context [model_no ?a ?b] => let m := eval vm_compute in (model_no a b) in change (model_no a b) with m end.
Ltac bool_cases := repeat (match goal with |- context [if ?x then _ else _] => lazymatch x with (if _ then _ else _) => fail | _ => destruct x end end); reflexivity.
Lemma oand_ret : forall x y, oand (Ret x) (Ret y) = Ret (x && y).
Proof. intros [] y; reflexivity. Qed.
Lemma check_spec_si : forall a b x ps, is_dec a = true -> is_dec b = true -> parts_in x ps ->
  let ivs := part_ivs x ps in si_check txt a b (nth 0 ivs no_iv) (nth 1 ivs no_iv) (nth 2 ivs no_iv) = Ret (code_ok (model_no a b) ps).
Proof.
  intros a b x ps Da Db Hp. cbv zeta. unfold is_dec in Da, Db. destruct ps as [|d [|f [|g [|? ?]]]]; cbn [parts_in] in Hp; try contradiction; cbn [part_ivs nth].
  - dec_cases a; dec_cases b; reflexivity.
  - destruct Hp as (D1 & N1 & C1). fold (ivl x d). pose proof (fun L => chk1_spec txt x d D1 C1 N1 L) as Q.
    assert (S1 : small (ivl x d) = (length d <=? 12)%nat) by (unfold small; rewrite ivl_size; auto).
    destruct (length d <=? 20)%nat eqn:L20.
    + specialize (Q ltac:(lia)). assert (Lc : (length (concat [d]) <=? 20)%nat = true) by (cbn [concat]; rewrite app_nil_r; auto).
      unfold si_check. rewrite ivl_ok, Q, S1, ivl_size. change (iv_ok no_iv) with false. cbv beta iota zeta. rewrite !oand_ret. unfold code_ok, sizes_b. rewrite Lc. cbn [forallb]. clear S1 Q Lc. change (ugroups (model_no a b) [d]) with (match model_no a b with 0 => Some [] | 1 => Some [[d]] | 5 | 55 => Some [[d]] | 9 => Some [[d]] | 12 => Some [[d]] | _ => None end).
      generalize (length d <=? 12)%nat as u, (length d <=? 13)%nat as v. intros.
      dec_cases a; dec_cases b; model_lit; lazy -[checksb not_eleven third_check app chk1 chk2 chk3 length Nat.leb]; bool_cases.
    + assert (L12 : (length d <=? 12)%nat = false) by lia. assert (L13 : (length d <=? 13)%nat = false) by lia.
      unfold si_check. rewrite ivl_ok, S1, ivl_size, L12, L13. change (iv_ok no_iv) with false. cbv beta iota zeta. unfold code_ok, sizes_b. cbn [forallb]. rewrite L12, L13.
      dec_cases a; dec_cases b; model_lit; lazy -[checksb not_eleven third_check app chk1 chk2 chk3]; reflexivity.
  - destruct Hp as (D1 & N1 & C1 & D2 & N2 & C2). fold (ivl x d). fold (ivl (x + length d + 1) f).
    assert (S1 : fit2 (ivl x d) (ivl (x + length d + 1) f) = forallb (fun p => (length p <=? 12)%nat) [d; f] && (length (concat [d; f]) <=? 20)%nat) by (unfold fit2, small; rewrite !ivl_size; cbn [forallb concat]; rewrite app_nil_r, app_length; lia).
    set (F := forallb (fun p => (length p <=? 12)%nat) [d; f] && (length (concat [d; f]) <=? 20)%nat) in *.
    assert (Sz : forall m, m <> 12 -> sizes_b m [d; f] = F) by (intros m Hm; unfold sizes_b; replace (m =? 12) with false by lia; reflexivity).
    unfold si_check. rewrite !ivl_ok, S1. change (iv_ok no_iv) with false. cbv beta iota zeta. unfold code_ok. destruct F eqn:EF.
    + assert (L : (length d <= 12)%nat /\ (length f <= 12)%nat) by (subst F; cbn [forallb] in EF; lia).
      rewrite (chk1_spec txt x d), (chk1_spec txt _ f), (chk2_spec txt _ _ d f) by (auto; lia). rewrite !oand_ret.
      dec_cases a; dec_cases b; model_lit; rewrite ?Sz by lia; lazy -[checksb not_eleven third_check app chk1 chk2 chk3]; bool_cases.
    + dec_cases a; dec_cases b; model_lit; rewrite ?Sz by lia; lazy -[checksb not_eleven third_check app chk1 chk2 chk3]; bool_cases.
  - destruct Hp as (D1 & N1 & C1 & D2 & N2 & C2 & D3 & N3 & C3). fold (ivl x d). fold (ivl (x + length d + 1) f). fold (ivl (x + length d + 1 + length f + 1) g).
    assert (S1 : fit3 (ivl x d) (ivl (x + length d + 1) f) (ivl (x + length d + 1 + length f + 1) g) = forallb (fun p => (length p <=? 12)%nat) [d; f; g] && (length (concat [d; f; g]) <=? 20)%nat) by (unfold fit3, small; rewrite !ivl_size; cbn [forallb concat]; rewrite app_nil_r, !app_length; lia).
    set (F := forallb (fun p => (length p <=? 12)%nat) [d; f; g] && (length (concat [d; f; g]) <=? 20)%nat) in *.
    assert (Sz : forall m, m <> 12 -> sizes_b m [d; f; g] = F) by (intros m Hm; unfold sizes_b; replace (m =? 12) with false by lia; reflexivity).
    assert (C2' : cells txt (x + length d + 1) f) by (intros i c E; apply C2; rewrite nth_error_app1; auto; apply nth_error_Some; congruence).
    unfold si_check. rewrite !ivl_ok, S1. cbv beta iota zeta. unfold code_ok. destruct F eqn:EF.
    + assert (L : (length d <= 12)%nat /\ (length f <= 12)%nat /\ (length g <= 12)%nat) by (subst F; cbn [forallb] in EF; lia).
      rewrite (chk1_spec txt x d), (chk1_spec txt _ f), (chk1_spec txt _ g), (chk2_spec txt _ _ d f), (chk2_spec txt _ _ f g), (chk3_spec txt _ _ _ d f g) by (auto; lia). rewrite !oand_ret.
      dec_cases a; dec_cases b; model_lit; rewrite ?Sz by lia; lazy -[checksb not_eleven third_check app chk1 chk2 chk3]; bool_cases.
    + dec_cases a; dec_cases b; model_lit; rewrite ?Sz by lia; lazy -[checksb not_eleven third_check app chk1 chk2 chk3]; bool_cases.
Qed.
End Match.
