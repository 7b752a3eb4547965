(** Properties C232-C234: Minisign signatures. *)
From Coq Require Import ZifyBool ZifyNat.
From Coq Require Ascii String.
Delimit Scope string_scope with string.
Import String.StringSyntax.
From Verif Require Import Base StringModel StringSpec StreamModel StreamSpec StreamProps Base64Model Base64Spec Base64Proofs Base64Props.
From Verif Require Import ParserModel ParserSpec ParserProps MinisignModel.

(** ** The parsers *)
Section Parsers.
Context (txt : list Z).
Lemma compares_spec : forall pat s e, text_ok txt s e -> Forall (fun c => c <> 0) pat -> (s + length pat <= e)%nat ->
  compares pat txt s = Ret (if list_eq_dec Z.eq_dec (firstn (length pat) (vis txt s e)) pat then true else false).
Proof.
  induction pat as [|p pat IH]; intros s e T F L. { reflexivity. }
  inversion F; subst. cbn [compares length]. cbn [length] in L. pose proof (peek_spec txt s e T) as P. unfold peek in P. replace (s <? e)%nat with true in P by lia.
  destruct (rd txt s) as [c| |] eqn:R; cbn [obind] in P |- *; try discriminate. destruct (vis txt s e) as [|d v] eqn:V; cbn [hd_error] in P.
  - cbn [firstn]. destruct (c =? 0) eqn:Z; [|discriminate]. replace (c =? p) with false by lia. destruct (list_eq_dec _ _ _); [discriminate|reflexivity].
  - destruct (c =? 0) eqn:Z; [discriminate|]. injection P as ->. destruct (vis_cons txt s e d v T V) as (_ & T' & V' & _). cbn [firstn]. destruct (d =? p) eqn:Q.
    + rewrite (IH (S s) e T') by (auto; lia). rewrite V'. replace d with p by lia. do 2 destruct (list_eq_dec _ _ _); try reflexivity; congruence.
    + destruct (list_eq_dec _ _ _) as [E|E]; [|reflexivity]. injection E as E _. lia.
Qed.
Lemma prefix_iff : forall (pat l : list Z), firstn (length pat) l = pat <-> exists r, l = pat ++ r.
Proof. intros. split; [intros E; exists (skipn (length pat) l); rewrite <- E at 1; symmetry; apply firstn_skipn|]. intros (r & ->). rewrite firstn_app, Nat.sub_diag, firstn_all. apply app_nil_r. Qed.
Definition prefix_fn (pat : list Z) : pfun := fun s e fl => if list_eq_dec Z.eq_dec (firstn (length pat) (vis txt s e)) pat then Some (s + length pat)%nat else None.
Lemma compares_at : forall pat s e, text_ok txt s e -> Forall (fun c => c <> 0) pat -> pat <> [] ->
  (if (s + (length pat - 1) <? e)%nat then compares pat txt s else Ret false) = Ret (if list_eq_dec Z.eq_dec (firstn (length pat) (vis txt s e)) pat then true else false).
Proof.
  intros pat s e T F N. destruct (s + (length pat - 1) <? e)%nat eqn:L.
  - apply compares_spec; auto. lia.
  - destruct (list_eq_dec _ _ _) as [E|E]; auto. exfalso. apply (f_equal (@length Z)) in E. rewrite firstn_length in E. pose proof (vis_end txt s e T). destruct pat; [congruence|cbn [length] in *]. lia.
Qed.
(** what an untrusted comment starts with, as a string *)
Theorem untrusted_is : untrusted = map (fun a => Z.of_nat (Ascii.nat_of_ascii a)) (String.list_ascii_of_string "untrusted comment:"%string).
Proof. reflexivity. Qed.
(** C232 *)
Theorem untrusted_comment_spec : element txt (untrusted_comment txt) leaf (prefix_fn untrusted) no_vals.
Proof.
  split; try reflexivity; try (intros st H; split; [exact H|reflexivity]).
  - intros st s e fl W T. cbn [untrusted_comment p_match]. pose proof (compares_at untrusted s e T) as C. cbn [length untrusted] in C. cbn [Nat.sub] in C. change [117; 110; 116; 114; 117; 115; 116; 101; 100; 32; 99; 111; 109; 109; 101; 110; 116; 58] with untrusted in C.
    rewrite C by (try discriminate; unfold untrusted; repeat constructor; lia). unfold prefix_fn. cbn [obind]. change (length untrusted) with 18%nat. destruct (list_eq_dec _ _ _); (eexists; split; [reflexivity|]; split; [exact W|]; try split; try reflexivity; exact W).
  - intros s e fl x T E. unfold prefix_fn in E. destruct (list_eq_dec _ _ _) as [Q|Q]; [|discriminate]. injection E as <-. apply (f_equal (@length Z)) in Q. rewrite firstn_length in Q. change (length untrusted) with 18%nat in *. lia.
Qed.
Theorem line_break_spec : exists f, element txt (line_break txt) leaf f no_vals /\
  forall s e fl, text_ok txt s e -> f s e fl = match vis txt s e with
    | c :: d :: _ => if (c =? 13) && (d =? 10) then Some (s + 2)%nat else if c =? 10 then Some (s + 1)%nat else None
    | [c] => if c =? 10 then Some (s + 1)%nat else None
    | [] => None
    end.
Proof.
  exists (fun s e fl => match prefix_fn [13; 10] s e fl with Some x => Some x | None => prefix_fn [10] s e fl end). split.
  - split; try reflexivity; try (intros st H; split; [exact H|reflexivity]).
    + intros st s e fl W T. cbn [line_break p_match]. pose proof (compares_at [13; 10] s e T) as C. cbn [length Nat.sub] in C. rewrite C by (try discriminate; repeat constructor; lia).
      pose proof (compares_at [10] s e T) as C2. cbn [length Nat.sub] in C2. rewrite Nat.add_0_r in C2. cbn [obind]. unfold prefix_fn. cbn [length]. destruct (list_eq_dec _ _ [13; 10]); [eexists; split; [reflexivity|]; split; [exact W|]; split; [reflexivity|exact W]|].
      rewrite C2 by (try discriminate; repeat constructor; lia). cbn [obind]. destruct (list_eq_dec _ _ [10]); (eexists; split; [reflexivity|]; split; [exact W|]; try split; try reflexivity; exact W).
    + intros s e fl x T E. unfold prefix_fn in E. destruct (list_eq_dec _ _ [13; 10]) as [Q|Q]; [|destruct (list_eq_dec _ _ [10]) as [Q2|Q2]; [|discriminate]]; injection E as <-.
      * apply (f_equal (@length Z)) in Q. rewrite firstn_length in Q. cbn [length] in *. lia.
      * apply (f_equal (@length Z)) in Q2. rewrite firstn_length in Q2. cbn [length] in *. lia.
  - intros s e fl T. unfold prefix_fn. destruct (vis txt s e) as [|c [|d v]]; cbn [length firstn].
    + destruct (list_eq_dec _ _ [13; 10]); [discriminate|]. destruct (list_eq_dec _ _ [10]); [discriminate|reflexivity].
    + destruct (list_eq_dec _ _ [13; 10]); [discriminate|]. destruct (list_eq_dec _ _ [10]) as [Q|Q], (c =? 10) eqn:E; try reflexivity; [injection Q as Q; lia|exfalso; apply Q; f_equal; lia].
    + destruct (list_eq_dec _ _ [13; 10]) as [Q|Q].
      * injection Q as -> ->. reflexivity.
      * replace ((c =? 13) && (d =? 10)) with false. 2: { symmetry. apply not_true_iff_false. intros X. apply andb_true_iff in X as [A B]. apply Q. f_equal; [lia|f_equal; lia]. }
        destruct (list_eq_dec _ _ [10]) as [Q2|Q2], (c =? 10) eqn:E; try reflexivity; [injection Q2 as Q2; lia|exfalso; apply Q2; f_equal; lia].
Qed.
End Parsers.

(** ** The lines of a signature file *)
Definition skipped (line : list Z) : Prop := line = [] \/ exists r, line = untrusted ++ r.
(** the first line that is neither empty nor an untrusted comment, and what follows; lines end with LF or CR LF *)
Inductive sig_line : list Z -> list Z -> list Z -> Prop :=
| sl_skip : forall l text line rest, ~ In 10 l -> skipped (drop_cr l) -> sig_line text line rest -> sig_line (l ++ 10 :: text) line rest
| sl_here : forall l rest, ~ In 10 l -> ~ skipped (drop_cr l) -> sig_line (l ++ 10 :: rest) (drop_cr l) rest.
(** what a line decodes to (C09) *)
Definition decoded (line : list Z) : list Z := fst (dec_session dec_new [line] []).

Lemma dec_once : forall line, decoded line = snd (fst (dec_decode dec_new [] line)).
Proof. intros. unfold decoded. cbn [dec_session]. destruct (dec_decode dec_new [] line) as [[s o] b]. destruct b; reflexivity. Qed.

Section Minisig.
Context {St : Type} (D : dev St) (Inv : St -> Prop) (left : St -> list Z) (SRC : source D Inv left) (NF : never_fails D Inv).

Lemma readln_more : forall f s w i c p str r, readln_loop D f s w i c p str = Ret r -> forall k, readln_loop D (f + k) s w i c p str = Ret r.
Proof.
  induction f; intros s w i c p str r H k; [discriminate|]. cbn [readln_loop Nat.add] in *. destruct (read_array D s w 1) as [[[s' b] n]| |]; cbn [obind] in *; try discriminate. destruct (_ && _); auto.
Qed.
Lemma line_cases : forall l, existsb (Z.eqb 10) l = true -> exists a r, l = a ++ 10 :: r /\ ~ In 10 a /\ before_lf l = a.
Proof.
  induction l as [|c l IH]; intros H; [discriminate|]. cbn [existsb before_lf] in *. destruct (c =? 10) eqn:E.
  - exists [], l. replace c with 10 by lia. auto.
  - replace (10 =? c) with false in H by lia. cbn [orb] in H. destruct (IH H) as (a & r & -> & N & B). exists (c :: a), r. split; auto. split; [|congruence]. intros [Q|Q]; [lia|auto].
Qed.
Lemma app_lf : forall (a b r1 r2 : list Z), ~ In 10 a -> ~ In 10 b -> a ++ 10 :: r1 = b ++ 10 :: r2 -> a = b /\ r1 = r2.
Proof.
  induction a as [|x a IH]; intros [|y b] r1 r2 A B E; cbn [app] in E.
  - injection E as ->. auto.
  - injection E as <- _. exfalso. apply B. left. reflexivity.
  - injection E as -> _. exfalso. apply A. left. reflexivity.
  - injection E as -> E. destruct (IH b r1 r2) as [-> ->]; auto; intros Q; [apply A|apply B]; right; exact Q.
Qed.
Lemma no_lf : forall l a r, existsb (Z.eqb 10) l = false -> l <> a ++ 10 :: r.
Proof. intros l a r H ->. rewrite existsb_app in H. cbn [existsb] in H. change (10 =? 10) with true in H. rewrite orb_true_l, orb_true_r in H. discriminate. Qed.
Lemma skipped_dec : forall line, {skipped line} + {~ skipped line}.
Proof.
  intros line. destruct line as [|c l]; [left; left; reflexivity|]. destruct (list_eq_dec Z.eq_dec (firstn (length untrusted) (c :: l)) untrusted) as [E|E].
  - left. right. apply prefix_iff. exact E.
  - right. intros [Q|Q]; [discriminate|]. apply prefix_iff in Q. auto.
Qed.
(** what sig_line says is unique *)
Lemma sig_line_fun : forall t l r, sig_line t l r -> forall l' r', sig_line t l' r' -> l = l' /\ r = r'.
Proof.
  intros t l r H. induction H as [a text line rest N Sk H IH|a rest N Sk]; intros l' r' H'.
  - remember (a ++ 10 :: text) as t eqn:E. destruct H' as [a' text' line' rest' N' Sk' H'|a' rest' N' Sk']; destruct (app_lf _ _ _ _ N' N E) as [-> ->]; auto. exfalso. auto.
  - remember (a ++ 10 :: rest) as t eqn:E. destruct H' as [a' text' line' rest' N' Sk' H'|a' rest' N' Sk']; destruct (app_lf _ _ _ _ N' N E) as [-> ->]; auto. exfalso. auto.
Qed.
Lemma compares_raw : forall pat l pre, (length pat <= length l)%nat -> compares pat (pre ++ l) (length pre) = Ret (if list_eq_dec Z.eq_dec (firstn (length pat) l) pat then true else false).
Proof.
  induction pat as [|p pat IH]; intros l pre L; [reflexivity|]. destruct l as [|c l]; [cbn in L; lia|]. cbn [compares length firstn]. cbn [length] in L.
  unfold rd. rewrite nth_error_app2, Nat.sub_diag by lia. cbn [nth_error obind]. destruct (c =? p) eqn:E.
  - specialize (IH l (pre ++ [c]) ltac:(lia)). rewrite <- app_assoc, app_length in IH. cbn [app length] in IH. rewrite Nat.add_1_r in IH. rewrite IH. replace c with p by lia. do 2 destruct (list_eq_dec _ _ _); try reflexivity; congruence.
  - destruct (list_eq_dec _ _ _) as [Q|Q]; [injection Q as Q _; lia|reflexivity].
Qed.
Lemma skip_test : forall line,
  (match line with [] => Ret true | _ => let* (_, b) := p_match (untrusted_comment line) (new_pst [] []) 0 (length line) (PFlags false false) in Ret b end) = Ret (if skipped_dec line then true else false).
Proof.
  intros line. destruct line as [|c l]. { destruct (skipped_dec []) as [H|H]; [reflexivity|exfalso; apply H; left; reflexivity]. }
  set (line := c :: l) in *. cbn [untrusted_comment p_match]. destruct (0 + 17 <? length line)%nat eqn:L.
  - pose proof (compares_raw untrusted line [] ltac:(change (length untrusted) with 18%nat; lia)) as C. cbn [app length] in C. rewrite C. cbn [obind]. change (S (S (S (S (S (S (S (S (S (S (S (S (S (S (S (S (S (S O)))))))))))))))))) with (length untrusted). destruct (list_eq_dec _ _ _) as [Q|Q]; cbn [obind]; destruct (skipped_dec line) as [H|H]; try reflexivity; exfalso.
    + apply H. right. apply prefix_iff. exact Q.
    + destruct H as [H|H]; [discriminate|]. apply prefix_iff in H. auto.
  - cbn [obind]. destruct (skipped_dec line) as [H|H]; [exfalso|reflexivity]. destruct H as [H|(r & H)]; [discriminate|]. apply (f_equal (@length Z)) in H. rewrite app_length in H. change (length untrusted) with 18%nat in H. lia.
Qed.

(** the data found: that of the first line with a line end that is not skipped *)
Lemma minisig_data_spec : forall n s, Inv s -> (length (left s) < n)%nat -> Forall (fun c => 0 <= c < 256) (left s) ->
  exists fuel rf s' data, minisig_data D fuel rf s = Ret (s', data) /\ Inv s' /\
    ((exists line, sig_line (left s) line (left s') /\ data = decoded line) \/ ((forall l r, ~ sig_line (left s) l r) /\ data = [])) /\
    forall k j, minisig_data D (fuel + k) (rf + j) s = Ret (s', data).
Proof.
  induction n; intros s I L B; [lia|]. destruct (readln_spec D Inv left SRC NF s [] I B) as (f & s' & E & I' & Ls & Sta). cbn [app] in E.
  assert (EM : forall k, readln_and_attach D (f + k) s 1 [] = Ret (s', line_of (left s))) by (intros k; unfold readln_and_attach in *; apply readln_more; exact E).
  destruct (existsb (Z.eqb 10) (left s)) eqn:X.
  - destruct (line_cases _ X) as (a & r & El & N & BL). unfold line_of in E, EM. rewrite X, BL in E, EM. rewrite BL, El in Ls.
    assert (Lr : left s' = r). { rewrite Ls. clear. induction a; auto. }
    destruct (skipped_dec (drop_cr a)) as [Sk|Sk].
    + assert (Br : Forall (fun c => 0 <= c < 256) (left s')). { rewrite Lr. rewrite El in B. apply Forall_app in B as [_ B]. inversion B; auto. }
      destruct (IHn s' I' ltac:(rewrite Lr; rewrite El, app_length in L; cbn [length] in L; lia) Br) as (fu & rf & s2 & data & Ed & I2 & Cs & Mo).
      assert (G : forall k j, minisig_data D (S fu + k) (f + rf + j) s = Ret (s2, data)).
      { intros k j. cbn [minisig_data Nat.add]. replace (f + rf + j)%nat with (f + (rf + j))%nat by lia. rewrite EM. cbn [obind]. unfold d_ok. rewrite Sta. cbn [is_ok negb]. rewrite skip_test. destruct (skipped_dec (drop_cr a)); [|contradiction]. cbn [obind].
        replace (f + (rf + j))%nat with (rf + (f + j))%nat by lia. apply Mo. }
      exists (S fu), (f + rf)%nat, s2, data. split. { specialize (G 0%nat 0%nat). rewrite !Nat.add_0_r in G. exact G. } split; auto. split; [|exact G].
      rewrite Lr in Cs. rewrite El. destruct Cs as [(line & Hl & ->)|[Hn ->]].
      * left. exists line. split; auto. constructor; auto.
      * right. split; auto. intros l q Y. remember (a ++ 10 :: r) as t eqn:Et. destruct Y as [a' text' line' rest' N' Sk' H'|a' rest' N' Sk']; destruct (app_lf _ _ _ _ N' N Et) as [-> ->]; [eapply Hn; eauto|auto].
    + assert (G : forall k j, minisig_data D (1 + k) (f + j) s = Ret (s', decoded (drop_cr a))).
      { intros k j. cbn [minisig_data Nat.add]. rewrite EM. cbn [obind]. unfold d_ok. rewrite Sta. cbn [is_ok negb]. rewrite skip_test. destruct (skipped_dec (drop_cr a)); [contradiction|]. cbn [obind]. rewrite dec_once. destruct (dec_decode dec_new [] (drop_cr a)) as [[x y] z]. reflexivity. }
      exists 1%nat, f, s', (decoded (drop_cr a)). split. { specialize (G 0%nat 0%nat). rewrite !Nat.add_0_r in G. exact G. } split; auto. split; [|exact G].
      left. exists (drop_cr a). rewrite El, Lr. split; auto. apply sl_here; auto.
  - assert (G : forall k j, minisig_data D (1 + k) (f + j) s = Ret (s', [])).
    { intros k j. cbn [minisig_data Nat.add]. rewrite EM. cbn [obind]. unfold d_ok. rewrite Sta. reflexivity. }
    exists 1%nat, f, s', []. split. { specialize (G 0%nat 0%nat). rewrite !Nat.add_0_r in G. exact G. } split; auto. split; [|exact G].
    right. split; auto. intros l r Y. destruct Y; eapply no_lf; eauto.
Qed.

(** C233: parse_minisig gives the fields of what the first line that is no comment decodes to, and leaves the stream behind
    that line; it throws exactly when there is no such line, or it is too short or not marked. *)
Definition valid_sig (data : list Z) : Prop := (74 <= length data)%nat /\ nth 0 data 0 = 69.
Theorem parse_minisig_spec : forall s, Inv s -> Forall (fun c => 0 <= c < 256) (left s) -> exists fuel rf,
  (forall line rest, sig_line (left s) line rest -> valid_sig (decoded line) ->
     exists s' algorithm key signature more, parse_minisig D fuel rf s = Ret (s', algorithm, key, signature) /\ Inv s' /\ left s' = rest /\
       decoded line = 69 :: algorithm :: key ++ signature ++ more /\ length key = 8%nat /\ length signature = 64%nat) /\
  ((forall line rest, sig_line (left s) line rest -> ~ valid_sig (decoded line)) -> parse_minisig D fuel rf s = Throw).
Proof.
  intros s I B. destruct (minisig_data_spec (S (length (left s))) s I ltac:(lia) B) as (fuel & rf & s' & data & E & I' & Cs & _). exists fuel, rf. unfold parse_minisig. rewrite E. cbn [obind]. split.
  - intros line rest SL [V1 V2]. destruct Cs as [(l2 & SL2 & ->)|[N _]]; [|exfalso; eapply N; eauto]. destruct (sig_line_fun _ _ _ SL _ _ SL2) as [<- ->]. replace (length (decoded line) <? 74)%nat with false by lia. rewrite V2. cbn [Z.eqb Pos.eqb negb].
    set (d := decoded line) in *. clearbody d. destruct d as [|a [|b d]]; [cbn in V1; lia|cbn in V1; lia|]. cbn [nth] in V2. subst a. cbn [length] in V1.
    exists s', b, (firstn 8 d), (firstn 64 (skipn 8 d)), (skipn 64 (skipn 8 d)). split; [reflexivity|]. split; auto. split; auto. split.
    + do 2 f_equal. rewrite firstn_skipn. symmetry. apply firstn_skipn.
    + pose proof (skipn_length 8 d) as SK. rewrite !firstn_length, SK. lia.
  - intros N. destruct Cs as [(l2 & SL2 & ->)|[_ ->]].
    + specialize (N _ _ SL2). unfold valid_sig in N. destruct (length (decoded l2) <? 74)%nat eqn:L; [reflexivity|]. destruct (nth 0 (decoded l2) 0 =? 69) eqn:Q; [|reflexivity]. exfalso. apply N. split; lia.
    + reflexivity.
Qed.
End Minisig.

(** C234: a file as minisign writes it *)
Theorem minisig_file : forall comment alg key sig line more, ~ In 10 comment -> ~ In 10 line -> ~ In 13 (firstn 1 (rev line)) -> ~ In 13 (firstn 1 (rev comment)) -> ~ In 0 line ->
  Forall (fun c => 0 <= c < 256) (comment ++ line ++ more) -> bytes (69 :: alg :: key ++ sig) -> length key = 8%nat -> length sig = 64%nat ->
  filter is_b64 line = rfc4648 (69 :: alg :: key ++ sig) -> ~ skipped line ->
  exists fuel rf s', parse_minisig array_dev fuel rf (untrusted ++ comment ++ 10 :: line ++ 10 :: more, StOk) = Ret (s', alg, key, sig) /\ fst s' = more.
Proof.
  intros comment alg key sig line more C10 L10 L13 C13 L0 B BD LK LS F SK.
  assert (DC : forall l, ~ In 13 (firstn 1 (rev l)) -> drop_cr l = l). { intros l H. unfold drop_cr. destruct (rev l) as [|c r]; auto. destruct (c =? 13) eqn:E; auto. exfalso. apply H. left. lia. }
  assert (DD : decoded line = 69 :: alg :: key ++ sig). { unfold decoded. rewrite (base64_decode_inverts (69 :: alg :: key ++ sig) [line]); auto; cbn [concat]; rewrite app_nil_r; auto. }
  assert (SL : sig_line (untrusted ++ comment ++ 10 :: line ++ 10 :: more) line more).
  { rewrite app_assoc. constructor.
    - intros X. apply in_app_or in X as [X|X]; auto. unfold untrusted in X. cbn in X. lia.
    - right. exists comment. apply DC. rewrite rev_app_distr. destruct (rev comment) as [|c r] eqn:R; [|exact C13]. cbn. lia.
    - rewrite <- (DC line L13) at 2. apply sl_here; auto. rewrite DC; auto. }
  assert (B' : Forall (fun c => 0 <= c < 256) (untrusted ++ comment ++ 10 :: line ++ 10 :: more)).
  { apply Forall_app in B as [B1 B]. apply Forall_app in B as [B2 B3]. apply Forall_app. split; [unfold untrusted; repeat constructor; lia|]. apply Forall_app. split; auto. constructor; [lia|]. apply Forall_app. split; auto. constructor; [lia|auto]. }
  destruct (parse_minisig_spec array_dev (fun _ => True) fst array_source array_never_fails (untrusted ++ comment ++ 10 :: line ++ 10 :: more, StOk) Logic.I B') as (fuel & rf & P & _).
  destruct (P line more SL) as (s' & a & k & g & m & E & _ & Lf & D & Lk & Lg).
  { split; rewrite DD; [cbn [length]; rewrite app_length; lia|reflexivity]. }
  exists fuel, rf, s'. split; auto. rewrite E. rewrite DD in D. injection D as <- D.
  assert (K : k = key). { apply (f_equal (firstn 8)) in D. rewrite !firstn_app, LK, Lk, Nat.sub_diag in D. rewrite (firstn_all2 key), (firstn_all2 k) in D by lia. cbn [firstn] in D. rewrite !app_nil_r in D. congruence. } subst k.
  apply app_inv_head in D. assert (G : g = sig). { apply (f_equal (firstn 64)) in D. rewrite firstn_app, Lg, Nat.sub_diag in D. rewrite (firstn_all2 sig), (firstn_all2 g) in D by lia. cbn [firstn] in D. rewrite app_nil_r in D. congruence. } subst g. reflexivity.
Qed.
(** Refuted without the last line end: a file that ends with the line of the signature is rejected, whatever it is. *)
Theorem minisig_unterminated_refuted : forall line, Forall (fun c => 0 <= c < 256) line -> ~ In 10 line ->
  exists fuel rf, parse_minisig array_dev fuel rf (untrusted ++ 10 :: line, StOk) = Throw.
Proof.
  intros line B N. assert (B' : Forall (fun c => 0 <= c < 256) (untrusted ++ 10 :: line)). { apply Forall_app. split; [unfold untrusted; repeat constructor; lia|]. constructor; [lia|auto]. }
  destruct (parse_minisig_spec array_dev (fun _ => True) fst array_source array_never_fails (untrusted ++ 10 :: line, StOk) Logic.I B') as (fuel & rf & _ & P). exists fuel, rf. apply P.
  intros l r H. exfalso. assert (Q : existsb (Z.eqb 10) line = false). { apply not_true_iff_false. intros X. apply existsb_exists in X as (x & A & E). apply N. replace 10 with x by lia. exact A. }
  assert (U : ~ In 10 untrusted) by (unfold untrusted; cbn; lia). cbn [fst] in H. remember (untrusted ++ 10 :: line) as t eqn:E. destruct H as [a text l r Na Sk H|a r Na Sk].
  - destruct (app_lf _ _ _ _ Na U E) as [-> ->]. destruct H; eapply no_lf; eauto.
  - destruct (app_lf _ _ _ _ Na U E) as [-> ->]. apply Sk. right. exists []. reflexivity.
Qed.

(** not vacuous: a file with a comment, the line of the signature and a trusted comment *)
Definition sample_key : list Z := [1; 2; 3; 4; 5; 6; 7; 8].
Definition sample_sig : list Z := map (fun k => 100 + Z.of_nat k) (seq 0 64).
Definition sample_line : list Z := [82; 87; 81; 66; 65; 103; 77; 69; 66; 81; 89; 72; 67; 71; 82; 108; 90; 109; 100; 111; 97; 87; 112; 114; 98; 71; 49; 117; 98; 51; 66; 120; 99; 110; 78; 48; 100; 88; 90; 51; 101; 72; 108; 54; 101; 51; 120; 57; 102; 110; 43; 65; 103; 89; 75; 68; 104; 73; 87; 71; 104; 52; 105; 74; 105; 111; 117; 77; 106; 89; 54; 80; 107; 74; 71; 83; 107; 53; 83; 86; 108; 112; 101; 89; 109; 90; 113; 98; 110; 74; 50; 101; 110; 54; 67; 104; 111; 113; 77; 61].
Example sample_minisig :
  filter is_b64 sample_line = rfc4648 (69 :: 100 :: sample_key ++ sample_sig) /\ ~ skipped sample_line /\
  (exists s', parse_minisig array_dev 5 1000 (untrusted ++ [32; 120; 10] ++ sample_line ++ [10; 116], StOk) = Ret (s', 100, sample_key, sample_sig) /\ fst s' = [116]).
Proof.
  split; [vm_compute; reflexivity|]. split. { intros [H|(r & H)]; discriminate. }
  eexists. split; [vm_compute; reflexivity|reflexivity].
Qed.
