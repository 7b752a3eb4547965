(** Roman numerals (property C112): every positive number's usual numeral is matched whole, with that value. *)
From Coq Require Import ZifyBool ZifyNat.
From Verif Require Import Base StringModel StringSpec StringProofs ParserModel ParserSpec ParserProps ParserEx ParserNumModel ParserNumProps ParserInt ParserPeg RomanSpec RomanProps.
Ltac Zify.zify_post_hook ::= Z.div_mod_to_equations.

(** ** the usual numeral is one *)
Definition place_tokens (one five ten : Z) (k : Z) : list token :=
  match k with
  | 1 => [One one] | 2 => [One one; One one] | 3 => [One one; One one; One one] | 4 => [Two one five]
  | 5 => [One five] | 6 => [One five; One one] | 7 => [One five; One one; One one] | 8 => [One five; One one; One one; One one] | 9 => [Two one ten]
  | _ => []
  end.
Definition low_tokens (m : Z) : list token := place_tokens 100 500 1000 (m / 100 mod 10) ++ place_tokens 10 50 100 (m / 10 mod 10) ++ place_tokens 1 5 10 (m mod 10).
Definition low_digits (m : Z) : list Z := places 100 500 1000 (m / 100 mod 10) ++ places 10 50 100 (m / 10 mod 10) ++ places 1 5 10 (m mod 10).
Fixpoint chainb (ts : list token) : bool := match ts with t :: (u :: _) as r => (tok_big u <=? tok_value t) && chainb r | _ => true end.
Definition tok_okb (t : token) : bool := match t with One d => existsb (Z.eqb d) roman_digits | Two a b => existsb (Z.eqb a) [1; 10; 100; 1000] && ((b =? 5 * a) || (b =? 10 * a)) end.
Fixpoint four_free (l : list Z) : bool := match l with a :: (b :: c :: d :: _) as r => negb ((a =? b) && (b =? c) && (c =? d)) && four_free r | _ => true end.
Fixpoint zlist_eqb (a b : list Z) : bool := match a, b with [], [] => true | x :: r, y :: q => (x =? y) && zlist_eqb r q | _, _ => false end.
Definition low_good (m : Z) : bool :=
  chainb (One 1000 :: low_tokens m) && forallb tok_okb (low_tokens m) && four_free (low_digits m) && zlist_eqb (flat (low_tokens m)) (low_digits m) && (total (low_tokens m) =? m).
Lemma low_all : forallb low_good (map Z.of_nat (seq 0 1000)) = true.
Proof. vm_compute. reflexivity. Qed.
Lemma chainb_ok : forall ts, chainb ts = true -> chain ts.
Proof. induction ts as [|t ts IH]; intros H; [exact I|]. destruct ts as [|u ts]; [exact I|]. change ((tok_big u <=? tok_value t) && chainb (u :: ts) = true) in H. apply andb_true_iff in H as [H1 H2]. split; [lia|apply IH; auto]. Qed.
Lemma tok_okb_ok : forall t, tok_okb t = true -> tok_ok t.
Proof. intros [d|a b] H; cbn in H |- *; [lia|]. split; lia. Qed.
Lemma four_free_ok : forall p x q, four_free (p ++ x :: x :: x :: x :: q) = false.
Proof.
  induction p as [|a p IH]; intros x q; cbn [app four_free].
  - rewrite !Z.eqb_refl. reflexivity.
  - specialize (IH x q). destruct p as [|b [|c [|d p]]]; cbn [app] in *; rewrite IH, andb_false_r; reflexivity.
Qed.
Lemma zlist_eqb_ok : forall a b, zlist_eqb a b = true -> a = b.
Proof. induction a as [|x a IH]; intros [|y b] H; cbn [zlist_eqb] in H; try discriminate; auto. apply andb_true_iff in H as [H1 H2]. f_equal; [lia|auto]. Qed.
Lemma low_spec : forall m, 0 <= m < 1000 -> chain (One 1000 :: low_tokens m) /\ Forall tok_ok (low_tokens m) /\ four_free (low_digits m) = true /\ flat (low_tokens m) = low_digits m /\ total (low_tokens m) = m.
Proof.
  intros m H. assert (L : low_good m = true). { pose proof low_all as A. rewrite forallb_forall in A. apply A. apply in_map_iff. exists (Z.to_nat m). split; [lia|]. apply in_seq. lia. }
  unfold low_good in L. rewrite !andb_true_iff in L. destruct L as ((((L1 & L2) & L3) & L4) & L5). split; [apply chainb_ok; auto|]. split; [rewrite forallb_forall in L2; apply Forall_forall; intros t Ht; apply tok_okb_ok; auto|]. split; auto. split; [apply zlist_eqb_ok; auto|lia].
Qed.
Definition all_tokens (n : Z) : list token := repeat (One 1000) (Z.to_nat (n / 1000)) ++ low_tokens (n mod 1000).
Lemma numeral_low : forall n, 0 <= n -> numeral_of n = repeat 1000 (Z.to_nat (n / 1000)) ++ low_digits (n mod 1000).
Proof.
  intros n H. unfold numeral_of, low_digits. replace (n mod 1000 / 100 mod 10) with (n / 100 mod 10) by lia. replace (n mod 1000 / 10 mod 10) with (n / 10 mod 10) by lia. replace ((n mod 1000) mod 10) with (n mod 10) by lia. reflexivity.
Qed.
Theorem numeral_roman : forall n, 0 <= n -> roman (numeral_of n) /\ roman_value (numeral_of n) = n.
Proof.
  intros n H. destruct (low_spec (n mod 1000) ltac:(lia)) as (C & F & Q & E & T). set (k := Z.to_nat (n / 1000)).
  assert (Ef : flat (all_tokens n) = numeral_of n). { rewrite numeral_low by auto. unfold all_tokens, flat. rewrite flat_map_app. fold (flat (low_tokens (n mod 1000))). rewrite E. f_equal. fold k. clear. induction k; cbn [repeat flat_map tok_digits app]; congruence. }
  assert (Fo : Forall tok_ok (all_tokens n)). { unfold all_tokens. apply Forall_app. split; auto. apply Forall_forall. intros t Ht. apply repeat_spec in Ht. subst t. cbn. lia. }
  assert (Ch : chain (all_tokens n)). { unfold all_tokens. fold k. clear - C. destruct k as [|k]; cbn [repeat app]; [destruct (low_tokens (n mod 1000)); [exact I|apply C]|]. induction k as [|k IH]; [exact C|]. cbn [repeat app] in *. cbn [chain]. split; [cbn; lia|exact IH]. }
  split.
  - exists (all_tokens n). split; auto. split; auto. split; auto. rewrite numeral_low by auto. fold k. intros p x q Ex.
    assert (X : x = 1000 /\ (0 < k)%nat). { clear - Q Ex. revert p Ex. induction k as [|k IH]; intros p Ex; cbn [repeat app] in Ex. { rewrite Ex, four_free_ok in Q. discriminate. } destruct p as [|a p]; cbn [app] in Ex; [injection Ex as <-; split; [reflexivity|lia]|]. injection Ex as <- Ex. destruct (IH p Ex). split; [auto|lia]. }
    destruct X as [-> X]. destruct k; [lia|]. reflexivity.
  - rewrite <- Ef, total_value by auto. unfold all_tokens. fold k. assert (total (repeat (One 1000) k ++ low_tokens (n mod 1000)) = 1000 * Z.of_nat k + n mod 1000). { clear - T. induction k as [|k IH]; cbn [repeat app]; [rewrite T; lia|]. cbn [total fold_right tok_value]. unfold total in IH. rewrite IH. lia. } unfold k in *. lia.
Qed.

(** ** the letters I V X L C D M *)
Definition letters : list (Z * Z) := [(1, 73); (5, 86); (10, 88); (50, 76); (100, 67); (500, 68); (1000, 77)].
Definition letter (d : Z) : Z := snd (nth (pos_of d (map fst letters)) letters (0, 0)).
Definition letter_parsers (txt : list Z) (tolow : Z -> Z) : list (Z * pcls) := map (fun p => (fst p, cu txt tolow (snd p) false)) letters.
Lemma letter_digit : forall d, In d (map fst letters) -> existsb (Z.eqb (letter d)) (map snd letters) = true /\ nth (pos_of (letter d) (map snd letters)) (map fst letters) 0 = d.
Proof. intros d H. cbn in H. repeat (destruct H as [<-|H]; [split; reflexivity|]). destruct H. Qed.
Lemma numeral_letters : forall n d, In d (numeral_of n) -> In d (map fst letters).
Proof.
  intros n d H. unfold numeral_of in H. rewrite !in_app_iff in H. destruct H as [H|H]; [apply repeat_spec in H; subst; cbn; auto 10|].
  assert (X : forall a b c k, In d (places a b c k) -> d = a \/ d = b \/ d = c). { intros a b c k X. unfold places in X. destruct k as [|p|]; try destruct X. destruct p as [p|p|]; try destruct p as [p|p|]; try destruct p as [p|p|]; try destruct p as [p|p|]; cbn in X; intuition auto. }
  destruct H as [H|[H|H]]; apply X in H; cbn; intuition auto.
Qed.
(** Wherever the usual numeral of a number stands in letters, and no letter follows, the parser matches it and has that value. *)
Theorem roman_text : forall txt tolow, Z.of_nat (length txt) * 10000 < M64 ->
  exists wf f g, element txt (roman_numeral txt (letter_parsers txt tolow)) wf f g /\
  forall s e fl n rest, text_ok txt s e -> fl_ci fl = false -> 0 < n -> vis txt s e = map letter (numeral_of n) ++ rest ->
    (forall c r, rest = c :: r -> ~ In c (map snd letters)) ->
    f s e fl = Some (s + length (numeral_of n))%nat /\ g s e fl = [n].
Proof.
  intros txt tolow Len. set (es := map (fun p => (fst p, cu_spec_of txt tolow (snd p))) letters).
  assert (Ok : r_ok txt es). { unfold r_ok, es. rewrite !Forall_map. cbn [fst snd]. pose proof (cus_good txt tolow (map snd letters)) as G. pose proof (cus_advance txt tolow (map snd letters)) as A. rewrite !Forall_map in G, A. split; [exact G|]. split; [exact A|]. unfold letters. repeat (constructor; [cbn; lia|]). constructor. }
  destruct (roman_spec txt es Ok Len) as (f & g & El & _ & Sp). exists (roman_wf es), f, g. split; [exact El|].
  intros s e fl n rest H Hc Hn V Hr. destruct (numeral_roman n ltac:(lia)) as [Rm Rv].
  assert (Fs : r_fs es = map es_f (map (cu_spec_of txt tolow) (map snd letters))) by reflexivity.
  assert (Vals : map fst es = map fst letters) by reflexivity.
  assert (Fold : forall l, map (fold_of tolow fl) l = l) by (intros l; unfold fold_of; rewrite Hc; apply map_id).
  set (idx := fun d => pos_of (letter d) (map snd letters)).
  assert (D : forall ds s, text_ok txt s e -> (forall d, In d ds -> In d (map fst letters)) -> vis txt s e = map letter ds ++ rest -> digits_read (r_fs es) (map idx ds) s (s + length ds) e fl /\ branch_fn (r_fs es) (s + length ds) e fl = None).
  { clear - Fs Fold Hr Hc. induction ds as [|d ds IH]; intros s H Hd V; cbn [map app length digits_read] in *.
    - rewrite Nat.add_0_r. split; auto. rewrite Fs, cus_branch, Fold. rewrite V. destruct rest as [|c r]; auto. destruct (existsb _ _) eqn:X; auto. exfalso. apply existsb_exists in X as (y & Y & X). apply (Hr c r eq_refl). unfold fold_of in X. rewrite Hc in X. replace c with y by lia. exact Y.
    - destruct (vis_cons txt s e _ _ H V) as (_ & H' & V' & _). destruct (IH (S s) H' (fun x h => Hd x (or_intror h)) V') as [D N]. rewrite Nat.add_succ_r. rewrite Nat.add_succ_l in D, N. split; auto. exists (S s). destruct (letter_digit d (Hd d (or_introl eq_refl))) as [Hx _]. rewrite Fs. rewrite cus_branch, (cus_first txt tolow _ s e fl _ _ V), Fold. rewrite V. unfold fold_of. rewrite Hc, Hx. split; auto. }
  destruct (D (numeral_of n) s H (numeral_letters n) V) as [D1 N1].
  assert (Vo : vals_of es (map idx (numeral_of n)) = numeral_of n). { unfold vals_of. rewrite map_map. rewrite <- map_id. apply map_ext_in. intros d Hd. unfold r_val. rewrite Vals. apply letter_digit. apply (numeral_letters n d Hd). }
  assert (S1 : roman_stop es (vals_of es (map idx (numeral_of n))) (s + length (numeral_of n)) e fl) by (intros z Bz; congruence).
  specialize (Sp s e fl H). destruct (f s e fl) as [y|].
  - destruct Sp as (is & _ & D2 & R2 & S2 & G). destruct (longest_unique es is (map idx (numeral_of n)) s y _ e fl D2 R2 S2 D1) as [-> ->]; auto; [rewrite Vo; auto|]. rewrite G, Vo, Rv. auto.
  - exfalso. destruct (numeral_of n) as [|d l] eqn:En; [cbn in Rv; lia|]. cbn [map digits_read] in D1. destruct D1 as (x & B & _). congruence.
Qed.

(** concrete cases: MCMXCIV and a terminator; IXI is taken whole as 10; of XIIII only XIII is *)
Definition rx (ls : list Z) : list Z := ls ++ [0].
Example roman_1994 :
  exists ks, run (roman_numeral (rx [77; 67; 77; 88; 67; 73; 86]) (letter_parsers (rx [77; 67; 77; 88; 67; 73; 86]) ex_low)) 0 100 no_fl = Ret (Some (0, 7)%nat, [1994], ks).
Proof. eexists. reflexivity. Qed.
Example roman_odd : (exists ks, run (roman_numeral (rx [73; 88; 73]) (letter_parsers (rx [73; 88; 73]) ex_low)) 0 100 no_fl = Ret (Some (0, 3)%nat, [10], ks)) /\
  (exists ks, run (roman_numeral (rx [88; 73; 73; 73; 73]) (letter_parsers (rx [88; 73; 73; 73; 73]) ex_low)) 0 100 no_fl = Ret (Some (0, 4)%nat, [13], ks)).
Proof. split; eexists; reflexivity. Qed.
Print Assumptions roman_spec.
Print Assumptions roman_text.
Print Assumptions numeral_roman.
