(** Properties C66 and C114: concrete cases, and the overrun. *)
From Coq Require Import ZifyBool ZifyNat.
From Verif Require Import Base StringModel StringSpec ParserModel ParserSpec ParserProps ParserNumModel ParserNumProps ParserPeg ParserInt ParserIpModel ParserRefModel ParserRefSpec ParserRefNum ParserRef ParserRef2 ParserEx.

Definition ex_up (c : Z) : Z := if (97 <=? c) && (c <=? 122) then c - 32 else c.
Definition blank (t : list Z) : option espec := Some (cu_spec_of t ex_low 32).
Lemma blank_good : forall t, o_good t (blank t).
Proof. intros t. pose proof (cus_good t ex_low [32]) as X. inversion X. auto. Qed.
Lemma blank_advances : forall t, advances t (o_f (blank t)).
Proof. intros t. pose proof (cus_advance t ex_low [32]) as X. inversion X. auto. Qed.
(** The theorems for parsers with a plain blank between the groups *)
Theorem iban_plain : forall t,
  iban_wf (blank t) (p_init (iban t ex_up (o_P (blank t)))) /\
  forall st s e fl, iban_wf (blank t) st -> text_ok t s e -> exists st' r, p_match (iban t ex_up (o_P (blank t))) st s e fl = Ret (st', r) /\ iban_wf (blank t) st' /\
   (r = true <-> exists d k l cs y, iban_at t ex_up (o_f (blank t)) e fl d k l cs s y) /\
   (r = false -> iv st' = no_iv /\ iban_country st' = [] /\ iban_check st' = [] /\ iban_bban st' = [] /\ iban_valid st' = false) /\
   (forall d k l cs y, iban_at t ex_up (o_f (blank t)) e fl d k l cs s y ->
      iv st' = (s, y) /\ iban_country st' = [c0 d; c1 d] /\ iban_check st' = [k; l] /\ iban_bban st' = cs /\
      (iban_valid st' = true <-> iso_number (cs ++ [c0 d; c1 d; k; l]) mod 97 = 1)).
Proof. intros t. exact (iban_spec t ex_up (blank t) (blank_good t) (blank_advances t)). Qed.

(** "GB82 WEST 1234 5698 7654 32x": valid; the last unit is not taken *)
Definition ex_iban : list Z := [71; 66; 56; 50; 32; 87; 69; 83; 84; 32; 49; 50; 51; 52; 32; 53; 54; 57; 56; 32; 55; 54; 53; 52; 32; 51; 50; 120; 0].
Definition run_iban (t : list Z) : outcome (nat * nat * bool * list Z * list Z * list Z * bool) :=
  let* (st, b) := p_match (iban t ex_up (o_P (blank t))) (p_init (iban t ex_up (o_P (blank t)))) 0 100 no_fl in Ret (iv st, b, iban_country st, iban_check st, iban_bban st, iban_valid st).
Example ex_iban_yes : run_iban ex_iban = Ret ((0, 27)%nat, true, [71; 66], [56; 50], [87; 69; 83; 84; 49; 50; 51; 52; 53; 54; 57; 56; 55; 54; 53; 52; 51; 50], true).
Proof. vm_compute. reflexivity. Qed.
Example ex_iban_ok : text_ok ex_iban 0 100.
Proof. split; [lia|]. split; [cbn; lia|]. right. unfold ex_iban. cbn [skipn]. do 28 right. left. reflexivity. Qed.
(** ... so its hypotheses are met, and the number is 1 modulo 97 *)
Example ex_iban_at : exists d k l cs y, iban_at ex_iban ex_up (o_f (blank ex_iban)) 100 no_fl d k l cs 0 y /\ iso_number (cs ++ [c0 d; c1 d; k; l]) mod 97 = 1.
Proof.
  destruct (proj2 (iban_plain ex_iban) _ 0%nat 100%nat no_fl (proj1 (iban_plain ex_iban)) ex_iban_ok) as (st & r & E & _ & R & _ & V). pose proof ex_iban_yes as Y. unfold run_iban in Y. rewrite E in Y. cbn [obind] in Y.
  injection Y as _ _ Er _ _ _ Ev. destruct (proj1 R Er) as (d & k & l & cs & y & D). exists d, k, l, cs, y. split; auto. apply (V _ _ _ _ _ D). auto.
Qed.
(** one digit wrong: matched, not valid; too short: no match *)
Example ex_iban_wrong : run_iban [71; 66; 56; 50; 32; 87; 69; 83; 84; 32; 49; 50; 51; 52; 32; 53; 54; 57; 56; 32; 55; 54; 53; 52; 32; 51; 51; 0] = Ret ((0, 27)%nat, true, [71; 66], [56; 50], [87; 69; 83; 84; 49; 50; 51; 52; 53; 54; 57; 56; 55; 54; 53; 52; 51; 51], false).
Proof. vm_compute. reflexivity. Qed.
Example ex_iban_short : run_iban [71; 66; 56; 50; 0] = Ret (no_iv, false, [], [], [], false).
Proof. vm_compute. reflexivity. Qed.

Definition run_ref (t : list Z) : outcome (nat * nat * bool * list Z * list Z * bool) :=
  let* (st, b) := p_match (creditor_reference t ex_up (o_P (blank t))) (p_init (creditor_reference t ex_up (o_P (blank t)))) 0 100 no_fl in Ret (iv st, b, ref_check st, ref_reference st, ref_valid st).
(** "RF18 5390 0754 7034 ": valid; the blank behind is taken, too *)
Example ex_ref : run_ref [82; 70; 49; 56; 32; 53; 51; 57; 48; 32; 48; 55; 53; 52; 32; 55; 48; 51; 52; 32; 0] = Ret ((0, 20)%nat, true, [49; 56], repeat 48 9 ++ [53; 51; 57; 48; 48; 55; 53; 52; 55; 48; 51; 52], true).
Proof. vm_compute. reflexivity. Qed.
Theorem reference_plain_partial : forall t, let spf := o_f (blank t) in
  ref_wf (blank t) (p_init (creditor_reference t ex_up (o_P (blank t)))) /\
  forall st s e fl, ref_wf (blank t) st -> text_ok t s e ->
   let m := p_match (creditor_reference t ex_up (o_P (blank t))) st s e fl in
   (forall k l cs y, reference_at t ex_up spf e fl k l cs s y -> (letters cs <= 19)%nat ->
      exists st', m = Ret (st', true) /\ ref_wf (blank t) st' /\ iv st' = (s, y) /\ ref_check st' = [k; l] /\ ref_reference st' = repeat 48 (21 - length cs) ++ cs /\
      (ref_valid st' = true <-> iso_number (cs ++ [82; 70; k; l]) mod 97 = 1)) /\
   (forall k l cs y, reference_at t ex_up spf e fl k l cs s y -> (20 <= letters cs)%nat -> m = UB) /\
   ((forall k l cs y, ~ reference_at t ex_up spf e fl k l cs s y) ->
      exists st', m = Ret (st', false) /\ ref_wf (blank t) st' /\ iv st' = no_iv /\ ref_check st' = [] /\ ref_reference st' = [] /\ ref_valid st' = false).
Proof. intros t. exact (reference_spec_partial t ex_up (blank t) (blank_good t) eq_refl). Qed.
(** What a user relies on: a match never has undefined behaviour.  False: "RF00" and twenty letters. *)
Definition reference_safe_claim : Prop := forall t st s e fl, ref_wf (blank t) st -> text_ok t s e -> p_match (creditor_reference t ex_up (o_P (blank t))) st s e fl <> UB.
Theorem reference_overrun_refuted : ~ reference_safe_claim.
Proof.
  intros C. set (t := [82; 70; 48; 48; 65; 65; 65; 65; 65; 65; 65; 65; 65; 65; 65; 65; 65; 65; 65; 65; 65; 65; 65; 65; 0]). apply (C t (p_init (creditor_reference t ex_up (o_P (blank t)))) 0%nat 100%nat no_fl).
  - apply (proj1 (reference_plain_partial t)).
  - split; [lia|]. split; [cbn; lia|]. right. unfold t. cbn [skipn]. do 24 right. left. reflexivity.
  - vm_compute. reflexivity.
Qed.
Print Assumptions iban_spec.
Print Assumptions iban_plain.
Print Assumptions reference_spec_partial.
Print Assumptions reference_plain_partial.
Print Assumptions reference_overrun_refuted.
