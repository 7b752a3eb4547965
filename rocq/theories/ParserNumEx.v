(** Properties C64 and C111: concrete cases (the hypotheses of the numeral theorems can be met). *)
From Coq Require Import ZifyBool ZifyNat.
From Verif Require Import Base StringModel StringSpec StringProofs ParserModel ParserSpec ParserProps ParserEx ParserNumModel ParserNumProps ParserInt ParserTs ParserPeg ParserPeg2.

(** "-1,234 5/6e7" and a terminator *)
Definition nx : list Z := [45; 49; 44; 50; 51; 52; 32; 53; 47; 54; 101; 55; 0].
Definition nch (c : Z) : pcls := cu nx ex_low c false.
Definition nint : pcls := integer10 nx (digit_cus nx ex_low dec_chars).
Lemma nx_ok : forall s, (s <= 12)%nat -> text_ok nx s 100.
Proof. intros s H. split; [lia|]. split; [cbn; lia|]. right. unfold nx. do 13 (destruct s as [|s]; [cbn; auto 20|]). lia. Qed.

Example nx_int : run nint 1 100 no_fl = Ret (Some (1, 2)%nat, [1], map iv (kids (p_init nint))).
Proof. reflexivity. Qed.
Example nx_int_none : run nint 0 100 no_fl = Ret (None, [0], map iv (kids (p_init nint))).
Proof. reflexivity. Qed.
Example nx_ts : run (integer10ts nint (cu_set nx ex_low [44; 46] false)) 1 100 no_fl = Ret (Some (1, 6)%nat, [1234; 4; 1], [(3, 6); (1, 0)]%nat).
Proof. reflexivity. Qed.
Example nx_fraction : run (fraction nint (nch 47) nint) 7 100 no_fl = Ret (Some (7, 10)%nat, [], [(7, 8); (8, 9); (9, 10)]%nat).
Proof. reflexivity. Qed.
Example nx_mixed : run (mixed_numeral None None None nint (fraction nint (nch 47) nint) (space_cu nx ex_sp false)) 3 100 no_fl
  = Ret (Some (3, 10)%nat, [], [(1, 0); (1, 0); (1, 0); (3, 6); (7, 10); (1, 0)]%nat).
Proof. reflexivity. Qed.
Example nx_sci : run (scientific_numeral (Some (nch 43)) (Some (nch 45)) None nint (nch 44) nint (Some (nch 32)) (Some (nch 43)) (Some (nch 45)) (Some nint)) 0 100 no_fl
  = Ret (Some (0, 8)%nat, [], [(1, 0); (0, 1); (1, 0); (1, 2); (2, 3); (3, 6); (6, 7); (1, 0); (1, 0); (7, 8)]%nat).
Proof. reflexivity. Qed.
(** the theorems at these cases: the digits, the separators and the sign meet the hypotheses *)
Example nx_good : exists i, es_P i = nint /\ good nx i /\ advances nx (es_f i).
Proof.
  destruct (integer10_value nx ex_low) as (wf & f & g & El & Ad & _). exists (ESpec nint wf f g). split; [reflexivity|]. split; [exact El|exact Ad].
Qed.
Example nx_fraction_applies : exists i l, es_P i = nint /\ es_P l = nch 47 /\
  composite nx (fraction nint (nch 47) nint) (wf3 i l i) (seq_fn [es_f i; es_f l; es_f i]) 3
    (fun s e fl => match seq_fn [es_f i; es_f l; es_f i] s e fl with Some _ => seq_ivs [es_f i; es_f l; es_f i] s e fl | None => repeat no_iv 3 end).
Proof.
  destruct nx_good as (i & Ei & Gi & _). exists i. eexists (ESpec (nch 47) leaf _ no_vals). split; auto. split; [reflexivity|].
  rewrite <- Ei. apply (fraction_spec nx i (ESpec (nch 47) leaf _ no_vals) i); auto. apply cu_spec.
Qed.

Print Assumptions integer_spec.
Print Assumptions integer_fail_zero.
Print Assumptions integer_units.
Print Assumptions integer10_value.
Print Assumptions integer16_value.
Print Assumptions integer10ts_spec.
Print Assumptions integer10ts_value.
Print Assumptions star_unique.
Print Assumptions fraction_spec.
Print Assumptions score_spec.
Print Assumptions signed_numeral_spec.
Print Assumptions mixed_numeral_spec.
Print Assumptions monetary_numeral_spec.
Print Assumptions monetary_null_sign_refuted.
Print Assumptions scientific_numeral_spec.
