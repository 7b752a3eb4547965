(** Properties C208, C209 and C210: concrete cases, and why C210 holds only in part. *)
From Coq Require Import ZifyBool ZifyNat.
From Verif Require Import Base StringModel StringSpec ParserModel ParserSpec ParserProps ParserNumModel ParserNumProps ParserPeg ParserInt ParserIpModel ParserRefModel ParserRefSpec ParserEx ParserRefEx SiModel SiSpec SiProofs SiProps.

Definition si_new (t : list Z) : si_obj := si_init 7 7 (op_init (o_P (blank t))).
Lemma si_new_wf : forall t, si_wf (blank t) (si_new t).
Proof. intros t. split; [reflexivity|]. apply (ini_o t). apply blank_good. Qed.
Definition run_si (t : list Z) (fl : pflags) : outcome (list Z * list (nat * nat) * bool * (nat * nat) * bool) :=
  let* (o, m) := si_match t ex_up (o_P (blank t)) (si_new t) 0 100 fl in Ret (si_model o, [si_p1 o; si_p2 o; si_p3 o], si_is_valid o, si_itv o, m).
Ltac known_text := split; [lia|]; split; [cbn; lia|]; right; cbn [skipn]; repeat (first [left; reflexivity | right]).
(** "SI12 47112 x" and "SI11 47112-20": valid *)
Definition ex_si12 : list Z := [83; 73; 49; 50; 32; 52; 55; 49; 49; 50; 32; 120; 0].
Example ex_si12_run : run_si ex_si12 no_fl = Ret ([49; 50; 0], [(5, 10)%nat; no_iv; no_iv], true, (0, 10)%nat, true).
Proof. vm_compute. reflexivity. Qed.
Definition ex_si11 : list Z := [83; 73; 49; 49; 52; 55; 49; 49; 50; 45; 49; 57; 45; 0].
Example ex_si11_run : run_si ex_si11 no_fl = Ret ([49; 49; 0], [(4, 9)%nat; (10, 12)%nat; no_iv], true, (0, 12)%nat, true).
Proof. vm_compute. reflexivity. Qed.
Example ex_si11_ok : text_ok ex_si11 0 100 /\ si_head ex_si11 ex_up 100 no_fl 0 49 49 /\ si_list ex_si11 (o_f (blank ex_si11)) 100 no_fl 0 49 49 = [[52; 55; 49; 49; 50]; [49; 57]] /\ ~ joined (model_no 49 49) 2 /\ si_ok (model_no 49 49) [[52; 55; 49; 49; 50]; [49; 57]].
Proof.
  split. { known_text. } split. { split; [|split; reflexivity]. do 3 eexists. split; [vm_compute; reflexivity|]. split; reflexivity. } split; [vm_compute; reflexivity|]. split. { unfold joined, model_no. lia. }
  intros _. exists [[52; 55; 49; 49; 50]; [49; 57]]. split; [reflexivity|]. split. { apply <- sizes_is; vm_compute; reflexivity. } constructor; [|constructor; [|constructor]]; (apply <- checks_b; [vm_compute; reflexivity|discriminate]).
Qed.
(** a wrong digit, too many digits, the wrong number of parts: matched, not valid; an unknown model: valid *)
Example ex_si_wrong : run_si [83; 73; 49; 50; 52; 55; 49; 49; 51; 0] no_fl = Ret ([49; 50; 0], [(4, 9)%nat; no_iv; no_iv], false, (0, 9)%nat, true).
Proof. vm_compute. reflexivity. Qed.
Example ex_si_long : run_si [83; 73; 48; 48; 49; 49; 49; 49; 49; 49; 49; 49; 49; 49; 49; 49; 49; 0] no_fl = Ret ([48; 48; 0], [(4, 17)%nat; no_iv; no_iv], false, (0, 17)%nat, true).
Proof. vm_compute. reflexivity. Qed.
Example ex_si_parts : run_si [83; 73; 49; 50; 52; 45; 49; 0] no_fl = Ret ([49; 50; 0], [(4, 5)%nat; (6, 7)%nat; no_iv], false, (0, 7)%nat, true).
Proof. vm_compute. reflexivity. Qed.
Example ex_si_unknown : run_si [83; 73; 55; 50; 52; 45; 0] no_fl = Ret ([55; 50; 0], [(4, 5)%nat; no_iv; no_iv], true, (0, 5)%nat, true).
Proof. vm_compute. reflexivity. Qed.
(** model 99 stands alone; lower case only where it is asked for *)
Example ex_si99 : run_si [83; 73; 57; 57; 52; 0] no_fl = Ret ([57; 57; 0], [no_iv; no_iv; no_iv], true, (0, 4)%nat, true).
Proof. vm_compute. reflexivity. Qed.
Example ex_si_low : run_si [115; 105; 57; 57; 0] no_fl = Ret ([0; 7; 7], [no_iv; no_iv; no_iv], false, no_iv, false).
Proof. vm_compute. reflexivity. Qed.
Example ex_si_low_ci : run_si [115; 105; 57; 57; 0] (PFlags true false) = Ret ([57; 57; 0], [no_iv; no_iv; no_iv], true, (0, 4)%nat, true).
Proof. vm_compute. reflexivity. Qed.

(** ** Property C210 as it is stated is refuted.  "SI01 1-40": 1 4 with the weights 3 2 is 11, so that the control digit is 0, and it is; not valid. *)
Definition ex_si_zero : list Z := [83; 73; 48; 49; 32; 49; 45; 52; 48; 0].
Theorem si_reference_zero_refuted :
  text_ok ex_si_zero 0 100 /\ si_head ex_si_zero ex_up 100 no_fl 0 48 49 /\ si_list ex_si_zero (o_f (blank ex_si_zero)) 100 no_fl 0 48 49 = [[49]; [52; 48]] /\ si_ok (model_no 48 49) [[49]; [52; 48]] /\
  exists o, si_match ex_si_zero ex_up (o_P (blank ex_si_zero)) (si_new ex_si_zero) 0 100 no_fl = Ret (o, true) /\ si_is_valid o = false.
Proof.
  split. { known_text. } split. { split; [|split; reflexivity]. do 3 eexists. split; [vm_compute; reflexivity|]. split; reflexivity. } split; [vm_compute; reflexivity|]. split.
  { intros _. exists [[49; 52; 48]]. split; [reflexivity|]. split. { apply <- sizes_is; vm_compute; reflexivity. } constructor; [|constructor]. apply <- checks_b; [vm_compute; reflexivity|discriminate]. }
  eexists. split; vm_compute; reflexivity.
Qed.
(** "SI01 12-3-43" is right and not valid; "SI01 2-9-1" is wrong and valid *)
Definition ex_si_three : list Z := [83; 73; 48; 49; 32; 49; 50; 45; 51; 45; 52; 51; 0].
Theorem si_reference_three_refuted :
  text_ok ex_si_three 0 100 /\ si_head ex_si_three ex_up 100 no_fl 0 48 49 /\ si_list ex_si_three (o_f (blank ex_si_three)) 100 no_fl 0 48 49 = [[49; 50]; [51]; [52; 51]] /\ si_ok (model_no 48 49) [[49; 50]; [51]; [52; 51]] /\
  exists o, si_match ex_si_three ex_up (o_P (blank ex_si_three)) (si_new ex_si_three) 0 100 no_fl = Ret (o, true) /\ si_is_valid o = false.
Proof.
  split. { known_text. } split. { split; [|split; reflexivity]. do 3 eexists. split; [vm_compute; reflexivity|]. split; reflexivity. } split; [vm_compute; reflexivity|]. split.
  { intros _. exists [[49; 50; 51; 52; 51]]. split; [reflexivity|]. split. { apply <- sizes_is; vm_compute; reflexivity. } constructor; [|constructor]. apply <- checks_b; [vm_compute; reflexivity|discriminate]. }
  eexists. split; vm_compute; reflexivity.
Qed.
Definition ex_si_bad : list Z := [83; 73; 48; 49; 32; 50; 45; 57; 45; 49; 0].
Theorem si_reference_bad_refuted :
  text_ok ex_si_bad 0 100 /\ si_head ex_si_bad ex_up 100 no_fl 0 48 49 /\ si_list ex_si_bad (o_f (blank ex_si_bad)) 100 no_fl 0 48 49 = [[50]; [57]; [49]] /\ ~ si_ok (model_no 48 49) [[50]; [57]; [49]] /\
  exists o, si_match ex_si_bad ex_up (o_P (blank ex_si_bad)) (si_new ex_si_bad) 0 100 no_fl = Ret (o, true) /\ si_is_valid o = true.
Proof.
  split. { known_text. } split. { split; [|split; reflexivity]. do 3 eexists. split; [vm_compute; reflexivity|]. split; reflexivity. } split; [vm_compute; reflexivity|]. split.
  { intros X. destruct X as (gs & E & _ & F). { right. left. reflexivity. } injection E as <-. inversion_clear F as [|? ? C _]. apply checks_b in C; [|discriminate]. vm_compute in C. discriminate. }
  eexists. split; vm_compute; reflexivity.
Qed.
