(** Property C63: concrete cases (the hypotheses of the parser theorems can be met), and what happens outside them. *)
From Coq Require Import ZifyBool ZifyNat Permutation.
From Verif Require Import Base StringModel StringSpec StringProofs ParserModel ParserSpec ParserProps ParserPerm.

(** the text is the ten units "ab, ba;12" and a terminator; end is given as 100 *)
Definition ex_txt : list Z := [97; 98; 44; 32; 98; 97; 59; 49; 50; 50; 0].
Definition ex_low (c : Z) : Z := if (65 <=? c) && (c <=? 90) then c + 32 else c.
Definition ex_sp (c : Z) : bool := c =? 32.
Definition no_fl : pflags := PFlags false false.
Definition ci_fl : pflags := PFlags true false.
Lemma ex_text_ok : text_ok ex_txt 0 100.
Proof. split; [lia|]. split; [cbn; lia|]. right. unfold ex_txt. cbn [skipn]. do 10 right. left. reflexivity. Qed.
Lemma ex_low0 : forall c, ex_low c = 0 <-> c = 0.
Proof. intros c. unfold ex_low. destruct ((65 <=? c) && (c <=? 90)) eqn:E; lia. Qed.
Definition run (P : pcls) (s e : nat) (fl : pflags) : outcome (option (nat * nat) * list Z * list (nat * nat)) :=
  let* (st, b) := p_match P (p_init P) s e fl in Ret ((if b then Some (iv st) else None), vals st, map iv (kids st)).
Definition ch (c : Z) (inv : bool) := cu ex_txt ex_low c inv.

Example ex_seq : run (sequence [ch 97 false; ch 66 false; ch 44 false]) 0 100 ci_fl = Ret (Some (0, 3)%nat, [], [(0, 1); (1, 2); (2, 3)]%nat).
Proof. reflexivity. Qed.
Example ex_seq_case : run (sequence [ch 97 false; ch 66 false; ch 44 false]) 0 100 no_fl = Ret (None, [], [(0, 1); (1, 0); (1, 0)]%nat).
Proof. reflexivity. Qed.
Example ex_branch : run (branch [ch 120 false; string_p ex_txt ex_low [97; 98]; ch 97 false]) 0 100 no_fl = Ret (Some (0, 2)%nat, [1], [(1, 0); (0, 2); (1, 0)]%nat).
Proof. reflexivity. Qed.
Example ex_iter : run (iterations (cu_set ex_txt ex_low [49; 50] false) 1 100 true) 7 100 no_fl = Ret (Some (7, 10)%nat, [], [(1, 0)]%nat).
Proof. reflexivity. Qed.
Example ex_perm : run (permutation [ch 98 false; ch 97 false; space_cu ex_txt ex_sp false]) 3 100 no_fl = Ret (Some (3, 6)%nat, [], [(4, 5); (5, 6); (3, 4)]%nat).
Proof. reflexivity. Qed.
(** a permutation that must give back a first choice: "a" matches first, but only "ab" then "," goes on *)
Example ex_perm_back : run (permutation [branch [ch 98 false; ch 97 false]; string_p ex_txt ex_low [98]; ch 44 false]) 0 100 no_fl = Ret (Some (0, 3)%nat, [], [(0, 1); (1, 2); (2, 3)]%nat).
Proof. reflexivity. Qed.
Example ex_search : (let* (st, b) := search ex_txt (string_p ex_txt ex_low [98; 97]) (new_pst [] []) 0 100 no_fl in Ret (iv st, b)) = Ret ((4, 6)%nat, true).
Proof. reflexivity. Qed.
Example ex_string_branch : exists P, string_branch ex_txt ex_low [120; 0; 97; 98; 0; 97; 0; 0; 7] = Ret P /\ run P 0 100 no_fl = Ret (Some (0, 2)%nat, [1], [(1, 0); (0, 2); (1, 0)]%nat).
Proof. eexists. split; reflexivity. Qed.
(** the theorems at these cases *)
Example ex_good : Forall (good ex_txt) [
   ESpec (ch 97 false) leaf (one_fn ex_txt (fun c fl => if fl_ci fl then ex_low c =? ex_low 97 else c =? 97) false) no_vals;
   ESpec (string_p ex_txt ex_low [98; 44]) leaf (string_fn ex_txt ex_low [98; 44]) no_vals ].
Proof.
  constructor; [apply cu_spec|]. constructor; [|constructor]. apply string_spec; [apply ex_low0|repeat constructor; discriminate].
Qed.

(** Outside: a string test whose start lies behind end does not stop at end (end - start wraps): it reads on. *)
Example string_behind_end : run (string_p ex_txt ex_low [98; 97]) 4 3 no_fl = Ret (Some (4, 6)%nat, [], []).
Proof. reflexivity. Qed.
(** iterations: an empty match of the element counts as success however few matches were asked for. *)
Example iterations_empty : run (iterations (bol ex_txt false) 5 100 true) 0 100 no_fl = Ret (Some (0, 0)%nat, [], [(0, 0)]%nat).
Proof. reflexivity. Qed.

Print Assumptions sequence_spec.
Print Assumptions branch_spec.
Print Assumptions iterations_spec.
Print Assumptions permutation_spec.
Print Assumptions permutation_complete.
Print Assumptions search_spec.
Print Assumptions string_branch_spec.
Print Assumptions cu_set_spec.
Print Assumptions string_spec.
