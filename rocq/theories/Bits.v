(** Shifts and masks as arithmetic. *)
From Verif Require Import Base.

Lemma land_ones_mod : forall x k, 0 <= k -> Z.land x (2 ^ k - 1) = x mod 2 ^ k.
Proof.
  intros x k Hk. rewrite <- Z.land_ones by lia. f_equal. rewrite Z.ones_equiv. lia.
Qed.

Lemma land_disjoint : forall a b k, 0 <= k -> 0 <= b < 2 ^ k -> Z.land (a * 2 ^ k) b = 0.
Proof.
  intros a b k Hk Hb. apply Z.bits_inj'. intros n Hn. rewrite Z.land_spec, Z.bits_0.
  destruct (Z.lt_ge_cases n k) as [H|H].
  - rewrite Z.mul_pow2_bits_low by lia. reflexivity.
  - rewrite <- (Z.mod_small b (2 ^ k)) by lia. rewrite Z.mod_pow2_bits_high by lia. apply andb_false_r.
Qed.

Lemma lor_add : forall a b k, 0 <= k -> 0 <= b < 2 ^ k -> Z.lor (a * 2 ^ k) b = a * 2 ^ k + b.
Proof.
  intros a b k Hk Hb. pose proof (land_disjoint a b k Hk Hb) as E.
  rewrite <- Z.lxor_lor by exact E. symmetry. apply Z.add_nocarry_lxor. exact E.
Qed.

Lemma shiftl_lor_add : forall a b k, 0 <= k -> 0 <= b < 2 ^ k -> Z.lor (Z.shiftl a k) b = a * 2 ^ k + b.
Proof. intros. rewrite Z.shiftl_mul_pow2 by lia. apply lor_add; auto. Qed.

(** A property of all numbers below n, by computation. *)
Fixpoint all_below (f : Z -> bool) (n : nat) : bool :=
  match n with O => true | S m => f (Z.of_nat m) && all_below f m end.
Lemma all_below_spec : forall f n, all_below f n = true -> forall x, 0 <= x < Z.of_nat n -> f x = true.
Proof.
  induction n as [|n IH]; intros H x Hx; [lia|]. cbn in H. apply andb_prop in H. destruct H as [H1 H2].
  destruct (Z.eq_dec x (Z.of_nat n)) as [->|Hne]; auto. apply IH; auto; lia.
Qed.
