(** Theorems about the printf family (C161, C162). *)
From Coq Require Import Lia ZifyBool ZifyNat.
From Verif Require Import Base FormatModel.

Lemma cells_of_prefix : forall cap x k, (k <= length x)%nat -> (k <= cap)%nat -> firstn k (cells_of cap x) = firstn k x.
Proof. intros cap x k H1 H2. unfold cells_of. rewrite firstn_firstn, Nat.min_l by lia. rewrite firstn_app. replace (k - length x)%nat with O by lia. cbn. apply app_nil_r. Qed.
Lemma firstn_app_all : forall (a b : list Z), firstn (length a) (a ++ b) = a.
Proof. intros. rewrite firstn_app, Nat.sub_diag, firstn_all. cbn. apply app_nil_r. Qed.

(** C161: what sprintf and appendf are for *)
Theorem format_narrow : forall t str errno, (length t < 1024)%nat -> appendf_char t str errno = Ret (str ++ t, length t) /\ sprintf_char t str errno = Ret t.
Proof.
  intros t str errno H.
  assert (E : forall s, appendf_char t s errno = Ret (s ++ t, length t)).
  { intros s. unfold appendf_char, vappendf. cbv zeta. unfold c_narrow, c_count, c_buf.
    destruct ((0 <=? Z.of_nat (length t)) && (Z.of_nat (length t) <=? Z.of_nat 1024)) eqn:E; [| lia].
    rewrite Nat2Z.id. rewrite (firstn_all2 t) by lia. rewrite cells_of_prefix; [| rewrite app_length; cbn [length]; lia | lia]. now rewrite firstn_app_all. }
  split; [apply E |]. unfold sprintf_char, vsprintf. fold (appendf_char t [] errno). now rewrite E.
Qed.

Lemma wide_fits : forall err t cap e, (length t < cap)%nat -> c_wide err t cap e = Call (Z.of_nat (length t)) (cells_of cap (t ++ [0])) e.
Proof. intros. unfold c_wide. destruct (length t <? cap)%nat eqn:E; [reflexivity | lia]. Qed.
Lemma wide_not : forall err t cap e, (cap <= length t)%nat -> exists b, c_wide err t cap e = Call (-1) b (err e).
Proof. intros. unfold c_wide. destruct (length t <? cap)%nat eqn:E; [lia | eexists; reflexivity]. Qed.
Lemma wide_retry : forall err t, (forall e, err e = e_OVERFLOW) -> forall fuel str cap, (length t < cap * 2 ^ fuel)%nat -> (0 < cap)%nat ->
  retry (c_wide err t) (S fuel) str cap e_OVERFLOW = Ret (str ++ t, length t).
Proof.
  intros err t He.
  assert (F : forall f str cap, (length t < cap)%nat -> retry (c_wide err t) (S f) str cap e_OVERFLOW = Ret (str ++ t, length t)).
  { intros f str cap H. cbn [retry]. rewrite Z.eqb_refl. cbv zeta. rewrite wide_fits by lia. unfold c_count, c_buf.
    destruct ((0 <=? Z.of_nat (length t)) && (Z.of_nat (length t) <=? Z.of_nat cap)) eqn:E2; [| lia].
    rewrite Nat2Z.id. rewrite cells_of_prefix; [| rewrite app_length; cbn [length]; lia | lia]. now rewrite firstn_app_all. }
  induction fuel as [|f IH]; intros str cap H Hc.
  - apply F. rewrite Nat.mul_1_r in H. exact H.
  - destruct (Nat.lt_ge_cases (length t) cap) as [L | L]; [apply F; exact L |].
    remember (S f) as g. cbn [retry]. rewrite Z.eqb_refl. cbv zeta. destruct (wide_not err t cap e_OVERFLOW L) as [b ->].
    unfold c_count, c_errno. change ((0 <=? -1) && (-1 <=? Z.of_nat cap)) with false. cbv iota. rewrite He. subst g.
    apply (IH str (2 * cap)%nat); [| lia]. rewrite Nat.pow_succ_r' in H. nia.
Qed.
Theorem format_wide : forall err t str errno, (forall e, err e = e_OVERFLOW) -> appendf_wchar err t str errno = Ret (str ++ t, length t) /\ sprintf_wchar err t str errno = Ret t.
Proof.
  intros err t str errno He.
  assert (E : forall s, appendf_wchar err t s errno = Ret (s ++ t, length t)).
  { intros s. unfold appendf_wchar, vappendf. cbv zeta. destruct (Nat.lt_ge_cases (length t) 256) as [L | L].
    - rewrite wide_fits by lia. unfold c_count, c_buf. destruct ((0 <=? Z.of_nat (length t)) && (Z.of_nat (length t) <=? Z.of_nat 256)) eqn:E2; [| lia].
      rewrite Nat2Z.id. rewrite cells_of_prefix; [| rewrite app_length; cbn [length]; lia | lia]. now rewrite firstn_app_all.
    - destruct (wide_not err t 256 errno L) as [b ->]. unfold c_count, c_errno. change ((0 <=? -1) && (-1 <=? Z.of_nat 256)) with false. cbv iota. rewrite He.
      apply (wide_retry err t He (length t)); [| lia]. pose proof (Nat.pow_gt_lin_r 2 (length t)). lia. }
  split; [apply E |]. unfold sprintf_wchar, vsprintf. fold (appendf_wchar err t [] errno). now rewrite E.
Qed.
Example format_ex : sprintf_char [104; 105] [1; 2] 0 = Ret [104; 105] /\ appendf_char [104; 105] [1; 2] 0 = Ret ([1; 2; 104; 105], 2%nat) /\
  sprintf_wchar (fun _ => e_OVERFLOW) (repeat 97 700) [] 0 = Ret (repeat 97 700).
Proof. repeat split; vm_compute; reflexivity. Qed.

(** C162: "the formatted text is appended whatever its length" does not hold.  A text of exactly 1024 characters loses its last
    one to the terminator; a longer one is an exception, unless errno happens to be EOVERFLOW from earlier. *)
Theorem format_narrow_1024 : forall t str errno, length t = 1024%nat -> appendf_char t str errno = Ret (str ++ firstn 1023 t ++ [0], 1024%nat).
Proof.
  intros t str errno H. unfold appendf_char, vappendf. cbv zeta. unfold c_narrow, c_count, c_buf.
  destruct ((0 <=? Z.of_nat (length t)) && (Z.of_nat (length t) <=? Z.of_nat 1024)) eqn:E; [| lia].
  rewrite Nat2Z.id, H. assert (L : length (firstn (1024 - 1) t ++ [0]) = 1024%nat) by (rewrite app_length, firstn_length_le by lia; cbn [length]; lia).
  rewrite cells_of_prefix by lia. rewrite firstn_all2 by lia. reflexivity.
Qed.
Theorem format_long_throws : forall t str errno, (1024 < length t)%nat -> errno <> e_OVERFLOW -> appendf_char t str errno = Throw.
Proof.
  intros t str errno H He. unfold appendf_char, vappendf. cbv zeta.
  assert (N : exists b, c_narrow t 1024 errno = Call (Z.of_nat (length t)) b errno) by (eexists; reflexivity).
  destruct N as [b ->]. unfold c_count, c_errno.
  destruct ((0 <=? Z.of_nat (length t)) && (Z.of_nat (length t) <=? Z.of_nat 1024)) eqn:E; [lia |].
  cbn [retry]. destruct (errno =? e_OVERFLOW) eqn:E2; [lia | reflexivity].
Qed.
(** a wide text of 256 units and more is an exception where vswprintf leaves errno alone *)
Theorem format_wide_throws : forall t str errno, (256 <= length t)%nat -> errno <> e_OVERFLOW -> appendf_wchar (fun e => e) t str errno = Throw.
Proof.
  intros t str errno H He. unfold appendf_wchar, vappendf. cbv zeta. destruct (wide_not (fun e => e) t 256 errno H) as [b ->]. unfold c_count, c_errno. change ((0 <=? -1) && (-1 <=? Z.of_nat 256)) with false. cbv iota.
  cbn [retry]. destruct (errno =? e_OVERFLOW) eqn:E2; [lia | reflexivity].
Qed.
Theorem format_any_length_refuted : ~ (forall t str errno, appendf_char t str errno = Ret (str ++ t, length t)).
Proof.
  intros H. pose proof (H (repeat 97 1024) [] 0) as A.
  pose proof (format_narrow_1024 (repeat 97 1024) [] 0 (repeat_length _ _)) as B. rewrite A in B. injection B as B. discriminate B.
Qed.
Print Assumptions format_narrow. Print Assumptions format_wide. Print Assumptions format_narrow_1024. Print Assumptions format_long_throws.
Print Assumptions format_any_length_refuted. Print Assumptions format_wide_throws.
