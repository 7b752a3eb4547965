(** Lemmas about block_hash and crc32. *)
From Verif Require Import Base Bits HashModel HashSpec.
From Coq Require Import ZifyBool ZifyNat.
Ltac Zify.zify_post_hook ::= Z.div_mod_to_equations.

Lemma skipn_skipn' : forall (A : Type) n m (l : list A), skipn n (skipn m l) = skipn (m + n) l.
Proof.
  intros A n m. induction m as [|m IH]; intros l; [reflexivity|]. destruct l; [destruct n; reflexivity|]. cbn. apply IH.
Qed.

(* ---- process ---- *)
Lemma process_app : forall (H : Type) (f : H -> list Z -> H) n1 n2 st m1 m2, length m1 = (64 * n1)%nat ->
  process f (n1 + n2) st (m1 ++ m2) = process f n2 (process f n1 st m1) m2.
Proof.
  intros H f n1. induction n1 as [|n1 IH]; intros n2 st m1 m2 L.
  - destruct m1; [reflexivity|cbn in L; lia].
  - cbn [Nat.add process]. rewrite firstn_app, skipn_app.
    replace (64 - length m1)%nat with O by lia. rewrite firstn_O, skipn_O, app_nil_r.
    apply IH. rewrite skipn_length. lia.
Qed.
Lemma process_ext : forall (H : Type) (f g : H -> list Z -> H) (P : H -> Prop) (B : Z -> Prop),
  (forall st b, P st -> length b = 64%nat -> Forall B b -> f st b = g st b /\ P (g st b)) ->
  forall n st m, P st -> (64 * n <= length m)%nat -> Forall B m -> process f n st m = process g n st m /\ P (process g n st m).
Proof.
  intros H f g P B E n. induction n as [|n IH]; intros st m HP L HB; [split; auto|]. cbn [process].
  assert (HB1 : Forall B (firstn 64 m)) by (rewrite <- (firstn_skipn 64 m) in HB; apply Forall_app in HB; tauto).
  assert (HB2 : Forall B (skipn 64 m)) by (rewrite <- (firstn_skipn 64 m) in HB; apply Forall_app in HB; tauto).
  destruct (E st (firstn 64 m)) as [E1 E2]; auto; [rewrite firstn_length; lia|]. rewrite E1. apply IH; auto. rewrite skipn_length; lia.
Qed.

(* ---- memcpy into the queue ---- *)
Lemma put_length : forall q j d, (j + length d <= length q)%nat -> length (put q j d) = length q.
Proof. intros q j d H. unfold put. rewrite !app_length, firstn_length, skipn_length. lia. Qed.
Lemma put_firstn : forall q j d, (j <= length q)%nat -> firstn (j + length d) (put q j d) = firstn j q ++ d.
Proof.
  intros q j d H. unfold put. rewrite app_assoc, firstn_app. rewrite app_length, firstn_length.
  replace (j + length d - (Nat.min j (length q) + length d))%nat with O by lia. cbn [firstn]. rewrite app_nil_r.
  apply firstn_all2. rewrite app_length, firstn_length. lia.
Qed.
Lemma put_full : forall q j d, length q = 64%nat -> (j + length d = 64)%nat -> put q j d = firstn j q ++ d.
Proof. intros q j d Hq H. unfold put. rewrite H, <- Hq, skipn_all, app_nil_r. reflexivity. Qed.

Section Block.
Variable H : Type.
Variable hash_block : H -> list Z -> H * list Z.
Hypothesis Hlen : forall st q, length q = 64%nat -> length (snd (hash_block st q)) = 64%nat.
Definition cmp (st : H) (q : list Z) : H := fst (hash_block st q).

(** State after absorbing message m from initial state i. *)
Definition absorbed (i : H) (m : list Z) (s : bhash H) : Prop :=
  hst s = process cmp (Nat.div (length m) 64) i m /\
  firstn (Nat.modulo (length m) 64) (queue s) = skipn (64 * Nat.div (length m) 64) m /\
  length (queue s) = 64%nat /\
  c0 s = (8 * Z.of_nat (length m)) mod 2 ^ 32 /\
  c1 s = (8 * Z.of_nat (length m)) / 2 ^ 32 mod 2 ^ 32.

Lemma absorbed_init : forall i q0, length q0 = 64%nat -> absorbed i [] (mkbh 0 0 q0 i).
Proof. intros i q0 L. unfold absorbed. cbn. auto. Qed.

Lemma index_of : forall i m s, absorbed i m s -> Z.to_nat (Z.land (Z.shiftr (c0 s) 3) 63) = Nat.modulo (length m) 64.
Proof.
  clear Hlen. intros i m s (_ & _ & _ & E & _). rewrite E, Z.shiftr_div_pow2 by lia.
  change 63 with (2 ^ 6 - 1). rewrite land_ones_mod by lia. change (2 ^ 3) with 8. change (2 ^ 6) with 64. change (2 ^ 32) with M32.
  lia.
Qed.

Lemma block_loop_ok : forall fuel st q rest, (length rest <= fuel)%nat -> length q = 64%nat ->
  exists q', block_loop hash_block fuel st q rest =
    (process cmp (Nat.div (length rest) 64) st rest, q', skipn (64 * Nat.div (length rest) 64) rest) /\ length q' = 64%nat.
Proof.
  induction fuel as [|fuel IH]; intros st q rest L Hq.
  - destruct rest; [|cbn in L; lia]. exists q. cbn. auto.
  - cbn [block_loop]. destruct (Nat.leb_spec 64 (length rest)) as [C|C].
    + assert (E : put q 0 (firstn 64 rest) = firstn 64 rest).
      { rewrite put_full; auto. rewrite firstn_length. lia. }
      rewrite E. destruct (hash_block st (firstn 64 rest)) as [st' q'] eqn:EB.
      assert (Hq' : length q' = 64%nat) by (change q' with (snd (st', q')); rewrite <- EB; apply Hlen; rewrite firstn_length; lia).
      destruct (IH st' q' (skipn 64 rest)) as (q2 & E2 & L2); auto; [rewrite skipn_length; lia|].
      exists q2. split; [|exact L2]. rewrite E2. rewrite skipn_length.
      assert (En : Nat.div (length rest) 64 = S (Nat.div (length rest - 64) 64)).
      { pose proof (Nat.div_add (length rest - 64) 1 64 ltac:(lia)) as D. replace (length rest - 64 + 1 * 64)%nat with (length rest) in D by lia. lia. }
      rewrite En. cbn [process]. assert (Es : cmp st (firstn 64 rest) = st') by (unfold cmp; rewrite EB; reflexivity). rewrite Es.
      f_equal. rewrite skipn_skipn'. f_equal. lia.
    + exists q. rewrite Nat.div_small by lia. cbn. auto.
Qed.

Lemma counter_ok : forall n k a b, 0 <= k < 2 ^ 32 -> 0 <= n -> a = (8 * n) mod 2 ^ 32 -> b = (8 * n) / 2 ^ 32 mod 2 ^ 32 ->
  let l3 := u32 (Z.shiftl (u32 k) 3) in
  u32 (a + l3) = (8 * (n + k)) mod 2 ^ 32 /\
  u32 ((if u32 (a + l3) <? l3 then u32 (b + 1) else b) + Z.shiftr (u32 k) 29) = (8 * (n + k)) / 2 ^ 32 mod 2 ^ 32.
Proof.
  clear. intros n k a b Hk Hn Ha Hb l3. change (2 ^ 32) with M32 in *.
  assert (E3 : l3 = (8 * k) mod M32).
  { unfold l3. rewrite (u32_small k) by lia. rewrite Z.shiftl_mul_pow2 by lia. change (2 ^ 3) with 8. unfold u32. f_equal. lia. }
  assert (E29 : Z.shiftr (u32 k) 29 = (8 * k) / M32).
  { rewrite u32_small by lia. rewrite Z.shiftr_div_pow2 by lia. change (2 ^ 29) with 536870912. change M32 with (536870912 * 8). rewrite (Z.mul_comm 8 k). rewrite Z.div_mul_cancel_r by lia. reflexivity. }
  rewrite E29. clear E29. clearbody l3. subst l3.
  set (x := 8 * n) in *. set (y := 8 * k) in *. replace (8 * (n + k)) with (x + y) by lia.
  assert (0 <= x) by lia. assert (0 <= y) by lia. clearbody x y. subst a b. unfold u32. split; [lia|].
  assert (Hc : (x mod M32 + y mod M32) mod M32 <? y mod M32 = (M32 <=? x mod M32 + y mod M32)) by lia.
  rewrite Hc. destruct (Z.leb_spec M32 (x mod M32 + y mod M32)) as [C|C].
  - assert (E : (x + y) / M32 = x / M32 + y / M32 + 1) by lia. rewrite E.
    rewrite <- Z.add_mod_idemp_l by lia. rewrite (Z.add_mod_idemp_l (x / M32) 1) by lia.
    rewrite Z.mod_mod by lia. rewrite Z.add_mod_idemp_l by lia. f_equal. lia.
  - assert (E : (x + y) / M32 = x / M32 + y / M32) by lia. rewrite E. rewrite Z.add_mod_idemp_l by lia. reflexivity.
Qed.

Lemma block_hash_absorbed : forall i m s d, absorbed i m s -> Z.of_nat (length d) < 2 ^ 32 ->
  absorbed i (m ++ d) (block_hash hash_block s d).
Proof.
  intros i m s d A Hd. pose proof (index_of i m s A) as Ej. destruct A as (A1 & A2 & A3 & A4 & A5).
  destruct (counter_ok (Z.of_nat (length m)) (Z.of_nat (length d)) (c0 s) (c1 s)) as [K0 K1]; try lia; auto.
  unfold block_hash. rewrite Ej. set (j := Nat.modulo (length m) 64) in *.
  assert (Hj : (j < 64)%nat) by (apply Nat.mod_upper_bound; lia).
  pose proof (Nat.div_mod (length m) 64 ltac:(lia)) as DM. fold j in DM.
  set (n1 := Nat.div (length m) 64) in *.
  assert (Em : m = firstn (64 * n1) m ++ skipn (64 * n1) m) by (symmetry; apply firstn_skipn).
  assert (Lm1 : length (firstn (64 * n1) m) = (64 * n1)%nat) by (rewrite firstn_length; lia).
  assert (Lm2 : length (skipn (64 * n1) m) = j) by (rewrite skipn_length; lia).
  assert (P1 : forall k r, process cmp (n1 + k) i (m ++ r) = process cmp k (hst s) (skipn (64 * n1) m ++ r)).
  { intros k r. assert (E1 : hst s = process cmp n1 i (firstn (64 * n1) m)).
    { rewrite A1. transitivity (process cmp (n1 + 0) i (firstn (64 * n1) m ++ skipn (64 * n1) m)); [rewrite Nat.add_0_r, <- Em; reflexivity|].
      rewrite process_app by exact Lm1. reflexivity. }
    rewrite E1. rewrite <- process_app by exact Lm1. rewrite app_assoc, <- Em. reflexivity. }
  unfold absorbed. rewrite app_length, Nat2Z.inj_add.
  destruct (Nat.leb_spec (64 - j) (length d)) as [C|C].
  - assert (Eq : put (queue s) j (firstn (64 - j) d) = skipn (64 * n1) m ++ firstn (64 - j) d).
    { rewrite put_full; [rewrite A2; reflexivity|exact A3|rewrite firstn_length; lia]. }
    rewrite Eq. set (blk := skipn (64 * n1) m ++ firstn (64 - j) d) in *.
    assert (Lb : length blk = 64%nat) by (unfold blk; rewrite app_length, firstn_length; lia).
    destruct (hash_block (hst s) blk) as [st q] eqn:EB.
    assert (Hq : length q = 64%nat) by (change q with (snd (st, q)); rewrite <- EB; apply Hlen; exact Lb).
    assert (Es : cmp (hst s) blk = st) by (unfold cmp; rewrite EB; reflexivity).
    set (rest := skipn (64 - j) d) in *. assert (Lr : length rest = (length d - (64 - j))%nat) by (unfold rest; apply skipn_length).
    destruct (block_loop_ok (length d) st q rest) as (q' & El & Lq'); auto; [lia|]. rewrite El.
    set (n2 := Nat.div (length rest) 64) in *.
    pose proof (Nat.div_mod (length rest) 64 ltac:(lia)) as DR. fold n2 in DR.
    pose proof (Nat.mod_upper_bound (length rest) 64 ltac:(lia)) as DR2.
    assert (En : Nat.div (length m + length d) 64 = (n1 + (1 + n2))%nat).
    { symmetry. apply (Nat.div_unique _ _ _ (Nat.modulo (length rest) 64)); lia. }
    assert (Er : Nat.modulo (length m + length d) 64 = Nat.modulo (length rest) 64).
    { symmetry. apply (Nat.mod_unique _ _ (n1 + (1 + n2))); lia. }
    cbn [hst queue c0 c1]. rewrite En, Er.
    assert (Lt : length (skipn (64 * n2) rest) = Nat.modulo (length rest) 64) by (rewrite skipn_length; lia).
    assert (Ed : m ++ d = firstn (64 * n1) m ++ blk ++ rest).
    { unfold blk, rest. rewrite <- app_assoc, firstn_skipn, app_assoc, firstn_skipn. reflexivity. }
    split; [|split; [|split; [|split; [exact K0|exact K1]]]].
    + rewrite P1. replace (skipn (64 * n1) m ++ d) with (blk ++ rest).
      * rewrite process_app by lia. cbn [process]. rewrite firstn_all2 by lia. rewrite Es. reflexivity.
      * unfold blk, rest. rewrite <- app_assoc, firstn_skipn. reflexivity.
    + rewrite <- Lt. replace (length (skipn (64 * n2) rest)) with (0 + length (skipn (64 * n2) rest))%nat by lia.
      rewrite put_firstn by lia. cbn [firstn app]. rewrite Ed.
      rewrite skipn_app, skipn_app. rewrite (skipn_all2 (firstn _ m)) by lia. rewrite (skipn_all2 blk) by lia. cbn [app]. f_equal. lia.
    + rewrite put_length; [exact Lq'|]. lia.
  - cbn [hst queue c0 c1].
    assert (En : Nat.div (length m + length d) 64 = n1).
    { symmetry. apply (Nat.div_unique _ _ _ (j + length d)); lia. }
    assert (Er : Nat.modulo (length m + length d) 64 = (j + length d)%nat).
    { symmetry. apply (Nat.mod_unique _ _ n1); lia. }
    rewrite En, Er. split; [|split; [|split; [|split; [exact K0|exact K1]]]].
    + specialize (P1 O d). rewrite Nat.add_0_r in P1. rewrite P1. reflexivity.
    + rewrite put_firstn by lia. rewrite A2. rewrite skipn_app. f_equal. replace (64 * n1 - length m)%nat with O by lia. reflexivity.
    + rewrite put_length; [exact A3|]. lia.
Qed.

Lemma block_hash_chunks_absorbed : forall chunks i m s, absorbed i m s ->
  Forall (fun d => Z.of_nat (length d) < 2 ^ 32) chunks -> absorbed i (m ++ concat chunks) (block_hash_chunks hash_block s chunks).
Proof.
  induction chunks as [|d chunks IH]; intros i m s A F; cbn [concat]; [rewrite app_nil_r; exact A|].
  inversion F as [|? ? F1 F2]; subst. rewrite app_assoc. apply (IH i (m ++ d)); auto. apply block_hash_absorbed; auto.
Qed.
End Block.
