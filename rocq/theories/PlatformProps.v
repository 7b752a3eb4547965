(** Properties C272-C273: names of platforms. *)
From Coq Require Import ZifyBool ZifyNat Sorted.
From Coq Require Ascii String.
From Verif Require Import Base StringModel LangidTable LangidModel LangidProps MiscModel RfcModel PlatformModel.
Import String.StringSyntax.

(** ** Specification *)
(** the same name but for the case of ASCII letters ([lower] is from LangidProps) *)
Definition same_text (a b : list Z) : Prop := map lower a = map lower b.
Definition means (n : list Z) (v : Z) : Prop :=
  same_text n (RfcModel.chars "aarch64") /\ v = 0xaa64 \/ same_text n (RfcModel.chars "arm") /\ v = 0x01c4 \/ same_text n (RfcModel.chars "i386") /\ v = 0x014c \/ same_text n (RfcModel.chars "x86_64") /\ v = 0x8664.
Notation is_name := LangidProps.chars.

Definition pkey (m : list Z) : list Z := map tolower (cut m) ++ [0].
Definition pcmp (a b : list Z) : comparison := lexc (pkey a) (pkey b).
Lemma stricmp_named : forall n m j k, is_name n -> is_name m ->
  stricmp tolower (n ++ 0 :: j) (m ++ 0 :: k) = Ret (match lexc (map tolower n ++ [0]) (map tolower m ++ [0]) with Lt => -1 | Eq => 0 | Gt => 1 end).
Proof.
  induction n as [|a n IH]; intros [|b m] j k Hn Hm; cbn [app map stricmp lexc].
  - reflexivity.
  - inversion Hm as [|? ? [R N] F]; subst. pose proof (lower_zero b R N) as Z0. change (tolower 0) with 0. cbn [Z.eqb andb]. replace (tolower b =? 0) with false by lia.
    destruct (Z.compare_spec 0 (tolower b)) as [E|E|E]; [lia| |]; rewrite Z.gtb_ltb.
    + replace (tolower b <? 0) with false by lia. replace (0 <? tolower b) with true by lia. reflexivity.
    + replace (tolower b <? 0) with true by lia. reflexivity.
  - inversion Hn as [|? ? [R N] F]; subst. pose proof (lower_zero a R N) as Z0. change (tolower 0) with 0. replace (tolower a =? 0) with false by lia. cbn [andb].
    destruct (Z.compare_spec (tolower a) 0) as [E|E|E]; [lia| |]; rewrite Z.gtb_ltb.
    + replace (0 <? tolower a) with false by lia. replace (tolower a <? 0) with true by lia. reflexivity.
    + replace (0 <? tolower a) with true by lia. reflexivity.
  - inversion Hn as [|? ? [R N] F]; subst. inversion Hm as [|? ? [R2 N2] F2]; subst. pose proof (lower_zero a R N) as Z0. replace (tolower a =? 0) with false by lia. cbn [andb].
    destruct (Z.compare_spec (tolower a) (tolower b)) as [E|E|E]; rewrite Z.gtb_ltb.
    + rewrite E, Z.ltb_irrefl. apply IH; auto.
    + replace (tolower b <? tolower a) with false by lia. replace (tolower a <? tolower b) with true by lia. reflexivity.
    + replace (tolower b <? tolower a) with true by lia. reflexivity.
Qed.
Lemma pless_named : forall a b, named a -> named b -> platform_less a b = Ret (match pcmp a b with Lt => true | _ => false end).
Proof.
  intros a b (n & j & N & ->) (m & k & M & ->). unfold platform_less, pcmp, pkey. rewrite stricmp_named, !cut_named by auto. cbn [obind]. destruct (lexc _ _); reflexivity.
Qed.
Lemma pcmp_anti : forall a b, pcmp b a = CompOpp (pcmp a b).
Proof. intros. apply lexc_anti. Qed.
Lemma pcmp_trans : forall a b c, pcmp a b = Lt -> pcmp b c = Lt -> pcmp a c = Lt.
Proof. intros a b c. apply lexc_trans. Qed.
Lemma pcmp_eql : forall a b c, pcmp a b = Eq -> pcmp a c = pcmp b c.
Proof. intros a b c H. apply lexc_eq in H. unfold pcmp. rewrite H. reflexivity. Qed.
Lemma low_name : forall n, is_name n -> map tolower n = map lower n.
Proof. intros n H. induction H as [|c n [R _] F IH]; cbn [map]; auto. destruct (tolower_range c R) as [_ ->]. congruence. Qed.
Lemma pcmp_same : forall n m j k, is_name n -> is_name m -> (pcmp (m ++ 0 :: k) (n ++ 0 :: j) = Eq <-> same_text n m).
Proof.
  intros n m j k N M. unfold pcmp, pkey, same_text. rewrite !cut_named, lexc_eq by auto. rewrite !low_name by auto. split; intros H; [apply app_inv_tail in H; auto|rewrite H; auto].
Qed.
(** the static map: any tree with the entries, in order *)
Definition platforms_map (t : tree (list Z) Z) : Prop := exists t0, map_build platform_less Leaf platform_table = Ret t0 /\ entries t = entries t0.
Lemma literal_names : is_name (RfcModel.chars "aarch64") /\ is_name (RfcModel.chars "arm") /\ is_name (RfcModel.chars "i386") /\ is_name (RfcModel.chars "x86_64").
Proof. split; [|split; [|split]]; apply chars_ok; reflexivity. Qed.
Lemma differ : forall n m, same_text n m -> forall m', map lower m <> map lower m' -> ~ same_text n m'.
Proof. unfold same_text. intros n m H m' D E. congruence. Qed.
(** C272: the platform is the one the name means, whatever its case; unknown if there is none *)
Theorem platform_spec : forall t, platforms_map t -> forall n junk, is_name n -> exists v, platform_from_name t (n ++ 0 :: junk) = Ret v /\
  (means n v \/ (v = 0 /\ forall w, ~ means n w)).
Proof.
  intros t M n junk C. destruct literal_names as (L1 & L2 & L3 & L4). assert (Pn : named (n ++ 0 :: junk)) by (exists n, junk; auto).
  assert (F : Forall (fun e => named (fst e)) platform_table).
  { repeat constructor; cbn [fst]; eexists; exists []; (split; [|reflexivity]); auto. }
  destruct (map_spec platform_less named pcmp pless_named pcmp_anti pcmp_trans pcmp_eql platform_table t F M _ Pn) as (o & E & Sp).
  unfold platform_from_name. rewrite E. cbn [obind].
  pose proof (fun m k => pcmp_same n m junk k C) as Q.
  destruct o as [v|].
  - exists v. split; auto. left. unfold means. unfold platform_table in Sp.
    inversion Sp as [k v' l X|k v' w l X Y]; subst; [left; split; auto; apply (Q _ []); auto|].
    inversion Y as [k v' l X1|k v' w l X1 Y1]; subst; [right; left; split; auto; apply (Q _ []); auto|].
    inversion Y1 as [k v' l X2|k v' w l X2 Y2]; subst; [right; right; left; split; auto; apply (Q _ []); auto|].
    inversion Y2 as [k v' l X3|k v' w l X3 Y3]; subst; [right; right; right; split; auto; apply (Q _ []); auto|]. inversion Y3.
  - exists platform_unknown. split; auto. right. split; auto. intros w W.
    assert (D : forall m v, In (m, v) [(RfcModel.chars "aarch64", 0xaa64); (RfcModel.chars "arm", 0x01c4); (RfcModel.chars "i386", 0x014c); (RfcModel.chars "x86_64", 0x8664)] -> same_text n m -> False).
    { intros m v I Sm. assert (X : exists k, In (k, v) platform_table /\ pcmp k (n ++ 0 :: junk) = Eq).
      { exists (m ++ [0]). split; [|apply (Q m []); auto; destruct I as [I|[I|[I|[I|[]]]]]; injection I as <- <-; auto].
        destruct I as [I|[I|[I|[I|[]]]]]; injection I as <- <-; [left|right; left|right; right; left|right; right; right; left]; reflexivity. }
      destruct X as (k & I2 & Qk). clear - Sp I2 Qk. revert Sp I2. generalize platform_table. intros l Sp I2.
      assert (G : exists v, first_entry (fun a b => pcmp a b = Eq) (n ++ 0 :: junk) l v).
      { clear Sp. induction l as [|[k' v'] l IH]; [destruct I2|]. destruct (pcmp k' (n ++ 0 :: junk)) eqn:Ec; [exists v'; constructor; auto| |];
          (destruct I2 as [I2|I2]; [injection I2 as -> ->; congruence|]; destruct (IH I2) as (x & Fx); exists x; constructor; auto; congruence). }
      destruct G as (x & G). exact (Sp x G). }
    destruct W as [[W _]|[[W _]|[[W _]|[W _]]]]; eapply D; eauto; cbn [In]; auto 10.
Qed.
Theorem platform_unique : forall n v w, means n v -> means n w -> v = w.
Proof.
  intros n v w H1 H2. unfold means, same_text in *. destruct H1 as [[A ->]|[[A ->]|[[A ->]|[A ->]]]]; destruct H2 as [[B ->]|[[B ->]|[[B ->]|[B ->]]]]; auto; rewrite A in B; discriminate.
Qed.
Lemma platforms_exist : exists t, platforms_map t.
Proof. destruct (map_build platform_less Leaf platform_table) as [t| |] eqn:E; [exists t, t; auto| |]; discriminate. Qed.

(** ** C273: os_platform is the platform the operating system runs on

    What uname(2) says of a processor, as Linux has it: UTS_MACHINE of the architecture, and for 32-bit x86 i386 to i686 by the family of
    the processor (arch/x86/kernel/cpu/bugs.c), for 32-bit ARM the architecture and the byte order (armv7l, arch/arm/kernel/setup.c). *)
Inductive processor := X86 (family : nat) | X64 | ARM (version : nat) (big : bool) | ARM64 (big : bool).
Definition platform_of (p : processor) : Z := match p with X86 _ => 0x014c | X64 => 0x8664 | ARM _ _ => 0x01c4 | ARM64 _ => 0xaa64 end.
Definition digits (n : nat) : list Z := decimal 10 (Z.of_nat n).
Definition linux_machine (p : processor) : list Z :=
  match p with
  | X86 f => RfcModel.chars "i" ++ digits (Nat.min f 6) ++ RfcModel.chars "86"
  | X64 => RfcModel.chars "x86_64"
  | ARM v b => RfcModel.chars "armv" ++ digits v ++ RfcModel.chars (if b then "b" else "l")
  | ARM64 b => RfcModel.chars "aarch64" ++ RfcModel.chars (if b then "_be" else "")
  end.
Lemma digits_name : forall n, is_name (digits n).
Proof.
  intros n. unfold digits, is_name. generalize 10%nat. intros f. assert (Hz : 0 <= Z.of_nat n) by lia. revert Hz. generalize (Z.of_nat n). induction f; intros z Hz; cbn [decimal]; [constructor|].
  apply Forall_app. split; [destruct (z <? 10); [constructor|apply IHf; lia]|]. constructor; [lia|constructor].
Qed.
Lemma machine_name : forall p, is_name (linux_machine p).
Proof.
  intros [f| |v b|b]; cbn [linux_machine].
  - apply Forall_app. split; [apply chars_ok; reflexivity|]. apply Forall_app. split; [apply digits_name|apply chars_ok; reflexivity].
  - apply chars_ok; reflexivity.
  - apply Forall_app. split; [apply chars_ok; reflexivity|]. apply Forall_app. split; [apply digits_name|destruct b; apply chars_ok; reflexivity].
  - apply Forall_app. split; [apply chars_ok; reflexivity|destruct b; apply chars_ok; reflexivity].
Qed.
Theorem os_platform_refuted : forall t, platforms_map t -> exists p, os_platform t (Some (linux_machine p ++ [0])) = Ret 0 /\ platform_of p = 0x014c.
Proof.
  intros t M. exists (X86 6). split; auto. destruct (platform_spec t M (linux_machine (X86 6)) []) as (v & E & [H|[-> _]]); [apply chars_ok; reflexivity| |exact E].
  exfalso. unfold means, same_text in H. destruct H as [[H _]|[[H _]|[[H _]|[H _]]]]; vm_compute in H; discriminate.
Qed.
Theorem os_platform_arm_refuted : forall t, platforms_map t -> forall v b, os_platform t (Some (linux_machine (ARM v b) ++ [0])) = Ret 0.
Proof.
  intros t M v b. pose proof (machine_name (ARM v b)) as N.
  destruct (platform_spec t M _ [] N) as (x & E & [H|[-> _]]); [|exact E]. exfalso.
  assert (A : exists r, linux_machine (ARM v b) = 97 :: 114 :: 109 :: 118 :: r) by (eexists; reflexivity). destruct A as (r & A).
  unfold means, same_text in H. rewrite A in H. cbn [map] in H. destruct H as [[H _]|[[H _]|[[H _]|[H _]]]]; vm_compute in H; discriminate.
Qed.
(** it is right on x86-64, on little-endian 64-bit ARM, and on the 80386; where it is not unknown it is right; unknown without uname *)
Theorem os_platform_partial : forall t, platforms_map t ->
  (forall p, p = X64 \/ p = ARM64 false \/ p = X86 3 -> os_platform t (Some (linux_machine p ++ [0])) = Ret (platform_of p)) /\
  (forall p v, os_platform t (Some (linux_machine p ++ [0])) = Ret v -> v = platform_of p \/ v = 0) /\
  os_platform t None = Ret 0.
Proof.
  intros t M. split; [|split; [|reflexivity]].
  - intros p Hp. assert (N : is_name (linux_machine p) /\ means (linux_machine p) (platform_of p)).
    { destruct Hp as [Ep|[Ep|Ep]]; subst p; (split; [apply chars_ok; reflexivity|]); unfold means, same_text; [right; right; right|left|right; right; left]; split; vm_compute; reflexivity. }
    destruct N as [N Mp]. destruct (platform_spec t M _ [] N) as (v & E & [H|[_ H]]); [rewrite (platform_unique _ _ _ Mp H); exact E|destruct (H _ Mp)].
  - intros p v E. pose proof (machine_name p) as N. destruct (platform_spec t M _ [] N) as (w & E2 & H). cbn [os_platform] in E. rewrite E in E2. injection E2 as <-. destruct H as [H|[-> _]]; auto. left.
    assert (Hd : exists c r, linux_machine p = c :: r) by (destruct p; eexists; eexists; reflexivity).
    unfold means, same_text in H. destruct p as [f| |n b|b]; cbn [linux_machine platform_of] in *.
    + destruct H as [[H _]|[[H _]|[[_ ->]|[H _]]]]; auto; exfalso; cbn in H; discriminate.
    + destruct H as [[H _]|[[H _]|[[H _]|[_ ->]]]]; auto; exfalso; cbn in H; discriminate.
    + destruct H as [[H _]|[[_ ->]|[[H _]|[H _]]]]; auto; exfalso; cbn in H; discriminate.
    + destruct H as [[_ ->]|[[H _]|[[H _]|[H _]]]]; auto; exfalso; cbn in H; discriminate.
Qed.
Example platform_ex : forall t, platforms_map t -> platform_from_name t (RfcModel.chars "AArch64" ++ [0]) = Ret 0xaa64 /\ platform_from_name t (RfcModel.chars "arm6" ++ [0]) = Ret 0.
Proof.
  intros t M. split.
  - destruct (platform_spec t M (RfcModel.chars "AArch64") [] ltac:(apply chars_ok; reflexivity)) as (v & E & [H|[_ H]]).
    + assert (W : means (RfcModel.chars "AArch64") 0xaa64) by (left; split; reflexivity). rewrite (platform_unique _ _ _ H W) in E. exact E.
    + exfalso. apply (H 0xaa64). left. split; reflexivity.
  - destruct (platform_spec t M (RfcModel.chars "arm6") [] ltac:(apply chars_ok; reflexivity)) as (v & E & [H|[-> _]]); [|exact E].
    exfalso. unfold means, same_text in H. destruct H as [[H _]|[[H _]|[[H _]|[H _]]]]; vm_compute in H; discriminate.
Qed.
