(** Properties C256-C262: strcpy from UTF-16 to UTF-32, collation, strtod, strftime, ref_unique_ptr. *)
From Coq Require Import ZifyBool ZifyNat.
From Verif Require Import Base StringModel StringSpec StringProofs StringSearch StringTrim StringProps SgmlSpec MiscModel.

(** ** C256 *)
Lemma wr_cell : forall a d v, wr (a ++ d) (length a) v = match d with [] => UB | _ :: r => Ret (a ++ v :: r) end.
Proof. induction a as [|x a IH]; intros d v; cbn [app length wr]; [destruct d; reflexivity|]. rewrite IH. destruct d; reflexivity. Qed.
(** [out], a terminator and the rest of the cells, if there is room *)
Definition stored (done d out : list Z) : outcome (list Z * nat) :=
  if (length out <? length d)%nat then Ret (done ++ out ++ 0 :: skipn (S (length out)) d, (length done + length out)%nat) else UB.
Lemma loop16_spec : forall n t, (length t <= n)%nat -> ~ In 0 t -> forall junk done d, strcpy_16_32_loop (done ++ d) (t ++ 0 :: junk) (length done) = stored done d (decode16 t).
Proof.
  assert (STEP : forall done d v rest (k : list Z -> list Z -> outcome (list Z * nat)), v <> 0 ->
    (forall d', k (done ++ [v]) d' = stored (done ++ [v]) d' rest) ->
    (let* x := wr (done ++ d) (length done) v in if v =? 0 then Ret (x, length done) else match d with [] => UB | _ :: r => k (done ++ [v]) r end) = stored done d (v :: rest)).
  { intros done d v rest k V K. rewrite wr_cell. destruct d as [|y d]; cbn [obind]; [unfold stored; cbn [length]; reflexivity|]. replace (v =? 0) with false by lia. rewrite K. unfold stored. cbn [length].
    change (S (length rest) <? S (length d))%nat with (length rest <? length d)%nat. rewrite app_length. cbn [length]. destruct (length rest <? length d)%nat; auto. rewrite <- app_assoc. cbn [app skipn]. do 2 f_equal. lia. }
  induction n; intros t L N junk done d.
  { destruct t; [|cbn in L; lia]. cbn [app strcpy_16_32_loop]. change (is_high_surrogate 0) with false. cbv iota. rewrite wr_cell. unfold stored. cbn [decode16 length app]. destruct d; [reflexivity|]. cbn [obind skipn]. change (0 =? 0) with true. cbn. rewrite Nat.add_0_r. reflexivity. }
  destruct t as [|a t]. { apply (IHn [] ltac:(cbn; lia) N). }
  assert (A0 : a <> 0) by (intros ->; apply N; left; auto). assert (Nt : ~ In 0 t) by (intros X; apply N; right; auto). cbn [length] in L.
  assert (GO : forall v t2 rest, v <> 0 -> (length t2 <= n)%nat -> ~ In 0 t2 -> rest = decode16 t2 ->
    (let* x := wr (done ++ d) (length done) v in if v =? 0 then Ret (x, length done) else strcpy_16_32_loop x (t2 ++ 0 :: junk) (S (length done))) = stored done d (v :: rest)).
  { intros v t2 rest V L2 N2 ->. rewrite <- (STEP done d v (decode16 t2) (fun p r => strcpy_16_32_loop (p ++ r) (t2 ++ 0 :: junk) (length p)) V).
    - rewrite wr_cell. destruct d as [|y d2]; auto. cbn [obind]. replace (v =? 0) with false by lia. rewrite <- app_assoc, app_length. cbn [app length]. replace (length done + 1)%nat with (S (length done)) by lia. reflexivity.
    - intros d'. apply IHn; auto. }
  cbn [app strcpy_16_32_loop]. unfold is_high_surrogate. destruct ((55296 <=? a) && (a <? 56320)) eqn:H.
  - destruct t as [|b t].
    + cbn [app]. change (is_low_surrogate 0) with false. cbv iota. apply (GO a [] []); auto; cbn; lia.
    + cbn [app]. unfold is_low_surrogate. cbn [length] in L. assert (Nb : ~ In 0 t) by (intros X; apply Nt; right; auto). destruct ((56320 <=? b) && (b <? 57344)) eqn:K.
      * cbn [decode16]. replace ((55296 <=? a) && (a <=? 56319) && (56320 <=? b) && (b <=? 57343)) with true by lia.
        assert (E : surrogate_pair_to_ucs4 a b = 65536 + (a - 55296) * 1024 + (b - 56320)) by (unfold surrogate_pair_to_ucs4; rewrite Z.shiftl_mul_pow2 by lia; change (2 ^ 10) with 1024; lia).
        rewrite E. cbv zeta. apply GO; auto; lia.
      * change (decode16 (a :: b :: t)) with (if (55296 <=? a) && (a <=? 56319) && (56320 <=? b) && (b <=? 57343) then 65536 + (a - 55296) * 1024 + (b - 56320) :: decode16 t else a :: decode16 (b :: t)).
        replace ((55296 <=? a) && (a <=? 56319) && (56320 <=? b) && (b <=? 57343)) with false by lia. apply (GO a (b :: t)); auto. cbn [length]. lia.
  - replace (decode16 (a :: t)) with (a :: decode16 t). { apply GO; auto. lia. }
    destruct t as [|b t]; auto. change (decode16 (a :: b :: t)) with (if (55296 <=? a) && (a <=? 56319) && (56320 <=? b) && (b <=? 57343) then 65536 + (a - 55296) * 1024 + (b - 56320) :: decode16 t else a :: decode16 (b :: t)).
    replace ((55296 <=? a) && (a <=? 56319) && (56320 <=? b) && (b <=? 57343)) with false by lia. reflexivity.
Qed.
(** The destination gets the code points of the text and a terminator; the other cells stay; nothing behind the terminator is read.
    It is enough if the destination has one cell more than there are code points. *)
Theorem strcpy_16_32_spec : forall d t junk, ~ In 0 t -> let out := decode16 t in
  strcpy_16_32 d (t ++ 0 :: junk) = if (length out <? length d)%nat then Ret (out ++ 0 :: skipn (S (length out)) d, length out) else UB.
Proof. intros d t junk N out. unfold strcpy_16_32. exact (loop16_spec (length t) t (le_n _) N junk [] d). Qed.
(** what was encoded comes back: Unicode scalar values but NUL *)
Definition scalar (c : Z) : Prop := 0 < c < 55296 \/ 57344 <= c < 1114112.
Lemma decode_encoded : forall l, Forall scalar l -> decode16 (utf16 l) = l.
Proof.
  induction l as [|c l IH]; intros F; auto. inversion F as [|? ? C F']; subst. unfold utf16 in *. cbn [flat_map]. unfold utf16_of at 1. destruct (Z.ltb_spec c 65536) as [L|L].
  - cbn [app]. rewrite <- IH at 2 by auto. destruct (flat_map utf16_of l) as [|b r] eqn:E; [reflexivity|].
    change (decode16 (c :: b :: r)) with (if (55296 <=? c) && (c <=? 56319) && (56320 <=? b) && (b <=? 57343) then 65536 + (c - 55296) * 1024 + (b - 56320) :: decode16 r else c :: decode16 (b :: r)).
    replace ((55296 <=? c) && (c <=? 56319) && (56320 <=? b) && (b <=? 57343)) with false by (unfold scalar in C; lia). reflexivity.
  - cbn [app]. change (decode16 (55296 + (c - 65536) / 1024 :: 56320 + (c - 65536) mod 1024 :: flat_map utf16_of l)) with
      (if (55296 <=? 55296 + (c - 65536) / 1024) && (55296 + (c - 65536) / 1024 <=? 56319) && (56320 <=? 56320 + (c - 65536) mod 1024) && (56320 + (c - 65536) mod 1024 <=? 57343)
       then 65536 + (55296 + (c - 65536) / 1024 - 55296) * 1024 + (56320 + (c - 65536) mod 1024 - 56320) :: decode16 (flat_map utf16_of l) else 55296 + (c - 65536) / 1024 :: decode16 (56320 + (c - 65536) mod 1024 :: flat_map utf16_of l)).
    unfold scalar in C. replace ((55296 <=? 55296 + (c - 65536) / 1024) && (55296 + (c - 65536) / 1024 <=? 56319) && (56320 <=? 56320 + (c - 65536) mod 1024) && (56320 + (c - 65536) mod 1024 <=? 57343)) with true by lia.
    f_equal; [lia|]. apply IH. auto.
Qed.
Lemma encoded_nz : forall l, Forall scalar l -> ~ In 0 (utf16 l).
Proof.
  intros l F X. apply in_flat_map in X as (c & I & X). rewrite Forall_forall in F. specialize (F c I). unfold scalar, utf16_of in *. destruct (c <? 65536); cbn [In] in X; [lia|]. destruct X as [X|[X|[]]]; lia.
Qed.
Theorem strcpy_16_32_round_trip : forall l d junk, Forall scalar l -> (length l < length d)%nat ->
  strcpy_16_32 d (utf16 l ++ 0 :: junk) = Ret (l ++ 0 :: skipn (S (length l)) d, length l).
Proof. intros l d junk F L. rewrite strcpy_16_32_spec by (apply encoded_nz; auto). cbv zeta. rewrite decode_encoded by auto. replace (length l <? length d)%nat with true by lia. reflexivity. Qed.

(** ** C257, C258 *)
Lemma range_zstr : forall n s, range s (length (zstr n s)) = Ret (zstr n s).
Proof.
  intros n s. unfold range. destruct (zstr_le n s) as [_ L]. replace (length (zstr n s) <=? length s)%nat with true by lia. f_equal. destruct (zstr_prefix n s) as (r & E & _). rewrite E at 2. rewrite firstn_app, Nat.sub_diag, firstn_all. apply app_nil_r.
Qed.
(** C257: strcoll orders the texts as the locale does *)
Theorem strcoll_spec : forall compare s1 s2, In 0 s1 -> In 0 s2 -> strcoll compare s1 s2 = Ret (compare (cz s1) (cz s2)).
Proof. intros compare s1 s2 H1 H2. unfold strcoll. rewrite !strlen_cz by auto. cbn [obind]. unfold cz. rewrite !range_zstr. reflexivity. Qed.
(** C258, refuted: strncoll orders the texts up to their terminators or limits.  Two buffers with the text "a" and different cells
    behind the terminator are not equal (for the comparison of the C locale), and a limit behind the buffer is not defined. *)
Fixpoint lex (a b : list Z) : Z :=
  match a, b with
  | [], [] => 0 | [], _ => -1 | _, [] => 1
  | x :: a, y :: b => if x <? y then -1 else if y <? x then 1 else lex a b
  end.
Theorem strncoll_refuted :
  (exists s1 s2 n, readable n s1 /\ readable n s2 /\ zstr n s1 = zstr n s2 /\ strncoll lex s1 n s2 n = Ret (-1)) /\
  (exists s1 s2 n, readable n s1 /\ readable n s2 /\ strncoll lex s1 n s2 n = UB).
Proof.
  split.
  - exists [97; 0; 1], [97; 0; 2], 3%nat. repeat split; left; cbn; lia.
  - exists [97; 0], [97; 0], 3%nat. repeat split; right; cbn; auto.
Qed.
(** what holds: without terminators within the limits *)
Theorem strncoll_partial : forall compare s1 n1 s2 n2, (n1 <= length s1)%nat -> (n2 <= length s2)%nat -> ~ In 0 (firstn n1 s1) -> ~ In 0 (firstn n2 s2) ->
  strncoll compare s1 n1 s2 n2 = Ret (compare (zstr n1 s1) (zstr n2 s2)).
Proof.
  intros compare s1 n1 s2 n2 L1 L2 N1 N2. assert (G : forall n s, ~ In 0 (firstn n s) -> zstr n s = firstn n s).
  { induction n; intros [|c s] N; auto. cbn [zstr firstn] in *. replace (c =? 0) with false by (symmetry; apply Z.eqb_neq; intros ->; apply N; left; auto). f_equal. apply IHn. intros X. apply N. right. auto. }
  unfold strncoll, range. replace (n1 <=? length s1)%nat with true by lia. replace (n2 <=? length s2)%nat with true by lia. cbn [obind]. rewrite !G by auto. reflexivity.
Qed.

(** ** C259: strtod gives what the C function makes of the text up to its terminator or limit, whatever comes behind *)
Theorem strtod_spec : forall R (conv : list Z -> R * nat) s count, readable count s -> strtod conv s count = Ret (conv (zstr count s)).
Proof. intros R conv s count H. unfold strtod. rewrite strnlen_zstr by auto. cbn [obind]. rewrite range_zstr. reflexivity. Qed.

(** ** C260, C261 *)
Lemma strcatftime_loop_spec : forall fuel max str text cap, text <> [] -> (length text <= cap * 2 ^ (fuel - 1))%nat -> (0 < fuel)%nat -> (forall k, (cap * 2 ^ k < 2 * length text)%nat \/ k = 0%nat -> (length str + cap * 2 ^ k <= max)%nat) ->
  strcatftime_loop fuel max str text cap = Ret (str ++ text).
Proof.
  induction fuel; intros max str text cap N L P M; [lia|]. cbn [strcatftime_loop]. pose proof (M 0%nat ltac:(auto)) as M0. cbn [Nat.pow] in M0. replace (max <? length str + cap)%nat with false by lia.
  unfold c_strftime. destruct (Nat.ltb_spec (length text) (cap + 1)) as [F|F].
  - replace (0 <? length text)%nat with true by (destruct text; [congruence|]; cbn; lia). rewrite firstn_all. reflexivity.
  - cbn [Nat.ltb Nat.leb]. destruct fuel as [|fuel]; [cbn in L; lia|]. apply IHfuel; auto; try lia.
    + replace (S (S fuel) - 1)%nat with (S fuel) in L by lia. replace (S fuel - 1)%nat with fuel by lia. cbn [Nat.pow] in L. lia.
    + intros k K. replace (cap * 2 * 2 ^ k)%nat with (cap * 2 ^ S k)%nat by (cbn [Nat.pow]; lia). apply M. destruct K as [K| ->]; left; cbn [Nat.pow] in *; lia.
Qed.
(** C260: the formatted text is appended, whatever its length, if it is not empty and memory suffices for twice its length *)
Theorem strcatftime_spec : forall w max str text, (0 < w <= 1024)%nat -> text <> [] -> (length str + 2 * 1024 / w + 2 * length text <= max)%nat -> exists fuel,
  strcatftime fuel w max str text = Ret (str ++ text) /\ strftime_to fuel w max str text = Ret text.
Proof.
  intros w max str text W N M. assert (C : (1 <= 2 * 1024 / w)%nat) by (apply Nat.div_le_lower_bound; lia).
  assert (G : forall s, (length s <= length str)%nat -> strcatftime (S (length text)) w max s text = Ret (s ++ text)).
  { intros s Ls. unfold strcatftime. unfold c_strftime at 1. destruct (length text <? 1024 / w)%nat eqn:F.
    - replace (0 <? length text)%nat with true by (destruct text; [congruence|]; cbn; lia). rewrite firstn_all. reflexivity.
    - change (0 <? 0)%nat with false. cbv iota. set (cap := (2 * 1024 / w)%nat) in *. apply strcatftime_loop_spec; auto; try lia.
      + replace (S (length text) - 1)%nat with (length text) by lia. pose proof (Nat.pow_gt_lin_r 2 (length text) ltac:(lia)). nia.
      + intros k [K| ->]; cbn [Nat.pow]; lia. }
  exists (S (length text)). split; [apply G; auto|]. unfold strftime_to. rewrite G by (cbn; lia). reflexivity.
Qed.
(** C261, refuted: strftime gives the formatted text.  An empty one - that of an empty format, or of %p where there is no a.m. - looks
    as if the buffer were too small, always: the string grows until resize throws. *)
Theorem strftime_empty_refuted : forall w max str, (0 < w <= 1024)%nat -> exists fuel, strcatftime fuel w max str [] = Throw /\ strftime_to fuel w max str [] = Throw.
Proof.
  intros w max str W. assert (C : (1 <= 2 * 1024 / w)%nat) by (apply Nat.div_le_lower_bound; lia). set (cap := (2 * 1024 / w)%nat) in *.
  assert (G : forall n s c, (1 <= c)%nat -> (max < c * 2 ^ n)%nat -> strcatftime_loop (S n) max s [] c = Throw).
  { induction n; intros s c P M; cbn [strcatftime_loop].
    - cbn [Nat.pow] in M. replace (max <? length s + c)%nat with true by lia. reflexivity.
    - destruct (max <? length s + c)%nat; auto. unfold c_strftime. cbn [length]. replace (0 <? c + 1)%nat with true by lia. cbn [Nat.ltb Nat.leb]. apply IHn; [lia|]. cbn [Nat.pow] in M. lia. }
  exists (S max). assert (A : (max < cap * 2 ^ max)%nat) by (pose proof (Nat.pow_gt_lin_r 2 max ltac:(lia)); nia).
  assert (D : (0 <? 1024 / w)%nat = true) by (apply Nat.ltb_lt, Nat.div_str_pos; lia).
  unfold strftime_to, strcatftime. unfold c_strftime at 1 2. cbn [length]. rewrite D. cbn [Nat.ltb Nat.leb]. fold cap. split; apply G; auto.
Qed.

(** ** C262: ref_unique_ptr.  One object is owned or none, and what the callee made is owned afterwards. *)
Definition sole (m : mem) : Prop := ptr m = 0 /\ ~ In 0 (alive m) /\ NoDup (alive m) /\ (forall p, In p (alive m) <-> p = own m /\ p <> 0).
(** refuted: where the callee stores another object over one that is owned, as for an out parameter, that one is never deleted *)
Theorem get_ptr_refuted : exists m p, sole m /\ ~ In p (alive m) /\ let m2 := rup_call m [] p in own m2 = p /\ In (own m) (alive m2) /\ own m <> own m2 /\ own m <> 0.
Proof.
  exists (Mem [1] 1 0), 2. split; [|split].
  - split; [reflexivity|]. split; [cbn; intros [X|[]]; discriminate|]. split; [constructor; [intros []|constructor]|]. intros p. cbn. split; [intros [<-|[]]; split; auto; discriminate|intros [-> _]; auto].
  - cbn. intros [X|[]]; discriminate.
  - cbv zeta. split; [vm_compute; reflexivity|]. split; [vm_compute; auto|]. split; [vm_compute; discriminate|cbn; discriminate].
Qed.
(** what holds: where the owner is empty, or the callee keeps or deletes the object in the pointer *)
Theorem get_ptr_partial : forall m freed p, sole m -> own m = 0 \/ p = own m /\ ~ In p freed \/ In (own m) freed /\ p <> own m -> sole (rup_call m freed p) /\ own (rup_call m freed p) = p.
Proof.
  intros [l o q] freed p (P0 & NZ & ND & S0) H. cbn [alive own ptr] in *. subst q. unfold rup_call, rup_take, rup_return. cbn [alive own ptr]. set (l2 := filter (fun x => negb (existsb (Z.eqb x) freed)) l).
  assert (I2 : forall x, In x l2 <-> x = o /\ x <> 0 /\ ~ In x freed).
  { intros x. unfold l2. rewrite filter_In, S0, negb_true_iff. assert (E : existsb (Z.eqb x) freed = false <-> ~ In x freed).
    { split; intros A.
      - intros B. assert (existsb (Z.eqb x) freed = true) by (apply existsb_exists; exists x; split; auto; lia). congruence.
      - apply not_true_is_false. intros B. apply existsb_exists in B as (y & B & C). apply A. replace x with y by lia. auto. }
    rewrite E. tauto. }
  assert (N2 : NoDup l2) by (apply NoDup_filter; auto).
  destruct (Z.eqb_spec p 0) as [->|PZ]; cbn [alive own ptr orb].
  - change (0 =? 0) with true. cbv iota. cbn [alive own ptr]. split; auto. repeat split; cbn [alive own ptr]; auto; try (intros X; apply I2 in X; tauto). all: intros; exfalso; apply I2 in H0 || destruct H0; intuition congruence.
  - destruct (p =? 0) eqn:Q; [lia|]. cbn [alive own ptr]. change (0 =? 0) with true. cbv iota. destruct (existsb (Z.eqb p) l2) eqn:X.
    + apply existsb_exists in X as (y & Y & E). replace y with p in Y by lia. split; auto. repeat split; cbn [alive own ptr]; auto; intros.
      * intros A. apply I2 in A. tauto.
      * apply I2 in Y. apply I2 in H0. destruct Y, H0. congruence.
      * apply I2 in H0. tauto.
      * destruct H0 as [-> _]. auto.
    + assert (NI : ~ In p l2) by (intros A; assert (existsb (Z.eqb p) l2 = true) by (apply existsb_exists; exists p; split; auto; lia); congruence).
      assert (EMP : l2 = []). { destruct l2 as [|x r]; auto. exfalso. destruct (proj1 (I2 x)) as (A & B & C); [left; auto|]. subst x. destruct H as [H|[[-> H]|[H H']]]; [congruence| |contradiction]. apply NI. left. auto. }
      rewrite EMP. split; auto. repeat split; cbn [alive own ptr]; auto; intros; try (cbn in *; intuition congruence). constructor; [intros []|constructor].
Qed.
Example misc_ex : strcpy_16_32 [9; 9; 9; 9] [65; 55357; 56832; 0] = Ret ([65; 128512; 0; 9], 2%nat) /\ strcatftime 5 2 100 [1] [7; 8] = Ret [1; 7; 8] /\ sole (rup_call (Mem [] 0 0) [] 5).
Proof.
  split; [reflexivity|]. split; [vm_compute; reflexivity|]. apply get_ptr_partial; [|auto].
  split; [reflexivity|]. split; [intros []|]. split; [constructor|]. intros p. cbn. split; [intros []|intros [-> X]; auto].
Qed.
