(** Lemmas about searching and copying in the string model. *)
From Verif Require Import Base StringModel StringSpec StringProofs.
From Coq Require Import ZifyBool ZifyNat.

(* ---- character search ---- *)
(* the counted version with an arbitrary large count equals the terminated one *)
Lemma strchr_n : forall f s chr i, In 0 s -> strchr_loop f s chr i = strnchr_loop f s (length s) chr i.
Proof.
  intros f. induction s as [|c r IH]; intros chr i H; [destruct H|]. cbn. destruct (c =? 0) eqn:E; auto.
  destruct (f c =? chr); auto. apply IH. destruct H; [lia|auto].
Qed.
Lemma strrchr_n : forall f s chr i z, In 0 s -> strrchr_loop f s chr i z = strrnchr_loop f s (length s) chr i z.
Proof.
  intros f. induction s as [|c r IH]; intros chr i z H; [destruct H|]. cbn. destruct (c =? 0) eqn:E; auto.
  apply IH. destruct H; [lia|auto].
Qed.
Definition shift (i : nat) (r : option nat) : option nat := match r with Some k => Some (i + k)%nat | None => None end.
Lemma strnchr_spec : forall f n s chr i, readable n s ->
  exists r, strnchr_loop f s n (f chr) i = Ret (shift i r) /\ least_pos (unit_at f (zstr n s) chr) r.
Proof.
  intros f n. induction n; intros s chr i H.
  - exists None. split; [reflexivity|]. intros [|j]; unfold unit_at; destruct s; cbn; discriminate.
  - destruct s as [|c r]; [apply readable_nil in H; lia|]. cbn [strnchr_loop zstr].
    destruct (c =? 0) eqn:E. { exists None. split; [reflexivity|]. intros [|j]; unfold unit_at; cbn; discriminate. }
    destruct (f c =? f chr) eqn:E2.
    + exists (Some 0%nat). split; [cbn; f_equal; f_equal; lia|]. split; [|intros; lia]. unfold unit_at. cbn. f_equal. lia.
    + destruct (IHn r chr (S i)) as (x & Hx & L). { eapply readable_cons; eauto; lia. }
      exists (shift 1 x). split. { rewrite Hx. destruct x; cbn; auto. do 2 f_equal. lia. }
      destruct x as [k|]; cbn in *.
      * destruct L as [L1 L2]. split; [exact L1|]. intros [|j] Hj; unfold unit_at; cbn; [intros F; injection F; lia|]. apply L2. lia.
      * intros [|j]; unfold unit_at; cbn; [intros F; injection F; lia|]. apply L.
Qed.
Lemma strrnchr_spec : forall f n s chr i z, readable n s ->
  exists r, strrnchr_loop f s n (f chr) i z = Ret (match r with Some k => Some (i + k)%nat | None => z end) /\ greatest_pos (unit_at f (zstr n s) chr) r.
Proof.
  intros f n. induction n; intros s chr i z H.
  - exists None. split; [reflexivity|]. intros [|j]; unfold unit_at; destruct s; cbn; discriminate.
  - destruct s as [|c r]; [apply readable_nil in H; lia|]. cbn [strrnchr_loop zstr].
    destruct (c =? 0) eqn:E. { exists None. split; [reflexivity|]. intros [|j]; unfold unit_at; cbn; discriminate. }
    destruct (IHn r chr (S i) (if f c =? f chr then Some i else z)) as (x & Hx & L). { eapply readable_cons; eauto; lia. }
    destruct x as [k|].
    + exists (Some (S k)). split. { rewrite Hx. do 2 f_equal. lia. }
      destruct L as [L1 L2]. split; [exact L1|]. intros [|j] Hj; [lia|]. apply L2. lia.
    + destruct (f c =? f chr) eqn:E2.
      * exists (Some 0%nat). split. { rewrite Hx. do 2 f_equal. lia. } split; [unfold unit_at; cbn; f_equal; lia|].
        intros [|j] Hj; [lia|]. apply L.
      * exists None. split; [exact Hx|]. intros [|j]; [unfold unit_at; cbn; intros F; injection F; lia|apply L].
Qed.

(* ---- substring search ---- *)
Lemma occurs_0 : forall f t needle, occurs_at f t needle 0 <-> exists mid rest, t = mid ++ rest /\ map f mid = map f needle.
Proof.
  split.
  - intros (pre & post & -> & Hl & H). destruct pre; [|discriminate]. exact H.
  - intros H. exists [], t. auto.
Qed.
Lemma occurs_S : forall f c t needle k, occurs_at f (c :: t) needle (S k) <-> occurs_at f t needle k.
Proof.
  split; intros (pre & post & E & Hl & H).
  - destruct pre as [|x pre]; [discriminate|]. injection E as -> ->. exists pre, post. repeat split; auto.
  - exists (c :: pre), post. subst. repeat split; auto.
Qed.
Lemma occurs_len : forall f t needle k, occurs_at f t needle k -> (k + length needle <= length t)%nat.
Proof.
  intros f t needle k (pre & post & -> & <- & mid & rest & -> & E). apply (f_equal (@length Z)) in E.
  rewrite !map_length in E. rewrite !app_length. lia.
Qed.
(* inner loop *)
Lemma strnstr_inner_spec : forall f sample n s, In 0 sample -> readable n s ->
  exists h, strnstr_inner f s n sample = Ret h /\
    match h with
    | Hit => occurs_at f (zstr n s) (cz sample) 0
    | Npos => (length (zstr n s) < length (cz sample))%nat
    | Miss => ~ occurs_at f (zstr n s) (cz sample) 0 /\ exists c r, s = c :: r /\ n <> O /\ c <> 0
    end.
Proof.
  intros f. induction sample as [|x ss IH]; intros n s HS HR; [destruct HS|]. cbn [strnstr_inner]. rewrite cz_cons.
  destruct (x =? 0) eqn:Ex. { exists Hit. split; auto. apply occurs_0. exists [], (zstr n s). auto. }
  destruct n as [|n]. { exists Npos. split; auto. destruct s; cbn; lia. }
  destruct s as [|c r]; [apply readable_nil in HR; lia|]. cbn [zstr].
  destruct (c =? 0) eqn:Ec. { exists Npos. split; auto. cbn; lia. }
  destruct (negb (f c =? f x)) eqn:E.
  - exists Miss. split; auto. split.
    + intros H. apply occurs_0 in H. destruct H as (mid & rest & H1 & H2). destruct mid as [|m mid]; [discriminate|].
      injection H1 as -> _. injection H2 as H2 _. lia.
    + exists c, r. repeat split; auto; lia.
  - destruct (IH n r) as (h & Hh & P). { destruct HS; [lia|auto]. } { eapply readable_cons; eauto; lia. }
    exists h. split; auto. destruct h; cbn [length].
    + apply occurs_0 in P. destruct P as (mid & rest & -> & P2). apply occurs_0. exists (c :: mid), rest. split; auto. cbn. f_equal; auto. lia.
    + destruct P as [P (c' & r' & -> & Hn & Hc)]. split; [|exists c, (c' :: r'); repeat split; auto; lia].
      intros H. apply P. apply occurs_0 in H. destruct H as (mid & rest & H1 & H2). destruct mid as [|m mid]; [discriminate|].
      injection H1 as -> H1. injection H2 as _ H2. apply occurs_0. exists mid, rest. auto.
    + cbn in P. lia.
Qed.
Lemma strnstr_spec_aux : forall f s n sample off, In 0 sample -> readable n s ->
  exists r, strnstr_loop f s n sample off = Ret (shift off r) /\ least_pos (occurs_at f (zstr n s) (cz sample)) r.
Proof.
  intros f s. induction s as [|c r IH]; intros n sample off HS HR.
  - destruct (strnstr_inner_spec f sample n [] HS HR) as (h & Hh & P). cbn [strnstr_loop]. rewrite Hh. cbn [obind]. destruct h.
    + exists (Some 0%nat). split; [cbn; do 2 f_equal; lia|]. split; auto. intros; lia.
    + destruct P as (_ & ? & ? & ? & _). discriminate.
    + exists None. split; auto. intros j H. apply occurs_len in H. lia.
  - destruct (strnstr_inner_spec f sample n (c :: r) HS HR) as (h & Hh & P). cbn [strnstr_loop]. rewrite Hh. cbn [obind]. destruct h.
    + exists (Some 0%nat). split; [cbn; do 2 f_equal; lia|]. split; auto. intros; lia.
    + destruct P as (P & c' & r' & E & Hn & Hc). injection E as <- <-. destruct n as [|n]; [lia|]. cbn [Nat.sub]. rewrite Nat.sub_0_r.
      destruct (IH n sample (S off) HS) as (x & Hx & L). { eapply readable_cons; eauto. }
      exists (shift 1 x). split. { rewrite Hx. destruct x; cbn; auto. do 2 f_equal. lia. }
      cbn [zstr] in *. replace (c =? 0) with false in * by lia. destruct x as [k|]; cbn in *.
      * destruct L as [L1 L2]. split; [apply occurs_S; auto|]. intros [|j] Hj; [auto|]. rewrite occurs_S. apply L2. lia.
      * intros [|j]; [auto|]. rewrite occurs_S. apply L.
    + exists None. split; auto. intros j H. apply occurs_len in H. lia.
Qed.
Lemma strstr_inner_n : forall f sample s n, In 0 s -> (length s <= n)%nat -> strstr_inner f s sample = strnstr_inner f s n sample.
Proof.
  intros f. induction sample as [|x ss IH]; intros s n H Hn; [reflexivity|]. cbn. destruct (x =? 0); auto.
  destruct s as [|c r]; [destruct H|]. destruct n; [cbn in Hn; lia|]. destruct (c =? 0) eqn:E; auto. destruct (negb (f c =? f x)); auto.
  apply IH; [destruct H; [lia|auto]|cbn in Hn; lia].
Qed.
Lemma strstr_n : forall f s sample off n, In 0 s -> In 0 sample -> (length s <= n)%nat -> strstr_loop f s sample off = strnstr_loop f s n sample off.
Proof.
  intros f. induction s as [|c r IH]; intros sample off n H HS Hn; [destruct H|].
  cbn [strstr_loop strnstr_loop]. rewrite (strstr_inner_n f sample (c :: r) n) by auto.
  destruct (strnstr_inner_spec f sample n (c :: r) HS ltac:(right; auto)) as (h & -> & P). cbn [obind]. destruct h; auto.
  destruct P as (_ & c' & r' & E & _ & Hc). injection E as <- <-. apply IH; auto; [destruct H; [congruence|auto]|cbn in Hn; lia].
Qed.

(* ---- writing ---- *)
Lemma wr_spec : forall d j v, (j < length d)%nat -> wr d j v = Ret (firstn j d ++ v :: skipn (S j) d).
Proof.
  induction d as [|c r IH]; intros [|j] v H; cbn in *; try lia; auto. rewrite IH by lia. reflexivity.
Qed.
Lemma wr_oob : forall d j v, (length d <= j)%nat -> wr d j v = UB.
Proof. induction d as [|c r IH]; intros [|j] v H; cbn in *; try lia; auto. rewrite IH by lia. reflexivity. Qed.
Lemma wr_app : forall a b c v, wr (a ++ b :: c) (length a) v = Ret (a ++ v :: c).
Proof. induction a as [|x a IH]; intros; cbn; auto. rewrite IH. reflexivity. Qed.

(* copying into a destination written a ++ d, from index |a| on *)
Definition copied (out d : list Z) (term : bool) : list Z :=
  if term then out ++ 0 :: skipn (S (length out)) d else out ++ skipn (length out) d.
Lemma copy_n_spec : forall cast n src a d, readable n (map cast src) ->
  let out := zstr n (map cast src) in
  (Nat.min n (S (length out)) <= length d)%nat ->
  copy_n cast (a ++ d) src n (length a) =
    Ret (a ++ copied out d (length out <? n)%nat, (length a + length out)%nat).
Proof.
  intros cast n. induction n; intros src a d HR out Hd.
  - cbn. unfold copied. cbn. subst out. do 2 f_equal. cbn. lia.
  - destruct src as [|c r]; [apply readable_nil in HR; lia|]. cbn [copy_n map] in *. subst out. cbn [zstr] in *.
    destruct d as [|x d]; [cbn in Hd; lia|]. rewrite wr_app. cbn [obind]. destruct (cast c =? 0) eqn:E.
    + cbn. unfold copied. replace (cast c) with 0 by lia. do 2 f_equal. lia.
    + replace (a ++ cast c :: d) with ((a ++ [cast c]) ++ d) by (rewrite <- app_assoc; auto).
      replace (S (length a)) with (length (a ++ [cast c])) by (rewrite app_length; cbn; lia).
      rewrite IHn; [|eapply readable_cons; eauto; lia|cbn in Hd; lia].
      cbn [length]. change (S (length (zstr n (map cast r))) <? S n)%nat with (length (zstr n (map cast r)) <? n)%nat.
      unfold copied. rewrite app_length. cbn [length]. do 2 f_equal; [|lia].
      destruct (length (zstr n (map cast r)) <? n)%nat; rewrite <- app_assoc; reflexivity.
Qed.
Lemma copy_z_n : forall cast src a n j, In 0 (map cast src) -> (length src <= n)%nat -> copy_z cast a src j = copy_n cast a src n j.
Proof.
  intros cast. induction src as [|c r IH]; intros a n j H Hn; [destruct H|]. destruct n; [cbn in Hn; lia|]. cbn.
  destruct (wr a j (cast c)); auto. cbn. destruct (cast c =? 0) eqn:E; auto. apply IH; [destruct H; [lia|auto]|cbn in Hn; lia].
Qed.
Lemma copy_nn_spec : forall cast room src ns a d, readable (match ns with Some k => Nat.min room k | None => room end) (map cast src) ->
  (room <= length d)%nat ->
  let out := zstr (match ns with Some k => Nat.min room k | None => room end) (map cast src) in
  copy_nn cast (a ++ d) room src ns (length a) =
    Ret (a ++ copied out d (length out <? room)%nat, (length a + length out)%nat).
Proof.
  intros cast room. induction room; intros src ns a d HR Hd out.
  - subst out. replace (match ns with Some k => Nat.min 0 k | None => 0%nat end) with 0%nat by (destruct ns; auto).
    cbn. unfold copied. cbn. do 2 f_equal. lia.
  - destruct d as [|x d]; [cbn in Hd; lia|]. cbn [length] in Hd. cbn [copy_nn].
    destruct ns as [[|k]|].
    + subst out. cbn. rewrite wr_app. cbn. unfold copied. cbn. do 2 f_equal. lia.
    + destruct src as [|c r]; [apply readable_nil in HR; lia|]. cbn [map Nat.min] in HR. subst out. cbn [zstr map Nat.min] in *.
      rewrite wr_app. cbn [obind]. destruct (cast c =? 0) eqn:E.
      * cbn. unfold copied. cbn. replace (cast c) with 0 by lia. do 2 f_equal. lia.
      * replace (a ++ cast c :: d) with ((a ++ [cast c]) ++ d) by (rewrite <- app_assoc; auto).
        replace (S (length a)) with (length (a ++ [cast c])) by (rewrite app_length; cbn; lia).
        replace (S k - 1)%nat with k by lia.
        rewrite IHroom; [|eapply readable_cons; eauto; lia|lia].
        cbn [length]. set (o := zstr (Nat.min room k) (map cast r)). change (S (length o) <? S room)%nat with (length o <? room)%nat.
        unfold copied. rewrite app_length. cbn [length]. do 2 f_equal; [|lia].
        destruct (length o <? room)%nat; rewrite <- app_assoc; reflexivity.
    + destruct src as [|c r]; [apply readable_nil in HR; lia|]. subst out. cbn [zstr map] in *.
      rewrite wr_app. cbn [obind]. destruct (cast c =? 0) eqn:E.
      * cbn. unfold copied. cbn. replace (cast c) with 0 by lia. do 2 f_equal. lia.
      * replace (a ++ cast c :: d) with ((a ++ [cast c]) ++ d) by (rewrite <- app_assoc; auto).
        replace (S (length a)) with (length (a ++ [cast c])) by (rewrite app_length; cbn; lia).
        rewrite IHroom; [|eapply readable_cons; eauto; lia|lia].
        cbn [length]. set (o := zstr room (map cast r)). change (S (length o) <? S room)%nat with (length o <? room)%nat.
        unfold copied. rewrite app_length. cbn [length]. do 2 f_equal; [|lia].
        destruct (length o <? room)%nat; rewrite <- app_assoc; reflexivity.
Qed.

(* UTF-16 to UTF-32 copying *)
Lemma copy_16_32_spec : forall room src n a d, readable n src -> (room <= length d)%nat ->
  let out := firstn room (decode16 (zstr n src)) in
  copy_16_32 (a ++ d) room src n (length a) =
    Ret (a ++ copied out d (length out <? room)%nat, (length a + length out)%nat).
Proof.
  induction room; intros src n a d HR Hd out.
  - subst out. cbn. unfold copied. cbn. do 2 f_equal. lia.
  - destruct d as [|x d]; [cbn in Hd; lia|]. cbn [length] in Hd. cbn [copy_16_32].
    destruct n as [|n]. { subst out. cbn. rewrite wr_app. cbn. unfold copied. cbn. do 2 f_equal. lia. }
    destruct src as [|c r]; [apply readable_nil in HR; lia|].
    assert (Step : forall v src' n', readable n' src' -> v <> 0 -> decode16 (zstr (S n) (c :: r)) = v :: decode16 (zstr n' src') ->
      (let* d' := wr (a ++ x :: d) (length a) v in if v =? 0 then Ret (d', length a) else copy_16_32 d' room src' n' (S (length a))) =
      Ret (a ++ copied out (x :: d) (length out <? S room)%nat, (length a + length out)%nat)).
    { intros v src' n' HR' Hv HD. subst out. rewrite HD. rewrite wr_app. cbn [obind firstn]. replace (v =? 0) with false by lia.
      replace (a ++ v :: d) with ((a ++ [v]) ++ d) by (rewrite <- app_assoc; auto).
      replace (S (length a)) with (length (a ++ [v])) by (rewrite app_length; cbn; lia).
      rewrite IHroom by (auto; lia). cbn [length]. set (o := firstn room (decode16 (zstr n' src'))). change (S (length o) <? S room)%nat with (length o <? room)%nat.
      unfold copied. rewrite app_length. cbn [length]. do 2 f_equal; [|lia].
      destruct (length o <? room)%nat; rewrite <- app_assoc; reflexivity. }
    destruct (c =? 0) eqn:Ec.
    { assert (c = 0) by lia. subst c. subst out. cbn [zstr]. ceq. cbn [decode16 firstn].
      replace (if (1 <? S n)%nat then is_surrogate_pair (0 :: r) else Ret false) with (@Ret bool false)
        by (rewrite surr_dec; change (is_high_surrogate 0) with false; destruct (1 <? S n)%nat; reflexivity).
      cbn [obind]. unfold rd. cbn [nth_error obind]. rewrite wr_app. cbn [obind]. ceq. unfold copied. cbn. rewrite Nat.add_0_r. reflexivity. }
    assert (R1 : readable n r) by (eapply readable_cons; eauto; lia).
    cbn [zstr] in Step. rewrite Ec in Step.
    destruct n as [|n].
    { cbn [Nat.ltb Nat.leb obind]. unfold rd. cbn [nth_error obind skipn]. apply Step; [auto|lia|reflexivity]. }
    cbn [Nat.ltb Nat.leb]. rewrite surr_dec. destruct (is_high_surrogate c) eqn:EH.
    2:{ cbn [obind]. unfold rd. cbn [nth_error obind skipn]. apply Step; auto; [lia|]. destruct r as [|e r]; [apply readable_nil in R1; lia|].
        cbn [zstr]. destruct (e =? 0) eqn:Ee; [reflexivity|]. cbn [decode16]. rewrite <- surr_cond, EH. reflexivity. }
    destruct r as [|e r]; [apply readable_nil in R1; lia|]. cbn [obind].
    destruct (is_low_surrogate e) eqn:EL.
    + unfold rd. cbn [nth_error obind]. rewrite surr_value by auto.
      assert (e <> 0) by (unfold is_low_surrogate in EL; lia). assert (55296 <= c) by (unfold is_high_surrogate in EH; lia).
      assert (56320 <= e) by (unfold is_low_surrogate in EL; lia).
      cbn [skipn Nat.sub]. rewrite Nat.sub_0_r. apply Step; [eapply readable_cons; eauto|lia|].
      cbn [zstr]. replace (e =? 0) with false by lia. cbn [decode16]. rewrite <- surr_cond, EH, EL. reflexivity.
    + unfold rd. cbn [nth_error obind skipn]. apply Step; auto; [lia|].
      cbn [zstr]. destruct (e =? 0) eqn:Ee; [reflexivity|]. cbn [decode16]. rewrite <- surr_cond, EH, EL. reflexivity.
Qed.

(* ---- line ends ---- *)
Lemma nl_cons2 : forall c d r, nl (c :: d :: r) = if (c =? 13) && (d =? 10) then 10 :: nl r else c :: nl (d :: r).
Proof. reflexivity. Qed.
Lemma crlf_str_spec : forall n src dst, (length src <= n)%nat -> In 0 src -> crlf2nl_str dst src = Ret (dst ++ nl (cz src)).
Proof.
  induction n; intros src dst Hl H; [destruct src; [destruct H|cbn in Hl; lia]|].
  destruct src as [|c r]; [destruct H|]. cbn [crlf2nl_str]. rewrite cz_cons. destruct (c =? 0) eqn:E; [cbn; rewrite app_nil_r; auto|].
  destruct H as [H|H]; [lia|]. cbn in Hl.
  destruct r as [|c2 r2]; [destruct H|]. rewrite cz_cons.
  assert (One : crlf2nl_str (dst ++ [c]) (c2 :: r2) = Ret (dst ++ c :: nl (if c2 =? 0 then [] else c2 :: cz r2))).
  { rewrite IHn by (auto; cbn in *; lia). rewrite <- app_assoc. rewrite cz_cons. reflexivity. }
  destruct (c =? 13) eqn:E13; cbn [negb].
  - destruct (c2 =? 10) eqn:E10; cbn [negb].
    + replace (c2 =? 0) with false by lia. rewrite nl_cons2, E13, E10. cbn [andb]. rewrite IHn; [rewrite <- app_assoc; reflexivity|cbn in *; lia|destruct H; [lia|auto]].
    + rewrite One. destruct (c2 =? 0); [reflexivity|]. rewrite nl_cons2, E10, andb_false_r. reflexivity.
  - rewrite One. destruct (c2 =? 0); [reflexivity|]. rewrite nl_cons2, E13. reflexivity.
Qed.
Lemma crlf_buf_spec : forall n src a d, (length src <= n)%nat -> In 0 src -> (length (nl (cz src)) < length d)%nat ->
  crlf2nl_buf (a ++ d) src (length a) = Ret (a ++ copied (nl (cz src)) d true, (length a + length (nl (cz src)))%nat).
Proof.
  induction n; intros src a d Hl H Hd; [destruct src; [destruct H|cbn in Hl; lia]|].
  destruct src as [|c r]; [destruct H|]. cbn [crlf2nl_buf]. rewrite cz_cons in *.
  destruct d as [|x d]; [cbn in Hd; lia|]. cbn [length] in Hd.
  destruct (c =? 0) eqn:E. { rewrite wr_app. cbn. unfold copied. cbn. do 2 f_equal. lia. }
  destruct H as [H|H]; [lia|]. cbn [length] in Hl.
  destruct r as [|c2 r2]; [destruct H|]. rewrite cz_cons in *.
  assert (Step : forall v src', (length src' <= n)%nat -> In 0 src' -> (length (nl (cz src')) < length d)%nat ->
     (let* d' := wr (a ++ x :: d) (length a) v in crlf2nl_buf d' src' (S (length a))) =
     Ret (a ++ copied (v :: nl (cz src')) (x :: d) true, (length a + length (v :: nl (cz src')))%nat)).
  { intros v src' H1 H2 H3. rewrite wr_app. cbn [obind].
    replace (a ++ v :: d) with ((a ++ [v]) ++ d) by (rewrite <- app_assoc; auto).
    replace (S (length a)) with (length (a ++ [v])) by (rewrite app_length; cbn; lia).
    rewrite IHn by auto. unfold copied. rewrite app_length. cbn [length]. do 2 f_equal; [|lia]. rewrite <- app_assoc. reflexivity. }
  destruct ((c =? 13) && (c2 =? 10)) eqn:EE.
  - destruct (c =? 13) eqn:E13; [|discriminate]. cbn [andb] in EE. rewrite EE. cbn [negb]. replace (c2 =? 0) with false in * by lia.
    rewrite nl_cons2 in *. rewrite E13, EE in *. cbn [andb length] in *. apply Step; [lia|destruct H; [lia|auto]|lia].
  - assert (EN : nl (c :: (if c2 =? 0 then [] else c2 :: cz r2)) = c :: nl (cz (c2 :: r2))).
    { rewrite cz_cons. destruct (c2 =? 0); [reflexivity|]. rewrite nl_cons2, EE. reflexivity. }
    rewrite EN in *. cbn [length] in Hd.
    destruct (c =? 13) eqn:E13; cbn [negb andb] in *; [rewrite EE; cbn [negb]|]; apply Step; auto; lia.
Qed.
(* in place: the part of the memory before i is the output, the part from j on is untouched *)
Lemma rd_app : forall a c r, rd (a ++ c :: r) (length a) = Ret c.
Proof. intros. apply rd_nth. rewrite nth_error_app2 by lia. rewrite Nat.sub_diag. reflexivity. Qed.
Lemma crlf_inplace_spec : forall k rest out gap n fuel, (length rest <= k)%nat -> (length rest < fuel)%nat ->
  n = (length out + length gap + length rest)%nat ->
  exists g, crlf2nl_inplace fuel (out ++ gap ++ rest ++ [0]) n (length out) (length out + length gap) =
    Ret (out ++ nl rest ++ g, (length out + length (nl rest))%nat).
Proof.
  induction k; intros rest out gap n fuel Hk Hf Hn.
  - destruct rest; [|cbn in Hk; lia]. destruct fuel; [lia|]. cbn [crlf2nl_inplace length] in *. exists (gap ++ [0]).
    replace (length out + length gap <? n)%nat with false by lia. cbn [nl app length]. rewrite Nat.add_0_r. reflexivity.
  - destruct rest as [|c r].
    { destruct fuel; [lia|]. cbn [crlf2nl_inplace length] in *. exists (gap ++ [0]).
      replace (length out + length gap <? n)%nat with false by lia. cbn [nl app length]. rewrite Nat.add_0_r. reflexivity. }
    destruct fuel; [cbn in Hf; lia|]. cbn [length] in Hk, Hf. cbn [crlf2nl_inplace].
    replace (length out + length gap <? n)%nat with true by (cbn [length] in Hn; lia).
    assert (E1 : rd (out ++ gap ++ (c :: r) ++ [0]) (length out + length gap) = Ret c).
    { rewrite app_assoc. replace (length out + length gap)%nat with (length (out ++ gap)) by (rewrite app_length; auto). apply rd_app. }
    assert (E2 : rd (out ++ gap ++ (c :: r) ++ [0]) (S (length out + length gap)) = Ret (hd 0 r)).
    { replace (out ++ gap ++ (c :: r) ++ [0]) with ((out ++ gap ++ [c]) ++ (r ++ [0])) by (rewrite <- !app_assoc; auto).
      replace (S (length out + length gap)) with (length (out ++ gap ++ [c])) by (rewrite !app_length; cbn; lia).
      destruct r; cbn [app]; apply rd_app. }
    (* one write at position |out| then the recursive call *)
    assert (Wr : forall v q s, q ++ s = c :: r ++ [0] -> q <> [] -> exists gap', (length gap' + 1 = length gap + length q)%nat /\
               wr (out ++ gap ++ (c :: r) ++ [0]) (length out) v = Ret ((out ++ [v]) ++ gap' ++ s)).
    { intros v q s Hq Hne. change ((c :: r) ++ [0]) with (c :: r ++ [0]). rewrite <- Hq.
      destruct gap as [|g0 gp].
      - destruct q as [|q0 q]; [congruence|]. exists q. split; [cbn; lia|]. cbn [app]. rewrite wr_app. rewrite <- app_assoc. reflexivity.
      - exists (gp ++ q). split; [rewrite app_length; cbn; lia|]. cbn [app]. rewrite wr_app. rewrite <- !app_assoc. reflexivity. }
    rewrite E1. cbn [obind].
    destruct ((c =? 13) && (hd 0 r =? 10)) eqn:EE.
    + destruct (c =? 13) eqn:E13; [|discriminate]. cbn [andb] in EE. cbn [negb]. rewrite E2. cbn [obind]. rewrite EE. cbn [negb].
      destruct r as [|c2 r2]; [cbn in EE; lia|]. cbn [hd] in EE.
      destruct (Wr 10 [c; c2] (r2 ++ [0]) eq_refl ltac:(discriminate)) as (gap' & HL & ->). cbn [obind].
      destruct (IHk r2 (out ++ [10]) gap' n fuel) as (g & Hg); [cbn [length] in *; lia|cbn [length] in *; lia|rewrite app_length; cbn [length] in *; lia|].
      exists g. cbn [length] in *.
      replace (S (length out)) with (length (out ++ [10])) by (rewrite app_length; cbn; lia).
      replace (length out + length gap + 2)%nat with (length (out ++ [10%Z]) + length gap')%nat by (rewrite app_length; cbn [length]; lia).
      rewrite Hg. rewrite nl_cons2, E13, EE. cbn [andb length app]. rewrite app_length. cbn [length]. rewrite <- app_assoc. cbn [app]. do 2 f_equal. lia.
    + assert (EN : nl (c :: r) = c :: nl r). { destruct r as [|c2 r2]; [reflexivity|]. cbn [hd] in EE. rewrite nl_cons2, EE. reflexivity. }
      assert (B : (let* one := (if negb (c =? 13) then Ret true else let* b := rd (out ++ gap ++ (c :: r) ++ [0]) (S (length out + length gap)) in Ret (negb (b =? 10))) in
        if one then let* m' := wr (out ++ gap ++ (c :: r) ++ [0]) (length out) c in crlf2nl_inplace fuel m' n (S (length out)) (S (length out + length gap))
        else let* m' := wr (out ++ gap ++ (c :: r) ++ [0]) (length out) 10 in crlf2nl_inplace fuel m' n (S (length out)) (length out + length gap + 2)) =
        let* m' := wr (out ++ gap ++ (c :: r) ++ [0]) (length out) c in crlf2nl_inplace fuel m' n (S (length out)) (S (length out + length gap))).
      { destruct (c =? 13); cbn [negb obind]; auto. rewrite E2. cbn [andb] in EE. cbn [obind]. rewrite EE. reflexivity. }
      rewrite B. destruct (Wr c [c] (r ++ [0]) eq_refl ltac:(discriminate)) as (gap' & HL & ->). cbn [obind].
      destruct (IHk r (out ++ [c]) gap' n fuel) as (g & Hg); [lia|lia|rewrite app_length; cbn [length] in *; lia|].
      exists g. cbn [length] in *.
      replace (S (length out)) with (length (out ++ [c])) by (rewrite app_length; cbn; lia).
      replace (S (length out + length gap)) with (length (out ++ [c]) + length gap')%nat by (rewrite app_length; cbn [length]; lia).
      rewrite Hg, EN. rewrite app_length. cbn [length app]. rewrite <- app_assoc. cbn [app]. do 2 f_equal. lia.
Qed.
Lemma crlf_self_spec : forall s, crlf2nl_self s = Ret (nl s).
Proof.
  intros s. unfold crlf2nl_self. destruct (crlf_inplace_spec (length s) s [] [] (length s) (S (length s)) ltac:(lia) ltac:(lia) eq_refl) as (g & H).
  cbn [app length] in H. change (0 + 0)%nat with 0%nat in H. rewrite H. cbn [obind fst snd]. f_equal.
  change (0 + length (nl s))%nat with (length (nl s)). rewrite firstn_app, firstn_all, Nat.sub_diag, firstn_O, app_nil_r. reflexivity.
Qed.
Lemma nl_idem : forall n s, (length s <= n)%nat -> (forall a b, s <> a ++ [13; 13; 10] ++ b) -> nl (nl s) = nl s.
Proof.
  induction n; intros s Hl H; [destruct s; [reflexivity|cbn in Hl; lia]|].
  destruct s as [|c [|d r]]; [reflexivity|reflexivity|]. rewrite nl_cons2. destruct ((c =? 13) && (d =? 10)) eqn:E.
  - assert (K : nl (nl r) = nl r). { apply IHn; [cbn in *; lia|]. intros a b ->. apply (H (c :: d :: a) b). reflexivity. }
    destruct (nl r) as [|x y] eqn:Er; [reflexivity|]. rewrite nl_cons2. ceq. cbn [andb]. f_equal. exact K.
  - assert (K : nl (nl (d :: r)) = nl (d :: r)). { apply IHn; [cbn in *; lia|]. intros a b Hab. apply (H (c :: a) b). cbn [app]. f_equal. exact Hab. }
    destruct (nl (d :: r)) as [|x y] eqn:Er; [reflexivity|]. rewrite nl_cons2.
    destruct ((c =? 13) && (x =? 10)) eqn:E2; [exfalso|f_equal; exact K].
    assert (x = 10) by lia. subst x. destruct r as [|e r].
    + cbn in Er. injection Er as -> <-. lia.
    + rewrite nl_cons2 in Er. destruct ((d =? 13) && (e =? 10)) eqn:E3.
      * apply (H [] r). cbn. f_equal; [lia|]. f_equal; [lia|]. f_equal; lia.
      * injection Er as -> _. lia.
Qed.
