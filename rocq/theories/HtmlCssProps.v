(** The CSS string escapers of html.hpp (C118, C119). *)
From Verif Require Import Base StringModel StringSpec HtmlEscModel HtmlEscSpec HtmlEscProps.
From Coq Require Import ZifyBool ZifyNat.
Ltac Zify.zify_post_hook ::= Z.div_mod_to_equations.

Lemma css_hex_spec : forall k ds digits p rest lim v, map hex_value digits = map Some ds -> (length ds <= k)%nat ->
  (length p + length digits <= lim)%nat ->
  (length ds = k \/ lim = (length p + length digits)%nat \/ exists c r, rest = c :: r /\ hex_value c = None) ->
  css_hex k (p ++ digits ++ rest) (length p) lim v = Ret ((length p + length digits)%nat, fold_left (fun v d => 16 * v + d) ds v).
Proof.
  induction k; intros ds digits p rest lim v M L Lm C.
  { destruct ds; [|cbn in L; lia]. destruct digits; [|discriminate]. cbn. f_equal. f_equal. lia. }
  destruct ds as [|d ds].
  - destruct digits; [|discriminate]. cbn [css_hex app length fold_left Nat.add] in *. rewrite Nat.add_0_r in *. destruct (length p <? lim)%nat eqn:E; auto.
    destruct C as [C|[C|(c & r & -> & N)]]; [discriminate|lia|]. rewrite rd_app2. cbn [obind]. rewrite nibble_hex, N. auto.
  - destruct digits as [|c digits]; [discriminate|]. cbn [map] in M. injection M as M0 M. cbn [css_hex app length fold_left] in *.
    replace (length p <? lim)%nat with true by lia. rewrite rd_app2. cbn [obind]. rewrite nibble_hex, M0. rewrite app_assoc1.
    replace (length p + 1)%nat with (length (p ++ [c])) by (rewrite app_length; cbn; lia). rewrite (IHk ds); auto; try lia.
    + rewrite app_length. cbn [length]. replace (v * 16 + d) with (16 * v + d) by lia. f_equal. f_equal. lia.
    + rewrite app_length. cbn [length]. lia.
    + rewrite app_length. cbn [length]. destruct C as [C|[C|C]]; [left|right; left|right; right]; auto; lia.
Qed.

(** where a text [t] may be continued without changing its reading *)
Definition boundary (tail : list Z) (k n : nat) : Prop := n = k \/ (k < n)%nat /\ exists c u, tail = c :: u /\ c <> 32 /\ hex_value c = None.
Lemma len_map : forall (digits ds : list Z), map hex_value digits = map Some ds -> length digits = length ds.
Proof. intros digits ds H. rewrite <- (map_length hex_value), H, map_length. auto. Qed.
Lemma css_loop_spec : forall cast t o, css_reads cast t o -> Forall (fun c => c <> 0) t -> forall p tail n, boundary tail (length p + length t) n ->
  exists k, (k <= length t)%nat /\ forall f dst, css_unescape_loop cast (k + f) dst (p ++ t ++ tail) (length p) n =
    css_unescape_loop cast f (dst ++ o) (p ++ t ++ tail) (length p + length t) n.
Proof.
  intros cast t o H. induction H as [|c t o N H IH|t o H IH|t o H IH|t o H IH|t o H IH|c t o N N2 H IH|ds digits t rest o M L C H IH]; intros F p tail n B.
  - exists 0%nat. split; auto. intros f dst. cbn [length]. rewrite app_nil_r, !Nat.add_0_r. auto.
  - inversion F as [|? ? Hc Ft]; subst. destruct (IH Ft (p ++ [c]) tail n) as (k & Lk & E).
    { unfold boundary in *. rewrite app_length. cbn [length] in *. replace (length p + 1 + length t)%nat with (length p + S (length t))%nat by lia. auto. }
    exists (S k). split; [cbn; lia|]. intros f dst. cbn [Nat.add css_unescape_loop length app]. replace (length p <? n)%nat with true by (unfold boundary in B; cbn in B; lia).
    rewrite rd_app2. cbn [obind]. replace (c =? 0) with false by lia. replace (c =? 92) with false by lia. cbn [negb]. specialize (E f (dst ++ [c])). rewrite <- app_assoc1 in E.
    rewrite app_length in E. cbn [length] in E. rewrite E. rewrite <- app_assoc. cbn [app]. f_equal. lia.
  - assert (Hd : exists k, (k <= S (length t))%nat /\ forall f dst, css_unescape_loop cast (k + f) dst ((p ++ [92; 110]) ++ t ++ tail) (length (p ++ [92; 110])) n =
      css_unescape_loop cast f (dst ++ o) ((p ++ [92; 110]) ++ t ++ tail) (length (p ++ [92; 110]) + length t) n).
    { inversion F as [|? ? _ F1]; subst. inversion F1 as [|? ? _ Ft]; subst. destruct (IH Ft (p ++ [92; 110]) tail n) as (k & Lk & E).
      { unfold boundary in *. rewrite app_length. cbn [length] in *. replace (length p + 2 + length t)%nat with (length p + S (S (length t)))%nat by lia. auto. }
      exists k. split; auto. }
    destruct Hd as (k & Lk & E). exists (S k). split; [cbn; lia|]. intros f dst. cbn [Nat.add css_unescape_loop length app].
    assert (B' : (length p + 1 < n)%nat) by (unfold boundary in B; cbn in B; lia). replace (length p <? n)%nat with true by lia.
    rewrite rd_app2. cbn [obind]. ceq. cbn [negb]. replace (length p + 1 <? n)%nat with true by lia. rewrite rd_app3. cbn [obind]. ceq.
    specialize (E f (dst ++ [10])). rewrite <- app_assoc in E. rewrite app_length in E. cbn [length app] in E. replace (length p + 1 + 1)%nat with (length p + 2)%nat by lia. rewrite E.
    rewrite <- app_assoc. cbn [app]. f_equal. lia.
  - inversion F as [|? ? _ F1]; subst. inversion F1 as [|? ? _ Ft]; subst. destruct (IH Ft (p ++ [92; 114]) tail n) as (k & Lk & E).
    { unfold boundary in *. rewrite app_length. cbn [length] in *. replace (length p + 2 + length t)%nat with (length p + S (S (length t)))%nat by lia. auto. }
    exists (S k). split; [cbn; lia|]. intros f dst. cbn [Nat.add css_unescape_loop length app].
    assert (B' : (length p + 1 < n)%nat) by (unfold boundary in B; cbn in B; lia). replace (length p <? n)%nat with true by lia.
    rewrite rd_app2. cbn [obind]. ceq. cbn [negb]. replace (length p + 1 <? n)%nat with true by lia. rewrite rd_app3. cbn [obind]. ceq.
    specialize (E f (dst ++ [13])). rewrite <- app_assoc in E. rewrite app_length in E. cbn [length app] in E. replace (length p + 1 + 1)%nat with (length p + 2)%nat by lia. rewrite E.
    rewrite <- app_assoc. cbn [app]. f_equal. lia.
  - inversion F as [|? ? _ F1]; subst. inversion F1 as [|? ? _ Ft]; subst. destruct (IH Ft (p ++ [92; 116]) tail n) as (k & Lk & E).
    { unfold boundary in *. rewrite app_length. cbn [length] in *. replace (length p + 2 + length t)%nat with (length p + S (S (length t)))%nat by lia. auto. }
    exists (S k). split; [cbn; lia|]. intros f dst. cbn [Nat.add css_unescape_loop length app].
    assert (B' : (length p + 1 < n)%nat) by (unfold boundary in B; cbn in B; lia). replace (length p <? n)%nat with true by lia.
    rewrite rd_app2. cbn [obind]. ceq. cbn [negb]. replace (length p + 1 <? n)%nat with true by lia. rewrite rd_app3. cbn [obind]. ceq.
    specialize (E f (dst ++ [9])). rewrite <- app_assoc in E. rewrite app_length in E. cbn [length app] in E. replace (length p + 1 + 1)%nat with (length p + 2)%nat by lia. rewrite E.
    rewrite <- app_assoc. cbn [app]. f_equal. lia.
  - inversion F as [|? ? _ F1]; subst. inversion F1 as [|? ? _ Ft]; subst. destruct (IH Ft (p ++ [92; 10]) tail n) as (k & Lk & E).
    { unfold boundary in *. rewrite app_length. cbn [length] in *. replace (length p + 2 + length t)%nat with (length p + S (S (length t)))%nat by lia. auto. }
    exists (S k). split; [cbn; lia|]. intros f dst. cbn [Nat.add css_unescape_loop length app].
    assert (B' : (length p + 1 < n)%nat) by (unfold boundary in B; cbn in B; lia). replace (length p <? n)%nat with true by lia.
    rewrite rd_app2. cbn [obind]. ceq. cbn [negb]. replace (length p + 1 <? n)%nat with true by lia. rewrite rd_app3. cbn [obind]. ceq.
    specialize (E f dst). rewrite <- app_assoc in E. rewrite app_length in E. cbn [length app] in E. replace (length p + 1 + 1)%nat with (length p + 2)%nat by lia. rewrite E.
    f_equal. lia.
  - inversion F as [|? ? _ F1]; subst. inversion F1 as [|? ? _ Ft]; subst. destruct (IH Ft (p ++ [92; c]) tail n) as (k & Lk & E).
    { unfold boundary in *. rewrite app_length. cbn [length] in *. replace (length p + 2 + length t)%nat with (length p + S (S (length t)))%nat by lia. auto. }
    exists (S k). split; [cbn; lia|]. intros f dst. cbn [Nat.add css_unescape_loop length app].
    assert (B' : (length p + 1 < n)%nat) by (unfold boundary in B; cbn in B; lia). replace (length p <? n)%nat with true by lia.
    rewrite rd_app2. cbn [obind]. ceq. cbn [negb]. replace (length p + 1 <? n)%nat with true by lia. rewrite rd_app3. cbn [obind].
    cbn [In] in N. replace (c =? 110) with false by lia. replace (c =? 114) with false by lia. replace (c =? 116) with false by lia. replace (c =? 10) with false by lia.
    rewrite nibble_hex, N2.
    specialize (E f (dst ++ [c])). rewrite <- app_assoc in E. rewrite app_length in E. cbn [length app] in E. replace (length p + 1 + 1)%nat with (length p + 2)%nat by lia. rewrite E.
    rewrite <- app_assoc. cbn [app]. f_equal. lia.
  - assert (Ld := len_map _ _ M). inversion F as [|? ? _ F1]; subst. apply Forall_app in F1 as [Fd Fr].
    destruct digits as [|c digits]; [cbn in Ld; lia|]. destruct ds as [|d ds]; [cbn in L; lia|].
    assert (Hd : hex_value c = Some d) by (cbn [map] in M; congruence).
    assert (Hc : c <> 110 /\ c <> 114 /\ c <> 116 /\ c <> 10) by (repeat split; intros ->; vm_compute in Hd; discriminate).
    set (sp := match rest with 32 :: _ => if (length (d :: ds) <? 6)%nat then true else false | _ => false end).
    (* where the loop goes on *)
    assert (Q : exists q, q = (if sp then length p + 1 + length (c :: digits) + 1 else length p + 1 + length (c :: digits))%nat /\
       exists mid, p ++ (92 :: (c :: digits) ++ rest) ++ tail = mid ++ t ++ tail /\ length mid = q /\ Forall (fun c => c <> 0) t /\
         (length p + length (92%Z :: (c :: digits) ++ rest) = q + length t)%nat).
    { eexists. split; [reflexivity|]. destruct C as [(L6 & ->)|[(L6 & ->)|(L6 & -> & Nx)]].
      - assert (sp = false). { unfold sp. replace (length (d :: ds) <? 6)%nat with false by lia. destruct t as [|[|q|q]]; auto. repeat (destruct q; auto). }
        rewrite H0. exists (p ++ 92 :: c :: digits). rewrite <- app_assoc. cbn [app]. rewrite <- app_assoc. split; auto. rewrite app_length. cbn [length]. rewrite app_length. repeat split; auto; lia.
      - assert (sp = true). { unfold sp. replace (length (d :: ds) <? 6)%nat with true by lia. auto. }
        rewrite H0. exists (p ++ 92 :: c :: digits ++ [32]). rewrite <- app_assoc. cbn [app]. rewrite <- !app_assoc. cbn [app]. split; auto. rewrite app_length. cbn [length]. rewrite !app_length. cbn [length]. inversion Fr; subst. repeat split; auto; lia.
      - assert (sp = false). { unfold sp. destruct t as [|x t]; auto. destruct (Nx x t eq_refl) as [N1 N2]. destruct x as [|q|q]; auto. repeat (destruct q; auto); congruence. }
        rewrite H0. exists (p ++ 92 :: c :: digits). rewrite <- app_assoc. cbn [app]. rewrite <- app_assoc. split; auto. rewrite app_length. cbn [length]. rewrite app_length. repeat split; auto; lia. }
    destruct Q as (q & Eq & mid & Em & Lm & Ft & Ltot).
    destruct (IH Ft mid tail n) as (k & Lk & E). { rewrite Lm, <- Ltot. auto. }
    exists (S k). split. { cbn [length]. rewrite app_length. cbn [length]. destruct C as [(_ & ->)|[(_ & ->)|(_ & -> & _)]]; cbn [length]; lia. }
    intros f dst. cbn [Nat.add css_unescape_loop]. rewrite Ltot.
    assert (Bn : (length p + 1 + length (c :: digits) + length rest <= n)%nat).
    { unfold boundary in B. cbn [length app] in B |- *. rewrite app_length in B. lia. }
    assert (R1 : rd (p ++ (92 :: (c :: digits) ++ rest) ++ tail) (length p) = Ret 92) by (cbn [app]; apply rd_app2).
    assert (R2 : rd (p ++ (92 :: (c :: digits) ++ rest) ++ tail) (length p + 1) = Ret c) by (cbn [app]; apply rd_app3).
    replace (length p <? n)%nat with true by (cbn [length] in Bn; lia). rewrite R1. cbn [obind]. ceq. cbn [negb].
    replace (length p + 1 <? n)%nat with true by (cbn [length] in Bn; lia). rewrite R2. cbn [obind].
    replace (c =? 110) with false by lia. replace (c =? 114) with false by lia. replace (c =? 116) with false by lia. replace (c =? 10) with false by lia.
    rewrite nibble_hex, Hd.
    set (lim := Nat.min n (length p + 1 + 6)).
    assert (Src : p ++ (92 :: (c :: digits) ++ rest) ++ tail = (p ++ [92]) ++ (c :: digits) ++ (rest ++ tail)) by (rewrite <- !app_assoc; cbn [app]; rewrite <- app_assoc; reflexivity).
    assert (Hx : css_hex 6 (p ++ (92 :: (c :: digits) ++ rest) ++ tail) (length p + 1) lim 0 = Ret ((length p + 1 + length (c :: digits))%nat, hex_number (d :: ds))).
    { rewrite Src. replace (length p + 1)%nat with (length (p ++ [92])) by (rewrite app_length; cbn; lia). apply css_hex_spec; auto; try lia.
      { unfold lim. rewrite app_length. cbn [length] in *. lia. }
      destruct C as [(L6 & ->)|[(L6 & ->)|(L6 & -> & Nx)]]; [left; auto|right; right; eexists _, _; split; [reflexivity|vm_compute; reflexivity]|].
      destruct t as [|x t]. 2: { right; right. eexists _, _. split; [reflexivity|]. apply (Nx x t eq_refl). }
      destruct B as [B|(B & x & u & -> & N1 & N2)]; [right; left|right; right; exists x, u; split; [reflexivity|exact N2]].
      unfold lim. rewrite B. rewrite app_length. cbn [length app] in *. rewrite app_length. cbn [length]. lia. }
    rewrite Hx. cbn [obind].
    assert (Hs : (if (length p + 1 + length (c :: digits) <? lim)%nat then let* c0 := rd (p ++ (92 :: (c :: digits) ++ rest) ++ tail) (length p + 1 + length (c :: digits)) in Ret (c0 =? 32) else Ret false) = Ret sp).
    { assert (Rd : forall x r, rest ++ tail = x :: r -> rd (p ++ (92 :: (c :: digits) ++ rest) ++ tail) (length p + 1 + length (c :: digits)) = Ret x).
      { intros x r Hr. rewrite Src, Hr. replace (length p + 1 + length (c :: digits))%nat with (length ((p ++ [92]) ++ (c :: digits))) by (rewrite !app_length; cbn; lia).
        rewrite app_assoc. apply rd_app2. }
      unfold lim. destruct C as [(L6 & ->)|[(L6 & ->)|(L6 & -> & Nx)]].
      - replace (length p + 1 + length (c :: digits) <? _)%nat with false by lia. f_equal. unfold sp. replace (length (d :: ds) <? 6)%nat with false by lia. destruct t as [|[|y|y]]; auto. repeat (destruct y; auto).
      - cbn [length] in *. replace (length p + 1 + S (length digits) <? _)%nat with true by lia. rewrite (Rd 32 (t ++ tail) eq_refl). cbn [obind]. f_equal. unfold sp. replace (S (length ds) <? 6)%nat with true by lia. reflexivity.
      - assert (sp = false). { unfold sp. destruct t as [|x t]; auto. destruct (Nx x t eq_refl) as [N1 N2]. destruct x as [|y|y]; auto. repeat (destruct y; auto); congruence. }
        rewrite H0. destruct (length p + 1 + length (c :: digits) <? _)%nat eqn:El; auto.
        destruct t as [|x t].
        + destruct B as [B|(B & x & u & -> & N1 & N2)]. { cbn [length app] in *. rewrite app_length in B. cbn [length] in B. lia. }
          rewrite (Rd x u eq_refl). cbn [obind]. f_equal. lia.
        + rewrite (Rd x (t ++ tail) eq_refl). cbn [obind]. destruct (Nx x t eq_refl). f_equal. lia. }
    rewrite Hs. cbn [obind].
    replace (if sp then length p + 1 + length (c :: digits) + 1 else length p + 1 + length (c :: digits))%nat with q.
    rewrite Em, <- Lm. rewrite E. rewrite <- app_assoc. reflexivity.
Qed.

(** ** C118: css_unescape reads a text as CSS does *)
Theorem css_unescape_spec : forall cast dst t o tail n, css_reads cast t o -> Forall (fun c => c <> 0) t ->
  (n = length t \/ (length t < n)%nat /\ exists u, tail = 0 :: u) -> css_unescape cast dst (t ++ tail) n = Ret (dst ++ o).
Proof.
  intros cast dst t o tail n H F B. destruct (css_loop_spec cast t o H F [] tail n) as (k & L & E).
  { destruct B as [->|(B & u & ->)]; [left; auto|right]. split; auto. exists 0, u. split; auto. split; [lia|reflexivity]. }
  unfold css_unescape. cbn [length app Nat.add] in E. replace (S n) with (k + (S n - k))%nat by (destruct B as [->|(B & _)]; lia). rewrite E.
  destruct (S n - k)%nat eqn:Es; [destruct B as [->|(B & _)]; lia|]. cbn [css_unescape_loop]. destruct B as [->|(B & u & ->)].
  - replace (length t <? length t)%nat with false by lia. auto.
  - replace (length t <? n)%nat with true by lia. rewrite rd_app2. cbn [obind]. ceq. auto.
Qed.
(** every text has a reading, unless it ends in a lone backslash *)
Lemma hex_prefix_split : forall k t, exists digits rest ds, t = digits ++ rest /\ map hex_value digits = map Some ds /\ (length ds <= k)%nat /\
  (length ds = k \/ rest = [] \/ exists c r, rest = c :: r /\ hex_value c = None).
Proof.
  induction k; intros t. { exists [], t, []. repeat split; auto. }
  destruct t as [|c t]. { exists [], [], []. cbn. repeat split; auto; lia. }
  destruct (hex_value c) as [d|] eqn:E.
  - destruct (IHk t) as (digits & rest & ds & -> & M & L & C). exists (c :: digits), rest, (d :: ds). cbn. rewrite E, M. repeat split; auto; try lia. destruct C as [C|C]; auto.
  - exists [], (c :: t), []. cbn. repeat split; auto; try lia. right. right. eauto.
Qed.
Theorem css_reads_total : forall cast t, (exists o, css_reads cast t o) \/ (exists p o, t = p ++ [92] /\ css_reads cast p o).
Proof.
  intros cast t. remember (length t) as m eqn:Hm. assert (Hm' : (length t <= m)%nat) by lia. clear Hm. revert t Hm'. induction m; intros t Hm.
  { destruct t; [left; eexists; constructor|cbn in Hm; lia]. }
  destruct t as [|c t]; [left; eexists; constructor|]. cbn [length] in Hm.
  destruct (Z.eq_dec c 92) as [->|N].
  2: { destruct (IHm t ltac:(lia)) as [(o & H)|(p & o & -> & H)]; [left; exists (c :: o); constructor; auto|right; exists (c :: p), (c :: o); split; auto; constructor; auto]. }
  destruct t as [|c t]. { right. exists [], []. split; auto. constructor. }
  cbn [length] in Hm.
  assert (Two : forall out, (forall t o, css_reads cast t o -> css_reads cast (92 :: c :: t) (out ++ o)) ->
    (exists o, css_reads cast (92 :: c :: t) o) \/ (exists p o, 92 :: c :: t = p ++ [92] /\ css_reads cast p o)).
  { intros out K. destruct (IHm t ltac:(lia)) as [(o & H)|(p & o & -> & H)]; [left|right].
    - exists (out ++ o). auto. - exists (92 :: c :: p), (out ++ o). split; auto. }
  destruct (Z.eq_dec c 110) as [->|]; [apply (Two [10]); intros; apply css_lf; auto|].
  destruct (Z.eq_dec c 114) as [->|]; [apply (Two [13]); intros; apply css_cr; auto|].
  destruct (Z.eq_dec c 116) as [->|]; [apply (Two [9]); intros; apply css_tab; auto|].
  destruct (Z.eq_dec c 10) as [->|]; [apply (Two []); intros; apply css_join; auto|].
  destruct (hex_value c) as [d|] eqn:Hd.
  2: { apply (Two [c]). intros. apply css_other; auto. cbn [In]. lia. }
  destruct (hex_prefix_split 6 (c :: t)) as (digits & rest & ds & Es & M & L & C).
  destruct digits as [|c' digits].
  { exfalso. destruct ds; [|discriminate]. cbn [app] in Es. destruct C as [C|[C|(x & r & C & N')]]; [discriminate|congruence|]. rewrite C in Es. injection Es as <- <-. congruence. }
  injection Es as <- ->. assert (Ld := len_map _ _ M). destruct ds as [|d' ds]; [discriminate|].
  assert (Lt : (length rest <= m)%nat) by (rewrite app_length in Hm; lia).
  destruct rest as [|x r].
  { left. exists (cast (hex_number (d' :: ds)) :: []). change (92 :: c :: digits ++ []) with (92 :: (c :: digits) ++ []). apply css_code with (t := []); auto; [split; [cbn; lia|auto]| |constructor].
    destruct (Nat.eq_dec (length (d' :: ds)) 6); [left; auto|right; right]. split; [lia|]. split; auto. intros; discriminate. }
  assert (Go : forall t', (length t' <= m)%nat -> (x :: r = t' \/ x :: r = 32 :: t') ->
    (forall o t, css_reads cast t o -> (t' = t \/ t' = t ++ [92]) -> css_reads cast (92 :: (c :: digits) ++ (if list_eq_dec Z.eq_dec (x :: r) t' then t else 32 :: t)) (cast (hex_number (d' :: ds)) :: o)) ->
    (exists o, css_reads cast (92 :: c :: digits ++ x :: r) o) \/ (exists p o, 92 :: c :: digits ++ x :: r = p ++ [92] /\ css_reads cast p o)).
  { intros t' Lt' Er K. destruct (IHm t' Lt') as [(o & H)|(p & o & Ep & H)].
    - left. specialize (K o t' H (or_introl eq_refl)). destruct (list_eq_dec Z.eq_dec (x :: r) t') as [Ee|Ne]; [rewrite Ee; eauto|]. destruct Er as [Er|Er]; [congruence|]. rewrite Er. eauto.
    - right. specialize (K o p H (or_intror Ep)). destruct (list_eq_dec Z.eq_dec (x :: r) t') as [Ee|Ne].
      + eexists (92 :: (c :: digits) ++ p), _. split; [|exact K]. rewrite Ee, Ep. cbn [app]. rewrite <- app_assoc. auto.
      + destruct Er as [Er|Er]; [congruence|]. eexists (92 :: (c :: digits) ++ 32 :: p), _. split; [|exact K]. rewrite Er, Ep. cbn [app]. rewrite <- app_assoc. auto. }
  destruct (Nat.eq_dec (length (d' :: ds)) 6) as [E6|N6].
  - apply (Go (x :: r)); auto. intros o t0 H T. destruct (list_eq_dec Z.eq_dec (x :: r) (x :: r)); [|congruence]. apply css_code with (t := t0); auto. cbn [length] in *. lia.
  - destruct C as [C|[C|(x' & r' & C & Nx)]]; [lia|discriminate|]. injection C as <- <-. destruct (Z.eq_dec x 32) as [->|Nsp].
    + apply (Go r). { cbn in Lt. lia. } { auto. } intros o t0 H T. destruct (list_eq_dec Z.eq_dec (32 :: r) r) as [Ee|]. { apply (f_equal (@length Z)) in Ee. cbn in Ee. lia. }
      apply css_code with (t := t0); auto; cbn [length] in *; [lia|]. right. left. split; [lia|auto].
    + apply (Go (x :: r)); auto. intros o t0 H T. destruct (list_eq_dec Z.eq_dec (x :: r) (x :: r)); [|congruence]. apply css_code with (t := t0); auto; cbn [length] in *; [lia|].
      right. right. split; [lia|]. split; auto. intros c0 r0 ->. destruct T as [T|T]; injection T as <- _; auto.
Qed.
(** a counted text that ends in a lone backslash: the loop never ends *)
Lemma css_mono : forall cast f g dst s i n r, (f <= g)%nat -> css_unescape_loop cast f dst s i n = Ret r -> css_unescape_loop cast g dst s i n = Ret r.
Proof.
  induction f; intros g dst s i n r H; [discriminate|]. destruct g; [lia|]. cbn [css_unescape_loop]. destruct (i <? n)%nat; auto. destruct (rd s i) as [c| |]; cbn [obind]; auto.
  destruct (c =? 0); auto. destruct (negb (c =? 92)). { apply IHf; lia. } destruct (i + 1 <? n)%nat. 2: { apply IHf; lia. }
  destruct (rd s (i + 1)) as [a| |]; cbn [obind]; auto. destruct (a =? 110). { apply IHf; lia. } destruct (a =? 114). { apply IHf; lia. } destruct (a =? 116). { apply IHf; lia. } destruct (a =? 10). { apply IHf; lia. }
  destruct (url_nibble a). 2: { apply IHf; lia. } destruct (css_hex _ _ _ _ _) as [[j chr]| |]; cbn [obind]; auto.
  destruct (if (j <? Nat.min n (i + 1 + 6))%nat then _ else _) as [sp| |]; cbn [obind]; auto. apply IHf; lia.
Qed.
Theorem css_unescape_endless_refuted : forall cast p o dst tail, css_reads cast p o -> Forall (fun c => c <> 0) p ->
  forall fuel r, css_unescape_loop cast fuel dst (p ++ 92 :: tail) 0 (length p + 1) <> Ret r.
Proof.
  intros cast p o dst tail H F fuel r E. destruct (css_loop_spec cast p o H F [] (92 :: tail) (length p + 1)) as (k & L & K).
  { right. split; [cbn; lia|]. exists 92, tail. split; auto. split; [lia|reflexivity]. }
  cbn [app length Nat.add] in K. apply css_mono with (g := (k + fuel)%nat) in E; [|lia]. rewrite K in E. clear K. revert dst E. generalize o. induction fuel; intros o' dst E; [discriminate|].
  cbn [css_unescape_loop] in E. replace (length p <? length p + 1)%nat with true in E by lia. rewrite rd_app2 in E. cbn [obind] in E.
  change (92 =? 0) with false in E. change (negb (92 =? 92)) with false in E. cbn match in E. replace (length p + 1 <? length p + 1)%nat with false in E by lia. eauto.
Qed.
(** a zero-terminated text that ends in a lone backslash: the terminator is appended and the memory behind it is read *)
Theorem css_unescape_overread_refuted : exists cast t n, Forall (fun c => c <> 0) t /\ css_unescape cast [] (t ++ [0]) n = UB /\
  css_unescape cast [] (t ++ 0 :: [97; 0]) n = Ret [0; 97].
Proof. exists i32, [92], 5%nat. split; [repeat constructor; lia|]. vm_compute. auto. Qed.
(* backslash 41 space b, backslash 000042c, and a char that does not hold the code point *)
Example css_ex : css_unescape i32 [] [92; 52; 49; 32; 98; 92; 48; 48; 48; 48; 52; 50; 99; 92; 110; 92; 34; 0] 99 = Ret [65; 98; 66; 99; 10; 34] /\
  css_unescape i8 [] [92; 49; 48; 53] 4 = Ret [5].
Proof. vm_compute. auto. Qed.
Example css_ex_reads : css_reads i32 [92; 52; 49; 32; 98] [65; 98].
Proof. apply (css_code i32 [4; 1] [52; 49] [98] [32; 98] [98]); [reflexivity|cbn; lia|right; left; split; [cbn; lia|auto]|]. apply css_plain; [lia|constructor]. Qed.

(** ** C119: css_escape *)
Lemma css_escaped_reads : forall cast s, css_reads cast (flat_map css_escape_chr s) s.
Proof.
  induction s as [|c s IH]; cbn [flat_map]; [constructor|]. unfold css_escape_chr.
  destruct (c =? 92) eqn:E1. { apply Z.eqb_eq in E1; subst. apply css_other; auto. cbn [In]; lia. }
  destruct (c =? 10) eqn:E2. { apply Z.eqb_eq in E2; subst. apply css_lf; auto. }
  destruct (c =? 13) eqn:E3. { apply Z.eqb_eq in E3; subst. apply css_cr; auto. }
  destruct (c =? 9) eqn:E4. { apply Z.eqb_eq in E4; subst. apply css_tab; auto. }
  destruct (c =? 34) eqn:E5. { apply Z.eqb_eq in E5; subst. apply css_other; auto. cbn [In]; lia. }
  destruct (c =? 39) eqn:E6. { apply Z.eqb_eq in E6; subst. apply css_other; auto. cbn [In]; lia. }
  apply css_plain; auto. lia.
Qed.
Theorem css_round_trip : forall cast src n out, readable n src -> css_escape [] src n = Ret out ->
  (forall dst tail, css_unescape cast dst (out ++ tail) (length out) = Ret (dst ++ zstr n src)) /\
  (forall dst m u, (length out < m)%nat -> css_unescape cast dst (out ++ 0 :: u) m = Ret (dst ++ zstr n src)).
Proof.
  intros cast src n out R E. unfold css_escape in E. rewrite each_spec in E by auto. injection E as <-. cbn [app].
  assert (NZ : Forall (fun c => c <> 0) (flat_map css_escape_chr (zstr n src))).
  { apply flat_nz; [|apply zstr_nz]. intros c Hc. cases_in css_escape_chr; repeat constructor; lia. }
  split; intros; apply css_unescape_spec; auto; try apply css_escaped_reads. right. eauto.
Qed.
(** the result consists of plain units and of backslashes with a unit behind: between quotes it is one string on one line *)
Theorem css_escape_safe : forall src n out, readable n src -> css_escape [] src n = Ret out ->
  exists pieces, concat pieces = out /\
    Forall (fun p => (exists c, p = [c] /\ ~ In c [9; 10; 13; 34; 39; 92; 0]) \/ (exists c, p = [92; c] /\ In c [110; 114; 116; 34; 39; 92])) pieces.
Proof.
  intros src n out R E. unfold css_escape in E. rewrite each_spec in E by auto. injection E as <-. cbn [app].
  exists (map css_escape_chr (zstr n src)). split. { rewrite flat_map_concat_map. auto. }
  pose proof (zstr_nz n src) as F. induction F as [|c s Hc F IH]; cbn [map]; constructor; auto.
  unfold css_escape_chr. cbn [In]. repeat match goal with |- context [if ?b then _ else _] => destruct b eqn:? end;
    try (right; eexists; split; [reflexivity|lia]). left. eexists; split; [reflexivity|lia].
Qed.
Example css_escape_ex : css_escape [] [97; 10; 34; 92; 0; 1] 9 = Ret [97; 92; 110; 92; 34; 92; 92].
Proof. vm_compute. auto. Qed.

Print Assumptions css_unescape_spec. Print Assumptions css_reads_total. Print Assumptions css_unescape_endless_refuted.
Print Assumptions css_round_trip. Print Assumptions css_escape_safe.
