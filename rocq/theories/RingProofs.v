(** Invariants of the ring model. *)
From Verif Require Import Base RingModel.
From Coq Require Import ZifyBool ZifyNat.

Lemma wrap_eq : forall N i, 0 < N -> 0 <= i < 2 * N -> wrap N i = if i <? N then i else i - N.
Proof.
  intros N i HN Hi. unfold wrap. destruct (Z.ltb_spec i N).
  - apply Z.mod_small; lia.
  - symmetry. apply Z.mod_unique_pos with (q := 1); lia.
Qed.

Section P.
Context {T : Type}.
Variable N : Z.
Hypothesis HN : 1 <= N.

Definition PInv (s : state T) : Prop :=
  match prod s with
  | PHas t n ws => t = wrap N (head s + size s) /\ 1 <= n /\ t + n <= N /\ n <= N - size s /\
      Z.of_nat (length ws) <= n /\
      (forall i x, nth_error ws i = Some x -> data s (t + Z.of_nat i) = x)
  | _ => True
  end.

Definition CInv (s : state T) (pend : list T) : Prop :=
  match cons s with
  | CHas h n rs => h = head s /\ 1 <= n /\ h + n <= N /\ n <= size s /\
      Z.of_nat (length rs) <= n /\ rs = firstn (length rs) pend
  | _ => True
  end.

Definition DInv (s : state T) (pend : list T) : Prop :=
  0 <= head s < N /\ 0 <= size s <= N /\ Z.of_nat (length pend) = size s /\
  pushed s = popped s ++ pend /\
  (forall i x, nth_error pend i = Some x -> data s (wrap N (head s + Z.of_nat i)) = x).

Definition Inv (s : state T) : Prop := exists pend, DInv s pend /\ PInv s /\ CInv s pend.

(* A state that differs only in the control of the threads. *)
Definition same_data (s s' : state T) : Prop :=
  head s' = head s /\ size s' = size s /\ data s' = data s /\ pushed s' = pushed s /\ popped s' = popped s.

Lemma same_data_inv : forall s s' pend, same_data s s' ->
  DInv s pend -> DInv s' pend.
Proof.
  intros s s' pend (E1 & E2 & E3 & E4 & E5). unfold DInv. rewrite E1, E2, E3, E4, E5. auto.
Qed.
Lemma same_data_P : forall s s', same_data s s' -> prod s' = prod s -> PInv s -> PInv s'.
Proof.
  intros s s' (E1 & E2 & E3 & E4 & E5) Ep. unfold PInv. rewrite E1, E2, E3, Ep. auto.
Qed.
Lemma same_data_C : forall s s' pend, same_data s s' -> cons s' = cons s -> CInv s pend -> CInv s' pend.
Proof.
  intros s s' pend (E1 & E2 & E3 & E4 & E5) Ep. unfold CInv. rewrite E1, E2, Ep. auto.
Qed.

Lemma back_region_inv : forall s pend p, DInv s pend -> back_region N s = p -> space N s <> 0 ->
  PInv (set_prod s p).
Proof.
  intros s pend p (Hh & Hs & Hl & Hp & Hd) <- Hsp. unfold PInv, back_region, space in *. cbn.
  pose proof (wrap_eq N (head s + size s) ltac:(lia) ltac:(lia)) as E.
  destruct (Z.ltb_spec (head s + size s) N); destruct (Z.leb_spec (head s) (wrap N (head s + size s)));
    (repeat split; try lia); intros [|i] x Hx; discriminate Hx.
Qed.

Lemma front_region_inv : forall s pend c, DInv s pend -> front_region N s = c -> size s <> 0 ->
  CInv (set_cons s c) pend.
Proof.
  intros s pend p (Hh & Hs & Hl & Hp & Hd) <- Hsp. unfold CInv, front_region in *. cbn.
  pose proof (wrap_eq N (head s + size s) ltac:(lia) ltac:(lia)) as E.
  destruct (Z.ltb_spec (head s + size s) N); destruct (Z.ltb_spec (head s) (wrap N (head s + size s)));
    (repeat split; try lia).
Qed.

Lemma set_prod_data : forall s p, same_data s (set_prod s p).
Proof. intros; repeat split. Qed.
Lemma set_cons_data : forall s p, same_data s (set_cons s p).
Proof. intros; repeat split. Qed.
Lemma set_q_data : forall s a b, same_data s (set_q s a b).
Proof. intros; repeat split. Qed.
Lemma set_syncers_data : forall s a, same_data s (set_syncers s a).
Proof. intros; repeat split. Qed.
Lemma same_data_trans : forall a b c, same_data a b -> same_data b c -> same_data a c.
Proof. unfold same_data. intuition congruence. Qed.

Definition pnot_has (p : pstate T) := match p with PHas _ _ _ => False | _ => True end.
Definition cnot_has (c : cstate T) := match c with CHas _ _ _ => False | _ => True end.

(** Control-only steps keep the invariant as long as they do not invent a region. *)
Lemma Inv_ctl : forall s s', Inv s -> same_data s s' ->
  (prod s' = prod s \/ pnot_has (prod s')) -> (cons s' = cons s \/ cnot_has (cons s')) -> Inv s'.
Proof.
  intros s s' (pend & D & P & C) Sd Hp Hc. exists pend. split; [eauto using same_data_inv|]. split.
  - destruct Hp as [Hp|Hp]; [eauto using same_data_P|]. unfold PInv. destruct (prod s'); auto; destruct Hp.
  - destruct Hc as [Hc|Hc]; [eauto using same_data_C|]. unfold CInv. destruct (cons s'); auto; destruct Hc.
Qed.

Lemma notify_tail_props : forall s : state T, same_data s (notify_tail s) /\
  prod (notify_tail s) = prod s /\ (cons (notify_tail s) = cons s \/ cnot_has (cons (notify_tail s))).
Proof.
  intros s. unfold notify_tail. destruct (cons s) eqn:E; cbn; repeat split; auto; cbn; auto.
Qed.
Lemma notify_head_props : forall s s' : state T, notify_head s s' -> same_data s s' /\
  cons s' = cons s /\ (prod s' = prod s \/ pnot_has (prod s')).
Proof. intros s s' H. inversion H; subst; cbn; repeat split; auto; right; exact I. Qed.

Lemma space_bool : forall s : state T, (space N s =? 0) = false -> space N s <> 0.
Proof. intros. lia. Qed.

Lemma back_resume_cases : forall s, (pnot_has (back_resume N s)) \/
  (back_resume N s = back_region N s /\ space N s <> 0).
Proof.
  intros s. unfold back_resume. destruct (quit s) eqn:Eq; destruct (space N s =? 0) eqn:E; cbn; auto.
  right. split; auto; lia.
Qed.
Lemma back_enter_cases : forall s, (pnot_has (back_enter N s)) \/
  (back_enter N s = back_region N s /\ space N s <> 0).
Proof.
  intros s. unfold back_enter. destruct (quit s) eqn:Eq; destruct (space N s =? 0) eqn:E; cbn; auto;
  right; split; auto; lia.
Qed.
Lemma front_resume_cases : forall s, (cnot_has (front_resume N s)) \/
  (front_resume N s = front_region N s /\ size s <> 0).
Proof.
  intros s. unfold front_resume, empty. destruct (quit s) eqn:Eq; destruct (size s =? 0) eqn:E; cbn; auto;
  right; split; auto; lia.
Qed.
Lemma front_enter_cases : forall s, (cnot_has (front_enter N s)) \/
  (front_enter N s = front_region N s /\ size s <> 0).
Proof.
  intros s. unfold front_enter. destruct (empty s) eqn:E; unfold empty in E.
  - apply front_resume_cases.
  - right; split; auto; lia.
Qed.

Lemma Inv_back : forall s p, Inv s -> (pnot_has p \/ (p = back_region N s /\ space N s <> 0)) -> Inv (set_prod s p).
Proof.
  intros s p H [Hn|[-> Hs]].
  - eapply Inv_ctl; eauto using set_prod_data.
  - destruct H as (pend & D & P & C). exists pend.
    split; [eapply same_data_inv; eauto using set_prod_data|]. split.
    + eapply back_region_inv; eauto.
    + eapply same_data_C; eauto using set_prod_data.
Qed.
Lemma Inv_front : forall s p, Inv s -> (cnot_has p \/ (p = front_region N s /\ size s <> 0)) -> Inv (set_cons s p).
Proof.
  intros s p H [Hn|[-> Hs]].
  - eapply Inv_ctl; eauto using set_cons_data.
  - destruct H as (pend & D & P & C). exists pend.
    split; [eapply same_data_inv; eauto using set_cons_data|]. split.
    + eapply same_data_P; eauto using set_cons_data.
    + eapply front_region_inv; eauto.
Qed.

Lemma nth_error_firstn : forall (A : Type) (l : list A) k i, (i < k)%nat -> nth_error (firstn k l) i = nth_error l i.
Proof.
  induction l as [|a l IH]; intros [|k] [|i] H; cbn; auto; try lia. apply IH. lia.
Qed.
Lemma nth_error_snoc : forall (A : Type) (l : list A) x i y, nth_error (l ++ [x]) i = Some y ->
  ((i < length l)%nat /\ nth_error l i = Some y) \/ (i = length l /\ y = x).
Proof.
  intros A l x i y H. destruct (Nat.lt_ge_cases i (length l)) as [Hl|Hl].
  - rewrite nth_error_app1 in H by lia. auto.
  - rewrite nth_error_app2 in H by lia. destruct (i - length l)%nat as [|k] eqn:E.
    + cbn in H. inversion H. right. split; auto; lia.
    + cbn in H. destruct k; discriminate H.
Qed.
Lemma firstn_snoc : forall (A : Type) (l : list A) k x, nth_error l k = Some x ->
  firstn k l ++ [x] = firstn (S k) l.
Proof.
  induction l as [|a l IH]; intros [|k] x H; cbn in *; try discriminate.
  - inversion H; auto.
  - f_equal. apply IH. exact H.
Qed.
Lemma nth_error_skipn : forall (A : Type) (l : list A) k i, nth_error (skipn k l) i = nth_error l (k + i).
Proof. induction l as [|a l IH]; intros [|k] i; cbn; auto. - destruct i; auto. Qed.

Lemma wrap_inj : forall h i j, 0 <= h < N -> 0 <= i < N -> 0 <= j < N ->
  wrap N (h + i) = wrap N (h + j) -> i = j.
Proof.
  intros h i j Hh Hi Hj. rewrite !wrap_eq by lia. dif; lia.
Qed.

(** The free region never meets a pending element. *)
Lemma free_disjoint : forall h sz n i j, 0 <= h < N -> 0 <= sz <= N -> n <= N - sz ->
  wrap N (h + sz) + n <= N -> 0 <= i < n -> 0 <= j < sz -> wrap N (h + sz) + i <> wrap N (h + j).
Proof.
  intros h sz n i j Hh Hs Hn Ht Hi Hj. rewrite !wrap_eq in * by lia.
  destruct (Z.ltb_spec (h + sz) N); destruct (Z.ltb_spec (h + j) N); lia.
Qed.

Lemma Inv_write : forall s t n ws x, Inv s -> prod s = PHas t n ws -> Z.of_nat (length ws) < n ->
  Inv (mkst (head s) (size s) (quit s) (upd (data s) (t + Z.of_nat (length ws)) x)
              (PHas t n (ws ++ [x])) (cons s) (q1 s) (q2 s) (syncers s) (pushed s) (popped s)).
Proof.
  intros s t n ws x (pend & (Hh & Hs & Hl & Hp & Hd) & P & C) Ep Hn.
  unfold PInv in P. rewrite Ep in P. destruct P as (Pt & Pn & Ptn & Pns & Pl & Pw).
  exists pend. split; [|split].
  - repeat split; cbn; auto; try lia. intros i y Hi. unfold upd.
    destruct (Z.eqb_spec (wrap N (head s + Z.of_nat i)) (t + Z.of_nat (length ws))) as [E|E]; [|auto].
    exfalso. symmetry in E. revert E. subst t. apply free_disjoint with (n := n); try lia.
    assert (i < length pend)%nat by (apply nth_error_Some; congruence). lia.
  - cbn. repeat split; auto.
    + rewrite app_length; cbn; lia.
    + intros i y Hi. unfold upd. apply nth_error_snoc in Hi. destruct Hi as [[Hi Hy]|[-> ->]].
      * destruct (Z.eqb_spec (t + Z.of_nat i) (t + Z.of_nat (length ws))); [lia|auto].
      * rewrite Z.eqb_refl. reflexivity.
  - exact C.
Qed.

Lemma Inv_push : forall s t n ws k, Inv s -> prod s = PHas t n ws -> (k <= length ws)%nat ->
  Inv (mkst (head s) (size s + Z.of_nat k) (quit s) (data s)
              PNotify (cons s) (q1 s) (q2 s) (syncers s) (pushed s ++ firstn k ws) (popped s)).
Proof.
  intros s t n ws k (pend & (Hh & Hs & Hl & Hp & Hd) & P & C) Ep Hk.
  unfold PInv in P. rewrite Ep in P. destruct P as (Pt & Pn & Ptn & Pns & Pl & Pw).
  assert (Lk : length (firstn k ws) = k) by (rewrite firstn_length; lia).
  exists (pend ++ firstn k ws). split; [|split].
  - repeat split; cbn; try lia.
    + rewrite app_length. lia.
    + rewrite Hp, <- app_assoc. reflexivity.
    + intros i x Hi. destruct (Nat.lt_ge_cases i (length pend)) as [Hi1|Hi1].
      * rewrite nth_error_app1 in Hi by lia. auto.
      * rewrite nth_error_app2 in Hi by lia.
        assert (Hik : (i - length pend < k)%nat).
        { rewrite <- Lk. apply nth_error_Some. congruence. }
        rewrite nth_error_firstn in Hi by lia. apply Pw in Hi. rewrite <- Hi. f_equal. subst t.
        rewrite !wrap_eq in * by lia. destruct (Z.ltb_spec (head s + size s) N); dif; lia.
  - exact I.
  - unfold CInv in *. cbn. destruct (cons s); auto. destruct C as (C1 & C2 & C3 & C4 & C5 & C6).
    repeat split; auto; try lia. rewrite firstn_app. rewrite C6 at 1.
    replace (length rs - length pend)%nat with O by lia. cbn. rewrite app_nil_r. reflexivity.
Qed.

Lemma Inv_read : forall s h n rs, Inv s -> cons s = CHas h n rs -> Z.of_nat (length rs) < n ->
  Inv (set_cons s (CHas h n (rs ++ [data s (h + Z.of_nat (length rs))]))).
Proof.
  intros s h n rs (pend & D & P & C) Ec Hn. pose proof D as (Hh & Hs & Hl & Hp & Hd).
  unfold CInv in C. rewrite Ec in C. destruct C as (C1 & C2 & C3 & C4 & C5 & C6).
  exists pend. split; [|split]; auto.
  cbn. repeat split; auto.
  - rewrite app_length; cbn; lia.
  - rewrite app_length. cbn. replace (length rs + 1)%nat with (S (length rs)) by lia.
    destruct (nth_error pend (length rs)) as [x|] eqn:E.
    + rewrite <- (firstn_snoc _ _ _ _ E), <- C6. f_equal. f_equal.
      apply Hd in E. rewrite <- E. f_equal. subst h. rewrite wrap_eq by lia. dif; lia.
    + apply nth_error_None in E. lia.
Qed.

Lemma Inv_pop : forall s h n rs k, Inv s -> cons s = CHas h n rs -> (k <= length rs)%nat ->
  Inv (mkst (wrap N (head s + Z.of_nat k)) (size s - Z.of_nat k) (quit s) (data s)
              (prod s) CNotify (q1 s) (q2 s) (syncers s) (pushed s) (popped s ++ firstn k rs)).
Proof.
  intros s h n rs k (pend & D & P & C) Ec Hk. pose proof D as (Hh & Hs & Hl & Hp & Hd).
  unfold CInv in C. rewrite Ec in C. destruct C as (C1 & C2 & C3 & C4 & C5 & C6).
  assert (Ek : firstn k rs = firstn k pend).
  { rewrite C6, firstn_firstn. f_equal. lia. }
  assert (Hkn : Z.of_nat k <= size s) by lia.
  exists (skipn k pend). split; [|split].
  - repeat split; cbn; try lia.
    + rewrite wrap_eq by lia. dif; lia.
    + rewrite wrap_eq by lia. dif; lia.
    + rewrite skipn_length. lia.
    + rewrite Ek, <- app_assoc, firstn_skipn. exact Hp.
    + intros i x Hi. rewrite nth_error_skipn in Hi.
      assert (k + i < length pend)%nat by (apply nth_error_Some; congruence).
      apply Hd in Hi. rewrite <- Hi. f_equal. rewrite (wrap_eq N (head s + Z.of_nat k)) by lia.
      destruct (Z.ltb_spec (head s + Z.of_nat k) N); rewrite !wrap_eq by lia; dif; lia.
  - unfold PInv in *. cbn. destruct (prod s); auto. destruct P as (Pt & Pn & Ptn & Pns & Pl & Pw).
    repeat split; auto; try lia. rewrite Pt. rewrite (wrap_eq N (head s + Z.of_nat k)) by lia.
    destruct (Z.ltb_spec (head s + Z.of_nat k) N); rewrite !wrap_eq by lia; dif; lia.
  - exact I.
Qed.

Lemma Inv_init : forall junk n, Inv (init junk n).
Proof.
  intros. exists []. split; [|split]; cbn; auto. repeat split; cbn; auto; try lia.
  intros [|i] x H; discriminate H.
Qed.

Lemma Inv_step : forall s s', Inv s -> step N s s' -> Inv s'.
Proof.
  intros s s' H St. inversion St; subst; clear St.
  - apply Inv_back; auto using back_enter_cases.
  - apply Inv_back; auto using back_resume_cases.
  - apply Inv_back; cbn; auto.
  - apply Inv_back; cbn; auto.
  - apply Inv_write; auto.
  - eapply Inv_push; eauto.
  - destruct (notify_tail_props s) as (A & B & C).
    eapply Inv_ctl; [exact H| | |]; cbn; auto.
  - apply Inv_back; auto. left. destruct (sync_done s); exact I.
  - apply Inv_back; auto. left. destruct (sync_done s); exact I.
  - apply Inv_back; cbn; auto.
  - apply Inv_front; auto using front_enter_cases.
  - apply Inv_front; auto using front_resume_cases.
  - apply Inv_front; cbn; auto.
  - apply Inv_front; cbn; auto.
  - apply Inv_read; auto.
  - eapply Inv_pop; eauto.
  - destruct (notify_head_props _ _ H1) as (A & B & C).
    eapply Inv_ctl; [exact H| | |]; cbn; auto.
  - eapply Inv_ctl; [exact H| | |]; cbn; auto; repeat split.
  - destruct (notify_head_props _ _ H1) as (A & B & C).
    eapply Inv_ctl; [exact H| | |]; cbn; auto.
  - destruct (notify_tail_props s) as (A & B & C).
    eapply Inv_ctl; [exact H| | |]; cbn; auto.
  - eapply Inv_ctl; [exact H| | |]; cbn; auto; repeat split.
  - eapply Inv_ctl; [exact H| | |]; cbn; auto; repeat split.
Qed.

Lemma Inv_reachable : forall junk n s, reachable N junk n s -> Inv s.
Proof. induction 1; eauto using Inv_init, Inv_step. Qed.

(** Wake-ups, without extra sync() threads. *)
Definition WInv (s : state T) : Prop :=
  syncers s = [] /\
  (prod s = PAsleepB -> (size s = N /\ quit s = false) \/ cons s = CNotify \/ (0 < q1 s)%nat) /\
  (prod s = PAsleepS -> (size s <> 0 /\ quit s = false) \/ cons s = CNotify \/ (0 < q1 s)%nat) /\
  (cons s = CAsleep -> (size s = 0 /\ quit s = false) \/ prod s = PNotify \/ (0 < q1 s)%nat \/ (0 < q2 s)%nat).

Lemma notify_head_cases : forall s s' : state T, syncers s = [] -> notify_head s s' ->
  (s' = set_prod s PAwakeB /\ prod s = PAsleepB) \/ (s' = set_prod s PAwakeS /\ prod s = PAsleepS) \/
  (s' = s /\ prod s <> PAsleepB /\ prod s <> PAsleepS).
Proof.
  intros s s' E H. inversion H; subst; auto.
  - rewrite E in H0. destruct i; discriminate H0.
  - right. right. unfold prod_asleep in H0. intuition.
Qed.

Lemma WInv_step : forall s s', Inv s -> WInv s -> step N s s' -> WInv s'.
Proof.
  intros s s' HI (W0 & W1 & W2 & W3) St.
  destruct HI as (pend & (Hh & Hs & Hl & Hp & Hd) & P & C).
  inversion St; subst; clear St; unfold WInv; cbn [set_prod set_cons set_q set_syncers syncers prod cons size quit q1 q2];
    try (split; [exact W0|]).
  - (* back *) split; [|split].
    + unfold back_enter, space. intros E. destruct (N - size s =? 0) eqn:E1; cbn in E; [|discriminate].
      destruct (quit s) eqn:E2; cbn in E; [discriminate|]. left. split; [lia|auto].
    + unfold back_enter, back_region. intros E. destruct (space N s =? 0), (quit s); cbn in E; discriminate.
    + intros E. specialize (W3 E). intuition congruence.
  - split; [|split].
    + unfold back_resume, space. intros E. destruct (N - size s =? 0) eqn:E1, (quit s) eqn:E2; cbn in E; try discriminate.
      left. split; [lia|auto].
    + unfold back_resume, back_region. intros E. destruct (space N s =? 0), (quit s); cbn in E; discriminate.
    + intros E. specialize (W3 E). intuition congruence.
  - split; [|split]; try discriminate. intros E. specialize (W3 E). intuition congruence.
  - split; [|split]; try discriminate. intros E. specialize (W3 E). intuition congruence.
  - split; [|split]; try discriminate. intros E. specialize (W3 E). intuition congruence.
  - split; [|split]; try discriminate. auto.
  - (* push notify *) unfold notify_tail. destruct (cons s) eqn:E; cbn [set_prod set_cons syncers prod cons size quit q1 q2];
      (split; [exact W0|]); (split; [|split]); try discriminate; auto;
      intros E'; try (specialize (W1 E')); try (specialize (W2 E')); intuition congruence.
  - split; [|split].
    + destruct (sync_done s); discriminate.
    + unfold sync_done, empty. destruct (quit s); cbn; [discriminate|]. destruct (Z.eqb_spec (size s) 0); [discriminate|]. auto.
    + intros E. specialize (W3 E). intuition congruence.
  - split; [|split].
    + destruct (sync_done s); discriminate.
    + unfold sync_done, empty. destruct (quit s); cbn; [discriminate|]. destruct (Z.eqb_spec (size s) 0); [discriminate|]. auto.
    + intros E. specialize (W3 E). intuition congruence.
  - split; [|split]; try discriminate. intros E. specialize (W3 E). intuition congruence.
  - (* front *) split; [|split].
    + intros E. specialize (W1 E). intuition congruence.
    + intros E. specialize (W2 E). intuition congruence.
    + unfold front_enter, front_resume, front_region, empty. intros E.
      destruct (size s =? 0) eqn:E1, (quit s) eqn:E2; cbn in E; try discriminate. left; split; [lia|auto].
  - split; [|split].
    + intros E. specialize (W1 E). intuition congruence.
    + intros E. specialize (W2 E). intuition congruence.
    + unfold front_resume, front_region, empty. intros E.
      destruct (size s =? 0) eqn:E1, (quit s) eqn:E2; cbn in E; try discriminate. left; split; [lia|auto].
  - split; [|split]; try discriminate; intros E; [specialize (W1 E)|specialize (W2 E)]; intuition congruence.
  - split; [|split]; try discriminate; intros E; [specialize (W1 E)|specialize (W2 E)]; intuition congruence.
  - split; [|split]; try discriminate; intros E; [specialize (W1 E)|specialize (W2 E)]; intuition congruence.
  - split; [|split]; try discriminate; auto.
  - (* pop notify *) destruct (notify_head_cases _ _ W0 H0) as [[-> E]|[[-> E]|(-> & E & F)]];
      cbn [set_prod set_cons syncers prod cons size quit q1 q2]; (split; [exact W0|]); (split; [|split]); try discriminate;
      intros E'; contradiction.
  - (* quit *) split; [|split]; intros E; right; right; try lia.
  - (* quit head *) destruct (notify_head_cases _ _ W0 H0) as [[-> E]|[[-> E]|(-> & E & F)]];
      cbn [set_prod set_cons syncers prod cons size quit q1 q2]; (split; [exact W0|]); (split; [|split]); try discriminate;
      try (intros E'; contradiction); intros; right; right; right; lia.
  - (* quit tail *) unfold notify_tail. destruct (cons s) eqn:E; cbn [set_prod set_cons set_q syncers prod cons size quit q1 q2];
      (split; [exact W0|]); (split; [|split]); try discriminate; auto;
      intros E'; try (specialize (W1 E')); try (specialize (W2 E')); intuition congruence.
  - rewrite W0 in H. destruct H as [H|H]; destruct i; discriminate H.
  - rewrite W0 in H. destruct i; discriminate H.
Qed.

Lemma WInv_reachable : forall junk s, reachable N junk 0 s -> WInv s.
Proof.
  induction 1.
  - unfold WInv, init. cbn. repeat split; auto; discriminate.
  - eapply WInv_step; eauto using Inv_reachable.
Qed.

End P.
