(** Properties C241-C243: ownership of descriptors. *)
From Verif Require Import Base HandleModel.

(** What a program may do: objects are created once, used while they live; a descriptor handed to an object has just been opened,
    and dup answers with one that is not open.  [copies]: the class can be copied. *)
Definition fresh (l : list Z) (h : Z) : Prop := 0 <= h /\ ~ In h l.
Definition legal (copies : bool) (w : world) (o : op) : Prop :=
  match o with
  | ONew i h => objs w i = None /\ (h = invalid_handle \/ fresh (opened w) h)
  | OCopy i j dup => copies = true /\ objs w i = None /\ objs w j <> None /\ forall n, dup = Some n -> fresh (opened w) n
  | OAssign i j _ dup => copies = true /\ objs w i <> None /\ objs w j <> None /\ forall n, dup = Some n -> fresh (close_fd (opened w) (m_h w i)) n
  | OMove i j => objs w i = None /\ objs w j <> None
  | OMoveAssign i j _ => objs w i <> None /\ objs w j <> None
  | OClose i _ | ODestroy i _ => objs w i <> None
  end.
Inductive history (reports copies : bool) (ok : op -> Prop) : world -> list op -> Prop :=
| hs_nil : forall w, history reports copies ok w []
| hs_cons : forall w o l, legal copies w o -> ok o -> history reports copies ok (fst (step reports w o)) l -> history reports copies ok w (o :: l).
(** the system calls an operation relies on; that close fails in a destructor and dup in a copy constructor does no harm *)
Definition no_failures (o : op) : Prop :=
  match o with
  | OAssign _ _ closed dup => closed = true /\ dup <> None
  | OMoveAssign _ _ closed | OClose _ closed => closed = true
  | _ => True
  end.
(** Every open descriptor is that of exactly one object, and no object has one that is not open. *)
Definition owned (w : world) : Prop :=
  (forall h, In h (opened w) <-> (h <> invalid_handle /\ exists i, objs w i = Some h)) /\
  (forall i j h, objs w i = Some h -> objs w j = Some h -> h <> invalid_handle -> i = j).

Lemma in_close : forall l h x, In x (close_fd l h) <-> In x l /\ x <> h.
Proof. intros. unfold close_fd. rewrite filter_In, negb_true_iff, Z.eqb_neq. reflexivity. Qed.
Lemma live : forall w i, objs w i <> None -> objs w i = Some (m_h w i).
Proof. intros w i H. unfold m_h. destruct (objs w i); congruence. Qed.

Definition vacant (w : world) (i : nat) : Prop := m_h w i = invalid_handle.
Lemma vacant_at : forall w i h, vacant w i -> objs w i = Some h -> h = invalid_handle.
Proof. intros w i h V E. unfold vacant, m_h in V. rewrite E in V. exact V. Qed.
Lemma owned_ext : forall w w', (forall k, objs w k = objs w' k) -> opened w = opened w' -> owned w -> owned w'.
Proof.
  intros w w' E E2 [A B]. split.
  - intros h. rewrite <- E2, A. split; intros [X [i Y]]; split; auto; exists i; congruence.
  - intros i j h. rewrite <- !E. apply B.
Qed.
Lemma own_off : forall w i x, vacant w i -> x = None \/ x = Some invalid_handle -> owned w -> owned (World (put (objs w) i x) (opened w)).
Proof.
  intros w i x V X [A B]. unfold owned, put. cbn [objs opened]. split.
  - intros h. rewrite A. split; intros [N [k Y]]; split; auto.
    + exists k. destruct (Nat.eqb_spec k i) as [E|K]; auto. subst k. apply (vacant_at w i h V) in Y. contradiction.
    + destruct (Nat.eqb_spec k i) as [E|K]; [|eauto]. destruct X as [X|X]; rewrite X in Y; [discriminate|]. injection Y as <-. contradiction.
  - intros a b h. destruct (Nat.eqb_spec a i) as [->|Ka], (Nat.eqb_spec b i) as [->|Kb]; auto; intros Y Z N; [destruct X as [->| ->]; [discriminate|injection Y as <-; contradiction]|destruct X as [->| ->]; [discriminate|injection Z as <-; contradiction]|eauto].
Qed.
Lemma own_new : forall w i h, vacant w i -> fresh (opened w) h -> owned w -> owned (World (put (objs w) i (Some h)) (h :: opened w)).
Proof.
  intros w i h V [F1 F2] [A B]. assert (HN : forall k, objs w k <> Some h). { intros k E. apply F2, A. split; [unfold invalid_handle; lia|eauto]. }
  unfold owned, put. cbn [objs opened In]. split.
  - intros x. rewrite A. split.
    + intros [<-|[N [k Y]]]; [split; [unfold invalid_handle; lia|exists i; rewrite Nat.eqb_refl; auto]|]. split; auto. exists k. destruct (Nat.eqb_spec k i) as [EE|K]; [subst k|]; auto. apply (vacant_at w i x V) in Y. contradiction.
    + intros [N [k Y]]. destruct (Nat.eqb_spec k i) as [EE|K]; [subst k; left; congruence|right; eauto].
  - intros a b x. destruct (Nat.eqb_spec a i) as [->|Ka], (Nat.eqb_spec b i) as [->|Kb]; auto; intros Y Z N.
    + injection Y as <-. exfalso. eapply HN; eauto.
    + injection Z as <-. exfalso. eapply HN; eauto.
    + eauto.
Qed.
Lemma own_close : forall w i x, ~ vacant w i -> x = None \/ x = Some invalid_handle -> owned w -> owned (World (put (objs w) i x) (close_fd (opened w) (m_h w i))) /\ In (m_h w i) (opened w).
Proof.
  intros w i x V X [A B]. assert (E : objs w i = Some (m_h w i)). { unfold vacant, m_h in *. destruct (objs w i); congruence. } split; [|apply A; split; eauto].
  unfold owned, put. cbn [objs opened]. split.
  - intros h. rewrite in_close, A. split.
    + intros [[N [k Y]] D]. split; auto. exists k. destruct (Nat.eqb_spec k i) as [EE|K]; [subst k|]; auto. congruence.
    + intros [N [k Y]]. destruct (Nat.eqb_spec k i) as [EE|K]; [subst k; destruct X as [->| ->]; [discriminate|injection Y as <-; contradiction]|]. split; [eauto|]. intros ->. apply K. eapply B; eauto.
  - intros a b h. destruct (Nat.eqb_spec a i) as [->|Ka], (Nat.eqb_spec b i) as [->|Kb]; auto; intros Y Z N; [destruct X as [->| ->]; [discriminate|injection Y as <-; contradiction]|destruct X as [->| ->]; [discriminate|injection Z as <-; contradiction]|eauto].
Qed.
Lemma own_move : forall w i j, vacant w i -> i <> j -> owned w -> owned (World (put (put (objs w) i (Some (m_h w j))) j (Some invalid_handle)) (opened w)).
Proof.
  intros w i j V D [A B]. assert (E : forall h, h <> invalid_handle -> objs w j = Some h <-> m_h w j = h). { intros h N. unfold m_h. destruct (objs w j); split; congruence. }
  unfold owned, put. cbn [objs opened]. split.
  - intros h. rewrite A. split; intros [N [k Y]]; split; auto.
    + destruct (Nat.eq_dec k j) as [->|K]; [exists i|exists k].
      * destruct (Nat.eqb_spec i j); [contradiction|]. rewrite Nat.eqb_refl. f_equal. apply E; auto.
      * destruct (Nat.eqb_spec k j); [contradiction|]. destruct (Nat.eqb_spec k i) as [EE|]; auto. subst k. apply (vacant_at w i h V) in Y. contradiction.
    + destruct (Nat.eqb_spec k j); [congruence|]. destruct (Nat.eqb_spec k i) as [EE|]; eauto. exists j. apply E; auto. congruence.
  - intros a b h. destruct (Nat.eqb_spec a j), (Nat.eqb_spec b j); try congruence. destruct (Nat.eqb_spec a i), (Nat.eqb_spec b i); try congruence; intros Y Z N.
    + injection Y as Y. apply E in Y; auto. exfalso. eapply n0, (B b j h); auto.
    + injection Z as Z. apply E in Z; auto. exfalso. eapply n, (B a j h); auto.
    + eauto.
Qed.
Lemma vacant_off : forall w i l, vacant (World (put (objs w) i (Some invalid_handle)) l) i.
Proof. intros. unfold vacant, m_h, put. cbn [objs]. rewrite Nat.eqb_refl. reflexivity. Qed.
Lemma m_h_put : forall f i x l j, i <> j -> m_h (World (put f i x) l) j = m_h (World f l) j.
Proof. intros. unfold m_h, put. cbn [objs]. destruct (Nat.eqb_spec j i); congruence. Qed.
Lemma put_twice : forall f i a b k, put (put f i a) i b k = put f i b k.
Proof. intros. unfold put. destruct (Nat.eqb_spec k i); auto. Qed.

Lemma step_owned : forall reports copies w o, owned w -> legal copies w o -> (reports = true -> no_failures o) -> (copies = true -> no_failures o) ->
  owned (fst (step reports w o)) /\ snd (step reports w o) <> Terminated.
Proof.
  intros reports copies w o O L NF NC.
  destruct o as [i h|i j dup|i j closed dup|i j|i j closed|i closed|i closed]; cbn [legal step] in *.
  - destruct L as [N F]. assert (V : vacant w i) by (unfold vacant, m_h; rewrite N; reflexivity). split; [|cbn; discriminate]. cbn [fst]. destruct (Z.eqb_spec h invalid_handle) as [->|E]; [apply own_off; auto|]. destruct F; [contradiction|]. apply own_new; auto.
  - destruct L as (_ & N & _ & F). assert (V : vacant w i) by (unfold vacant, m_h; rewrite N; reflexivity). destruct (m_h w j =? invalid_handle); [split; [apply own_off; auto|discriminate]|]. destruct dup as [n|]; split; try discriminate; auto. apply own_new; auto.
  - destruct L as (C & Li & Lj & F). destruct (NC C) as [-> D]. rewrite andb_false_r. destruct (Nat.eqb_spec i j) as [|K]; [split; [auto|discriminate]|].
    destruct dup as [n|]; [|contradiction]. specialize (F n eq_refl). destruct (Z.eqb_spec (m_h w i) invalid_handle) as [V|V].
    + destruct (m_h w j =? invalid_handle); split; try discriminate; cbn [fst]; [apply own_off; auto|]. apply own_new; auto. rewrite V in F. destruct F as [F1 F2]. split; auto. intros X. apply F2, in_close. split; auto. intros Q. rewrite Q in F1. unfold invalid_handle in F1. lia.
    + destruct (own_close w i (Some invalid_handle) V (or_intror eq_refl) O) as [O' _]. destruct (m_h w j =? invalid_handle); split; try discriminate; cbn [fst]; auto.
      eapply owned_ext; [| |apply (own_new _ i n (vacant_off w i _) F O')]; [intros k; apply put_twice|reflexivity].
  - destruct L as [N Lj]. assert (V : vacant w i) by (unfold vacant, m_h; rewrite N; reflexivity). split; [|discriminate]. cbn [fst]. apply own_move; auto. intros ->. contradiction.
  - destruct L as [Li Lj]. destruct (Nat.eqb_spec i j) as [|K]; [split; [auto|discriminate]|]. assert (T : reports && negb closed = false). { destruct reports; auto. rewrite (NF eq_refl). reflexivity. } rewrite T.
    destruct (Z.eqb_spec (m_h w i) invalid_handle) as [V|V]; split; try discriminate; cbn [fst]; [apply own_move; auto|].
    destruct (own_close w i (Some invalid_handle) V (or_intror eq_refl) O) as [O' _]. eapply owned_ext; [| |apply (own_move _ i j (vacant_off w i _) K O')]; [|reflexivity]. intros k. cbn [objs]. unfold m_h at 1. unfold put. cbn [objs]. destruct (Nat.eqb_spec j i); [congruence|]. destruct (k =? j)%nat; auto. destruct (k =? i)%nat; auto.
  - assert (T : reports && negb closed = false). { destruct reports; auto. rewrite (NF eq_refl). reflexivity. } rewrite T. destruct (Z.eqb_spec (m_h w i) invalid_handle) as [V|V]; split; try discriminate; cbn [fst]; auto. apply own_close; auto.
  - destruct (Z.eqb_spec (m_h w i) invalid_handle) as [V|V]; split; cbn [fst snd]; [apply own_off; auto|discriminate|apply own_close; auto|]. destruct (reports && negb closed); discriminate.
Qed.
Lemma run_owned : forall reports copies l w, owned w -> history reports copies (fun o => reports = true \/ copies = true -> no_failures o) w l -> owned (run reports w l).
Proof.
  intros reports copies l w O H. induction H as [w|w o l L K H IH]; auto. cbn [run]. apply IH. apply (step_owned reports copies w o O L); auto.
Qed.
Lemma nothing_owned : owned nothing.
Proof. split; [|discriminate]. intros h. split; [intros []|intros [_ [i H]]; discriminate]. Qed.

(** C241.  sys_object, in every history without failing system calls (except dup in copy constructors and close in destructors,
    which do no harm): each open descriptor is that of exactly one object, so it is not closed while an object has it, the close
    of an object closes its own, and when no object is left none is open. *)
Theorem sys_object_owns : forall l, history true true no_failures nothing l -> let w := run true nothing l in
  owned w /\ ((forall i, objs w i = None) -> opened w = []).
Proof.
  intros l H w. assert (O : owned w). { apply (run_owned true true); [apply nothing_owned|]. clear w. induction H as [w|w o l L K H IH]; constructor; auto. }
  split; auto. intros N. destruct (opened w) as [|h t] eqn:E; auto. exfalso. destruct O as [A _]. destruct (proj1 (A h)) as [_ [i Y]]; [rewrite E; left; auto|]. rewrite N in Y. discriminate.
Qed.
(** stream::socket, which cannot be copied and does not look whether closesocket fails: in every history. *)
Theorem socket_owns : forall l, history false false (fun _ => True) nothing l -> let w := run false nothing l in
  owned w /\ ((forall i, objs w i = None) -> opened w = []).
Proof.
  intros l H w. assert (O : owned w). { apply (run_owned false false); [apply nothing_owned|]. clear w. induction H as [w|w o l L K H IH]; constructor; auto. intros [X|X]; discriminate. }
  split; auto. intros N. destruct (opened w) as [|h t] eqn:E; auto. exfalso. destruct O as [A _]. destruct (proj1 (A h)) as [_ [i Y]]; [rewrite E; left; auto|]. rewrite N in Y. discriminate.
Qed.
(** stdex::socket, basic_sys_object without copies: moves, close and destruction, when close does not fail *)
Theorem socket_object_owns : forall l, history true false no_failures nothing l -> owned (run true nothing l).
Proof.
  intros l H. apply (run_owned true false); [apply nothing_owned|]. induction H as [w|w o l L K H IH]; constructor; auto.
Qed.

(** C248: what each operation does when the system calls it relies on do not fail: which descriptor the object has behind it,
    which are opened and closed; the other objects keep theirs. *)
Definition kept (w w' : world) (touched : list nat) : Prop := forall k, ~ In k touched -> objs w' k = objs w k.
Definition closes (w w' : world) (h : Z) : Prop := forall x, In x (opened w') <-> In x (opened w) /\ x <> h.
Definition replaces (w w' : world) (old new : Z) : Prop := forall x, In x (opened w') <-> (In x (opened w) /\ x <> old) \/ x = new.
Lemma put_same : forall f i x, put f i x i = x.
Proof. intros. unfold put. rewrite Nat.eqb_refl. reflexivity. Qed.
Lemma put_other : forall f i x k, k <> i -> put f i x k = f k.
Proof. intros f i x k N. unfold put. destruct (Nat.eqb_spec k i); congruence. Qed.
Theorem operations : forall reports w, owned w ->
  (forall i j dup, let (w', r) := step reports w (OCopy i j dup) in kept w w' [i] /\
     (m_h w j = invalid_handle -> r = Done /\ objs w' i = Some invalid_handle /\ opened w' = opened w) /\
     (forall n, m_h w j <> invalid_handle -> dup = Some n -> r = Done /\ objs w' i = Some n /\ opened w' = n :: opened w)) /\
  (forall i j n, i <> j -> objs w i <> None -> let (w', r) := step reports w (OAssign i j true (Some n)) in r = Done /\ kept w w' [i] /\
     (m_h w j = invalid_handle -> objs w' i = Some invalid_handle /\ closes w w' (m_h w i)) /\
     (m_h w j <> invalid_handle -> objs w' i = Some n /\ replaces w w' (m_h w i) n)) /\
  (forall i dup closed, step reports w (OAssign i i closed dup) = (w, Done) /\ step reports w (OMoveAssign i i closed) = (w, Done)) /\
  (forall i j, i <> j -> let (w', r) := step reports w (OMove i j) in r = Done /\ kept w w' [i; j] /\ objs w' i = Some (m_h w j) /\ objs w' j = Some invalid_handle /\ opened w' = opened w) /\
  (forall i j, i <> j -> let (w', r) := step reports w (OMoveAssign i j true) in r = Done /\ kept w w' [i; j] /\ objs w' i = Some (m_h w j) /\ objs w' j = Some invalid_handle /\ closes w w' (m_h w i)) /\
  (forall i, objs w i <> None -> let (w', r) := step reports w (OClose i true) in r = Done /\ kept w w' [i] /\ objs w' i = Some invalid_handle /\ closes w w' (m_h w i)) /\
  (forall i closed, let (w', r) := step reports w (ODestroy i closed) in (closed = true -> r = Done) /\ kept w w' [i] /\ objs w' i = None /\ closes w w' (m_h w i)).
Proof.
  intros reports w OW. assert (NI : ~ In invalid_handle (opened w)) by (intros X; apply OW in X as [X _]; auto). assert (KI : forall x, closes w (World (objs w) (close_fd (opened w) x)) x) by (intros x y; apply in_close).
  assert (KN : forall o, closes w (World o (opened w)) invalid_handle) by (intros o x; cbn [opened]; split; [intros H; split; auto; congruence|tauto]).
  repeat match goal with |- _ /\ _ => split end.
  - intros i j dup. cbn [step]. destruct (Z.eqb_spec (m_h w j) invalid_handle) as [E|E].
    + split; [intros k K; apply put_other; intros ->; apply K; left; auto|]. split; [intros _; cbn [objs]; rewrite put_same; auto|intros n X; contradiction].
    + destruct dup as [n|]; (split; [intros k K; try apply put_other; auto; intros ->; apply K; left; auto|]; split; [intros X; contradiction|]); [|intros; discriminate].
      intros n' _ X. injection X as <-. cbn [objs]. rewrite put_same. auto.
  - intros i j n NE NN. cbn [step]. destruct (Nat.eqb_spec i j) as [?|_]; [contradiction|]. cbv zeta.
    assert (R : reports && negb true = false) by (destruct reports; reflexivity). rewrite R.
    destruct (Z.eqb_spec (m_h w i) invalid_handle) as [E|E]; (destruct (Z.eqb_spec (m_h w j) invalid_handle) as [F|F]);
      (split; [reflexivity|]; split; [intros k K; apply put_other; intros ->; apply K; left; auto|]; split; [intros X|intros X]; try contradiction; (split; [apply put_same|])).
    + rewrite E. apply KN.
    + rewrite E. intros x. cbn [opened In]. split; [intros [<-|X']; [auto|left; split; auto; congruence]|intros [[X' _]|X']; auto].
    + intros x. apply in_close.
    + intros x. cbn [opened In]. rewrite in_close. split; [intros [<-|X']; auto|intros [X'|X']; auto].
  - intros i dup closed. cbn [step]. rewrite Nat.eqb_refl. auto.
  - intros i j NE. cbn [step objs opened]. split; auto. split; [|split; [rewrite put_other by auto; apply put_same|split; [apply put_same|auto]]].
    intros k K. cbn [In] in K. cbn [objs]. rewrite !put_other by (intros ->; tauto). reflexivity.
  - intros i j NE. cbn [step]. destruct (Nat.eqb_spec i j) as [?|_]; [contradiction|]. cbv zeta. assert (R : reports && negb true = false) by (destruct reports; reflexivity). rewrite R.
    destruct (Z.eqb_spec (m_h w i) invalid_handle) as [E|E]; (split; [auto|]; split; [intros k K; cbn [In] in K; cbn [objs]; rewrite !put_other by (intros ->; tauto); reflexivity|]; cbn [objs]; split; [rewrite put_other by auto; apply put_same|]; split; [apply put_same|]).
    + rewrite E. apply KN.
    + intros x. apply in_close.
  - intros i NN. cbn [step]. cbv zeta. assert (R : reports && negb true = false) by (destruct reports; reflexivity). rewrite R. destruct (Z.eqb_spec (m_h w i) invalid_handle) as [E|E].
    + split; [auto|]. split; [intros k K; auto|]. split; [rewrite (live w i NN), E; reflexivity|]. rewrite E. destruct w. apply KN.
    + split; [auto|]. split; [intros k K; apply put_other; intros ->; apply K; left; auto|]. split; [apply put_same|]. intros x. apply in_close.
  - intros i closed. cbn [step]. cbv zeta. destruct (Z.eqb_spec (m_h w i) invalid_handle) as [E|E].
    + split; [auto|]. split; [intros k K; apply put_other; intros ->; apply K; left; auto|]. split; [apply put_same|]. rewrite E. apply KN.
    + split; [intros ->; destruct reports; auto|]. split; [intros k K; apply put_other; intros ->; apply K; left; auto|]. split; [apply put_same|]. intros x. apply in_close.
Qed.

Ltac leaf := first [match goal with Q : Some _ = Some _ |- _ => injection Q as <-; lazy; first [intro; discriminate | intuition discriminate] end | discriminate | reflexivity | (intro; discriminate) | (intros ? Q; first [discriminate Q | injection Q as <-; lazy; split; [intro; discriminate|intuition discriminate]]) | (right; split; [intro; discriminate|intuition discriminate]) | (left; reflexivity) | exact Logic.I | intuition discriminate].
Ltac hist := repeat (apply hs_cons; [lazy; repeat split; leaf | lazy; repeat split; leaf | lazy]); apply hs_nil.
(** C242, refuted: after an assignment whose dup fails, the object still has the descriptor it closed; when this number is given
    out again, the destruction of the object closes the descriptor of another. *)
Theorem assign_refuted : exists l, history true true (fun o => match o with OAssign _ _ closed _ => closed = true | _ => no_failures o end) nothing l /\
  let w := run true nothing l in objs w 2 = Some 3 /\ ~ In 3 (opened w).
Proof.
  exists [ONew 0 3; ONew 1 4; OAssign 0 1 true None; ONew 2 3; ODestroy 0 true]. split.
  - hist.
  - lazy. intuition discriminate.
Qed.
(** C243, refuted: the same after a close that fails, as close(2) may with EIO. *)
Theorem close_refuted : exists l, history true true (fun o => match o with OClose _ _ => True | _ => no_failures o end) nothing l /\
  let w := run true nothing l in objs w 1 = Some 3 /\ ~ In 3 (opened w).
Proof.
  exists [ONew 0 3; OClose 0 false; ONew 1 3; ODestroy 0 true]. split.
  - hist.
  - lazy. intuition discriminate.
Qed.
(** a failing close in an assignment of a moved object ends the program: the operator is noexcept *)
Theorem move_assign_refuted : exists w o, owned w /\ legal true w o /\ snd (step true w o) = Terminated.
Proof.
  exists (run true nothing [ONew 0 3; ONew 1 4]), (OMoveAssign 0 1 false). split; [|split; [cbn; split; discriminate|reflexivity]].
  apply (run_owned true true); [apply nothing_owned|]. hist.
Qed.
(** not vacuous *)
Example handle_ex : history true true no_failures nothing [ONew 0 3; OCopy 1 0 (Some 4); OAssign 0 1 true (Some 3); OMove 2 0; OClose 1 true; OMoveAssign 1 2 true; ODestroy 0 true; ODestroy 1 false; ODestroy 2 true].
Proof.
  hist.
Qed.
