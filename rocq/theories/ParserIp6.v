(** IPv6 addresses (property C113). *)
From Coq Require Import ZifyBool ZifyNat.
From Verif Require Import Base StringModel StringSpec StringProofs ParserModel ParserSpec ParserProps ParserNumModel ParserNumProps ParserPeg Bits MathModel MathProps ParserIpModel ParserIpSpec ParserIp4.
Ltac Zify.zify_post_hook ::= Z.div_mod_to_equations.

(** ** moving the components to the right *)
Lemma align_right_spec : forall A (d x : A) ci i l, length l = 8%nat -> (ci <= i <= 8)%nat -> align_right d x ci i l = firstn ci l ++ repeat x (8 - i) ++ firstn (i - ci) (skipn ci l).
Proof.
  intros A d x ci i l L H. do 8 (destruct l as [|? l]; [discriminate|]). destruct l; [|discriminate].
  do 9 (destruct i as [|i]; [do 9 (destruct ci as [|ci]; [first [reflexivity|lia]|]); lia|]). lia.
Qed.

Section Ip6.
Context (txt : list Z) (es : list espec) (sp : espec).
Local Notation text_ok := (text_ok txt).
Local Notation vis := (vis txt).
Local Notation good := (good txt).
Context (G : Forall good es) (A : Forall (fun p => advances txt (es_f p)) es) (Gs : good sp) (L16 : length es = 16%nat).
Local Notation fs := (map es_f es).
Local Notation grp := (grp es 16 65535).
Local Notation sepf := (es_f sp).
Lemma bounds6 : 1 <= 16 /\ 0 <= 65535 /\ 65535 * 16 + Z.of_nat (length es) < M64 /\ Z.of_nat (length es) <= 65535 + 1.
Proof. rewrite L16. lia. Qed.

(** ** what the loop computes *)
Fixpoint post_fn (n : nat) (x e : nat) (fl : pflags) : list (nat * nat * Z) * nat :=
  match n with
  | O => ([], x)
  | S m => match sepf x e fl with
           | None => ([], x)
           | Some x1 => match sepf x1 e fl with
                        | Some _ => ([], x1)
                        | None => match grp x1 e fl with None => ([], x1) | Some (y, v) => let (gs, z) := post_fn m y e fl in ((x1, y, v) :: gs, z) end
                        end
           end
  end.
Definition post0_fn (n : nat) (x e : nat) (fl : pflags) : list (nat * nat * Z) * nat :=
  match grp x e fl with None => ([], x) | Some (y, v) => let (gs, z) := post_fn (Nat.pred n) y e fl in ((x, y, v) :: gs, z) end.
Definition short_form : Type := option (nat * list (nat * nat * Z)).
Definition cons_group (g : nat * nat * Z) (r : option (list (nat * nat * Z) * short_form * nat)) := match r with Some (gs, c, y) => Some (g :: gs, c, y) | None => None end.
Fixpoint pre_fn (n : nat) (first : bool) (x e : nat) (fl : pflags) : option (list (nat * nat * Z) * short_form * nat) :=
  match n with
  | O => Some ([], None, x)
  | S m => match sepf x e fl with
           | Some x1 => match sepf x1 e fl with
                        | Some x2 => let (gs, z) := post0_fn (S m) x2 e fl in Some ([], Some (x1, gs), z)
                        | None => if first then None else match grp x1 e fl with None => None | Some (y, v) => cons_group (x1, y, v) (pre_fn m false y e fl) end
                        end
           | None => if first then match grp x e fl with None => None | Some (y, v) => cons_group (x, y, v) (pre_fn m false y e fl) end else None
           end
  end.
Lemma grp_fine : forall x e fl y v, text_ok x e -> grp x e fl = Some (y, v) -> text_ok y e /\ in_vis txt x y e.
Proof. destruct bounds6 as (B1 & B2 & B3 & B4). intros x e fl y v H E. destruct (grp_ok txt es 16 65535 G A B1 B2 B3 x e fl y v H E) as (? & ? & _). auto. Qed.
Lemma sep_fine : forall x e fl y, text_ok x e -> sepf x e fl = Some y -> text_ok y e /\ in_vis txt x y e.
Proof. apply sep_ok; auto. Qed.
Lemma self_vis : forall x e, in_vis txt x x e.
Proof. intros. split; lia. Qed.
Lemma post_fine : forall n x e fl, text_ok x e -> text_ok (snd (post_fn n x e fl)) e /\ in_vis txt x (snd (post_fn n x e fl)) e /\ (length (fst (post_fn n x e fl)) <= n)%nat.
Proof.
  induction n as [|n IH]; intros x e fl H; cbn [post_fn]. { split; auto. split; [apply self_vis|cbn; lia]. }
  destruct (sepf x e fl) as [x1|] eqn:E1. 2:{ split; auto. split; [apply self_vis|cbn; lia]. }
  destruct (sep_fine x e fl x1 H E1) as [H1 W1]. destruct (sepf x1 e fl) eqn:E2. { split; auto. split; auto. cbn. lia. }
  destruct (grp x1 e fl) as [[y v]|] eqn:E3. 2:{ split; auto. split; auto. cbn. lia. }
  destruct (grp_fine x1 e fl y v H1 E3) as [H2 W2]. destruct (IH y e fl H2) as (H3 & W3 & L3). destruct (post_fn n y e fl) as [gs z]. cbn [fst snd length] in *. split; auto. split; [|lia]. apply (in_trans txt x x1); auto. apply (in_trans txt x1 y); auto.
Qed.
Lemma post0_fine : forall n x e fl, (0 < n)%nat -> text_ok x e -> text_ok (snd (post0_fn n x e fl)) e /\ in_vis txt x (snd (post0_fn n x e fl)) e /\ (length (fst (post0_fn n x e fl)) <= n)%nat.
Proof.
  intros n x e fl Hn H. unfold post0_fn. destruct (grp x e fl) as [[y v]|] eqn:E3. 2:{ split; auto. split; [apply self_vis|cbn; lia]. }
  destruct (grp_fine x e fl y v H E3) as [H2 W2]. destruct (post_fine (Nat.pred n) y e fl H2) as (H3 & W3 & L3). destruct (post_fn (Nat.pred n) y e fl) as [gs z]. cbn [fst snd length] in *. split; auto. split; [|lia]. apply (in_trans txt x y); auto.
Qed.

(** ** the loop *)
Definition zeros : list Z := repeat 0 8.
Lemma zeros_stay : forall i, set_at i (byteswap16 (nth i zeros 0)) zeros = zeros.
Proof. intros i. do 9 (destruct i as [|i]; [reflexivity|]). unfold zeros. cbn [repeat set_at]. reflexivity. Qed.
Lemma part_spec : forall ks x e fl, kids_ok es ks -> text_ok x e -> exists ks' y w b, cap_loop txt (S (e - x)) 16 65535 (map es_P es) ks x 0 true e fl = Ret (ks', y, w, b) /\ kids_ok es ks' /\
  match grp x e fl with Some (y', v) => y = y' /\ w = v /\ b = false /\ in_vis txt x y e /\ text_ok y e | None => b = true /\ y = x end.
Proof. destruct bounds6 as (B1 & B2 & B3 & B4). apply cap_loop_spec; auto. Qed.
(** after the two separators *)
Lemma loop_post : forall n i done rest kp ks c x e fl, kids_ok es ks -> es_wf sp kp -> text_ok x e -> length done = S i -> length rest = n ->
  exists kp' ks' rest', ip6_loop txt n (S i) (es_P sp) (map es_P es) zeros (done ++ rest) kp ks (Some c) x e fl
    = Ret (zeros, done ++ comps (fst (post_fn n x e fl)) ++ rest', kp', ks', Some (Some c, (S i + length (fst (post_fn n x e fl)))%nat, snd (post_fn n x e fl))) /\ es_wf sp kp' /\ kids_ok es ks' /\ (length (fst (post_fn n x e fl)) + length rest' = n)%nat.
Proof.
  induction n as [|n IH]; intros i done rest kp ks c x e fl K W H Ld Lr; cbn [ip6_loop post_fn].
  - exists kp, ks, []. destruct rest; [|discriminate]. cbn [fst snd comps map length app]. rewrite Nat.add_0_r. auto.
  - destruct rest as [|c0 rest]; [discriminate|]. cbn [length] in Lr. destruct c as [ci cst]. change (S i =? 0)%nat with false.
    destruct (ran_p txt sp kp x e fl Gs W H) as (kp1 & -> & W1 & R1). cbn [obind]. destruct (sepf x e fl) as [x1|]; cbn [found].
    2:{ exists kp1, ks, (c0 :: rest). cbn [fst snd comps map length app]. rewrite Nat.add_0_r. split; auto. }
    destruct R1 as (_ & -> & H1 & _). destruct (ran_p txt sp kp1 x1 e fl Gs W1 H1) as (kp2 & -> & W2 & R2). cbn [obind]. destruct (sepf x1 e fl) as [x2|]; cbn [found].
    { exists kp2, ks, (c0 :: rest). cbn [fst snd comps map length app]. rewrite Nat.add_0_r. split; auto. }
    destruct (part_spec ks x1 e fl K H1) as (ks' & y & w & b & -> & K' & C). cbn [obind]. destruct (grp x1 e fl) as [[y' v]|].
    + destruct C as (-> & -> & -> & _ & Hy). rewrite set_at_mid by auto. replace (done ++ component x1 y' :: rest) with ((done ++ [component x1 y']) ++ rest) by (rewrite <- app_assoc; reflexivity). rewrite zeros_stay.
      destruct (IH (S i) (done ++ [component x1 y']) rest kp2 ks' (ci, cst) y' e fl K' W2 Hy) as (kp3 & ks3 & rest' & E3 & W3 & K3 & L3); [rewrite app_length; cbn [length]; lia|lia|]. rewrite E3. destruct (post_fn n y' e fl) as [gs z]. cbn [fst snd length comps map] in *. exists kp3, ks3, rest'. split; [|split; auto; split; auto; lia]. rewrite <- app_assoc. cbn [app]. rewrite Nat.add_succ_r. reflexivity.
    + destruct C as [-> ->]. exists kp2, ks', (c0 :: rest). cbn [fst snd comps map length app]. rewrite Nat.add_0_r. split; auto.
Qed.
Definition loop_result (i : nat) (done cs : list pst) (r : option (option (nat * nat) * nat * nat)) (p : option (list (nat * nat * Z) * short_form * nat)) : Prop :=
  match p with
  | None => r = None \/ exists j y, r = Some (None, j, y) /\ (j < 8)%nat
  | Some (gs, None, y) => r = Some (None, 8, y)%nat /\ cs = done ++ comps gs
  | Some (gs, Some (x1, post), y) => exists rest', r = Some (Some (i + length gs, x1), i + length gs + length post, y)%nat /\ cs = done ++ comps gs ++ comps post ++ rest' /\ length cs = 8%nat /\ (i + length gs + length post <= 8)%nat
  end.
Lemma loop_pre : forall n i done rest kp ks x e fl, kids_ok es ks -> es_wf sp kp -> text_ok x e -> length done = i -> length rest = n -> (i + n = 8)%nat ->
  exists cs kp' ks' r, ip6_loop txt n i (es_P sp) (map es_P es) zeros (done ++ rest) kp ks None x e fl = Ret (zeros, cs, kp', ks', r) /\ es_wf sp kp' /\ kids_ok es ks' /\ loop_result i done cs r (pre_fn n (i =? 0)%nat x e fl).
Proof.
  induction n as [|n IH]; intros i done rest kp ks x e fl K W H Ld Lr Hi; cbn [ip6_loop pre_fn].
  - destruct rest; [|discriminate]. do 4 eexists. split; [reflexivity|]. split; auto. split; auto. cbn [loop_result comps map]. split; [f_equal; f_equal; f_equal; lia|auto].
  - destruct rest as [|c0 rest]; [discriminate|]. cbn [length] in Lr.
    assert (Part : forall kp1 x1, es_wf sp kp1 -> text_ok x1 e -> exists cs kp' ks' r,
      (let* (ks', y, w, empty) := cap_loop txt (S (e - x1)) 16 65535 (map es_P es) ks x1 0 true e fl in
       if empty then Ret (zeros, done ++ c0 :: rest, kp1, ks', None) else ip6_loop txt n (S i) (es_P sp) (map es_P es) (set_at i (byteswap16 (nth i zeros 0)) zeros) (set_at i (component x1 y) (done ++ c0 :: rest)) kp1 ks' None y e fl)
      = Ret (zeros, cs, kp', ks', r) /\ es_wf sp kp' /\ kids_ok es ks' /\ loop_result i done cs r (match grp x1 e fl with None => None | Some (y, v) => cons_group (x1, y, v) (pre_fn n false y e fl) end)).
    { intros kp1 x1 W1 H1. destruct (part_spec ks x1 e fl K H1) as (ks' & y & w & b & -> & K' & C). cbn [obind]. destruct (grp x1 e fl) as [[y' v]|].
      - destruct C as (-> & -> & -> & _ & Hy). rewrite set_at_mid by auto. replace (done ++ component x1 y' :: rest) with ((done ++ [component x1 y']) ++ rest) by (rewrite <- app_assoc; reflexivity). rewrite zeros_stay.
        destruct (IH (S i) (done ++ [component x1 y']) rest kp1 ks' y' e fl K' W1 Hy) as (cs & kp3 & ks3 & r & E3 & W3 & K3 & L3); [rewrite app_length; cbn [length]; lia|lia|lia|]. change (S i =? 0)%nat with false in L3. rewrite E3. exists cs, kp3, ks3, r. split; auto. split; auto. split; auto.
        destruct (pre_fn n false y' e fl) as [[[gs [[p1 post]|]] z]|]; cbn [cons_group loop_result length comps map] in *; auto.
        + destruct L3 as (rest' & -> & -> & L3 & L4). exists rest'. rewrite <- !app_assoc in *. cbn [app] in *. rewrite Nat.add_succ_r. split; [reflexivity|]. split; [reflexivity|]. split; [exact L3|]. exact L4.
        + destruct L3 as [-> ->]. rewrite <- app_assoc. auto.
      - destruct C as [-> _]. do 4 eexists. split; [reflexivity|]. split; auto. split; auto. cbn [loop_result]. auto. }
    destruct (ran_p txt sp kp x e fl Gs W H) as (kp1 & -> & W1 & R1). cbn [obind]. destruct (sepf x e fl) as [x1|]; cbn [found].
    2:{ destruct (i =? 0)%nat; [apply Part; auto|]. do 4 eexists. split; [reflexivity|]. split; auto. split; auto. cbn [loop_result]. right. do 2 eexists. split; [reflexivity|lia]. }
    destruct R1 as (_ & -> & H1 & _). destruct (ran_p txt sp kp1 x1 e fl Gs W1 H1) as (kp2 & -> & W2 & R2). cbn [obind]. destruct (sepf x1 e fl) as [x2|]; cbn [found].
    2:{ destruct (i =? 0)%nat; [|apply Part; auto]. do 4 eexists. split; [reflexivity|]. split; auto. split; auto. cbn [loop_result]. auto. }
    destruct R2 as (I2 & -> & H2 & _). assert (i_start kp2 = x1) as -> by (injection I2; auto). unfold post0_fn. cbn [Nat.pred].
    destruct (part_spec ks x2 e fl K H2) as (ks' & y & w & b & -> & K' & C). cbn [obind]. destruct (grp x2 e fl) as [[y' v]|].
    + destruct C as (-> & -> & -> & _ & Hy). rewrite set_at_mid by auto. replace (done ++ component x2 y' :: rest) with ((done ++ [component x2 y']) ++ rest) by (rewrite <- app_assoc; reflexivity). rewrite zeros_stay.
      destruct (loop_post n i (done ++ [component x2 y']) rest kp2 ks' (i, x1) y' e fl K' W2 Hy) as (kp3 & ks3 & rest' & E3 & W3 & K3 & L3); [rewrite app_length; cbn [length]; lia|lia|]. rewrite E3. destruct (post_fn n y' e fl) as [gs z]. cbn [fst snd] in *. do 4 eexists. split; [reflexivity|]. split; auto. split; auto. cbn [loop_result length comps map].
      exists rest'. rewrite !Nat.add_0_r. rewrite <- !app_assoc. cbn [app]. split; [do 3 f_equal; lia|]. split; auto. split; [|lia]. rewrite app_length. cbn [length]. rewrite app_length. unfold comps. rewrite map_length. lia.
    + destruct C as [-> ->]. do 4 eexists. split; [reflexivity|]. split; auto. split; auto. cbn [loop_result length comps map app]. exists (c0 :: rest). rewrite !Nat.add_0_r. split; auto. split; auto. split; [|lia]. rewrite app_length. cbn [length]. lia.
Qed.

(** ** what it means *)
Context (Dis : forall x e fl, text_ok x e -> sepf x e fl <> None -> branch_fn fs x e fl = None).
Local Notation row_ e fl := (row fs sepf 16 65535 e fl).
Definition rowx (first : bool) (gs : list (nat * nat * Z)) (x y e : nat) (fl : pflags) : Prop :=
  if first then row0 fs sepf 16 65535 e fl gs x y else match gs with [] => x = y | _ => exists x1, sepf x e fl = Some x1 /\ row_ e fl gs x1 y end.
Lemma grp_yes : forall x e fl y v, text_ok x e -> group fs 16 65535 e fl x y v -> grp x e fl = Some (y, v) /\ sepf x e fl = None.
Proof.
  destruct bounds6 as (B1 & B2 & B3 & B4). intros x e fl y v H Gr. destruct (grp_iff txt es 16 65535 G A B1 B2 B4 x e fl H) as [GI GN]. split; [apply GI; auto|]. destruct (sepf x e fl) eqn:E; auto. exfalso. assert (N : grp x e fl = None) by (apply GN; apply Dis; auto; congruence). apply GI in Gr. congruence.
Qed.
Lemma grp_some : forall x e fl y v, text_ok x e -> grp x e fl = Some (y, v) -> group fs 16 65535 e fl x y v.
Proof. destruct bounds6 as (B1 & B2 & B3 & B4). intros x e fl y v H E. apply (grp_iff txt es 16 65535 G A B1 B2 B4 x e fl H). auto. Qed.
Lemma grp_none : forall x e fl, text_ok x e -> (grp x e fl = None <-> no_group fs e fl x).
Proof. destruct bounds6 as (B1 & B2 & B3 & B4). intros x e fl H. apply (grp_iff txt es 16 65535 G A B1 B2 B4 x e fl H). Qed.
Lemma rowx_cons : forall first g gs x y e fl, rowx first (g :: gs) x y e fl <->
  exists x1 b v, g = (x1, b, v) /\ (if first then x1 = x else sepf x e fl = Some x1) /\ group fs 16 65535 e fl x1 b v /\ rowx false gs b y e fl.
Proof.
  intros first [[a b] v] gs x y e fl. split.
  - intros R. assert (R' : exists x1, (if first then x1 = x else sepf x e fl = Some x1) /\ row_ e fl ((a, b, v) :: gs) x1 y) by (destruct first; [exists x; auto|exact R]). destruct R' as (x1 & E1 & R'). cbn [row] in R'. destruct R' as (-> & Gr & R'). exists x1, b, v. split; [reflexivity|]. split; [exact E1|]. split; [exact Gr|]. cbn [rowx]. destruct gs; exact R'.
  - intros (x1 & b' & v' & Eq & E1 & Gr & R). injection Eq as -> <- <-. assert (R' : row_ e fl ((x1, b, v) :: gs) x1 y) by (cbn [row]; split; auto; split; auto; destruct gs; auto). destruct first; [subst x1; exact R'|exists x1; auto].
Qed.
(** the end of the short form, with [k] groups to spare *)
Definition tail_ok (k : nat) (q y e : nat) (fl : pflags) : Prop :=
  (k = 0)%nat /\ y = q \/ (0 < k)%nat /\ match sepf q e fl with None => y = q | Some q1 => y = q1 /\ (sepf q1 e fl <> None \/ no_group fs e fl q1) end.
Lemma post_iff : forall n x e fl gs y, text_ok x e -> post_fn n x e fl = (gs, y) <-> (length gs <= n)%nat /\ exists q, rowx false gs x q e fl /\ tail_ok (n - length gs) q y e fl.
Proof.
  induction n as [|n IH]; intros x e fl gs y H; cbn [post_fn].
  - split.
    + intros E. injection E as <- <-. cbn [length]. split; [lia|]. exists x. split; [reflexivity|left; auto].
    + intros (L & q & R & T). destruct gs; [|cbn in L; lia]. cbn [rowx length] in *. subst q. destruct T as [[_ ->]|[T _]]; [reflexivity|lia].
  - assert (Nil : forall q, rowx false [] x q e fl -> q = x) by (intros q R; cbn in R; auto).
    split.
    + intros E. destruct (sepf x e fl) as [x1|] eqn:E1.
      2:{ injection E as <- <-. cbn [length]. split; [lia|]. exists x. split; [reflexivity|]. right. rewrite E1. split; [lia|auto]. }
      destruct (sep_fine x e fl x1 H E1) as [H1 _]. destruct (sepf x1 e fl) as [x2|] eqn:E2.
      { injection E as <- <-. cbn [length]. split; [lia|]. exists x. split; [reflexivity|]. right. rewrite E1. split; [lia|]. split; auto. left. congruence. }
      destruct (grp x1 e fl) as [[b v]|] eqn:Eg.
      2:{ injection E as <- <-. cbn [length]. split; [lia|]. exists x. split; [reflexivity|]. right. rewrite E1. split; [lia|]. split; auto. right. apply grp_none; auto. }
      destruct (grp_fine x1 e fl b v H1 Eg) as [Hb _]. destruct (post_fn n b e fl) as [l z] eqn:Ep. injection E as <- <-. apply (IH b e fl l z Hb) in Ep as (L & q & R & T). cbn [length]. split; [lia|]. exists q. split; [|exact T]. apply rowx_cons. exists x1, b, v. split; auto. split; auto. split; auto. apply grp_some; auto.
    + intros (L & q & R & T). destruct gs as [|g gs].
      * apply Nil in R. subst q. cbn [length] in T. destruct T as [[T _]|[_ T]]; [lia|]. destruct (sepf x e fl) as [x1|] eqn:E1; [|congruence]. destruct T as [-> T]. destruct (sepf x1 e fl) eqn:E2; auto. destruct T as [T|T]; [congruence|]. destruct (sep_fine x e fl x1 H E1) as [H1 _]. apply (grp_none x1 e fl H1) in T. rewrite T. reflexivity.
      * apply rowx_cons in R as (x1 & b & v & -> & E1 & Gr & R). rewrite E1. destruct (sep_fine x e fl x1 H E1) as [H1 _]. destruct (grp_yes x1 e fl b v H1 Gr) as [Eg ->]. rewrite Eg. destruct (grp_fine x1 e fl b v H1 Eg) as [Hb _]. cbn [length] in L, T. assert (Ep : post_fn n b e fl = (gs, y)) by (apply IH; [auto|]; split; [lia|]; exists q; auto). rewrite Ep. reflexivity.
Qed.
Definition tail0_ok (k : nat) (post : list (nat * nat * Z)) (q y e : nat) (fl : pflags) : Prop :=
  match post with [] => no_group fs e fl q /\ y = q | _ => tail_ok k q y e fl end.
Lemma post0_iff : forall n x e fl gs y, (0 < n)%nat -> text_ok x e -> post0_fn n x e fl = (gs, y) <-> (length gs <= n)%nat /\ exists q, rowx true gs x q e fl /\ tail0_ok (n - length gs) gs q y e fl.
Proof.
  intros n x e fl gs y Hn H. unfold post0_fn. split.
  - intros E. destruct (grp x e fl) as [[b v]|] eqn:Eg.
    + destruct (grp_fine x e fl b v H Eg) as [Hb _]. destruct (post_fn (Nat.pred n) b e fl) as [l z] eqn:Ep. injection E as <- <-. apply (post_iff _ b e fl l z Hb) in Ep as (L & q & R & T). cbn [length tail0_ok]. split; [lia|]. exists q. split; [|replace (n - S (length l))%nat with (Nat.pred n - length l)%nat by lia; exact T]. apply rowx_cons. exists x, b, v. split; auto. split; auto. split; auto. apply grp_some; auto.
    + injection E as <- <-. cbn [length tail0_ok]. split; [lia|]. exists x. split; [reflexivity|]. split; auto. apply grp_none; auto.
  - intros (L & q & R & T). destruct gs as [|g gs].
    + cbn in R. subst q. destruct T as [T ->]. apply (grp_none x e fl H) in T. rewrite T. reflexivity.
    + apply rowx_cons in R as (x1 & b & v & -> & -> & Gr & R). destruct (grp_yes x e fl b v H Gr) as [Eg _]. rewrite Eg. destruct (grp_fine x e fl b v H Eg) as [Hb _]. cbn [length tail0_ok] in L, T. assert (Ep : post_fn (Nat.pred n) b e fl = (gs, y)) by (apply post_iff; auto; split; [lia|]; exists q; split; auto; replace (Nat.pred n - length gs)%nat with (n - S (length gs))%nat by lia; auto). rewrite Ep. reflexivity.
Qed.
Definition short_ok (n : nat) (first : bool) (gs : list (nat * nat * Z)) (p1 : nat) (post : list (nat * nat * Z)) (x y e : nat) (fl : pflags) : Prop :=
  (length gs < n)%nat /\ (length gs + length post <= n)%nat /\ exists p p2 q, rowx first gs x p e fl /\ sepf p e fl = Some p1 /\ sepf p1 e fl = Some p2 /\ rowx true post p2 q e fl /\ tail0_ok (n - length gs - length post) post q y e fl.
Lemma pre_iff : forall n first x e fl gs y, text_ok x e ->
  (pre_fn n first x e fl = Some (gs, None, y) <-> length gs = n /\ rowx first gs x y e fl) /\
  (forall p1 post, pre_fn n first x e fl = Some (gs, Some (p1, post), y) <-> short_ok n first gs p1 post x y e fl).
Proof.
  induction n as [|n IH]; intros first x e fl gs y H; cbn [pre_fn].
  - split.
    + split; [intros E; injection E as <- <-; split; [auto|destruct first; reflexivity]|]. intros [L R]. destruct gs; [|discriminate]. destruct first; cbn in R; subst; auto.
    + intros p1 post. split; [discriminate|]. intros (L & _). lia.
  - assert (Step : forall x1 b v, text_ok x1 e -> (if first then x1 = x else sepf x e fl = Some x1) -> grp x1 e fl = Some (b, v) ->
       (cons_group (x1, b, v) (pre_fn n false b e fl) = Some (gs, None, y) -> length gs = S n /\ rowx first gs x y e fl) /\
       (forall p1 post, cons_group (x1, b, v) (pre_fn n false b e fl) = Some (gs, Some (p1, post), y) -> short_ok (S n) first gs p1 post x y e fl)).
    { intros x1 b v H1 E1 Eg. destruct (grp_fine x1 e fl b v H1 Eg) as [Hb _]. pose proof (grp_some x1 e fl b v H1 Eg) as Gr. split.
      - intros E. destruct (pre_fn n false b e fl) as [[[l c] z]|] eqn:Ep; [|discriminate]. cbn [cons_group] in E. injection E as <- -> ->. apply (IH false b e fl l y Hb) in Ep as [L R]. cbn [length]. split; [lia|]. apply rowx_cons. eauto 8.
      - intros p1 post E. destruct (pre_fn n false b e fl) as [[[l c] z]|] eqn:Ep; [|discriminate]. cbn [cons_group] in E. injection E as <- -> ->. apply (IH false b e fl l y Hb) in Ep as (L & L2 & p & p2 & q & R & S1 & S2 & R2 & T). split; [cbn [length]; lia|]. split; [cbn [length]; lia|]. exists p, p2, q. split; [apply rowx_cons; eauto 8|]. cbn [length]. auto. }
    assert (Back : forall g l, gs = g :: l -> forall z, rowx first (g :: l) x z e fl -> exists x1 b v, g = (x1, b, v) /\ text_ok x1 e /\ text_ok b e /\ (if first then x1 = x else sepf x e fl = Some x1) /\ grp x1 e fl = Some (b, v) /\ sepf x1 e fl = None /\ rowx false l b z e fl).
    { intros g l _ z R. apply rowx_cons in R as (x1 & b & v & -> & E1 & Gr & R). assert (H1 : text_ok x1 e) by (destruct first; [subst; auto|apply (sep_fine x e fl); auto]). destruct (grp_yes x1 e fl b v H1 Gr) as [Eg Es]. destruct (grp_fine x1 e fl b v H1 Eg) as [Hb _]. exists x1, b, v. auto 10. }
    split; [split|intros p1 post; split].
    + intros E. destruct (sepf x e fl) as [x1|] eqn:E1.
      * destruct (sep_fine x e fl x1 H E1) as [H1 _]. destruct (sepf x1 e fl) as [x2|]; [destruct (post0_fn (S n) x2 e fl); discriminate|]. destruct first; [discriminate|]. destruct (grp x1 e fl) as [[b v]|] eqn:Eg; [|discriminate]. destruct (Step x1 b v H1 eq_refl Eg) as [St _]. apply St; auto.
      * destruct first; [|discriminate]. destruct (grp x e fl) as [[b v]|] eqn:Eg; [|discriminate]. destruct (Step x b v H eq_refl Eg) as [St _]. apply St; auto.
    + intros [L R]. destruct gs as [|g l]; [discriminate|]. destruct (Back g l eq_refl y R) as (x1 & b & v & -> & H1 & Hb & E1 & Eg & Es & R'). assert (Ep : pre_fn n false b e fl = Some (l, None, y)) by (apply IH; auto). destruct first; [subst x1; rewrite Es|rewrite E1, Es]; rewrite Eg, Ep; reflexivity.
    + intros E. destruct (sepf x e fl) as [x1|] eqn:E1.
      * destruct (sep_fine x e fl x1 H E1) as [H1 _]. destruct (sepf x1 e fl) as [x2|] eqn:E2.
        -- destruct (sep_fine x1 e fl x2 H1 E2) as [H2 _]. destruct (post0_fn (S n) x2 e fl) as [l z] eqn:Ep. injection E as <- <- <- <-. apply post0_iff in Ep as (L & q & R & T); [|lia|auto]. split; [cbn [length]; lia|]. split; [cbn [length]; lia|]. exists x, x2, q. split; [destruct first; reflexivity|]. split; auto.
        -- destruct first; [discriminate|]. destruct (grp x1 e fl) as [[b v]|] eqn:Eg; [|discriminate]. destruct (Step x1 b v H1 eq_refl Eg) as [_ St]. apply St; auto.
      * destruct first; [|discriminate]. destruct (grp x e fl) as [[b v]|] eqn:Eg; [|discriminate]. destruct (Step x b v H eq_refl Eg) as [_ St]. apply St; auto.
    + intros (L & L2 & p & p2 & q & R & S1 & S2 & R2 & T). destruct gs as [|g l].
      * assert (p = x) by (destruct first; cbn in R; auto). subst p. rewrite S1, S2. destruct (sep_fine x e fl p1 H S1) as [H1 _]. destruct (sep_fine p1 e fl p2 H1 S2) as [H2 _]. cbn [length] in *. rewrite Nat.sub_0_r in T. assert (Ep : post0_fn (S n) p2 e fl = (post, y)) by (apply post0_iff; [lia|auto|]; split; [lia|]; exists q; auto). rewrite Ep. reflexivity.
      * destruct (Back g l eq_refl p R) as (x1 & b & v & -> & H1 & Hb & E1 & Eg & Es & R'). cbn [length] in *. assert (Ep : pre_fn n false b e fl = Some (l, Some (p1, post), y)) by (apply IH; auto; split; [lia|]; split; [lia|]; exists p, p2, q; auto). destruct first; [subst x1; rewrite Es|rewrite E1, Es]; rewrite Eg, Ep; reflexivity.
Qed.

Lemma short_iff : forall pre post p1 s y e fl, ipv6_short fs sepf 16 65535 e fl pre post p1 s y <-> short_ok 8 true pre p1 post s y e fl.
Proof.
  intros pre post p1 s y e fl. unfold ipv6_short, short_ok, tail0_ok, tail_ok. cbn [rowx]. split.
  - intros (L1 & L2 & p & p2 & q & R & S1 & S2 & R2 & T). split; [lia|]. split; [lia|]. exists p, p2, q. split; auto. split; auto. split; auto. split; auto. destruct post as [|g post]; [cbn [length] in *; destruct T as [[T _]|[_ T]]; [lia|auto]|]. destruct T as [[T1 T2]|[T1 T2]]; [left; split; [lia|auto]|right; split; [lia|auto]].
  - intros (L1 & L2 & p & p2 & q & R & S1 & S2 & R2 & T). split; [lia|]. split; [lia|]. exists p, p2, q. split; auto. split; auto. split; auto. split; auto. destruct post as [|g post]; [right; cbn [length]; split; [lia|auto]|]. destruct T as [[T1 T2]|[T1 T2]]; [left; split; [lia|auto]|right; split; [lia|auto]].
Qed.

(** ** the parser *)
Context (ss si : option espec) (Gss : o_good txt ss) (Gsi : o_good txt si).
(** where the optional scope identifier ends, and its interval *)
Definition scope_end (y e : nat) (fl : pflags) : nat := match seq_fn [o_f ss; o_f si] y e fl with Some z => z | None => y end.
Definition scope_iv (y e : nat) (fl : pflags) : nat * nat := match o_f ss y e fl with Some x => ivo x (o_f si x e fl) | None => no_iv end.
Lemma full_iff : forall gs s y e fl, ipv6_full fs sepf 16 65535 e fl gs s y <-> length gs = 8%nat /\ rowx true gs s y e fl.
Proof. intros gs s y e fl. unfold ipv6_full. cbn [rowx]. destruct gs as [|g gs]; [|tauto]. split; intros [D _]; discriminate. Qed.
Definition ip6_wf (st : pst) : Prop := exists cs ksi kp kss ks, kids st = cs ++ ksi :: kp :: kss :: ks /\ length cs = 8%nat /\ o_wf si ksi /\ es_wf sp kp /\ o_wf ss kss /\ kids_ok es ks.
Definition ip6_parts (r : list (nat * nat * Z) * short_form) : list (nat * nat) :=
  match r with
  | (gs, None) => map g_iv gs
  | (gs, Some (p1, post)) => map g_iv gs ++ repeat (p1, p1) (8 - (length gs + length post)) ++ map g_iv post
  end.
Definition ip6_fn (s e : nat) (fl : pflags) : option nat * list Z * list (nat * nat) :=
  match pre_fn 8 true s e fl with
  | Some (gs, c, y) => (Some (scope_end y e fl), zeros, ip6_parts (gs, c) ++ [scope_iv y e fl])
  | None => (None, zeros, repeat no_iv 9)
  end.
Lemma pre_within : forall n first x e fl gs c y, text_ok x e -> pre_fn n first x e fl = Some (gs, c, y) -> text_ok y e /\ in_vis txt x y e.
Proof.
  induction n as [|n IH]; intros first x e fl gs c y H E; cbn [pre_fn] in E. { injection E as _ _ <-. split; auto. apply self_vis. }
  assert (Step : forall x1 r, text_ok x1 e -> in_vis txt x x1 e -> match grp x1 e fl with None => None | Some (b, v) => cons_group (x1, b, v) (pre_fn n false b e fl) end = r -> r = Some (gs, c, y) -> text_ok y e /\ in_vis txt x y e).
  { intros x1 r H1 W1 <- Er. destruct (grp x1 e fl) as [[b v]|] eqn:Eg; [|discriminate]. destruct (grp_fine x1 e fl b v H1 Eg) as [Hb Wb]. destruct (pre_fn n false b e fl) as [[[l c'] z]|] eqn:Ep; [|discriminate]. cbn [cons_group] in Er. injection Er as _ -> ->. destruct (IH false b e fl l c y Hb Ep) as [Hy Wy]. split; auto. apply (in_trans txt x x1); auto. apply (in_trans txt x1 b); auto. }
  destruct (sepf x e fl) as [x1|] eqn:E1.
  - destruct (sep_fine x e fl x1 H E1) as [H1 W1]. destruct (sepf x1 e fl) as [x2|] eqn:E2.
    + destruct (sep_fine x1 e fl x2 H1 E2) as [H2 W2]. destruct (post0_fine (S n) x2 e fl ltac:(lia) H2) as (Hz & Wz & _). destruct (post0_fn (S n) x2 e fl) as [l z]. injection E as _ _ <-. cbn [snd] in *. split; auto. apply (in_trans txt x x1); auto. apply (in_trans txt x1 x2); auto.
    + destruct first; [discriminate|]. eapply Step; eauto.
  - destruct first; [|discriminate]. eapply Step; eauto. apply self_vis.
Qed.
Lemma pre_lengths : forall s e fl gs c y, text_ok s e -> pre_fn 8 true s e fl = Some (gs, c, y) -> match c with None => length gs = 8%nat | Some (_, post) => (length gs + length post <= 8)%nat end.
Proof.
  intros s e fl gs c y H E. destruct (loop_pre 8 0 [] (repeat no_component 8) (p_init (es_P sp)) (map p_init (map es_P es)) s e fl) as (cs & kp' & ks' & r & _ & _ & _ & L); auto; [apply (init_kids txt); auto|apply (ini_p txt); auto|]. change (0 =? 0)%nat with true in L. rewrite E in L. destruct c as [[p1 post]|]; cbn [loop_result] in L.
  - destruct L as (rest' & _ & _ & _ & L). lia.
  - apply (pre_iff 8 true s e fl gs y H) in E. tauto.
Qed.
Lemma nine : forall (cs : list pst) k l, length cs = 8%nat -> firstn 9 (map iv (cs ++ k :: l)) = map iv cs ++ [iv k].
Proof. clear. intros cs k l L. do 8 (destruct cs as [|? cs]; [discriminate|]). destruct cs; [|discriminate]. reflexivity. Qed.
(** The IPv6 parser matches exactly the full and the short form; the components are the intervals of the groups, with empty
    ones at the second separator for the groups left out; the value is all zeros, whatever the groups are. *)
Theorem ipv6_spec : parses txt (ipv6_address txt (map es_P es) (es_P sp) (o_P ss) (o_P si)) ip6_wf 9 ip6_fn /\
  forall s e fl, text_ok s e ->
   (forall gs y, ipv6_full fs sepf 16 65535 e fl gs s y -> ip6_fn s e fl = (Some (scope_end y e fl), repeat 0 8, map g_iv gs ++ [scope_iv y e fl])) /\
   (forall pre post p1 y, ipv6_short fs sepf 16 65535 e fl pre post p1 s y ->
      ip6_fn s e fl = (Some (scope_end y e fl), repeat 0 8, (map g_iv pre ++ repeat (p1, p1) (8 - (length pre + length post)) ++ map g_iv post) ++ [scope_iv y e fl])) /\
   ((forall gs y, ~ ipv6_full fs sepf 16 65535 e fl gs s y) -> (forall pre post p1 y, ~ ipv6_short fs sepf 16 65535 e fl pre post p1 s y) -> ip6_fn s e fl = (None, repeat 0 8, repeat no_iv 9)).
Proof.
  split.
  - apply parses_of.
    + exists (repeat no_component 8). do 4 eexists. split; [reflexivity|]. split; auto. split; [apply (ini_o txt); auto|]. split; [apply (ini_p txt); auto|]. split; [apply (ini_o txt); auto|apply (init_kids txt); auto].
    + intros st (cs & ksi & kp & kss & ks & E & L & Wi & Wp & Ws & K). cbn [ipv6_address p_inval]. rewrite E, skipn_app, skipn_all2, L by lia. cbn [Nat.sub skipn app]. split; [|reflexivity]. exists (repeat no_component 8). do 4 eexists. split; [reflexivity|]. split; auto. split; auto. apply (inv_o txt); auto.
    + intros st s e fl (cs & ksi & kp & kss & ks & E & L & Wi & Wp & Ws & K) H. cbn [ipv6_address p_match]. rewrite E, skipn_app, skipn_all2, L, firstn_app, L, firstn_all2 by lia. cbn [Nat.sub skipn firstn app]. rewrite app_nil_r.
      destruct (loop_pre 8 0 [] cs kp ks s e fl K Wp H eq_refl L eq_refl) as (cs1 & kp1 & ks1 & r & E1 & W1 & K1 & R1). cbn [app] in E1. fold zeros. rewrite E1. cbn [obind]. change (0 =? 0)%nat with true in R1. unfold ip6_fn.
      destruct (pre_fn 8 true s e fl) as [[[gs c] y]|] eqn:Ep.
      * destruct (pre_within 8 true s e fl gs c y H Ep) as [Hy Wy]. pose proof (pre_lengths s e fl gs c y H Ep) as Lg.
        assert (X : exists c' i, r = Some (c', i, y) /\ (match c' with None => (i <? 8)%nat | Some _ => false end) = false /\
           (match c' with Some (ci, cst) => align_right 0 0 ci i zeros | None => zeros end) = zeros /\
           map iv (match c' with Some (ci, cst) => align_right no_component (component cst cst) ci i cs1 | None => cs1 end) = ip6_parts (gs, c) /\ length (match c' with Some (ci, cst) => align_right no_component (component cst cst) ci i cs1 | None => cs1 end) = 8%nat).
        { destruct c as [[p1 post]|]; cbn [loop_result app] in R1.
          - destruct R1 as (rest' & -> & -> & L8 & Lp). cbn [Nat.add] in *. do 2 eexists. split; [reflexivity|]. split; auto. split; [|].
            + rewrite align_right_spec; [|reflexivity|lia]. clear - Lp. generalize dependent (length post). generalize (length gs). intros a b H. unfold zeros. do 9 (destruct a as [|a]; [do 9 (destruct b as [|b]; [first [reflexivity|lia]|]); lia|]). lia.
            + rewrite align_right_spec; [|auto|lia]. assert (Lc : forall l, length (comps l) = length l) by (intros l; unfold comps; apply map_length).
              rewrite firstn_app, firstn_all2, Lc, Nat.sub_diag by (rewrite Lc; lia). cbn [firstn]. rewrite app_nil_r. rewrite skipn_app, skipn_all2, Lc, Nat.sub_diag by (rewrite Lc; lia). cbn [skipn app]. replace (length gs + length post - length gs)%nat with (length post) by lia. rewrite firstn_app, firstn_all2, Lc, Nat.sub_diag by (rewrite Lc; lia). cbn [firstn]. rewrite app_nil_r.
              split; [|rewrite !app_length, !Lc, repeat_length; lia]. rewrite !map_app, !comps_iv. cbn [ip6_parts]. f_equal. f_equal. clear. induction (8 - (length gs + length post))%nat as [|k IH]; cbn [repeat map]; [reflexivity|]. rewrite IH. reflexivity.
          - destruct R1 as [-> ->]. do 2 eexists. split; [reflexivity|]. split; auto. split; auto. split; [apply comps_iv|]. unfold comps. rewrite map_length. auto. }
        destruct X as (c' & i & -> & -> & -> & Pv & Pl). destruct (inv_o txt si ksi Gsi Wi) as [Vi Ii].
        destruct (ran_o txt ss kss y e fl Gss Ws Hy) as (kss1 & -> & Ws1 & Rs). cbn [obind]. unfold scope_end, scope_iv. cbn [seq_fn]. destruct (o_f ss y e fl) as [z|]; cbn [found].
        -- destruct Rs as (_ & -> & Hz & Wz). destruct (ran_o txt si ksi z e fl Gsi Wi Hz) as (ksi1 & -> & Wi1 & Ri). cbn [obind]. destruct (inv_o txt si ksi1 Gsi Wi1) as [Vi1 Ii1]. destruct (o_f si z e fl) as [w|]; cbn [found obind].
           ++ destruct Ri as (Ri & -> & Hw & Ww). eexists. split; [reflexivity|]. split; [do 5 eexists; split; [reflexivity|]; auto 10|]. split; auto. cbn [kids fst snd ivo]. split; [etransitivity; [exact (nine _ _ _ Pl)|rewrite Pv, Ri; reflexivity]|]. split; auto. intros x Ex. injection Ex as <-. apply (in_trans txt s y); auto. apply (in_trans txt y z); auto.
           ++ eexists. split; [reflexivity|]. split; [do 5 eexists; split; [reflexivity|]; auto 10|]. split; auto. cbn [kids fst snd ivo]. split; [etransitivity; [exact (nine _ _ _ Pl)|rewrite Pv, Ii1; reflexivity]|]. split; auto. intros x Ex. injection Ex as <-. auto.
        -- cbn [obind]. eexists. split; [reflexivity|]. split; [do 5 eexists; split; [reflexivity|]; auto 10|]. split; auto. cbn [kids fst snd ivo]. split; [etransitivity; [exact (nine _ _ _ Pl)|rewrite Pv, Ii; reflexivity]|]. split; auto. intros x Ex. injection Ex as <-. auto.
      * destruct (inv_o txt si ksi Gsi Wi) as [Vi Ii]. assert (Done : exists st', Ret (Pst 1 0 (repeat 0 8) (repeat no_component 8 ++ op_inval (o_P si) ksi :: kp1 :: kss :: ks1), false) = Ret (st', false) /\ ip6_wf st' /\ vals st' = zeros /\ firstn 9 (map iv (kids st')) = repeat no_iv 9 /\ iv st' = no_iv).
        { eexists. split; [reflexivity|]. split; [exists (repeat no_component 8); do 4 eexists; split; [reflexivity|]; auto 10|]. split; auto. cbn [kids]. split; [|reflexivity]. etransitivity; [apply (nine (repeat no_component 8) _ _ eq_refl)|]. rewrite Ii. reflexivity. }
        destruct Done as (st' & E' & D1 & D2 & D3 & D4). cbn [loop_result] in R1. exists st'. cbn [fst snd found ivo].
        assert (Q : forall x : nat, None = Some x -> in_vis txt s x e) by discriminate.
        destruct R1 as [->|(j & y & -> & Lj)]; [auto 10|]. replace (j <? 8)%nat with true by lia. auto 10.
  - intros s e fl H. unfold ip6_fn. split; [|split].
    + intros gs y D. apply full_iff in D. apply (proj1 (pre_iff 8 true s e fl gs y H)) in D. rewrite D. reflexivity.
    + intros pre post p1 y D. apply short_iff in D. apply (proj2 (pre_iff 8 true s e fl pre y H)) in D. rewrite D. reflexivity.
    + intros N1 N2. destruct (pre_fn 8 true s e fl) as [[[gs [[p1 post]|]] y]|] eqn:Ep; [| |reflexivity].
      * apply (proj2 (pre_iff 8 true s e fl gs y H)) in Ep. apply short_iff in Ep. destruct (N2 _ _ _ _ Ep).
      * apply (proj1 (pre_iff 8 true s e fl gs y H)) in Ep. apply full_iff in Ep. destruct (N1 _ _ Ep).
Qed.
Lemma ip6_cases : forall s e fl, text_ok s e -> (exists gs y, ipv6_full fs sepf 16 65535 e fl gs s y) \/ (exists pre post p1 y, ipv6_short fs sepf 16 65535 e fl pre post p1 s y) \/ ip6_fn s e fl = (None, repeat 0 8, repeat no_iv 9).
Proof.
  intros s e fl H. unfold ip6_fn. destruct (pre_fn 8 true s e fl) as [[[gs [[p1 post]|]] y]|] eqn:Ep; [right; left| left|auto].
  - apply (proj2 (pre_iff 8 true s e fl gs y H)) in Ep. apply short_iff in Ep. eauto.
  - apply (proj1 (pre_iff 8 true s e fl gs y H)) in Ep. apply full_iff in Ep. eauto.
Qed.
End Ip6.
