(** Properties C215-C222: plain parsers, concrete cases, and what fails. *)
From Coq Require Import ZifyBool ZifyNat.
From Verif Require Import Base StringModel StringSpec ParserModel ParserSpec ParserProps ParserEx ParserNumModel ParserNumProps ParserPeg ParserInt ParserIpModel ParserIpSpec ParserIp4 ParserIp6 ParserIpEx ParserTs ParserRefEx DateSpec TimeProps DateEx UrlModel UrlSpec DnsProps UrlProps EmoProps.

(** ** Characters of DNS names *)
(** a letter, a digit or a hyphen; with [idn] also what the locale takes for one *)
Definition dns_unit (alnum : Z -> bool) (idn : bool) (c : Z) : Prop := 65 <= c <= 90 \/ 97 <= c <= 122 \/ 48 <= c <= 57 \/ c = 45 \/ idn = true /\ alnum c = true.
Theorem dns_char_spec : forall txt alnum idn, exists f g, element txt (dns_domain_char txt alnum idn) (fun st => exists z, vals st = [z]) f g /\ advances txt f /\
  forall s e fl, (forall x, f s e fl = Some x <-> x = S s /\ exists c r, vis txt s e = c :: r /\ dns_unit alnum idn c) /\
    (* a hyphen may not stand at the edge of a label *)
    (forall c r, vis txt s e = c :: r -> dns_unit alnum idn c -> g s e fl = [if c =? 45 then 0 else 1]).
Proof.
  intros txt alnum idn. pose (ok := fun c => ((65 <=? c) && (c <=? 90)) || ((97 <=? c) && (c <=? 122)) || ((48 <=? c) && (c <=? 57)) || (c =? 45) || (idn && alnum c)).
  assert (OK : forall c, ok c = true <-> dns_unit alnum idn c). { intros c. unfold ok, dns_unit. destruct idn, (alnum c); cbn [andb]; lia. }
  exists (fun s e fl => match vis txt s e with c :: _ => if ok c then Some (S s) else None | [] => None end), (fun s e fl => match vis txt s e with c :: _ => [if c =? 45 then 0 else 1] | [] => [] end).
  assert (F : forall s e (fl : pflags) x, match vis txt s e with c :: _ => if ok c then Some (S s) else None | [] => None end = Some x <-> x = S s /\ exists c r, vis txt s e = c :: r /\ dns_unit alnum idn c).
  { intros s e fl x. destruct (vis txt s e) as [|c r]. { split; [discriminate|intros (_ & c & r & H & _); discriminate]. }
    destruct (ok c) eqn:O.
    - split; [intros H; injection H as <-; split; auto; exists c, r; split; auto; apply OK; auto|intros (-> & _); auto].
    - split; [discriminate|]. intros (_ & c' & r' & H & U). injection H as <- <-. apply OK in U. congruence. }
  split; [|split; [|split]].
  - constructor.
    + exists 1. reflexivity.
    + intros st s e fl (z & V) T. unfold dns_domain_char. cbn [p_match]. rewrite (peek_spec txt s e T). cbn [obind]. destruct (vis txt s e) as [|c r] eqn:Vi; cbn [hd_error found].
      { eexists. split; [reflexivity|]. split; [exists z; exact V|reflexivity]. }
      unfold ok. destruct (((65 <=? c) && (c <=? 90)) || ((97 <=? c) && (c <=? 122)) || ((48 <=? c) && (c <=? 57))) eqn:O1; cbn [orb].
      { eexists. split; [reflexivity|]. split; [eexists; reflexivity|]. split; [reflexivity|]. cbn [vals]. destruct (c =? 45) eqn:X; auto. lia. }
      destruct (c =? 45) eqn:O2; cbn [orb].
      { eexists. split; [reflexivity|]. split; [eexists; reflexivity|]. split; reflexivity. }
      destruct (idn && alnum c) eqn:O3; cbn [found].
      { eexists. split; [reflexivity|]. split; [eexists; reflexivity|]. split; reflexivity. }
      eexists. split; [reflexivity|]. split; [exists z; exact V|reflexivity].
    + intros s e fl x T H. apply F in H; auto. destruct H as (-> & c & r & V & _). rewrite V. cbn [length]. lia.
    + intros st (z & V). split; [exists z; exact V|reflexivity].
  - intros s e fl x T H. apply F in H; auto. lia.
  - apply F; auto.
  - intros c r V _. rewrite V. reflexivity.
Qed.

(** ** The plain parsers *)
(** letters and digits *)
Definition ex_alnum (c : Z) : bool := ((65 <=? c) && (c <=? 90)) || ((97 <=? c) && (c <=? 122)) || ((48 <=? c) && (c <=? 57)).
Definition plain_dns (t : list Z) (abs : bool) : pcls := dns_name t abs (dns_domain_char t ex_alnum true) (cu t ex_low 46 false).
Lemma cu_good : forall t c, good t (cu_spec_of t ex_low c) /\ advances t (es_f (cu_spec_of t ex_low c)).
Proof. intros t c. split; [pose proof (cus_good t ex_low [c]) as X|pose proof (cus_advance t ex_low [c]) as X]; inversion X; auto. Qed.
Lemma dot_apart : forall t D, (forall s e fl x, es_f D s e fl = Some x -> exists c r, vis t s e = c :: r /\ dns_unit ex_alnum true c) -> apart t D (cu_spec_of t ex_low 46).
Proof.
  intros t D H x e fl T. destruct (es_f D x e fl) as [y|] eqn:F; auto. right. destruct (H _ _ _ _ F) as (c & r & V & U). cbn [es_f cu_spec_of]. unfold one_fn. rewrite V.
  assert (N : (if fl_ci fl then ex_low c =? ex_low 46 else c =? 46) = false). { unfold dns_unit, ex_alnum in U. change (ex_low 46) with 46. unfold ex_low. destruct (fl_ci fl), ((65 <=? c) && (c <=? 90)) eqn:K; lia. }
  rewrite N. reflexivity.
Qed.
(** C215 for letters, digits and hyphens, with periods between the labels *)
Theorem plain_dns_spec : forall t abs, exists D f, es_P D = dns_domain_char t ex_alnum true /\ good t D /\ element t (plain_dns t abs) (dns_wf D (cu_spec_of t ex_low 46)) f no_vals /\ advances t f /\
  forall s e fl y, text_ok t s e -> (f s e fl = Some y <-> longest (dns_at e fl abs D (cu_spec_of t ex_low 46)) s y) /\ (f s e fl = None <-> forall y, ~ dns_at e fl abs D (cu_spec_of t ex_low 46) s y).
Proof.
  intros t abs. destruct (dns_char_spec t ex_alnum true) as (f & g & El & Ad & Sp). pose (D := ESpec (dns_domain_char t ex_alnum true) (fun st => exists z, vals st = [z]) f g). destruct (cu_good t 46) as [G1 G2].
  destruct (dns_name_spec t abs D (cu_spec_of t ex_low 46) El G1 Ad G2) as (h & H1 & H2 & H3). { apply dot_apart. intros s e fl x F. apply (proj1 (Sp s e fl)) in F. destruct F as (_ & c & r & F). eauto. }
  exists D, h. split; [reflexivity|]. split; auto.
Qed.
Definition run_p (P : pcls) (fl : pflags) : outcome (bool * (nat * nat) * list Z) := let* (st, b) := p_match P (p_init P) 0 100 fl in Ret (b, iv st, vals st).
(** "a-b.c-.d": the label "c" ends before the hyphen *)
Definition ex_dns1 : list Z := [97; 45; 98; 46; 99; 45; 46; 100; 0].
Example ex_dns_hyphen : run_p (plain_dns ex_dns1 true) no_fl = Ret (true, (0, 5)%nat, []).
Proof. vm_compute. reflexivity. Qed.
(** "a.b.": with and without the trailing period *)
Example ex_dns_abs : run_p (plain_dns [97; 46; 98; 46; 0] true) no_fl = Ret (true, (0, 4)%nat, []) /\ run_p (plain_dns [97; 46; 98; 46; 0] false) no_fl = Ret (true, (0, 3)%nat, []).
Proof. vm_compute. auto. Qed.
(** "-a": none *)
Example ex_dns_none : run_p (plain_dns [45; 97; 0] true) no_fl = Ret (false, (1, 0)%nat, []).
Proof. vm_compute. reflexivity. Qed.

Definition url_char_spec (t : list Z) (r : Z -> bool) : espec := ESpec (one_cu t (fun c _ => r c) false) leaf (one_fn t (fun c _ => r c) false) no_vals.
Lemma url_char_good : forall t r, good t (url_char_spec t r) /\ advances t (es_f (url_char_spec t r)).
Proof. intros t r. split; [apply one_cu_spec|]. intros s e fl x T. cbn [es_f url_char_spec]. unfold one_fn. destruct (vis t s e) as [|c l]; [discriminate|]. match goal with |- (if ?b then _ else _) = _ -> _ => destruct b; [|discriminate] end. intros H. injection H as <-. lia. Qed.
Definition plain_path (t : list Z) : pcls := url_path t (url_path_char t ex_alnum) (cu t ex_low 63 false) (cu t ex_low 35 false).
(** C216 for the characters of a path, a question mark and a number sign *)
Theorem plain_path_spec : forall t, let C := url_char_spec t (path_cu ex_alnum) in let Q := cu_spec_of t ex_low 63 in let B := cu_spec_of t ex_low 35 in
  exists f g, element t (plain_path t) (path_wf C Q B) f g /\
  forall s e fl y, text_ok t s e -> (f s e fl = Some y <-> exists p, path_at e fl C Q B s y p /\ g s e fl = path_vals p) /\ (f s e fl = None <-> forall y p, ~ path_at e fl C Q B s y p).
Proof.
  intros t C Q B. destruct (url_char_good t (path_cu ex_alnum)), (cu_good t 63), (cu_good t 35). exact (url_path_spec t C Q B ltac:(assumption) ltac:(assumption) ltac:(assumption) ltac:(assumption) ltac:(assumption) ltac:(assumption)).
Qed.
(** "/p?q?r#b?": path, query and bookmark; the second question mark belongs to the query *)
Example ex_path : run_p (plain_path [47; 112; 63; 113; 63; 114; 35; 98; 63; 0]) no_fl = Ret (true, (0, 9)%nat, [0; 2; 3; 6; 7; 9]).
Proof. vm_compute. reflexivity. Qed.
(** "#b?q": no query behind the bookmark *)
Example ex_path2 : run_p (plain_path [35; 98; 63; 113; 0]) no_fl = Ret (true, (0, 4)%nat, [0; 0; 1; 0; 1; 4]).
Proof. vm_compute. reflexivity. Qed.

(** ** URLs *)
Definition some_of (P : pcls) : pcls := iterations P 1 1000 true.
Definition plain_part (t : list Z) (n : uname) : pcls :=
  match n with
  | Http => string_p t ex_low [104; 116; 116; 112] | Ftp => string_p t ex_low [102; 116; 112] | Mailto => string_p t ex_low [109; 97; 105; 108; 116; 111] | File => string_p t ex_low [102; 105; 108; 101]
  | User => some_of (url_username_char t ex_alnum) | Pass => some_of (url_password_char t ex_alnum)
  | Ip4 => ipv4_plain t ex_low | Ip6 => ipv6_plain t ex_low None | Dns => plain_dns t true | Port => pint t | Path => plain_path t
  | Colon => cu t ex_low 58 false | Slash => cu t ex_low 47 false | At => cu t ex_low 64 false | Lbr => cu t ex_low 91 false | Rbr => cu t ex_low 93 false
  end.
Definition plain_url (t : list Z) : pcls := url_p (plain_part t).
Lemma el_espec : forall t P wf f g, element t P wf f g -> exists x, es_P x = P /\ good t x.
Proof. intros t P wf f g El. exists (ESpec P wf f g). split; [reflexivity|exact El]. Qed.
(** the theorems apply to them *)
Theorem url_applies : forall t, exists E, forall n, es_P (E n) = plain_part t n /\ good t (E n).
Proof.
  intros t.
  assert (X : forall n, exists x, es_P x = plain_part t n /\ good t x).
  { assert (ST : forall l, Forall (fun c => c <> 0) l -> exists x, es_P x = string_p t ex_low l /\ good t x). { intros l H. exact (el_espec _ _ _ _ _ (string_spec t ex_low ex_low0 l H)). }
    assert (CU : forall c, exists x, es_P x = cu t ex_low c false /\ good t x). { intros c. exists (cu_spec_of t ex_low c). split; [reflexivity|apply cu_good]. }
    assert (IT : forall r, exists x, es_P x = some_of (one_cu t (fun c _ => r c) false) /\ good t x).
    { intros r. destruct (iterations_spec t (one_cu t (fun c _ => r c) false) leaf (one_fn t (fun c _ => r c) false) no_vals (one_cu_spec t (fun c _ => r c) false) 1 1000 true) as (h & El & _). exact (el_espec _ _ _ _ _ El). }
    intros []; cbn [plain_part].
    - apply ST. repeat constructor; lia.
    - apply ST. repeat constructor; lia.
    - apply ST. repeat constructor; lia.
    - apply ST. repeat constructor; lia.
    - apply (IT (username_cu ex_alnum)).
    - apply (IT (password_cu ex_alnum)).
    - destruct (ipv4_spec t (map (cu_spec_of t ex_low) dec_chars) (cu_spec_of t ex_low 46) (cus_good t ex_low dec_chars) (cus_advance t ex_low dec_chars) (proj1 (cu_good t 46)) eq_refl) as (F & [El _] & _).
      rewrite cus_P in El. exact (el_espec _ _ _ _ _ El).
    - destruct (ipv6_plain_spec_partial t ex_low (fun c => eq_refl) None I) as (wf & F & [El _] & _). exact (el_espec _ _ _ _ _ El).
    - destruct (plain_dns_spec t true) as (D & f & _ & _ & El & _). exact (el_espec _ _ _ _ _ El).
    - apply pint_good.
    - destruct (plain_path_spec t) as (f & g & El & _). exact (el_espec _ _ _ _ _ El).
    - apply CU.
    - apply CU.
    - apply CU.
    - apply CU.
    - apply CU. }
  destruct (X Http) as (x1 & H1). destruct (X Ftp) as (x2 & H2). destruct (X Mailto) as (x3 & H3). destruct (X File) as (x4 & H4). destruct (X User) as (x5 & H5). destruct (X Pass) as (x6 & H6). destruct (X Ip4) as (x7 & H7). destruct (X Ip6) as (x8 & H8).
  destruct (X Dns) as (x9 & H9). destruct (X Port) as (x10 & H10). destruct (X Path) as (x11 & H11). destruct (X Colon) as (x12 & H12). destruct (X Slash) as (x13 & H13). destruct (X At) as (x14 & H14). destruct (X Lbr) as (x15 & H15). destruct (X Rbr) as (x16 & H16).
  exists (fun n => match n with Http => x1 | Ftp => x2 | Mailto => x3 | File => x4 | User => x5 | Pass => x6 | Ip4 => x7 | Ip6 => x8 | Dns => x9 | Port => x10 | Path => x11 | Colon => x12 | Slash => x13 | At => x14 | Lbr => x15 | Rbr => x16 end).
  intros []; assumption.
Qed.
Definition run_url (t : list Z) : outcome (bool * (nat * nat) * list (nat * nat)) :=
  let* (st, b) := p_match (plain_url t) (p_init (plain_url t)) 0 100 no_fl in Ret (b, iv st, map (fun n => iv (url_member n st)) url_public).
(** "http://u:p@h.x:80/d?q": all members but those of other schemes and hosts *)
Definition ex_http : list Z := [104; 116; 116; 112; 58; 47; 47; 117; 58; 112; 64; 104; 46; 120; 58; 56; 48; 47; 100; 63; 113; 0].
Example ex_url1 : run_url ex_http = Ret (true, (0, 21), [(0, 4); (1, 0); (1, 0); (1, 0); (7, 8); (9, 10); (1, 0); (1, 0); (11, 14); (15, 17); (17, 21)])%nat.
Proof. vm_compute. reflexivity. Qed.
(** "http://u@h": user name alone *)
Example ex_url2 : run_url [104; 116; 116; 112; 58; 47; 47; 117; 64; 104; 0] = Ret (true, (0, 10), [(0, 4); (1, 0); (1, 0); (1, 0); (7, 8); (1, 0); (1, 0); (1, 0); (9, 10); (1, 0); (1, 0)])%nat.
Proof. vm_compute. reflexivity. Qed.
(** "mailto:u@[1.2.3.4]x" *)
Example ex_url3 : run_url [109; 97; 105; 108; 116; 111; 58; 117; 64; 91; 49; 46; 50; 46; 51; 46; 52; 93; 120; 0] = Ret (true, (0, 18), [(1, 0); (1, 0); (0, 6); (1, 0); (7, 8); (1, 0); (10, 17); (1, 0); (1, 0); (1, 0); (1, 0)])%nat.
Proof. vm_compute. reflexivity. Qed.
(** "file:///a" *)
Example ex_url4 : run_url [102; 105; 108; 101; 58; 47; 47; 47; 97; 0] = Ret (true, (0, 9), [(1, 0); (1, 0); (1, 0); (0, 4); (1, 0); (1, 0); (1, 0); (1, 0); (1, 0); (1, 0); (7, 9)])%nat.
Proof. vm_compute. reflexivity. Qed.
(** "[::1]:8": no scheme, an IPv6 address and a port *)
Example ex_url5 : run_url [91; 58; 58; 49; 93; 58; 56; 0] = Ret (true, (0, 7), [(1, 0); (1, 0); (1, 0); (1, 0); (1, 0); (1, 0); (1, 0); (1, 4); (1, 0); (6, 7); (1, 0)])%nat.
Proof. vm_compute. reflexivity. Qed.
(** "http://-": no host *)
Example ex_url6 : run_url [104; 116; 116; 112; 58; 47; 47; 45; 0] = Ret (false, (1, 0), repeat (1, 0) 11)%nat.
Proof. vm_compute. reflexivity. Qed.

(** C219 as stated: in a ftp URL as in a http URL, a user name before the @ is the user name and the host is behind it. *)
Definition ftp_user_claim : Prop := forall t E, (forall n, good t (E n)) -> forall s e fl x a y st', text_ok t s e ->
  scheme_at e fl E s (Some Ftp) x -> user_at e fl E false x a y -> (forall a b c y, ~ user_pass_at e fl E x a b c y) ->
  p_match (url_p (fun n => es_P (E n))) (p_init (url_p (fun n => es_P (E n)))) s e fl = Ret (st', true) -> iv (url_member User st') = (x, a).
(** False: in "ftp://u@h" the host is "u", and "@h" is the path. *)
Definition ex_ftp : list Z := [102; 116; 112; 58; 47; 47; 117; 64; 104; 0].
Example ex_ftp_user : run_url ex_ftp = Ret (true, (0, 9), [(1, 0); (0, 3); (1, 0); (1, 0); (1, 0); (1, 0); (1, 0); (1, 0); (6, 7); (1, 0); (7, 9)])%nat.
Proof. vm_compute. reflexivity. Qed.
Lemma es_run : forall t x s e fl, good t x -> text_ok t s e -> es_f x s e fl = match p_match (es_P x) (p_init (es_P x)) s e fl with Ret (st, true) => Some (i_end st) | _ => None end.
Proof.
  intros t x s e fl G T. destruct (ranv_p t x (p_init (es_P x)) s e fl G (ini_p t x G) T) as (k & -> & _ & R). cbn [o_f] in *. destruct (es_f x s e fl) as [y|]; cbn [found]; auto. destruct R as (_ & -> & _). reflexivity.
Qed.
Theorem ftp_user_refuted : ~ ftp_user_claim.
Proof.
  intros H. destruct (url_applies ex_ftp) as (E & HE). assert (G : forall n, good ex_ftp (E n)) by (intros n; apply HE). assert (EP : forall n, es_P (E n) = plain_part ex_ftp n) by (intros n; apply HE).
  assert (T : forall s, (s <= 9)%nat -> text_ok ex_ftp s 100). { intros s L. split; [lia|]. split; [cbn; lia|]. right. do 10 (destruct s as [|s]; [cbn [skipn ex_ftp In]; intuition auto 12|]). lia. }
  assert (F : forall n s, (s <= 9)%nat -> at_ 100 no_fl E n s = match p_match (plain_part ex_ftp n) (p_init (plain_part ex_ftp n)) s 100 no_fl with Ret (st, true) => Some (i_end st) | _ => None end).
  { intros n s L. unfold at_. rewrite (es_run ex_ftp (E n) s 100 no_fl (G n) (T s L)), EP. reflexivity. }
  assert (F0 : at_ 100 no_fl E Http 0 = None) by (rewrite F by lia; vm_compute; reflexivity).
  assert (F1 : at_ 100 no_fl E Ftp 0 = Some 3%nat) by (rewrite F by lia; vm_compute; reflexivity).
  assert (F2 : at_ 100 no_fl E Colon 3 = Some 4%nat) by (rewrite F by lia; vm_compute; reflexivity).
  assert (F3 : at_ 100 no_fl E Slash 4 = Some 5%nat) by (rewrite F by lia; vm_compute; reflexivity).
  assert (F4 : at_ 100 no_fl E Slash 5 = Some 6%nat) by (rewrite F by lia; vm_compute; reflexivity).
  assert (F5 : at_ 100 no_fl E User 6 = Some 7%nat) by (rewrite F by lia; vm_compute; reflexivity).
  assert (F6 : at_ 100 no_fl E At 7 = Some 8%nat) by (rewrite F by lia; vm_compute; reflexivity).
  assert (F7 : at_ 100 no_fl E Colon 7 = None) by (rewrite F by lia; vm_compute; reflexivity).
  unfold at_ in *.
  destruct (url_spec ex_ftp E G) as (Wi & _ & M). destruct (M _ 0%nat 100%nat no_fl Wi (T 0%nat ltac:(lia))) as (st' & r & Em & _ & Hr & Hy & _).
  assert (SC : scheme_at 100 no_fl E 0 (Some Ftp) 6).
  { apply SFtp; unfold all_at; cbn [scheme_mark map seq_fn]; [rewrite F0; reflexivity|]. rewrite F1, F2, F3, F4. reflexivity. }
  assert (US : user_at 100 no_fl E false 6 7 8) by (split; unfold at_; auto).
  assert (NP : forall a b c y, ~ user_pass_at 100 no_fl E 6 a b c y). { intros a b c y (H1 & H2 & _). unfold at_ in *. assert (a = 7%nat) by congruence. subst a. congruence. }
  assert (F8 : es_f (E At) 6%nat 100%nat no_fl = None) by (rewrite F by lia; vm_compute; reflexivity).
  assert (F9 : es_f (E Ip4) 6%nat 100%nat no_fl = None) by (rewrite F by lia; vm_compute; reflexivity).
  assert (F10 : es_f (E Lbr) 6%nat 100%nat no_fl = None) by (rewrite F by lia; vm_compute; reflexivity).
  assert (F11 : es_f (E Dns) 6%nat 100%nat no_fl = Some 7%nat) by (rewrite F by lia; vm_compute; reflexivity).
  assert (F12 : es_f (E Path) 7%nat 100%nat no_fl = Some 9%nat) by (rewrite F by lia; vm_compute; reflexivity).
  assert (U : url_at 100 no_fl E 0 9 (UrlIs (Some Ftp) None None None None (Some (6, 7)%nat) None (Some (7, 9)%nat))).
  { eapply UFtp; [exact SC| | | |].
    - apply ANone; [exact NP|]. intros a y (_ & K). unfold at_ in K. congruence.
    - apply HName; unfold at_; auto. + intros y i K. inversion K; subst; unfold at_ in *; congruence. + intros a b y (K & _). unfold at_ in *. congruence.
    - apply ONoPort. intros a y (K & _). unfold at_ in *. congruence.
    - apply OPath. unfold at_. auto. }
  assert (r = true) by (apply Hr; eauto). subst r. pose proof (H ex_ftp E G 0%nat 100%nat no_fl 6%nat 7%nat 8%nat st' (T 0%nat ltac:(lia)) SC US NP Em) as C.
  destruct (Hy _ _ U) as (_ & _ & Mb). specialize (Mb User ltac:(cbn; auto 10)). cbn [ui_get ui_user member] in Mb. rewrite Mb in C. discriminate.
Qed.
(** What holds: http URLs do it, and ftp URLs with a password. *)
Theorem ftp_user_partial : forall t E, (forall n, good t (E n)) -> forall s e fl x st', text_ok t s e ->
  p_match (url_p (fun n => es_P (E n))) (p_init (url_p (fun n => es_P (E n)))) s e fl = Ret (st', true) ->
  (scheme_at e fl E s (Some Http) x -> (forall a b c y, ~ user_pass_at e fl E x a b c y) -> forall a y, user_at e fl E false x a y -> iv (url_member User st') = (x, a)) /\
  (forall sc, sc = Ftp \/ sc = Http -> scheme_at e fl E s (Some sc) x -> forall a b c y, user_pass_at e fl E x a b c y -> iv (url_member User st') = (x, a) /\ iv (url_member Pass st') = (b, c)).
Proof.
  intros t E G s e fl x st' T M. destruct (url_spec t E G) as (Wi & _ & Sp). destruct (Sp _ s e fl Wi T) as (st2 & r & Em & _ & Hr & Hy & _). rewrite M in Em. injection Em as <- <-.
  destruct (proj1 Hr eq_refl) as (y & u & U). destruct (Hy y u U) as (_ & _ & Mb). pose proof (Mb User ltac:(cbn; auto 12)) as Mu. pose proof (Mb Pass ltac:(cbn; auto 12)) as Mp. cbn [ui_get] in Mu, Mp.
  assert (AU : forall sc, sc = Ftp \/ sc = Http -> scheme_at e fl E s (Some sc) x -> exists z, auth_at e fl E (match sc with Ftp => true | _ => false end) x z (ui_user u) (ui_pass u)).
  { intros sc K SC. inversion U; subst; match goal with S2 : scheme_at _ _ _ s _ _ |- _ => destruct (scheme_unique _ _ _ _ _ _ _ _ SC S2) as [Es Ex]; try (injection Es as ->) end; subst; try (exfalso; intuition congruence).
    - eexists. cbn [ui_user ui_pass]. eauto.
    - cbn [ui_user ui_pass]. destruct K as [->| ->]; [exfalso; match goal with K : _ \/ _ |- _ => destruct K; discriminate end|]. eexists. cbn in *. eauto. }
  split.
  - intros SC NP a z Ua. destruct (AU Http (or_intror eq_refl) SC) as (z' & Az). assert (Az' : auth_at e fl E false x z (Some (x, a)) None) by (apply AUser; auto). destruct (auth_unique _ _ _ _ _ _ _ _ _ _ _ Az Az') as (_ & Eu & _). rewrite Eu in Mu. apply Mu.
  - intros sc K SC a b c z Up. destruct (AU sc K SC) as (z' & Az). assert (Az' : auth_at e fl E (match sc with Ftp => true | _ => false end) x z (Some (x, a)) (Some (b, c))) by (eapply AUserPass; eauto). destruct (auth_unique _ _ _ _ _ _ _ _ _ _ _ Az Az') as (_ & Eu & Ep). rewrite Eu in Mu. rewrite Ep in Mp. split; [apply Mu|apply Mp].
Qed.

(** ** E-mail addresses *)
Definition run_email (t : list Z) : outcome (bool * (nat * nat) * list (nat * nat)) :=
  let P := email_p (plain_part t) in let* (st, b) := p_match P (p_init P) 0 100 no_fl in Ret (b, iv st, map (fun n => iv (email_member n st)) email_public).
(** "a.b@x.y,": and "a@[::1]"; "a@-" is none *)
Example ex_mail : run_email [97; 46; 98; 64; 120; 46; 121; 44; 0] = Ret (true, (0, 7), [(0, 3); (1, 0); (1, 0); (4, 7)])%nat.
Proof. vm_compute. reflexivity. Qed.
Example ex_mail6 : run_email [97; 64; 91; 58; 58; 49; 93; 0] = Ret (true, (0, 7), [(0, 1); (1, 0); (3, 6); (1, 0)])%nat.
Proof. vm_compute. reflexivity. Qed.
Example ex_mail_no : run_email [97; 64; 45; 0] = Ret (false, (1, 0), repeat (1, 0) 4)%nat.
Proof. vm_compute. reflexivity. Qed.

(** ** Emoticons *)
Definition plain_emo (t : list Z) : pcls := emoticon_p (Some (cu t ex_low 9786 false)) (Some (pset t [79; 48])) (pset t [58; 59]) (Some (pset t [45; 111])) (pset t [41; 40; 68]).
Example emo_applies : forall t, exists Em A Ey N Mo, emoticon_p (o_P (Some Em)) (o_P (Some A)) (es_P Ey) (o_P (Some N)) (es_P Mo) = plain_emo t /\
  good t Em /\ good t A /\ good t Ey /\ good t N /\ good t Mo /\ advances t (es_f Mo) /\ forall k a b, es_wf Mo k -> es_wf Mo (set_interval k a b).
Proof.
  intros t. destruct (pset_good t [79; 48]) as (a & Ea & Ga). { repeat constructor; lia. } destruct (pset_good t [58; 59]) as (b & Eb & Gb). { repeat constructor; lia. } destruct (pset_good t [45; 111]) as (c & Ec & Gc). { repeat constructor; lia. }
  destruct (cu_set_spec t ex_low [41; 40; 68] false) as (f & g & El & Sp). { repeat constructor; lia. }
  exists (cu_spec_of t ex_low 9786), a, b, c, (ESpec (pset t [41; 40; 68]) (fun st => exists z, vals st = [z]) f g). split; [unfold plain_emo; cbn [o_P option_map es_P]; rewrite Ea, Eb, Ec; reflexivity|]. split; [apply cu_good|]. split; auto. split; auto. split; auto. split; [exact El|].
  split; [|intros k x y H; exact H]. intros s e fl x T F. cbn [es_f] in F. apply (proj1 (Sp s e fl)) in F. lia.
Qed.
Definition run_emo (t : list Z) : outcome (bool * (nat * nat) * list (nat * nat) * Z) :=
  let* (st, b) := p_match (plain_emo t) (p_init (plain_emo t)) 0 100 no_fl in Ret (b, iv st, map iv (kids st), the_val (kid 4 st)).
(** "O:-)))(": hit_offset is that of the parenthesis that is not part of the mouth *)
Example ex_emo : run_emo [79; 58; 45; 41; 41; 41; 40; 0] = Ret (true, (0, 6)%nat, [(1, 0); (0, 1); (1, 2); (2, 3); (3, 6)]%nat, 1).
Proof. vm_compute. reflexivity. Qed.
(** ":D": no nose; hit_offset is -1 *)
Example ex_emo2 : run_emo [58; 68; 0] = Ret (true, (0, 2)%nat, [(1, 0); (1, 0); (0, 1); (1, 0); (1, 2)]%nat, -1).
Proof. vm_compute. reflexivity. Qed.
(** ":-": no mouth *)
Example ex_emo3 : run_emo [58; 45; 0] = Ret (false, (1, 0)%nat, repeat (1, 0)%nat 5, -1).
Proof. vm_compute. reflexivity. Qed.

(** ** C222: RFC 3986, over the characters of ASCII *)
Definition unreserved (c : Z) : Prop := ex_alnum c = true \/ In c [45; 46; 95; 126].
Definition sub_delims (c : Z) : Prop := In c [33; 36; 38; 39; 40; 41; 42; 43; 44; 59; 61].
Definition ascii_alnum (alnum : Z -> bool) : Prop := forall c, alnum c = true <-> ex_alnum c = true.
(** a character of the user name or password (userinfo), a percent sign included *)
Definition user_char (c : Z) : Prop := unreserved c \/ sub_delims c \/ In c [37].
Definition user_char_claim (alnum : Z -> bool) : Prop := forall c, username_cu alnum c = true <-> user_char c.
Lemma mem_z : forall c l, existsb (Z.eqb c) l = true <-> In c l.
Proof. intros c l. rewrite existsb_exists. split; [intros (x & H & E); apply Z.eqb_eq in E; subst; auto|]. intros H. exists c. split; auto. apply Z.eqb_refl. Qed.
Theorem user_char_refuted : forall alnum, ascii_alnum alnum -> ~ user_char_claim alnum.
Proof. intros alnum Al H. destruct (H 40) as [_ H2]. assert (X : username_cu alnum 40 = true) by (apply H2; right; left; cbn; auto 10). unfold username_cu in X. cbn [existsb] in X. assert (N : alnum 40 = false) by (destruct (alnum 40) eqn:A; auto; apply Al in A; discriminate). rewrite N in X. discriminate. Qed.
Theorem url_chars_partial : forall alnum, ascii_alnum alnum -> forall c,
  (username_cu alnum c = true <-> user_char c /\ c <> 40 /\ c <> 41) /\
  (password_cu alnum c = true <-> user_char c \/ In c [58]) /\
  (path_cu alnum c = true <-> user_char c \/ In c [58; 64; 47; 63; 35]).
Proof.
  intros alnum Al c. unfold username_cu, password_cu, path_cu, user_char, unreserved, sub_delims. rewrite !orb_true_iff, !mem_z, (Al c). cbn [In].
  assert (X : ex_alnum c = true -> c <> 40 /\ c <> 41) by (unfold ex_alnum; lia).
  split; [|split]; [|tauto|tauto]. destruct (ex_alnum c); [tauto|]. clear X. split; [|lia]. intros [H|H]; [|discriminate]. split; [intuition auto|lia].
Qed.

Print Assumptions dns_name_spec.
Print Assumptions url_path_spec.
Print Assumptions url_spec.
Print Assumptions email_spec.
Print Assumptions emoticon_spec.
Print Assumptions ftp_user_refuted.
