(** Specification of DNS names, URL paths, URLs, e-mail addresses and emoticons (properties C215-C222), in terms of what the held
    parsers recognise. *)
From Verif Require Import Base StringModel ParserModel ParserSpec ParserNumModel ParserNumProps ParserPeg DateSpec UrlModel.

Section Spec.
Context (e : nat) (fl : pflags).
(** ** DNS names *)
Section Dns.
Context (abs : bool) (D Se : espec).
(** the character at [x] may start or end a label *)
Definition edge (x : nat) : Prop := num (Some D) x e fl <> 0.
(** characters from [s] to [y], at least one, the last of which may end a label *)
Definition ends_well (s y : nat) : Prop := exists n m, reps (es_f D) n s m e fl /\ es_f D m e fl = Some y /\ edge m.
Definition label_at (s y : nat) : Prop := edge s /\ ends_well s y.
(** [n + 1] labels with a separator between each two *)
Fixpoint labels_at (n s y : nat) : Prop :=
  match n with O => label_at s y | S n => exists a b, label_at s a /\ es_f Se a e fl = Some b /\ labels_at n b y end.
(** up to [n] labels; a trailing separator if absolute names are allowed *)
Definition dns_upto (n s y : nat) : Prop :=
  exists k, (k < n)%nat /\ (labels_at k s y \/ abs = true /\ exists x, labels_at k s x /\ es_f Se x e fl = Some y).
Definition dns_at : nat -> nat -> Prop := dns_upto 127.
Definition longest (R : nat -> nat -> Prop) (s y : nat) : Prop := R s y /\ forall z, R s z -> (z <= y)%nat.
End Dns.
(** ** URL paths *)
Section Path.
Context (C Q B : espec).
(** [f], where [g] is not *)
Definition unless (g f : pfun) : pfun := fun s e fl => match g s e fl with Some _ => None | None => f s e fl end.
(** what path, query and bookmark are *)
Record upath : Type := UPath { up_path : nat * nat; up_query : option (nat * nat); up_bookmark : option (nat * nat) }.
Definition bookmark_at (b z : nat) : Prop := star_is (es_f C) b z e fl.
Definition query_at (q y : nat) : Prop := star_is (unless (es_f B) (es_f C)) q y e fl.
Definition plain_at (s x : nat) : Prop := star_is (unless (es_f Q) (unless (es_f B) (es_f C))) s x e fl.
Inductive path_at (s : nat) : nat -> upath -> Prop :=
| PPlain : forall x, plain_at s x -> (s < x)%nat -> es_f Q x e fl = None -> es_f B x e fl = None -> path_at s x (UPath (s, x) None None)
| PQuery : forall x q y, plain_at s x -> es_f Q x e fl = Some q -> query_at q y -> es_f B y e fl = None -> path_at s y (UPath (s, x) (Some (q, y)) None)
| PQueryBookmark : forall x q y b z, plain_at s x -> es_f Q x e fl = Some q -> query_at q y -> es_f B y e fl = Some b -> bookmark_at b z ->
    path_at s z (UPath (s, x) (Some (q, y)) (Some (b, z)))
| PBookmark : forall x b z, plain_at s x -> es_f Q x e fl = None -> es_f B x e fl = Some b -> bookmark_at b z -> path_at s z (UPath (s, x) None (Some (b, z))).
Definition bounds (o : option (nat * nat)) : list Z := match o with Some (a, b) => [Z.of_nat a; Z.of_nat b] | None => [1; 0] end.
Definition path_vals (p : upath) : list Z := bounds (Some (up_path p)) ++ bounds (up_query p) ++ bounds (up_bookmark p).
End Path.

(** ** URLs and e-mail addresses *)
Section Url.
Context (E : uname -> espec).
Definition at_ (n : uname) (x : nat) : option nat := es_f (E n) x e fl.
(** one after another *)
Definition all_at (l : list uname) (s : nat) : option nat := seq_fn (map (fun n => es_f (E n)) l) s e fl.
Definition span : Type := option (nat * nat).
Definition scheme_mark (n : uname) : list uname := match n with Mailto => [Mailto; Colon] | _ => [n; Colon; Slash; Slash] end.
(** the first of these schemes that is there, or none; behind it *)
Inductive scheme_at (s : nat) : option uname -> nat -> Prop :=
| SHttp : forall x, all_at (scheme_mark Http) s = Some x -> scheme_at s (Some Http) x
| SFtp : forall x, all_at (scheme_mark Http) s = None -> all_at (scheme_mark Ftp) s = Some x -> scheme_at s (Some Ftp) x
| SMailto : forall x, all_at (scheme_mark Http) s = None -> all_at (scheme_mark Ftp) s = None -> all_at (scheme_mark Mailto) s = Some x -> scheme_at s (Some Mailto) x
| SFile : forall x, all_at (scheme_mark Http) s = None -> all_at (scheme_mark Ftp) s = None -> all_at (scheme_mark Mailto) s = None -> all_at (scheme_mark File) s = Some x -> scheme_at s (Some File) x
| SNone : all_at (scheme_mark Http) s = None -> all_at (scheme_mark Ftp) s = None -> all_at (scheme_mark Mailto) s = None -> all_at (scheme_mark File) s = None -> scheme_at s None s.
(** user:password@ *)
Definition user_pass_at (s a b c y : nat) : Prop := at_ User s = Some a /\ at_ Colon a = Some b /\ at_ Pass b = Some c /\ at_ At c = Some y.
(** user@; in a ftp URL the @ has to be where the user name starts *)
Definition user_at (ftp : bool) (s a y : nat) : Prop := at_ User s = Some a /\ at_ At (if ftp then s else a) = Some y.
Inductive auth_at (ftp : bool) (s : nat) : nat -> span -> span -> Prop :=
| AUserPass : forall a b c y, user_pass_at s a b c y -> auth_at ftp s y (Some (s, a)) (Some (b, c))
| AUser : forall a y, (forall a b c y, ~ user_pass_at s a b c y) -> user_at ftp s a y -> auth_at ftp s y (Some (s, a)) None
| ANone : (forall a b c y, ~ user_pass_at s a b c y) -> (forall a y, ~ user_at ftp s a y) -> auth_at ftp s s None None.
(** host: an IPv4 address (in brackets if [br]), an IPv6 address in brackets, or a name *)
Inductive ip4_at (br : bool) (s : nat) : nat -> nat * nat -> Prop :=
| Ip4Bare : forall y, br = false -> at_ Ip4 s = Some y -> ip4_at br s y (s, y)
| Ip4Br : forall a b y, br = true -> at_ Lbr s = Some a -> at_ Ip4 a = Some b -> at_ Rbr b = Some y -> ip4_at br s y (a, b).
Definition ip6_at (s a b y : nat) : Prop := at_ Lbr s = Some a /\ at_ Ip6 a = Some b /\ at_ Rbr b = Some y.
Inductive host_at (br : bool) (s : nat) : nat -> span -> span -> span -> Prop :=
| H4 : forall y i, ip4_at br s y i -> host_at br s y (Some i) None None
| H6 : forall a b y, (forall y i, ~ ip4_at br s y i) -> ip6_at s a b y -> host_at br s y None (Some (a, b)) None
| HName : forall y, (forall y i, ~ ip4_at br s y i) -> (forall a b y, ~ ip6_at s a b y) -> at_ Dns s = Some y -> host_at br s y None None (Some (s, y)).
Definition no_host (br : bool) (s : nat) : Prop := (forall y i, ~ ip4_at br s y i) /\ (forall a b y, ~ ip6_at s a b y) /\ at_ Dns s = None.
(** :port, if it is there *)
Definition port_at (s a y : nat) : Prop := at_ Colon s = Some a /\ at_ Port a = Some y.
Inductive opt_port_at (s : nat) : nat -> span -> Prop :=
| OPort : forall a y, port_at s a y -> opt_port_at s y (Some (a, y))
| ONoPort : (forall a y, ~ port_at s a y) -> opt_port_at s s None.
Inductive opt_path_at (s : nat) : nat -> span -> Prop :=
| OPath : forall y, at_ Path s = Some y -> opt_path_at s y (Some (s, y))
| ONoPath : at_ Path s = None -> opt_path_at s s None.
(** what the members tell *)
Record url_is : Type := UrlIs { ui_scheme : option uname; ui_user : span; ui_pass : span; ui_ip4 : span; ui_ip6 : span; ui_dns : span; ui_port : span; ui_path : span }.
(** [s] to [y]: user name and password [us], [ps], ... *)
Definition may_auth_at (auth ftp : bool) (s y : nat) (us ps : span) : Prop := if auth then auth_at ftp s y us ps else y = s /\ us = None /\ ps = None.
Definition is_http (sc : option uname) : bool := match sc with Some Http => true | _ => false end.
Inductive url_at (s : nat) : nat -> url_is -> Prop :=
| UFtp : forall x a h p y us ps i4 i6 dn po pa, scheme_at s (Some Ftp) x -> auth_at true x a us ps -> host_at false a h i4 i6 dn -> opt_port_at h p po -> opt_path_at p y pa ->
    url_at s y (UrlIs (Some Ftp) us ps i4 i6 dn po pa)
| UMailto : forall x u a y i4 i6 dn, scheme_at s (Some Mailto) x -> at_ User x = Some u -> at_ At u = Some a -> host_at true a y i4 i6 dn ->
    url_at s y (UrlIs (Some Mailto) (Some (x, u)) None i4 i6 dn None None)
| UFile : forall x y pa, scheme_at s (Some File) x -> opt_path_at x y pa -> url_at s y (UrlIs (Some File) None None None None None None pa)
| UHttp : forall sc x a h p y us ps i4 i6 dn po pa, sc = Some Http \/ sc = None -> scheme_at s sc x -> may_auth_at (is_http sc) false x a us ps -> host_at false a h i4 i6 dn -> opt_port_at h p po -> opt_path_at p y pa ->
    url_at s y (UrlIs sc us ps i4 i6 dn po pa).
(** the member [n] *)
Definition ui_get (u : url_is) (s : nat) (n : uname) : span :=
  match n with
  | User => ui_user u | Pass => ui_pass u | Ip4 => ui_ip4 u | Ip6 => ui_ip6 u | Dns => ui_dns u | Port => ui_port u | Path => ui_path u
  | Http | Ftp | Mailto | File => match ui_scheme u with Some m => if uname_eqb n m then match at_ n s with Some x => Some (s, x) | None => None end else None | None => None end
  | _ => None
  end.
Inductive email_at (s : nat) : nat -> span -> span -> span -> span -> Prop :=
| Email : forall u a y i4 i6 dn, at_ User s = Some u -> at_ At u = Some a -> host_at true a y i4 i6 dn -> email_at s y (Some (s, u)) i4 i6 dn.
End Url.

(** ** Emoticons *)
Section Emo.
Context (Em A : option espec) (Ey : espec) (N : option espec) (Mo : espec).
(** the mouth that is at the place [h] of the set *)
Definition again (h : Z) : pfun := fun s e fl => if num (Some Mo) s e fl =? h then es_f Mo s e fl else None.
(** the mouth from [m] to [y]: as many of the same as there are *)
Definition mouth_at (m y : nat) : Prop := exists x, es_f Mo m e fl = Some x /\ star_is (again (num (Some Mo) m e fl)) x y e fl.
Definition apex_at (s x : nat) (w : span) : Prop := match o_f A s e fl with Some a => x = a /\ w = Some (s, a) | None => x = s /\ w = None end.
Definition nosed_at (x c d y : nat) : Prop := es_f Ey x e fl = Some c /\ o_f N c e fl = Some d /\ mouth_at d y.
Definition noseless_at (x c y : nat) : Prop := es_f Ey x e fl = Some c /\ mouth_at c y.
Record emo : Type := Emo { em_all : span; em_apex : span; em_eyes : span; em_nose : span; em_mouth : span }.
Inductive emo_at (s : nat) : nat -> emo -> Prop :=
| EWhole : forall y, o_f Em s e fl = Some y -> emo_at s y (Emo (Some (s, y)) None None None None)
| ENosed : forall x a c d y, o_f Em s e fl = None -> apex_at s x a -> nosed_at x c d y -> emo_at s y (Emo None a (Some (x, c)) (Some (c, d)) (Some (d, y)))
| ENoseless : forall x a c y, o_f Em s e fl = None -> apex_at s x a -> (forall c d y, ~ nosed_at x c d y) -> noseless_at x c y -> emo_at s y (Emo None a (Some (x, c)) None (Some (c, y))).
End Emo.
End Spec.
