(** Model of basic_dns_domain_char (include/stdex/parser.hpp, lines 2775-2817), basic_dns_name (2872-2940), the URL character
    tests (2952-3240), basic_url_path (3275-3395), basic_url (3409-3742), basic_email_address (3756-3853) and basic_emoticon
    (3867-3965).

    Conventions of ParserModel and ParserNumModel.  The bool member allow_on_edge is 1 or 0 in [vals]. *)
From Verif Require Import Base StringModel ParserModel ParserNumModel.

Section Url.
Context (txt : list Z) (alnum : Z -> bool).
(** parser.hpp:2789-2814; vals = [allow_on_edge] *)
Definition dns_domain_char (idn : bool) : pcls := {|
  p_init := new_pst [1] [];
  p_match := fun st s e fl => let* c := peek txt s e in
    match c with
    | Some c =>
        if ((65 <=? c) && (c <=? 90)) || ((97 <=? c) && (c <=? 122)) || ((48 <=? c) && (c <=? 57)) then Ret (Pst s (S s) [1] (kids st), true)
        else if c =? 45 then Ret (Pst s (S s) [0] (kids st), true)
        else if idn && alnum c then Ret (Pst s (S s) [1] (kids st), true)
        else Ret (no_interval st, false)
    | None => Ret (no_interval st, false)
    end;
  p_inval := no_interval |}.
(** parser.hpp:2967-2982: the units - . _ ~ % ! $ & ' * + , ; = *)
Definition username_cu (c : Z) : bool := existsb (Z.eqb c) [45; 46; 95; 126; 37; 33; 36; 38; 39; 42; 43; 44; 59; 61] || alnum c.
(** parser.hpp:3074-3091: also ( ) : *)
Definition password_cu (c : Z) : bool := existsb (Z.eqb c) [45; 46; 95; 126; 37; 33; 36; 38; 39; 40; 41; 42; 43; 44; 59; 61; 58] || alnum c.
(** parser.hpp:3174-3195: also / @ ? # *)
Definition path_cu (c : Z) : bool := existsb (Z.eqb c) [47; 45; 46; 95; 126; 37; 33; 36; 38; 39; 40; 41; 42; 43; 44; 59; 61; 58; 64; 63; 35] || alnum c.
Definition url_username_char : pcls := one_cu txt (fun c _ => username_cu c) false.
Definition url_password_char : pcls := one_cu txt (fun c _ => password_cu c) false.
Definition url_path_char : pcls := one_cu txt (fun c _ => path_cu c) false.

(** ** DNS names *)
Section Dns.
Context (abs : bool) (D Se : pcls).
Definition on_edge (kd : pst) : bool := negb (the_val kd =? 0).
(** parser.hpp:2901-2921; gives i, interval.end and whether the function returned *)
Fixpoint dns_inner (fuel : nat) (kd ks : pst) (i y e : nat) (fl : pflags) : outcome (pst * pst * nat * nat * bool) :=
  match fuel with
  | O => UB
  | S n =>
      let* c := peek txt i e in
      match c with
      | None => Ret (kd, ks, i, y, false)
      | Some _ =>
          let* (ks, b) := (if on_edge kd then p_match Se ks i e fl else Ret (ks, false)) in
          if b then Ret (kd, ks, i_end ks, if abs then i_end ks else i, false)
          else
            let* (kd, b) := p_match D kd i e fl in
            if b then dns_inner n kd ks (i_end kd) (if on_edge kd then i_end kd else y) e fl
            else Ret (kd, ks, i, y, true)
      end
  end.
(** parser.hpp:2895-2932; [more] is 127 - count, [some] is count <> 0; the end of the match *)
Fixpoint dns_outer (more : nat) (some : bool) (kd ks : pst) (i y e : nat) (fl : pflags) : outcome (pst * pst * option nat) :=
  let fin := fun kd => Ret (kd, ks, if some then Some y else None) in
  match more with
  | O => fin kd
  | S n =>
      let* c := peek txt i e in
      match c with
      | None => fin kd
      | Some _ =>
          let* (kd, b) := p_match D kd i e fl in
          if b && on_edge kd then
            let* (kd, ks, i, y, done) := dns_inner (S (e - i)) kd ks (i_end kd) (i_end kd) e fl in
            if done then Ret (kd, ks, Some y) else dns_outer n true kd ks i y e fl
          else fin kd
      end
  end.
(** parser.hpp:2872-2940; kids = [m_domain_char; m_separator] *)
Definition dns_name : pcls := {|
  p_init := new_pst [] [p_init D; p_init Se];
  p_match := fun st s e fl =>
    match kids st with
    | [kd; ks] =>
        let* (kd, ks, o) := dns_outer 127 false kd ks s (i_end st) e fl in
        match o with Some y => Ret (Pst s y [] [kd; ks], true) | None => Ret (Pst 1 0 [] [kd; ks], false) end
    | _ => UB
    end;
  p_inval := no_interval |}.
End Dns.

(** ** URL paths *)
Section Path.
Context (C Q B : pcls).
(** parser.hpp:3337-3348 and 3364-3375: path characters, as many as there are *)
Fixpoint path_chars (fuel : nat) (kc : pst) (x e : nat) (fl : pflags) : outcome (pst * nat) :=
  match fuel with
  | O => UB
  | S n =>
      let* c := peek txt x e in
      match c with
      | None => Ret (kc, x)
      | Some _ => let* (kc, b) := p_match C kc x e fl in if b then path_chars n kc (i_end kc) e fl else Ret (kc, x)
      end
  end.
(** parser.hpp:3328-3357; where the query ends, and where the bookmark starts if there is one *)
Fixpoint path_query (fuel : nat) (kc kb : pst) (x e : nat) (fl : pflags) : outcome (pst * pst * nat * option nat) :=
  match fuel with
  | O => UB
  | S n =>
      let* c := peek txt x e in
      match c with
      | None => Ret (kc, kb, x, None)
      | Some _ =>
          let* (kb, b) := p_match B kb x e fl in
          if b then Ret (kc, kb, x, Some (i_end kb))
          else let* (kc, b) := p_match C kc x e fl in if b then path_query n kc kb (i_end kc) e fl else Ret (kc, kb, x, None)
      end
  end.
(** parser.hpp:3322-3383: where the path ends, and what follows: query (true) or bookmark (false) from there *)
Fixpoint path_path (fuel : nat) (kc kq kb : pst) (x e : nat) (fl : pflags) : outcome (pst * pst * pst * nat * option (bool * nat)) :=
  match fuel with
  | O => UB
  | S n =>
      let* c := peek txt x e in
      match c with
      | None => Ret (kc, kq, kb, x, None)
      | Some _ =>
          let* (kq, b) := p_match Q kq x e fl in
          if b then Ret (kc, kq, kb, x, Some (true, i_end kq))
          else
            let* (kb, b) := p_match B kb x e fl in
            if b then Ret (kc, kq, kb, x, Some (false, i_end kb))
            else let* (kc, b) := p_match C kc x e fl in if b then path_path n kc kq kb (i_end kc) e fl else Ret (kc, kq, kb, x, None)
      end
  end.
Definition zz (n : nat) : Z := Z.of_nat n.
(** parser.hpp:3275-3395; vals = the bounds of path, query and bookmark; kids = [m_path_char; m_query_start; m_bookmark_start] *)
Definition url_path : pcls := {|
  p_init := new_pst [1; 0; 1; 0; 1; 0] [p_init C; p_init Q; p_init B];
  p_match := fun st s e fl =>
    match kids st with
    | [kc; kq; kb] =>
        let* (kc, kq, kb, x, o) := path_path (S (e - s)) kc kq kb s e fl in
        match o with
        | Some (true, q) =>
            let* (kc, kb, y, o) := path_query (S (e - q)) kc kb q e fl in
            match o with
            | Some b => let* (kc, z) := path_chars (S (e - b)) kc b e fl in
                        Ret (Pst s z [zz s; zz x; zz q; zz y; zz b; zz z] [kc; kq; kb], true)
            | None => Ret (Pst s y [zz s; zz x; zz q; zz y; 1; 0] [kc; kq; kb], true)
            end
        | Some (false, b) =>
            let* (kc, z) := path_chars (S (e - b)) kc b e fl in
            Ret (Pst s z [zz s; zz x; 1; 0; zz b; zz z] [kc; kq; kb], true)
        | None =>
            if (s <? x)%nat then Ret (Pst s x [zz s; zz x; 1; 0; 1; 0] [kc; kq; kb], true)
            else Ret (Pst 1 0 [1; 0; 1; 0; 1; 0] [kc; kq; kb], false)
        end
    | _ => UB
    end;
  p_inval := fun st => Pst 1 0 [1; 0; 1; 0; 1; 0] (kids st) |}.
End Path.
End Url.

(** ** URLs and e-mail addresses: the held parsers *)
Inductive uname : Type := Http | Ftp | Mailto | File | User | Pass | Ip4 | Ip6 | Dns | Port | Path | Colon | Slash | At | Lbr | Rbr.
Definition uname_eqb (a b : uname) : bool :=
  match a, b with
  | Http, Http | Ftp, Ftp | Mailto, Mailto | File, File | User, User | Pass, Pass | Ip4, Ip4 | Ip6, Ip6 | Dns, Dns | Port, Port
  | Path, Path | Colon, Colon | Slash, Slash | At, At | Lbr, Lbr | Rbr, Rbr => true
  | _, _ => false
  end.
Definition ukids : Type := uname -> pst.
Definition upd {A : Type} (n : uname) (x : A) (k : uname -> A) : uname -> A := fun m => if uname_eqb m n then x else k m.
(** the order in [kids] *)
Definition url_names : list uname := [Http; Ftp; Mailto; File; User; Pass; Ip4; Ip6; Dns; Port; Path; Colon; Slash; At; Lbr; Rbr].
Definition email_names : list uname := [User; Ip4; Ip6; Dns; At; Lbr; Rbr].
Fixpoint assign (names : list uname) (l : list pst) : ukids :=
  match names, l with n :: r, x :: l => upd n x (assign r l) | _, _ => fun _ => new_pst [] [] end.

Section UrlP.
Context (P : uname -> pcls).
(** [n->match(text, x, end, flags)] *)
Definition um (n : uname) (k : ukids) (x e : nat) (fl : pflags) : outcome (ukids * bool) :=
  let* (k', b) := p_match (P n) (k n) x e fl in Ret (upd n k' k, b).
(** [n->invalidate()], for each *)
Definition uinv (l : list uname) (k : ukids) : ukids := fold_left (fun k n => upd n (p_inval (P n) (k n)) k) l k.
(** [a->match(text, x, ...) && b->match(text, a->interval.end, ...) && ...]; the end of the last *)
Fixpoint um_seq (l : list uname) (k : ukids) (x e : nat) (fl : pflags) : outcome (ukids * option nat) :=
  match l with
  | [] => Ret (k, Some x)
  | n :: r => let* (k, b) := um n k x e fl in if b then um_seq r k (i_end (k n)) e fl else Ret (k, None)
  end.
(** parser.hpp:3491-3538: the scheme; gives interval.end *)
Definition u_scheme (k : ukids) (s e : nat) (fl : pflags) : outcome (ukids * nat) :=
  let* (k, o) := um_seq [Http; Colon; Slash; Slash] k s e fl in
  match o with Some x => Ret (uinv [Ftp; Mailto; File] k, x) | None =>
  let* (k, o) := um_seq [Ftp; Colon; Slash; Slash] k s e fl in
  match o with Some x => Ret (uinv [Http; Mailto; File] k, x) | None =>
  let* (k, o) := um_seq [Mailto; Colon] k s e fl in
  match o with Some x => Ret (uinv [Http; Ftp; File] k, x) | None =>
  let* (k, o) := um_seq [File; Colon; Slash; Slash] k s e fl in
  match o with Some x => Ret (uinv [Http; Ftp; Mailto] k, x) | None => Ret (uinv [Http; Ftp; Mailto; File] k, s) end end end end.
(** parser.hpp:3541-3562 (ftp) and 3674-3696 (http): user name and password.  Without password the @ is looked for where the
    user name starts in a ftp URL ([this->interval.end]), where it ends in a http URL. *)
Definition u_auth (ftp : bool) (k : ukids) (x e : nat) (fl : pflags) : outcome (ukids * nat) :=
  let* (k, b) := um User k x e fl in
  if b then
    let a := i_end (k User) in
    let* (k, o) := um_seq [Colon; Pass; At] k a e fl in
    match o with
    | Some y => Ret (k, y)
    | None =>
        let* (k, b) := um At k (if ftp then x else a) e fl in
        if b then Ret (uinv [Pass] k, i_end (k At)) else Ret (uinv [User; Pass] k, x)
    end
  else Ret (uinv [User; Pass] k, x).
(** parser.hpp:3569-3587 and 3703-3721; the next host with an address of [first] in brackets or not *)
Definition u_host (first : list uname) (k : ukids) (x e : nat) (fl : pflags) : outcome (ukids * option nat) :=
  let* (k, o) := um_seq first k x e fl in
  match o with Some y => Ret (uinv [Ip6; Dns] k, Some y) | None =>
  let* (k, o) := um_seq [Lbr; Ip6; Rbr] k x e fl in
  match o with Some y => Ret (uinv [Ip4; Dns] k, Some y) | None =>
  let* (k, o) := um_seq [Dns] k x e fl in
  match o with Some y => Ret (uinv [Ip4; Ip6] k, Some y) | None => Ret (k, None) end end end.
Definition plain_host : list uname := [Ip4].
Definition mail_host : list uname := [Lbr; Ip4; Rbr].
(** parser.hpp:3594-3606, 3728-3740: port and path *)
Definition u_tail (k : ukids) (x e : nat) (fl : pflags) : outcome (ukids * nat) :=
  let* (k, o) := um_seq [Colon; Port] k x e fl in
  let '(k, x) := match o with Some y => (k, y) | None => (uinv [Port] k, x) end in
  let* (k, b) := um Path k x e fl in
  Ret (k, if b then i_end (k Path) else x).
(** parser.hpp:3430-3444 *)
Definition url_public : list uname := [Http; Ftp; Mailto; File; User; Pass; Ip4; Ip6; Dns; Port; Path].
(** user name and password (if [auth]), host, port and path (parser.hpp:3541-3609, 3674-3743) *)
Definition u_site (auth : bool) (ftp : bool) (k : ukids) (x e : nat) (fl : pflags) : outcome (ukids * option nat) :=
  let* (k, x) := (if auth then u_auth ftp k x e fl else Ret (uinv [User; Pass] k, x)) in
  let* (k, o) := u_host plain_host k x e fl in
  match o with Some x => let* (k, y) := u_tail k x e fl in Ret (k, Some y) | None => Ret (k, None) end.
(** parser.hpp:3613-3654 *)
Definition u_mail (k : ukids) (x e : nat) (fl : pflags) : outcome (ukids * option nat) :=
  let* (k, o) := um_seq [User; At] k x e fl in
  match o with Some x => u_host mail_host k x e fl | None => Ret (k, None) end.
(** parser.hpp:3481-3744 *)
Definition u_match (k : ukids) (s e : nat) (fl : pflags) : outcome (ukids * option nat) :=
  let* (k, x) := u_scheme k s e fl in
  if is_valid (k Ftp) then u_site true true k x e fl
  else if is_valid (k Mailto) then
    let* (k, o) := u_mail k x e fl in
    match o with Some y => Ret (uinv [Pass; Port; Path] k, Some y) | None => Ret (k, None) end
  else if is_valid (k File) then
    let* (k, b) := um Path k x e fl in
    Ret (uinv [User; Pass; Ip4; Ip6; Dns; Port] k, Some (if b then i_end (k Path) else x))
  else u_site (is_valid (k Http)) false k x e fl.
Definition url_p : pcls := {|
  p_init := new_pst [] (map (fun n => p_init (P n)) url_names);
  p_match := fun st s e fl =>
    if negb (length (kids st) =? 16)%nat then UB else
    let* (k, o) := u_match (assign url_names (kids st)) s e fl in
    match o with
    | Some y => Ret (Pst s y [] (map k url_names), true)
    | None => Ret (Pst 1 0 [] (map (uinv url_public k) url_names), false)
    end;
  p_inval := fun st => Pst 1 0 [] (map (uinv url_public (assign url_names (kids st))) url_names) |}.
(** parser.hpp:3756-3853 *)
Definition email_p : pcls := {|
  p_init := new_pst [] (map (fun n => p_init (P n)) email_names);
  p_match := fun st s e fl =>
    if negb (length (kids st) =? 7)%nat then UB else
    let* (k, o) := u_mail (assign email_names (kids st)) s e fl in
    match o with
    | Some y => Ret (Pst s y [] (map k email_names), true)
    | None => Ret (Pst 1 0 [] (map (uinv [User; Ip4; Ip6; Dns] k) email_names), false)
    end;
  p_inval := fun st => Pst 1 0 [] (map (uinv [User; Ip4; Ip6; Dns] (assign email_names (kids st))) email_names) |}.
End UrlP.

(** ** Emoticons; kids = [emoticon; apex; eyes; nose; mouth] *)
Section Emo.
Context (Em A : option pcls) (Ey : pcls) (N : option pcls) (Mo : pcls).
(** parser.hpp:3927 and 3939: the mouth again, while it is the same *)
Fixpoint mouths (fuel : nat) (km : pst) (hit : Z) (x e : nat) (fl : pflags) : outcome (pst * nat) :=
  match fuel with
  | O => UB
  | S n => let* (km, b) := p_match Mo km x e fl in if b && (the_val km =? hit) then mouths n km hit (i_end km) e fl else Ret (km, x)
  end.
(** parser.hpp:3923-3930, 3935-3943: after the first mouth: the state of mouth, and the end *)
Definition mouth_again (km : pst) (e : nat) (fl : pflags) : outcome (pst * nat) :=
  let* (km', y) := mouths (S (e - i_end km)) km (the_val km) (i_end km) e fl in Ret (set_interval km' (i_start km) y, y).
Definition emoticon_p : pcls := {|
  p_init := new_pst [] [op_init Em; op_init A; p_init Ey; op_init N; p_init Mo];
  p_match := fun st s e fl =>
    match kids st with
    | [kem; ka; key; kn; kmo] =>
        let* (kem, b) := op_match Em kem s e fl in
        if b then Ret (Pst s (i_end kem) [] [kem; op_inval A ka; p_inval Ey key; op_inval N kn; p_inval Mo kmo], true) else
        let* (ka, b) := op_match A ka s e fl in
        let x := if b then i_end ka else s in
        let bad := fun key kn kmo => Ret (Pst 1 0 [] [op_inval Em kem; op_inval A ka; p_inval Ey key; op_inval N kn; p_inval Mo kmo], false) in
        let* (key, b) := p_match Ey key x e fl in
        if negb b then bad key kn kmo else
        let* (kn, b) := op_match N kn (i_end key) e fl in
        let* (kmo, b) := (if b then p_match Mo kmo (i_end kn) e fl else Ret (kmo, false)) in
        if b then let* (kmo, y) := mouth_again kmo e fl in Ret (Pst s y [] [kem; ka; key; kn; kmo], true) else
        let* (kmo, b) := p_match Mo kmo (i_end key) e fl in
        if b then let* (kmo, y) := mouth_again kmo e fl in Ret (Pst s y [] [kem; ka; key; op_inval N kn; kmo], true)
        else bad key kn kmo
    | _ => UB
    end;
  p_inval := fun st =>
    match kids st with [kem; ka; key; kn; kmo] => Pst 1 0 [] [op_inval Em kem; op_inval A ka; p_inval Ey key; op_inval N kn; p_inval Mo kmo] | _ => st end |}.
End Emo.
