(** Model of basic_date (include/stdex/parser.hpp, lines 3975-4245), basic_time (4258-4343) and basic_angle (4360-4467).

    Conventions of ParserModel and ParserNumModel: a parser that holds others keeps their objects in [kids]; one that may be null
    is an [option]; [the_val] is the first member of a held parser (value of an integer, hit_offset of a set). *)
From Verif Require Import Base StringModel ParserModel ParserNumModel.

(** parser.hpp:4258-4343; kids = [hour; minute; second; millisecond; m_separator; m_millisecond_separator] *)
Definition time_p (H M : pcls) (S_ F : option pcls) (Se : pcls) (Fs : option pcls) : pcls := {|
  p_init := new_pst [] [p_init H; p_init M; op_init S_; op_init F; p_init Se; op_init Fs];
  p_match := fun st s e fl =>
    match kids st with
    | [kh; km; ks; kf; kse; kfs] =>
        (* 4334-4339 *)
        let bad := fun kh km kse => Ret (Pst 1 0 [] [p_inval H kh; p_inval M km; op_inval S_ ks; op_inval F kf; kse; kfs], false) in
        let* (kh, b) := p_match H kh s e fl in
        if negb b then bad kh km kse else
        let* (kse, b) := p_match Se kse (i_end kh) e fl in
        if negb b then bad kh km kse else
        let* (km, b) := p_match M km (i_end kse) e fl in
        if negb (b && (the_val km <? 60)) then bad kh km kse else
        let hit := the_val kse in
        (* 4324-4328 *)
        let no_second := fun kse ks => Ret (Pst s (i_end km) [] [kh; km; op_inval S_ ks; op_inval F kf; kse; kfs], true) in
        let* (kse, b) := p_match Se kse (i_end km) e fl in
        if negb (b && (the_val kse =? hit)) then no_second kse ks else
        let* (ks, b) := op_match S_ ks (i_end kse) e fl in
        if negb (b && (the_val ks <? 60)) then no_second kse ks else
        (* 4318-4321 *)
        let no_milli := fun kfs kf => Ret (Pst s (i_end ks) [] [kh; km; ks; op_inval F kf; kse; kfs], true) in
        let* (kfs, b) := op_match Fs kfs (i_end ks) e fl in
        if negb b then no_milli kfs kf else
        let* (kf, b) := op_match F kf (i_end kfs) e fl in
        if negb (b && (the_val kf <? 1000)) then no_milli kfs kf
        else Ret (Pst s (i_end kf) [] [kh; km; ks; kf; kse; kfs], true)
    | _ => UB
    end;
  (* 4277-4284 *)
  p_inval := fun st => match kids st with [kh; km; ks; kf; kse; kfs] => Pst 1 0 [] [p_inval H kh; p_inval M km; op_inval S_ ks; op_inval F kf; kse; kfs] | _ => st end |}.

(** parser.hpp:4360-4467; kids = [degree; degree_separator; minute; minute_separator; second; second_separator; decimal] *)
Definition angle_p (D Ds M Ms : pcls) (S_ Ss Dc : option pcls) : pcls := {|
  p_init := new_pst [] [p_init D; p_init Ds; p_init M; p_init Ms; op_init S_; op_init Ss; op_init Dc];
  p_match := fun st s e fl =>
    match kids st with
    | [kd; kds; km; kms; ks; kss; kdc] =>
        (* 4409-4418 *)
        let* (kd, b) := p_match D kd s e fl in
        let* (kds, b) := (if b then p_match Ds kds (i_end kd) e fl else Ret (kds, false)) in
        let '(kd, kds, x) := if b then (kd, kds, i_end kds) else (p_inval D kd, p_inval Ds kds, s) in
        (* 4420-4430 *)
        let* (km, b) := p_match M km x e fl in
        let* (kms, b) := (if b && (the_val km <? 60) then p_match Ms kms (i_end km) e fl else Ret (kms, false)) in
        let '(km, kms, x) := if b then (km, kms, i_end kms) else (p_inval M km, p_inval Ms kms, x) in
        (* 4432-4445 *)
        let* (ks, b) := op_match S_ ks x e fl in
        let* (ks, kss, x) :=
          (if b && (the_val ks <? 60) then
             let x := i_end ks in
             let* (kss, b) := op_match Ss kss x e fl in
             if b then Ret (ks, kss, i_end kss) else Ret (ks, op_inval Ss kss, x)
           else Ret (op_inval S_ ks, op_inval Ss kss, x)) in
        (* 4447-4464 *)
        if (i_start kd <? i_end kd)%nat || (i_start km <? i_end km)%nat || (match S_ with Some _ => (i_start ks <? i_end ks)%nat | None => false end) then
          let* (kdc, b) := op_match Dc kdc x e fl in
          if b then Ret (Pst s (i_end kdc) [] [kd; kds; km; kms; ks; kss; kdc], true)
          else Ret (Pst s x [] [kd; kds; km; kms; ks; kss; op_inval Dc kdc], true)
        else Ret (Pst 1 0 [] [kd; kds; km; kms; ks; kss; op_inval Dc kdc], false)
    | _ => UB
    end;
  (* 4381-4391 *)
  p_inval := fun st =>
    match kids st with
    | [kd; kds; km; kms; ks; kss; kdc] => Pst 1 0 [] [p_inval D kd; p_inval Ds kds; p_inval M km; p_inval Ms kms; op_inval S_ ks; op_inval Ss kss; op_inval Dc kdc]
    | _ => st
    end |}.

(** ** Dates *)
(** parser.hpp:4208-4238; [smax] is SIZE_MAX *)
Definition date_valid (day month : Z) : bool :=
  let month := if month =? smax then 1 else month in
  let day := if day =? smax then 1 else day in
  if (month =? 1) || (month =? 3) || (month =? 5) || (month =? 7) || (month =? 8) || (month =? 10) || (month =? 12) then (1 <=? day) && (day <=? 31)
  else if month =? 2 then (1 <=? day) && (day <=? 29)
  else if (month =? 4) || (month =? 6) || (month =? 9) || (month =? 11) then (1 <=? day) && (day <=? 30)
  else false.
(** which of the members day, month and year *)
Inductive dpart : Type := Day | Month | Year.
Record dkids : Type := DKids { dk_day : pst; dk_month : pst; dk_year : pst; dk_sep : pst; dk_space : pst }.
Definition dk (p : dpart) (k : dkids) : pst := match p with Day => dk_day k | Month => dk_month k | Year => dk_year k end.
Definition dk_set (p : dpart) (x : pst) (k : dkids) : dkids :=
  match p with
  | Day => DKids x (dk_month k) (dk_year k) (dk_sep k) (dk_space k)
  | Month => DKids (dk_day k) x (dk_year k) (dk_sep k) (dk_space k)
  | Year => DKids (dk_day k) (dk_month k) x (dk_sep k) (dk_space k)
  end.
Definition dk_set_sep (x : pst) (k : dkids) : dkids := DKids (dk_day k) (dk_month k) (dk_year k) x (dk_space k).
Definition dk_set_space (x : pst) (k : dkids) : dkids := DKids (dk_day k) (dk_month k) (dk_year k) (dk_sep k) x.

Section Date.
Context (P : dpart -> option pcls) (Se Sp : pcls).
(** [part->match(text, x, end, flags)] *)
Definition d_part (p : dpart) (k : dkids) (x e : nat) (fl : pflags) : outcome (dkids * bool) :=
  let* (k', b) := nn_match (P p) (dk p k) x e fl in Ret (dk_set p k' k, b).
Definition d_sep (k : dkids) (x e : nat) (fl : pflags) : outcome (dkids * bool) :=
  let* (k', b) := p_match Se (dk_sep k) x e fl in Ret (dk_set_sep k' k, b).
(** [for (interval.end = x; m_space->match(text, interval.end, end, space_match_flags); interval.end = m_space->interval.end);] *)
Definition d_skip (k : dkids) (x e : nat) (fl : pflags) : outcome (dkids * nat) :=
  let* (k', y) := skip_space (S (e - x)) Sp (dk_space k) x e (one_line fl) in Ret (dk_set_space k' k, y).
(** [if (part) part->invalidate()] *)
Definition d_inval (p : dpart) (k : dkids) : dkids := dk_set p (op_inval (P p) (dk p k)) k.
(** the head of every format: [p] spaces separator spaces [q] (e.g. 4037-4042); gives the hit_offset of the separator *)
Definition d_pair (p q : dpart) (k : dkids) (s e : nat) (fl : pflags) : outcome (dkids * option Z) :=
  let* (k, b) := d_part p k s e fl in
  if negb b then Ret (k, None) else
  let* (k, x) := d_skip k (i_end (dk p k)) e fl in
  let* (k, b) := d_sep k x e fl in
  if negb b then Ret (k, None) else
  let hit := the_val (dk_sep k) in
  let* (k, x) := d_skip k (i_end (dk_sep k)) e fl in
  let* (k, b) := d_part q k x e fl in
  Ret (k, if b then Some hit else None).
(** a second separator behind [q], the same as the first (e.g. 4045-4047, 4163-4166): its end *)
Definition d_again (q : dpart) (hit : Z) (k : dkids) (e : nat) (fl : pflags) : outcome (dkids * option nat) :=
  let* (k, x) := d_skip k (i_end (dk q k)) e fl in
  let* (k, b) := d_sep k x e fl in
  Ret (k, if b && (the_val (dk_sep k) =? hit) then Some (i_end (dk_sep k)) else None).
(** the formats dmy (4038-4062), mdy (4064-4088) and ymd (4090-4114), which are the same but for the parts; the end *)
Definition d_three (p q r : dpart) (k : dkids) (s e : nat) (fl : pflags) : outcome (dkids * option nat) :=
  let* (k, h) := d_pair p q k s e fl in
  match h with
  | None => Ret (k, None)
  | Some hit =>
      let* (k, w) := d_again q hit k e fl in
      match w with
      | None => Ret (k, None)
      | Some x =>
          let* (k, x) := d_skip k x e fl in
          let* (k, b) := d_part r k x e fl in
          Ret (k, if b && date_valid (the_val (dk_day k)) (the_val (dk_month k)) then Some (i_end (dk r k)) else None)
      end
  end.
(** the formats ym (4116-4132) and my (4134-4150) *)
Definition d_month (p q : dpart) (k : dkids) (s e : nat) (fl : pflags) : outcome (dkids * option nat) :=
  let* (k, h) := d_pair p q k s e fl in
  match h with
  | Some _ => if date_valid smax (the_val (dk_month k)) then Ret (d_inval Day k, Some (i_end (dk q k))) else Ret (k, None)
  | None => Ret (k, None)
  end.
(** the formats dm (4152-4174) and md (4176-4198) *)
Definition d_day (p q : dpart) (k : dkids) (s e : nat) (fl : pflags) : outcome (dkids * option nat) :=
  let* (k, h) := d_pair p q k s e fl in
  match h with
  | Some hit =>
      if date_valid (the_val (dk_day k)) (the_val (dk_month k)) then
        let k := d_inval Year k in
        let* (k, w) := d_again q hit k e fl in
        Ret (k, Some (match w with Some x => x | None => i_end (dk q k) end))
      else Ret (k, None)
  | None => Ret (k, None)
  end.
(** parser.hpp:3977-3986 *)
Inductive dformat : Type := Dmy | Mdy | Ymd | Ym | My | Dm | Md.
Definition format_no (f : dformat) : Z := match f with Dmy => 1 | Mdy => 2 | Ymd => 4 | Ym => 8 | My => 16 | Dm => 32 | Md => 64 end.
Definition d_format (f : dformat) : dkids -> nat -> nat -> pflags -> outcome (dkids * option nat) :=
  match f with
  | Dmy => d_three Day Month Year | Mdy => d_three Month Day Year | Ymd => d_three Year Month Day
  | Ym => d_month Year Month | My => d_month Month Year | Dm => d_day Day Month | Md => d_day Month Day
  end.
(** parser.hpp:4037-4198: the formats in turn, those that are in the mask *)
Fixpoint d_try (fs : list dformat) (mask : Z) (k : dkids) (s e : nat) (fl : pflags) : outcome (dkids * option (dformat * nat)) :=
  match fs with
  | [] => Ret (k, None)
  | f :: r =>
      if Z.land mask (format_no f) =? format_no f then
        let* (k, o) := d_format f k s e fl in
        match o with Some y => Ret (k, Some (f, y)) | None => d_try r mask k s e fl end
      else d_try r mask k s e fl
  end.
Definition date_formats : list dformat := [Dmy; Mdy; Ymd; Ym; My; Dm; Md].
Definition dk_of (st : pst) : option dkids := match kids st with [a; b; c; d; f] => Some (DKids a b c d f) | _ => None end.
Definition dk_list (k : dkids) : list pst := [dk_day k; dk_month k; dk_year k; dk_sep k; dk_space k].
Definition d_none (k : dkids) : dkids := d_inval Year (d_inval Month (d_inval Day k)).
(** parser.hpp:3991-4206; vals = [format]; kids = [day; month; year; m_separator; m_space] *)
Definition date_p (mask : Z) : pcls := {|
  p_init := new_pst [0] [op_init (P Day); op_init (P Month); op_init (P Year); p_init Se; p_init Sp];
  p_match := fun st s e fl =>
    match dk_of st with
    | Some k =>
        let* (k, o) := d_try date_formats mask k s e fl in
        match o with
        | Some (f, y) => Ret (Pst s y [format_no f] (dk_list k), true)
        | None => Ret (Pst 1 0 [0] (dk_list (d_none k)), false)
        end
    | None => UB
    end;
  p_inval := fun st => match dk_of st with Some k => Pst 1 0 [0] (dk_list (d_none k)) | None => st end |}.
End Date.
