(** Model of who closes the conversion of a charset_encoder (include/stdex/unicode.hpp:137-163) and of create_locale, locale_C and
    locale_utf8 (include/stdex/locale.hpp:26-41, 101-111), both on POSIX. *)
From Coq Require Ascii String.
From Verif Require Import Base MiscModel RfcModel.
Import String.StringSyntax.

(** ** charset_encoder.  An object is a number, its m_handle what [eh_of] gives; the conversions that are open are those below
    [eh_next] that are not in [eh_closed].  A program that names an object outside of its lifetime is not considered: the step
    changes nothing. *)
Record enc_world := { eh_next : nat; eh_closed : list nat; eh_of : nat -> option nat }.
Definition enc_start : enc_world := {| eh_next := 0; eh_closed := []; eh_of := fun _ => None |}.
Definition is_open (w : enc_world) (h : nat) : bool := (h <? eh_next w)%nat && negb (if in_dec Nat.eq_dec h (eh_closed w) then true else false).
Definition set_handle (f : nat -> option nat) (o : nat) (h : option nat) : nat -> option nat := fun x => if (x =? o)%nat then h else f x.
Inductive enc_op :=
| ENew (o : nat) (ok : bool)      (** the constructor, lines 144-156; [ok]: iconv_open knows the charsets *)
| ECopy (o s : nat)               (** the implicit copy constructor (which moves use as well): the class declares a destructor only *)
| EAssign (o s : nat)             (** the implicit assignment *)
| EConvert (o : nat)              (** anything that calls iconv *)
| EDestroy (o : nat).             (** the destructor, lines 159-162 *)
(** the flag says whether an exception was thrown *)
Definition enc_step (w : enc_world) (p : enc_op) : outcome (enc_world * bool) :=
  match p with
  | ENew o ok =>
      match eh_of w o with
      | Some _ => Ret (w, false)
      | None => if ok then Ret ({| eh_next := S (eh_next w); eh_closed := eh_closed w; eh_of := set_handle (eh_of w) o (Some (eh_next w)) |}, false) else Ret (w, true)
      end
  | ECopy o s =>
      match eh_of w o, eh_of w s with
      | None, Some h => Ret ({| eh_next := eh_next w; eh_closed := eh_closed w; eh_of := set_handle (eh_of w) o (Some h) |}, false)
      | _, _ => Ret (w, false)
      end
  | EAssign o s =>
      match eh_of w o, eh_of w s with
      | Some _, Some h => Ret ({| eh_next := eh_next w; eh_closed := eh_closed w; eh_of := set_handle (eh_of w) o (Some h) |}, false)
      | _, _ => Ret (w, false)
      end
  | EConvert o => match eh_of w o with Some h => if is_open w h then Ret (w, false) else UB | None => Ret (w, false) end
  | EDestroy o =>
      match eh_of w o with
      | Some h => if is_open w h then Ret ({| eh_next := eh_next w; eh_closed := h :: eh_closed w; eh_of := set_handle (eh_of w) o None |}, false) else UB
      | None => Ret (w, false)
      end
  end.
Fixpoint enc_run (w : enc_world) (l : list enc_op) : outcome enc_world :=
  match l with [] => Ret w | p :: l => let* r := enc_step w p in enc_run (fst r) l end.

(** ** Locales.  A locale object says the name of the locale of each category (of locale.h on Linux: 0 LC_CTYPE, 1 LC_NUMERIC,
    2 LC_TIME, 3 LC_COLLATE, 4 LC_MONETARY, 5 LC_MESSAGES, 6 LC_ALL, 7 to 12 those of GNU).  The masks are 1 << category, and LC_ALL_MASK
    all of them. *)
Definition locale_obj : Type := Z -> list Z.
Definition LC_ALL : Z := 6.
Definition LC_ALL_MASK : Z := 8127.
Inductive base_arg := BaseNull | BaseGlobal | BaseObj (l : locale_obj).
Definition c_locale : locale_obj := fun _ => chars "C".
Definition merged (mask : Z) (name : list Z) (l : locale_obj) : locale_obj := fun c => if Z.testbit mask c then name else l c.
(** newlocale(3p): "The behavior is undefined if the base argument is the special locale object LC_GLOBAL_LOCALE" *)
Definition newlocale_posix (known : list Z -> bool) (mask : Z) (name : list Z) (base : base_arg) : outcome (option locale_obj) :=
  match base with
  | BaseGlobal => UB
  | BaseNull => Ret (if known name then Some (merged mask name c_locale) else None)
  | BaseObj l => Ret (if known name then Some (merged mask name l) else None)
  end.
(** glibc's own mask of all categories, in newlocale.c: (1 << __LC_LAST) - 1 - (1 << LC_ALL) *)
Definition glibc_all : Z := 2 ^ 13 - 1 - 2 ^ 6.
(** glibc's: LC_GLOBAL_LOCALE is the pointer -1, which it does not look for and goes through, unless the "C" locale is asked for in
    all categories *)
Definition newlocale_glibc (known : list Z -> bool) (mask : Z) (name : list Z) (base : base_arg) : outcome (option locale_obj) :=
  if negb (Z.land mask (Z.lnot glibc_all) =? 0) then Ret None
  else if ((match base with BaseNull => true | _ => false end) || (mask =? glibc_all)) && ((mask =? 0) || (if list_eq_dec Z.eq_dec name (chars "C") then true else false)) then Ret (Some c_locale)
  else match base with
  | BaseGlobal => UB
  | BaseNull => Ret (if known name then Some (merged mask name c_locale) else None)
  | BaseObj l => Ret (if known name then Some (merged mask name l) else None)
  end.
(** locale.hpp:28-40 *)
Definition create_locale (nl : Z -> list Z -> base_arg -> outcome (option locale_obj)) (category : Z) (name : list Z) : outcome (option locale_obj) :=
  let mask := match category with 6 => LC_ALL_MASK | 3 => 8 | 0 => 1 | 5 => 32 | 4 => 16 | 1 => 2 | 2 => 4 | _ => 0 end in
  nl mask name BaseGlobal.
(** locale.hpp:101-111: constructed before main *)
Definition locale_C (nl : Z -> list Z -> base_arg -> outcome (option locale_obj)) : outcome (option locale_obj) := create_locale nl LC_ALL (chars "C").
Definition locale_utf8 (nl : Z -> list Z -> base_arg -> outcome (option locale_obj)) : outcome (option locale_obj) := create_locale nl LC_ALL (chars ".UTF-8").

(** ** file::exists (include/stdex/stream.hpp:3077-3085, 3093-3096) and file::readonly (3105-3114, 3123-3126) on POSIX.  A file system says what
    a name is; [reach] which names the process has the permission to look up.  The C library's stat follows at most 40 symbolic links. *)
Inductive node := File (mode : Z) | Folder (mode : Z) | Link (target : list Z).
Definition fsys : Type := list Z -> option node.
Fixpoint posix_stat (links : nat) (fs : fsys) (reach : list Z -> bool) (name : list Z) : option Z :=
  if reach name then
    match fs name with
    | Some (File mode) | Some (Folder mode) => Some mode
    | Some (Link t) => match links with O => None | S n => posix_stat n fs reach t end
    | None => None
    end
  else None.
Definition file_exists (fs : fsys) (reach : list Z -> bool) (name : list Z) : bool := match posix_stat 40 fs reach name with Some _ => true | None => false end.
(** S_IWUSR|S_IWGRP|S_IWOTH is 0222 *)
Definition file_readonly (fs : fsys) (reach : list Z -> bool) (name : list Z) : bool := match posix_stat 40 fs reach name with Some mode => Z.land mode 146 =? 0 | None => false end.
