(** The countries of the IBAN parser (C66): an independent list, by length, to which the table of the code is compared.
    (ISO 13616 registry, with Nicaragua at the 32 characters it had before its registration.) *)
From Coq Require Import String Ascii.
From Verif Require Import Base ParserRefModel.
Open Scope string_scope. Open Scope Z_scope.

Definition iban_lengths : list (Z * string) := [
  (15, "NO"); (16, "BE"); (18, "DK FI FO GL NL SD"); (19, "MK SI"); (20, "AT BA EE KZ LT LU XK"); (21, "CH HR LI LV");
  (22, "BG BH CR DE GB GE IE ME RS VA"); (23, "AE GI IL IQ TL"); (24, "AD CZ ES MD PK RO SA SE SK TN VG");
  (25, "AO CV GW LY MZ PT ST"); (26, "DZ IR IS TR"); (27, "BI CF CG CM DJ FR GA GQ GR IT KM MC MG MR SM TD");
  (28, "AL AZ BF BJ BY CI CY DO GT HN HU LB MA ML NE PL SN SV TG"); (29, "BR EG PS QA UA"); (30, "JO KW MU"); (31, "MT SC");
  (32, "LC NI"); (33, "RU")].
(** countries all of whose accounts have the same check digits *)
Definition iban_fixed : list (string * string) := [
  ("BA", "39"); ("ME", "25"); ("MK", "07"); ("MR", "13"); ("PT", "50"); ("RS", "35"); ("SI", "56"); ("TL", "38"); ("TN", "59")].
Definition pair_of (a b : Z) : string := String (ascii_of_nat (Z.to_nat a)) (String (ascii_of_nat (Z.to_nat b)) "").
(* [code] is one of the codes in the blank-separated list *)
Fixpoint listed (code : string) (l : string) : bool :=
  match l with
  | String a (String b r) => String.eqb code (String a (String b "")) || match r with String _ t => listed code t | _ => false end
  | _ => false
  end.
Definition registered (a b : Z) (n : Z) : Prop := exists l, In (n, l) iban_lengths /\ listed (pair_of a b) l = true.
Definition digits_of (a b : Z) : option string := option_map snd (find (fun p => String.eqb (fst p) (pair_of a b)) iban_fixed).

Lemma all_registered : forallb (fun d => (existsb (fun p => (fst p =? len d) && listed (pair_of (c0 d) (c1 d)) (snd p)) iban_lengths &&
  match digits_of (c0 d) (c1 d) with Some k => String.eqb k (pair_of (k0 d) (k1 d)) | None => (k0 d =? 0) && (k1 d =? 0) end)%bool) countries = true.
Proof. vm_compute. reflexivity. Qed.
Definition codes : list (Z * Z) := flat_map (fun a => map (fun b => (Z.of_nat a, Z.of_nat b)) (seq 65 26)) (seq 65 26).
Lemma all_in_table : forallb (fun ab => forallb (fun p => implb (listed (pair_of (fst ab) (snd ab)) (snd p))
  (existsb (fun d => (c0 d =? fst ab) && (c1 d =? snd ab) && (len d =? fst p)) countries)) iban_lengths) codes = true.
Proof. vm_compute. reflexivity. Qed.
Lemma codes_in : forall a b, 65 <= a <= 90 -> 65 <= b <= 90 -> In (a, b) codes.
Proof.
  intros a b Ha Hb. unfold codes. apply in_flat_map. exists (Z.to_nat a). split; [apply in_seq; lia|]. apply in_map_iff. exists (Z.to_nat b). split; [f_equal; lia|apply in_seq; lia].
Qed.
(** every country of the table has the length of the registry and its prescribed check digits, if it has any; and no listed
    country is missing *)
Theorem iban_countries : (forall d, In d countries -> registered (c0 d) (c1 d) (len d) /\
    match digits_of (c0 d) (c1 d) with Some k => k = pair_of (k0 d) (k1 d) | None => k0 d = 0 /\ k1 d = 0 end) /\
  (forall a b n, 65 <= a <= 90 -> 65 <= b <= 90 -> registered a b n -> exists d, In d countries /\ c0 d = a /\ c1 d = b /\ len d = n).
Proof.
  split.
  - intros d H. pose proof all_registered as A. rewrite forallb_forall in A. specialize (A d H). apply andb_prop in A as [A B]. split.
    + apply existsb_exists in A as ((n & l) & I & A). cbn [fst snd] in A. apply andb_prop in A as [A1 A2]. apply Z.eqb_eq in A1. subst n. exists l. auto.
    + destruct (digits_of (c0 d) (c1 d)); [apply String.eqb_eq; auto|]. apply andb_prop in B as [B1 B2]. apply Z.eqb_eq in B1. apply Z.eqb_eq in B2. auto.
  - intros a b n Ha Hb (l & I & L). pose proof all_in_table as A. rewrite forallb_forall in A. specialize (A (a, b) (codes_in a b Ha Hb)). rewrite forallb_forall in A. specialize (A (n, l) I). cbn [fst snd] in A.
    rewrite L in A. cbn [implb] in A. apply existsb_exists in A as (d & Hd & A). exists d. apply andb_prop in A as [A A3]. apply andb_prop in A as [A1 A2]. apply Z.eqb_eq in A1. apply Z.eqb_eq in A2. apply Z.eqb_eq in A3. auto.
Qed.
Example iban_countries_ex : registered 83 73 19 /\ digits_of 83 73 = Some "56".
Proof. split; [exists "MK SI"; split; [repeat (try (left; reflexivity); right)|reflexivity]|reflexivity]. Qed.
Print Assumptions iban_countries.
