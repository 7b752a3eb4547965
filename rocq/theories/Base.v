(** Machine integers, outcomes and small list facts shared by all models. *)
From Coq Require Export ZArith List Lia Bool.
From Coq Require Import ZifyBool ZifyNat.
Export ListNotations.
Global Open Scope Z_scope.

(** Moduli of the unsigned machine types. *)
Notation M8 := 256.
Notation M16 := 65536.
Notation M32 := 4294967296.
Notation M64 := 18446744073709551616.

(** Conversion to an unsigned machine type keeps the value modulo 2^n. *)
Definition u8 (x : Z) : Z := x mod M8.
Definition u16 (x : Z) : Z := x mod M16.
Definition u32 (x : Z) : Z := x mod M32.
Definition u64 (x : Z) : Z := x mod M64.

(** Conversion to a signed machine type (two's complement). *)
Definition i8 (x : Z) : Z := (x + 128) mod M8 - 128.
Definition i16 (x : Z) : Z := (x + 32768) mod M16 - 32768.
Definition i32 (x : Z) : Z := (x + 2147483648) mod M32 - 2147483648.
Definition i64 (x : Z) : Z := (x + 9223372036854775808) mod M64 - 9223372036854775808.

(** Result of a C++ call: a value, an exception, or undefined behaviour
    (out-of-bounds access, division by zero, ...). *)
Inductive outcome (A : Type) : Type :=
| Ret (a : A)
| Throw
| UB.
Arguments Ret {A} a.
Arguments Throw {A}.
Arguments UB {A}.

Definition obind {A B : Type} (x : outcome A) (f : A -> outcome B) : outcome B :=
  match x with Ret a => f a | Throw => Throw | UB => UB end.

Notation "'let*' x ':=' e1 'in' e2" := (obind e1 (fun x => e2))
  (at level 200, x pattern, e1 at level 100, e2 at level 200, right associativity).

Lemma u64_small : forall x, 0 <= x < M64 -> u64 x = x.
Proof. intros. unfold u64. apply Z.mod_small. lia. Qed.
Lemma u32_small : forall x, 0 <= x < M32 -> u32 x = x.
Proof. intros. unfold u32. apply Z.mod_small. lia. Qed.
Lemma u16_small : forall x, 0 <= x < M16 -> u16 x = x.
Proof. intros. unfold u16. apply Z.mod_small. lia. Qed.
Lemma u8_small : forall x, 0 <= x < M8 -> u8 x = x.
Proof. intros. unfold u8. apply Z.mod_small. lia. Qed.
Lemma u64_range : forall x, 0 <= u64 x < M64.
Proof. intros. unfold u64. apply Z.mod_pos_bound. lia. Qed.
Lemma u32_range : forall x, 0 <= u32 x < M32.
Proof. intros. unfold u32. apply Z.mod_pos_bound. lia. Qed.
Lemma u16_range : forall x, 0 <= u16 x < M16.
Proof. intros. unfold u16. apply Z.mod_pos_bound. lia. Qed.
Lemma u8_range : forall x, 0 <= u8 x < M8.
Proof. intros. unfold u8. apply Z.mod_pos_bound. lia. Qed.

(** Case analysis on the innermost [if] conditions of the goal. *)
Ltac dif :=
  repeat match goal with
  | |- context[if ?b then _ else _] =>
      lazymatch b with
      | context[if _ then _ else _] => fail
      | _ => destruct b eqn:?
      end
  end.

Global Arguments Z.of_nat : simpl never.
Global Arguments Z.to_nat : simpl never.
Global Arguments Z.add : simpl never.
Global Arguments Z.sub : simpl never.
Global Arguments Z.mul : simpl never.
Global Arguments Z.div : simpl never.
Global Arguments Z.modulo : simpl never.
Global Arguments Z.pow : simpl never.
Global Arguments Z.leb : simpl never.
Global Arguments Z.ltb : simpl never.
Global Arguments Z.eqb : simpl never.
Global Arguments Z.land : simpl never.
Global Arguments Z.lor : simpl never.
Global Arguments Z.lxor : simpl never.
Global Arguments Z.shiftl : simpl never.
Global Arguments Z.shiftr : simpl never.

(** Evaluate comparisons of literals. *)
Ltac ceq :=
  repeat match goal with
  | |- context[?f ?a ?b] =>
      first [constr_eq f Z.eqb | constr_eq f Z.leb | constr_eq f Z.ltb | constr_eq f Z.geb | constr_eq f Z.gtb];
      let r := eval vm_compute in (f a b) in
      match r with true => change (f a b) with true | false => change (f a b) with false end
  end; cbv iota.
