(** The range checks collected by the arithmetic circuits, and the base widths
    chosen for them. *)
From Coq Require Import ZArith List Bool.
From Verif Require Import Field Circuit RangeCheck Gadget Util FloatModel Deferred Shapes Circuits.
Import ListNotations.
Local Open Scope Z_scope.

Section CircuitShapes.
Context {MOD : Modulus}.
Variables (E M : Z).

Definition unary_shape (s : list (Z * mode)) := newfloat_shape E M ++ newfloat_shape E M ++ s.
Definition binary_shape (s : list (Z * mode)) := newfloat_shape E M ++ unary_shape s.
Definition conversion_shape :=
  newfloat_shape E M ++ trunc_shape E M ++ [(pow2_size E M, Loose)].

Lemma collects_unary op s X Y : (forall x, collects (op x) s) ->
  collects (unary_circuit E M op X Y) (unary_shape s).
Proof.
  intros H. unfold unary_circuit.
  eapply collects_bind; [apply collects_NewFloat|intros x|reflexivity].
  eapply collects_bind; [apply collects_NewFloat|intros y|reflexivity].
  eapply collects_bind; [apply H|intros r; apply collects_AssertIsEqual|].
  symmetry. apply app_nil_r.
Qed.

Lemma collects_binary op s X Y Z : (forall x y, collects (op x y) s) ->
  collects (binary_circuit E M op X Y Z) (binary_shape s).
Proof.
  intros H. unfold binary_circuit.
  eapply collects_bind; [apply collects_NewFloat|intros x|reflexivity].
  eapply collects_bind; [apply collects_NewFloat|intros y|reflexivity].
  eapply collects_bind; [apply collects_NewFloat|intros z|reflexivity].
  eapply collects_bind; [apply H|intros r; apply collects_AssertIsEqual|].
  symmetry. apply app_nil_r.
Qed.

Lemma collects_comparison op s X Y Z : (forall x y, collects (op x y) s) ->
  collects (comparison_circuit E M op X Y Z) (unary_shape s).
Proof.
  intros H. unfold comparison_circuit.
  eapply collects_bind; [apply collects_NewFloat|intros x|reflexivity].
  eapply collects_bind; [apply collects_NewFloat|intros y|reflexivity].
  eapply collects_bind; [apply collects_assert_bool|intros u|reflexivity].
  eapply collects_bind; [apply H|intros r; apply collects_assert_eq|].
  symmetry. apply app_nil_r.
Qed.

Lemma collects_allocation X y : collects (allocation_circuit E M X y) (newfloat_shape E M).
Proof.
  unfold allocation_circuit.
  eapply collects_bind; [apply collects_NewFloat|intros x; apply collects_AssertIsEqual|reflexivity].
Qed.

Lemma collects_conversion op X Y : (forall x, collects (op x) (trunc_shape E M)) ->
  collects (conversion_circuit E M op X Y) conversion_shape.
Proof.
  intros H. unfold conversion_circuit.
  eapply collects_bind; [apply collects_NewFloat|intros x|reflexivity].
  eapply collects_bind; [apply H|intros x'|reflexivity].
  eapply collects_bind; [apply collects_ToInt|intros n; apply collects_assert_eq|reflexivity].
Qed.

End CircuitShapes.

Definition auto_width (ft : frontend_type) (s : list (Z * mode)) : Z :=
  baseLength 0 ft (items_of s).

(** Widths for binary32 and binary64, R1CS and SCS. *)
Definition widths (s : Z -> Z -> list (Z * mode)) : list Z :=
  [auto_width R1CS (s 8 23); auto_width SCS (s 8 23);
   auto_width R1CS (s 11 52); auto_width SCS (s 11 52)].

