(** The arithmetic circuits of the repository (float/float_test.go), for a
    format and an operation of that format.  The repository instantiates them at
    (8, 23) (lines 20-91) and (11, 52) (lines 93-164); the operation is looked
    up by name with [reflect]. *)
From Coq Require Import ZArith List Bool.
From Verif Require Import Field Circuit Gadget Util FloatModel.
Import ListNotations.
Local Open Scope Z_scope.

Section Circuits.
Context {MOD : Modulus}.
Variables (E M : Z).

(** float/float_test.go:26-32, 99-105 *)
Definition unary_circuit (op : FloatVar -> circ FloatVar) (X Y : Z) : circ unit :=
  x <- NewFloat E M X ;;
  y <- NewFloat E M Y ;;
  r <- op x ;;
  AssertIsEqual r y.

(** float/float_test.go:41-48, 114-121 *)
Definition binary_circuit (op : FloatVar -> FloatVar -> circ FloatVar) (X Y Z : Z)
  : circ unit :=
  x <- NewFloat E M X ;;
  y <- NewFloat E M Y ;;
  z <- NewFloat E M Z ;;
  r <- op x y ;;
  AssertIsEqual r z.

(** float/float_test.go:57-65, 130-138 *)
Definition comparison_circuit (op : FloatVar -> FloatVar -> circ Z) (X Y Z : Z) : circ unit :=
  x <- NewFloat E M X ;;
  y <- NewFloat E M Y ;;
  assert_bool Z ;;;
  r <- op x y ;;
  assert_eq r Z.

(** float/float_test.go:72-77, 145-150.  [y] is a Go constant. *)
Definition allocation_circuit (X y : Z) : circ unit :=
  x <- NewFloat E M X ;;
  AssertIsEqual x (NewConstant E M y).

(** float/float_test.go:85-91, 158-164 *)
Definition conversion_circuit (op : FloatVar -> circ FloatVar) (X Y : Z) : circ unit :=
  x <- NewFloat E M X ;;
  x' <- op x ;;
  n <- ToInt E M x' ;;
  assert_eq n Y.

End Circuits.
