(** math/math_test.go: the circuits that compare with an interval of one unit in the last
    place around an expected value. *)
From Coq Require Import ZArith List Bool.
From Verif Require Import Field Circuit Hints RangeCheck Gadget Util FloatModel Math Deferred Shapes
  CircuitShapes LocShapes.
Import ListNotations.
Local Open Scope Z_scope.

Section Model.
Context {MOD : Modulus}.

(** [api.AssertIsLessOrEqual] with a variable bound: compares canonical representatives. *)
Definition assert_le (a b : Z) : circ unit := assert (a <=? b).

(** math/math_test.go:201-217, 227-243, 273-289: the exponent of the result is that of [Z], its
    mantissa is between those of [Z_lower] and [Z_upper].  Signs, flags and the exponents of the
    bounds are not compared. *)
Definition ulp_circuit (E M : Z) (op : FloatVar -> circ FloatVar) (X Z Z_lower Z_upper : Z) : circ unit :=
  x <- NewFloat E M X ;;
  z <- NewFloat E M Z ;;
  z_lower <- NewFloat E M Z_lower ;;
  z_upper <- NewFloat E M Z_upper ;;
  result <- op x ;;
  assert_eq (Exponent result) (Exponent z) ;;;
  assert_le (Mantissa z_lower) (Mantissa result) ;;;
  assert_le (Mantissa result) (Mantissa z_upper).

(** math/math_test.go:193-217, 219-243, 265-289 *)
Definition CircuitATanRemez32ULP : Z -> Z -> Z -> Z -> circ unit := ulp_circuit 8 23 AtanRemez32.
Definition CircuitATanRemez64ULP : Z -> Z -> Z -> Z -> circ unit := ulp_circuit 11 52 AtanRemez64.
Definition CircuitSin64ULP : Z -> Z -> Z -> Z -> circ unit := ulp_circuit 11 52 SinTaylor64.

(** ** The range checks they collect *)
Definition ulp_shape (E M : Z) (s : list (Z * mode)) : list (Z * mode) :=
  times 4 (newfloat_shape E M) ++ s.
Lemma collects_ulp E M op s X Z Zl Zu : (forall x, collects (op x) s) ->
  collects (ulp_circuit E M op X Z Zl Zu) (ulp_shape E M s).
Proof.
  intros H. unfold ulp_circuit, ulp_shape. cbn [times].
  rewrite app_nil_r, <- !app_assoc.
  eapply collects_bind; [apply collects_NewFloat|intros x|reflexivity].
  eapply collects_bind; [apply collects_NewFloat|intros z|reflexivity].
  eapply collects_bind; [apply collects_NewFloat|intros zl|reflexivity].
  eapply collects_bind; [apply collects_NewFloat|intros zu|reflexivity].
  eapply collects_bind; [apply H|intros r|symmetry; apply app_nil_r].
  eapply (collects_bind _ _ [] []); [apply collects_assert_eq|intros u|reflexivity].
  eapply (collects_bind _ _ [] []); [apply collects_assert|intros v|reflexivity].
  apply collects_assert.
Qed.
End Model.
