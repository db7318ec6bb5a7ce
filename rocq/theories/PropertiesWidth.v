(** Property C47: addition, subtraction and square root for every base width
    of the range check, in particular the automatically chosen ones. *)
From Coq Require Import ZArith Reals Bool List.
From Flocq Require Import Core BinarySingleNaN.
From Verif Require Import Field Circuit RangeCheck FloatModel RoundFacts Spec Outcomes
  Deferred Shapes Circuits CircuitShapes CircuitSpec AnyWidth Witness.
Import ListNotations.
Local Open Scope Z_scope.

#[local] Existing Instance bn254 | 1000.
#[local] Notation bits E M v := (0 <= v < 2 ^ (E + M + 1)).

(** ** The circuits, for every base width *)

Theorem C47_add {MOD : Modulus} {E M b : Z} {HP : Params E M b} {HF : Format E M} X Y Z :
  2 ^ 250 <= modulus ->
  0 <= X < modulus -> 0 <= Y < modulus -> 0 <= Z < modulus ->
  (sat b (binary_circuit E M (Add E M) X Y Z) tt <->
   bits E M X /\ bits E M Y /\ bits E M Z /\
   sum_outcome (of_bits E M X) (of_bits E M Y) (of_bits E M Z)).
Proof.
  intros Hbig HX HY HZ. apply binary_sat; try assumption.
  intros x y fx fy. exact (add_yields_any Hbig x y fx fy).
Qed.
Print Assumptions C47_add.

Theorem C47_sub {MOD : Modulus} {E M b : Z} {HP : Params E M b} {HF : Format E M} X Y Z :
  2 ^ 250 <= modulus ->
  0 <= X < modulus -> 0 <= Y < modulus -> 0 <= Z < modulus ->
  (sat b (binary_circuit E M (Sub E M) X Y Z) tt <->
   bits E M X /\ bits E M Y /\ bits E M Z /\
   diff_outcome (of_bits E M X) (of_bits E M Y) (of_bits E M Z)).
Proof.
  intros Hbig HX HY HZ. apply binary_sat; try assumption.
  intros x y fx fy. exact (sub_yields_any Hbig x y fx fy).
Qed.
Print Assumptions C47_sub.

Theorem C47_sqrt {MOD : Modulus} {E M b : Z} {HP : Params E M b} {HF : Format E M} X Y :
  2 ^ 250 <= modulus ->
  0 <= X < modulus -> 0 <= Y < modulus ->
  (sat b (unary_circuit E M (Sqrt E M) X Y) tt <->
   bits E M X /\ bits E M Y /\ of_bits E M Y = ieee_sqrt E M (of_bits E M X)).
Proof.
  intros Hbig HX HY. apply (unary_sat _ (fun fx f => f = ieee_sqrt E M fx)); try assumption.
  intros x fx. exact (sqrt_yields_any Hbig x fx).
Qed.
Print Assumptions C47_sqrt.

(** ** The gadgets *)

(** For base widths up to [E - 2], which covers 2 to 6 for binary32 and 2 to 9
    for binary64, a square root has no result but the IEEE one. *)
Theorem C47_sqrt_gadget {MOD : Modulus} {E M b : Z} {HP : Params E M b} {HF : Format E M}
    x (fx : fmt E M) r :
  2 ^ 250 <= modulus -> b <= E - 2 -> represents x fx -> sat b (Sqrt E M x) r ->
  represents r (ieee_sqrt E M fx).
Proof.
  intros Hbig Hb Hx Hr. destruct (sqrt_sound_any Hbig x fx r Hx Hr) as [H|[H _]]; [exact H|].
  exfalso. apply (Z.lt_irrefl b). apply Z.le_lt_trans with (E - 2); assumption.
Qed.
Print Assumptions C47_sqrt_gadget.

(** In general the wires of a sum or square root either obey the contract or
    are equal to no datum. *)
Theorem C47_gadgets {MOD : Modulus} {E M b : Z} {HP : Params E M b} {HF : Format E M}
    x y (fx fy : fmt E M) r z (fz : fmt E M) u :
  2 ^ 250 <= modulus -> represents x fx -> represents y fy -> represents z fz ->
  sat b (AssertIsEqual r z) u ->
  (sat b (Add E M x y) r -> sum_outcome fx fy fz) /\
  (sat b (Sub E M x y) r -> diff_outcome fx fy fz) /\
  (sat b (Sqrt E M x) r -> fz = ieee_sqrt E M fx).
Proof.
  intros Hbig Hx Hy Hz Hu. destruct u.
  assert (Hc : forall c P, yields (b:=b) c P -> sat b c r -> P fz).
  { intros c P Hc Hr. apply (check_step c P z fz Hc Hz). apply CircuitFacts.sat_bind.
    exists r. split; assumption. }
  split; [|split]; intros Hr.
  - exact (Hc _ _ (add_yields_any Hbig x y fx fy Hx Hy) Hr).
  - exact (Hc _ _ (sub_yields_any Hbig x y fx fy Hx Hy) Hr).
  - exact (Hc _ _ (sqrt_yields_any Hbig x fx Hx) Hr).
Qed.
Print Assumptions C47_gadgets.

(** ** Automatically chosen and explicit base widths over BN254 *)

Theorem C47_auto32 ft X Y Z :
  0 <= X < modulus -> 0 <= Y < modulus -> 0 <= Z < modulus ->
  (accepts 0 ft (binary_circuit 8 23 (Add 8 23) X Y Z) tt <->
   bits 8 23 X /\ bits 8 23 Y /\ bits 8 23 Z /\
   sum_outcome (of_bits 8 23 X) (of_bits 8 23 Y) (of_bits 8 23 Z)) /\
  (accepts 0 ft (binary_circuit 8 23 (Sub 8 23) X Y Z) tt <->
   bits 8 23 X /\ bits 8 23 Y /\ bits 8 23 Z /\
   diff_outcome (of_bits 8 23 X) (of_bits 8 23 Y) (of_bits 8 23 Z)) /\
  (accepts 0 ft (unary_circuit 8 23 (Sqrt 8 23) X Y) tt <->
   bits 8 23 X /\ bits 8 23 Y /\ of_bits 8 23 Y = ieee_sqrt 8 23 (of_bits 8 23 X)).
Proof.
  intros HX HY HZ. assert (Hbig : 2 ^ 250 <= @modulus bn254) by (vm_compute; discriminate).
  rewrite (accepts_static 0 ft _ _ tt (collects_binary 8 23 _ _ X Y Z (collects_Add 8 23))).
  rewrite (accepts_static 0 ft _ _ tt (collects_binary 8 23 _ _ X Y Z (collects_Sub 8 23))).
  rewrite (accepts_static 0 ft _ _ tt (collects_unary 8 23 _ _ X Y (collects_Sqrt 8 23))).
  assert (W1 : 2 <= baseLength 0 ft (items_of (binary_shape 8 23 (add_shape 8 23))) <= 17)
    by (destruct ft; vm_compute; split; discriminate).
  assert (W2 : 2 <= baseLength 0 ft (items_of (unary_shape 8 23 (sqrt_shape 8 23))) <= 17)
    by (destruct ft; vm_compute; split; discriminate).
  pose proof (params32 _ W1) as HP1. pose proof (params32 _ W2) as HP2.
  split; [|split].
  - exact (C47_add X Y Z Hbig HX HY HZ).
  - exact (C47_sub X Y Z Hbig HX HY HZ).
  - exact (C47_sqrt X Y Hbig HX HY).
Qed.
Print Assumptions C47_auto32.

Theorem C47_auto64 ft X Y Z :
  0 <= X < modulus -> 0 <= Y < modulus -> 0 <= Z < modulus ->
  (accepts 0 ft (binary_circuit 11 52 (Add 11 52) X Y Z) tt <->
   bits 11 52 X /\ bits 11 52 Y /\ bits 11 52 Z /\
   sum_outcome (of_bits 11 52 X) (of_bits 11 52 Y) (of_bits 11 52 Z)) /\
  (accepts 0 ft (binary_circuit 11 52 (Sub 11 52) X Y Z) tt <->
   bits 11 52 X /\ bits 11 52 Y /\ bits 11 52 Z /\
   diff_outcome (of_bits 11 52 X) (of_bits 11 52 Y) (of_bits 11 52 Z)) /\
  (accepts 0 ft (unary_circuit 11 52 (Sqrt 11 52) X Y) tt <->
   bits 11 52 X /\ bits 11 52 Y /\ of_bits 11 52 Y = ieee_sqrt 11 52 (of_bits 11 52 X)).
Proof.
  intros HX HY HZ. assert (Hbig : 2 ^ 250 <= @modulus bn254) by (vm_compute; discriminate).
  rewrite (accepts_static 0 ft _ _ tt (collects_binary 11 52 _ _ X Y Z (collects_Add 11 52))).
  rewrite (accepts_static 0 ft _ _ tt (collects_binary 11 52 _ _ X Y Z (collects_Sub 11 52))).
  rewrite (accepts_static 0 ft _ _ tt (collects_unary 11 52 _ _ X Y (collects_Sqrt 11 52))).
  assert (W1 : 2 <= baseLength 0 ft (items_of (binary_shape 11 52 (add_shape 11 52))) <= 17)
    by (destruct ft; vm_compute; split; discriminate).
  assert (W2 : 2 <= baseLength 0 ft (items_of (unary_shape 11 52 (sqrt_shape 11 52))) <= 17)
    by (destruct ft; vm_compute; split; discriminate).
  pose proof (params64 _ W1) as HP1. pose proof (params64 _ W2) as HP2.
  split; [|split].
  - exact (C47_add X Y Z Hbig HX HY HZ).
  - exact (C47_sub X Y Z Hbig HX HY HZ).
  - exact (C47_sqrt X Y Hbig HX HY).
Qed.
Print Assumptions C47_auto64.

(** Instances: 1.5 + 2.25 = 3.75, 5.0 - 7.0 = -2.0, sqrt 2.25 = 1.5, with base
    widths that do not divide the size of the table; the same sum with a wrong
    result. *)
Example C47_ex :
  pow2_size 8 23 mod 5 <> 0 /\ pow2_size 11 52 mod 6 <> 0 /\
  run 5 (binary_circuit 8 23 (Add 8 23) 0x3FC00000 0x40100000 0x40700000) = Some tt /\
  run 6 (binary_circuit 11 52 (Sub 11 52) 0x4014000000000000 0x401C000000000000
           0xC000000000000000) = Some tt /\
  run 6 (unary_circuit 11 52 (Sqrt 11 52) 0x4002000000000000 0x3FF8000000000000) = Some tt /\
  run 5 (binary_circuit 8 23 (Add 8 23) 0x3FC00000 0x40100000 0x40700001) = None.
Proof. repeat split; try (vm_compute; reflexivity); vm_compute; discriminate. Qed.

(** ** Inside larger circuits *)

(** Base width 6 is the one chosen for sums of binary64. The sum of these two
    numbers, about 2^20, is accepted as wires that represent nothing. *)
Definition hollow_x : Z := 1023 * 2 ^ 52 + 513.
Definition hollow_y : Z := 1043 * 2 ^ 52 + 2 ^ 43 - 2 ^ 32.

Theorem C47_sum_gadget_refuted :
  represents (MOD:=bn254) (NewConstant 11 52 hollow_x) (f64 (2 ^ 52 + 513) (-52)) /\
  represents (MOD:=bn254) (NewConstant 11 52 hollow_y) (f64 (2 ^ 52 + 2 ^ 43 - 2 ^ 32) (-32)) /\
  exists r, accepted 6 (Add 11 52 (NewConstant 11 52 hollow_x) (NewConstant 11 52 hollow_y)) r /\
    forall f : fmt 11 52, ~ represents r f.
Proof.
  pose proof (params64 6 ltac:(Lia.lia)) as HP. split; [|split].
  - replace (f64 _ _) with (of_bits 11 52 hollow_x) by (apply B2SF_inj; vm_compute; reflexivity).
    apply NewFacts.newconst_spec. vm_compute. split; [discriminate|reflexivity].
  - replace (f64 _ _) with (of_bits 11 52 hollow_y) by (apply B2SF_inj; vm_compute; reflexivity).
    apply NewFacts.newconst_spec. vm_compute. split; [discriminate|reflexivity].
  - exists (embF (mkZ false 20 0 false)). split.
    + apply (accepted_forge 6 _ (honest 9 ++ [Some (2 + 2 ^ 64)])). vm_compute. reflexivity.
    + intros f. apply (hollow_no_datum (b:=6)).
      * vm_compute. discriminate.
      * exists false, 20. split; [vm_compute; split; discriminate|reflexivity].
Qed.
Print Assumptions C47_sum_gadget_refuted.

(** Comparing the sum with 2^20 then gives the wrong answer, and multiplying it
    by 1.0 gives zero. *)
Theorem C47_composition_refuted :
  accepted 6 (s <- Add 11 52 (NewConstant 11 52 hollow_x) (NewConstant 11 52 hollow_y) ;;
              IsLt 11 52 s (NewConstant 11 52 0x4130000000000000)) 1 /\
  ieee_lt 11 52 (ieee_add 11 52 (of_bits 11 52 hollow_x) (of_bits 11 52 hollow_y))
    (of_bits 11 52 0x4130000000000000) = false /\
  (exists r,
     accepted 6 (s <- Add 11 52 (NewConstant 11 52 hollow_x) (NewConstant 11 52 hollow_y) ;;
                 Mul 11 52 s (NewConstant 11 52 0x3FF0000000000000)) r /\
     represents (MOD:=bn254) r (B754_zero false : fmt 11 52)) /\
  ieee_lt 11 52 (of_bits 11 52 0x3FF0000000000000)
    (ieee_add 11 52 (of_bits 11 52 hollow_x) (of_bits 11 52 hollow_y)) = true.
Proof.
  split; [|split; [|split]].
  - apply (accepted_forge 6 _ (honest 9 ++ [Some (2 + 2 ^ 64)])). vm_compute. reflexivity.
  - vm_compute. reflexivity.
  - exists (embF (mkZ false (-1075) 0 false)). split.
    + apply (accepted_forge 6 _ (honest 9 ++ [Some (2 + 2 ^ 64)])). vm_compute. reflexivity.
    + exists (mkZ false (-1075) 0 false). split; [reflexivity|]. vm_compute. reflexivity.
  - vm_compute. reflexivity.
Qed.
Print Assumptions C47_composition_refuted.

(** The bound of [C47_sqrt_gadget] is not idle: with base width 12 the square
    root of 1.5625001 can be such wires. *)
Theorem C47_sqrt_gadget_wide_refuted :
  exists r, accepted 12 (Sqrt 8 23 (NewConstant 8 23 0x3FC80001)) r /\
    forall f : fmt 8 23, ~ represents r f.
Proof.
  pose proof (params32 12 ltac:(Lia.lia)) as HP.
  exists (embF (mkZ false 0 0 false)). split.
  - apply (accepted_forge 12 _ (honest 5 ++ [Some (2 ^ 10 + 10 * 2 ^ 32)] ++ honest 3 ++
      [Some 21866867634659744680037180739646672280844703888306253060159436409049855557633])).
    vm_compute. reflexivity.
  - intros f. apply (hollow_no_datum (b:=12)).
    + vm_compute. discriminate.
    + exists false, 0. split; [vm_compute; split; discriminate|reflexivity].
Qed.
Print Assumptions C47_sqrt_gadget_wide_refuted.
