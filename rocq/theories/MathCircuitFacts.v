(** The test circuits of math/ compare exponent and mantissa only: the sign of
    the expected value is free. *)
From Coq Require Import ZArith Reals Lia Bool List.
From Flocq Require Import Core BinarySingleNaN.
From Verif Require Import Field FieldFacts Circuit CircuitFacts RangeCheck RangeFacts Gadget
  GadgetFacts FloatModel RoundFacts Spec RepFacts CompFacts NewFacts CircuitSpec Math MathSpec.
Import ListNotations.
Local Open Scope Z_scope.

Section MathCircuits.
Context {MOD : Modulus} {b : Z} {HP : Params 11 52 b}.
#[local] Instance Wn : Width b (4 * 52 + 44) := params_width 11 52 b HP.
#[local] Instance Bn : BigMod := width_big b _ _.

Lemma flip_fields v : 0 <= v < 2 ^ 63 ->
  Exponent (NewConstant 11 52 (v + 2 ^ 63)) = Exponent (NewConstant 11 52 v) /\
  Mantissa (NewConstant 11 52 (v + 2 ^ 63)) = Mantissa (NewConstant 11 52 v).
Proof.
  intros Hv.
  assert (H1 : bexp 11 52 (v + 2 ^ 63) = bexp 11 52 v).
  { unfold bexp. replace (v + 2 ^ 63) with (v + 2 ^ 11 * 2 ^ 52) by lia.
    rewrite Z.div_add by lia. rewrite <- (Z.mul_1_l (2 ^ 11)) at 1. apply Z.mod_add. lia. }
  assert (H2 : bman 52 (v + 2 ^ 63) = bman 52 v).
  { unfold bman. replace (v + 2 ^ 63) with (v + 2 ^ 11 * 2 ^ 52) by lia. apply Z.mod_add. lia. }
  rewrite !newconst_comps by lia. unfold zcomps. cbv zeta. rewrite H1, H2.
  destruct (bexp 11 52 v =? 0), (bexp 11 52 v =? 2 ^ 11 - 1); split; reflexivity.
Qed.

(** A check of exponent and mantissa against an allocated value. *)
Lemma check_flip (c : circ FloatVar) v : 0 <= v < 2 ^ 63 ->
  (exists u, sat b (z <- NewFloat 11 52 v ;; r <- c ;;
     assert_eq (Exponent r) (Exponent z) ;;; assert_eq (Mantissa r) (Mantissa z)) u) <->
  (exists u, sat b (z <- NewFloat 11 52 (v + 2 ^ 63) ;; r <- c ;;
     assert_eq (Exponent r) (Exponent z) ;;; assert_eq (Mantissa r) (Mantissa z)) u).
Proof.
  intros Hv. destruct (flip_fields v Hv) as [F1 F2].
  destruct (new_pows (E:=11) (M:=52) (b:=b)) as (P1 & _).
  change (2 ^ (11 + 52 + 1)) with (2 ^ 64) in P1.
  assert (R1 : 0 <= v < modulus) by lia. assert (R2 : 0 <= v + 2 ^ 63 < modulus) by lia.
  split; intros [u Hu]; exists u.
  - apply (new_step _ _ _ R2). apply (new_step _ _ _ R1) in Hu. destruct Hu as [_ Hu].
    split; [lia|]. rewrite F1, F2. exact Hu.
  - apply (new_step _ _ _ R1). apply (new_step _ _ _ R2) in Hu. destruct Hu as [_ Hu].
    split; [lia|]. rewrite F1, F2 in Hu. exact Hu.
Qed.

Theorem function_flip op X Z : 0 <= X < modulus -> 0 <= Z < 2 ^ 63 ->
  (exists u, sat b (function_circuit op X Z) u) <->
  (exists u, sat b (function_circuit op X (Z + 2 ^ 63)) u).
Proof.
  intros HX HZ. unfold function_circuit. pose proof (check_flip (op (NewConstant 11 52 X)) Z HZ) as H.
  split; intros [u Hu]; apply (new_step _ _ _ HX) in Hu; destruct Hu as [Hr Hu];
    [apply proj1 in H|apply proj2 in H]; destruct (H (ex_intro _ u Hu)) as [u' Hu']; exists u';
    apply (new_step _ _ _ HX); auto.
Qed.

Theorem polynomial_flip eval coeffs X P : 0 <= X < modulus -> 0 <= P < 2 ^ 63 ->
  (exists u, sat b (polynomial_circuit eval coeffs X P) u) <->
  (exists u, sat b (polynomial_circuit eval coeffs X (P + 2 ^ 63)) u).
Proof.
  intros HX HZ. unfold polynomial_circuit.
  pose proof (check_flip (eval (map (fun n => NewConstant 11 52 (int_bits 11 52 n)) coeffs)
    (NewConstant 11 52 X)) P HZ) as H.
  split; intros [u Hu]; apply (new_step _ _ _ HX) in Hu; destruct Hu as [Hr Hu];
    [apply proj1 in H|apply proj2 in H]; destruct (H (ex_intro _ u Hu)) as [u' Hu']; exists u';
    apply (new_step _ _ _ HX); auto.
Qed.

End MathCircuits.
