(** Property C63: the circuits of math/ that compare with an interval. *)
From Coq Require Import ZArith Reals Lra Lia Bool List.
From Flocq Require Import Core BinarySingleNaN.
From Verif Require Import Field FieldFacts Circuit CircuitFacts RangeCheck FloatModel Math MathSpec RoundFacts Spec
  RepFacts Deferred Shapes CircuitShapes LocShapes NewFacts CircuitSpec SinAccuracy CompFacts MathUlp UlpFacts Witness
  PropertiesMath PropertiesAtan PropertiesAuto.
Import ListNotations.
Local Open Scope Z_scope.

#[local] Existing Instance bn254 | 1000.
#[local] Notation bits E M v := (0 <= v < 2 ^ (E + M + 1)).
#[local] Notation R64 p := (B2R (of_bits 11 52 p)).
#[local] Notation R32 p := (B2R (of_bits 8 23 p)).

(** The width that the configuration chooses is 8 for all three. *)
Lemma ulp_widths ft X Z Zl Zu :
  (accepts 0 ft (CircuitATanRemez32ULP X Z Zl Zu) tt <-> accepted 8 (CircuitATanRemez32ULP X Z Zl Zu) tt) /\
  (accepts 0 ft (CircuitATanRemez64ULP X Z Zl Zu) tt <-> accepted 8 (CircuitATanRemez64ULP X Z Zl Zu) tt) /\
  (accepts 0 ft (CircuitSin64ULP X Z Zl Zu) tt <-> accepted 8 (CircuitSin64ULP X Z Zl Zu) tt).
Proof.
  split; [|split].
  - eapply auto_is; [exact (collects_ulp 8 23 _ _ X Z Zl Zu (collects_AtanRemez 8 23 half_pi_32 one_32 atan_coeffs_32))|].
    destruct ft; vm_compute; reflexivity.
  - eapply auto_is; [exact (collects_ulp 11 52 _ _ X Z Zl Zu (collects_AtanRemez 11 52 half_pi_64 one_64 atan_coeffs_64))|].
    destruct ft; vm_compute; reflexivity.
  - eapply auto_is; [exact (collects_ulp 11 52 _ _ X Z Zl Zu (collects_SinTaylor 11 52 pi_64 half_pi_64))|].
    destruct ft; vm_compute; reflexivity.
Qed.

Lemma in_field64 v : 0 <= v < 2 ^ 64 -> 0 <= v < @modulus bn254.
Proof. intros H. split; [lia|]. eapply Z.lt_trans; [exact (proj2 H)|reflexivity]. Qed.
Lemma in_field32 v : 0 <= v < 2 ^ 32 -> 0 <= v < @modulus bn254.
Proof. intros H. split; [lia|]. eapply Z.lt_trans; [exact (proj2 H)|reflexivity]. Qed.

(** ** The arctangent *)
(** For every finite argument there is one double near its arctangent such that exactly the
    following is accepted: an expected value of its binade, and bounds, of any binade and sign,
    whose significands enclose its own. *)
Theorem C63_atan64 ft X : 0 <= X < 2 ^ 64 -> is_finite (of_bits 11 52 X) = true ->
  exists f : fmt 11 52, is_finite f = true /\ Bsign f = Bsign (of_bits 11 52 X) /\
    (Rabs (B2R f - atan (R64 X)) <= / 10000000000000)%R /\
  forall Z Zl Zu, 0 <= Z < modulus -> 0 <= Zl < modulus -> 0 <= Zu < modulus ->
  (accepts 0 ft (CircuitATanRemez64ULP X Z Zl Zu) tt <->
   bits 11 52 Z /\ bits 11 52 Zl /\ bits 11 52 Zu /\
   within f (of_bits 11 52 Z) (of_bits 11 52 Zl) (of_bits 11 52 Zu)).
Proof.
  intros HX FX. pose proof (params64 8 ltac:(lia)) as HP.
  destruct (C45_atan64 (b:=8) (NewConstant 11 52 X) _ eq_refl (newconst_spec (E:=11) (M:=52) X HX) FX)
    as (r & f & Rf & Ff & S1 & S2 & Sf & Vf).
  exists f. split; [exact Ff|]. split; [exact Sf|]. split; [exact Vf|]. intros Z Zl Zu HZ HL HU.
  rewrite (proj1 (proj2 (ulp_widths ft X Z Zl Zu))). unfold CircuitATanRemez64ULP, accepted.
  rewrite (ulp_sat AtanRemez64 X Z Zl Zu (in_field64 X HX) HZ HL HU). split.
  - intros (_ & BZ & BL & BU & r' & Hr & H). rewrite (S2 r' Hr) in H.
    apply (within_wires (b:=8) r f Z Zl Zu Rf Ff BZ BL BU) in H. auto.
  - intros (BZ & BL & BU & H). split; [exact HX|]. split; [exact BZ|]. split; [exact BL|]. split; [exact BU|].
    exists r. split; [exact (exec_sat _ _ _ S1)|]. apply (within_wires (b:=8) r f Z Zl Zu Rf Ff BZ BL BU). exact H.
Qed.
Print Assumptions C63_atan64.

Theorem C63_atan32 ft X : 0 <= X < 2 ^ 32 -> is_finite (of_bits 8 23 X) = true ->
  exists f : fmt 8 23, is_finite f = true /\ Bsign f = Bsign (of_bits 8 23 X) /\
    (Rabs (B2R f - atan (R32 X)) <= 54 / 10000000)%R /\
  forall Z Zl Zu, 0 <= Z < modulus -> 0 <= Zl < modulus -> 0 <= Zu < modulus ->
  (accepts 0 ft (CircuitATanRemez32ULP X Z Zl Zu) tt <->
   bits 8 23 Z /\ bits 8 23 Zl /\ bits 8 23 Zu /\
   within f (of_bits 8 23 Z) (of_bits 8 23 Zl) (of_bits 8 23 Zu)).
Proof.
  intros HX FX. pose proof (params32 8 ltac:(lia)) as HP.
  destruct (C45_atan32 (b:=8) (NewConstant 8 23 X) _ eq_refl (newconst_spec (E:=8) (M:=23) X HX) FX)
    as (r & f & Rf & Ff & S1 & S2 & Sf & Vf).
  exists f. split; [exact Ff|]. split; [exact Sf|]. split; [exact Vf|]. intros Z Zl Zu HZ HL HU.
  rewrite (proj1 (ulp_widths ft X Z Zl Zu)). unfold CircuitATanRemez32ULP, accepted.
  rewrite (ulp_sat AtanRemez32 X Z Zl Zu (in_field32 X HX) HZ HL HU). split.
  - intros (_ & BZ & BL & BU & r' & Hr & H). rewrite (S2 r' Hr) in H.
    apply (within_wires (b:=8) r f Z Zl Zu Rf Ff BZ BL BU) in H. auto.
  - intros (BZ & BL & BU & H). split; [exact HX|]. split; [exact BZ|]. split; [exact BL|]. split; [exact BU|].
    exists r. split; [exact (exec_sat _ _ _ S1)|]. apply (within_wires (b:=8) r f Z Zl Zu Rf Ff BZ BL BU). exact H.
Qed.
Print Assumptions C63_atan32.

(** ** The sine *)
Theorem C63_sin64 ft X : 0 <= X < 2 ^ 64 -> is_finite (of_bits 11 52 X) = true ->
  (- PI <= R64 X <= R64 pi_64)%R ->
  (exists Z, 0 <= Z < 2 ^ 64 /\ accepts 0 ft (CircuitSin64ULP X Z Z Z) tt) /\
  forall Z Zl Zu, 0 <= Z < modulus -> 0 <= Zl < modulus -> 0 <= Zu < modulus ->
  accepts 0 ft (CircuitSin64ULP X Z Zl Zu) tt ->
  bits 11 52 Z /\ bits 11 52 Zl /\ bits 11 52 Zu /\
  exists f : fmt 11 52, is_finite f = true /\
    (Rabs (B2R f - sin (R64 X)) <= 23 / 1000000000000000)%R /\
    within f (of_bits 11 52 Z) (of_bits 11 52 Zl) (of_bits 11 52 Zu).
Proof.
  intros HX FX VX. pose proof (params64 8 ltac:(lia)) as HP.
  destruct (C41_sin64 (b:=8) (NewConstant 11 52 X) _ eq_refl (newconst_spec (E:=11) (M:=52) X HX) FX VX)
    as [[r Hr] S]. split.
  - apply exec_sat in Hr. destruct (S r Hr) as (f & Rf & Ff & _).
    destruct (of_bits_surj f) as (Z & RZ & EZ). exists Z. split; [exact RZ|].
    rewrite (proj2 (proj2 (ulp_widths ft X Z Z Z))). pose proof (in_field64 Z RZ) as HZ.
    unfold CircuitSin64ULP, accepted. rewrite (ulp_sat SinTaylor64 X Z Z Z (in_field64 X HX) HZ HZ HZ).
    split; [exact HX|]. split; [exact RZ|]. split; [exact RZ|]. split; [exact RZ|]. exists r. split; [exact Hr|].
    apply (within_wires (b:=8) r f Z Z Z Rf Ff RZ RZ RZ). rewrite EZ. split; [exact Ff|]. split.
    + destruct (Req_dec (B2R f) 0) as [H0|H0]; [left|right]; auto.
    + split; apply Rle_refl.
  - intros Z Zl Zu HZ HL HU H. rewrite (proj2 (proj2 (ulp_widths ft X Z Zl Zu))) in H.
    unfold CircuitSin64ULP, accepted in H.
    rewrite (ulp_sat SinTaylor64 X Z Zl Zu (in_field64 X HX) HZ HL HU) in H.
    destruct H as (_ & BZ & BL & BU & r' & Hr' & H). destruct (S r' Hr') as (f & Rf & Ff & Vf).
    split; [exact BZ|]. split; [exact BL|]. split; [exact BU|]. exists f. split; [exact Ff|]. split; [exact Vf|].
    apply (within_wires (b:=8) r' f Z Zl Zu Rf Ff BZ BL BU). exact H.
Qed.
Print Assumptions C63_sin64.

(** ** When the interval is one *)
(** With bounds in the binade of the expected value, the magnitude of the function is in the
    interval, up to the accuracy of the circuit. *)
Theorem C63_interval {E M} (f z zl zu : fmt E M) v e :
  is_finite f = true -> within f z zl zu -> (Rabs (B2R f - v) <= e)%R ->
  is_finite zl = true -> is_finite zu = true ->
  same_binade (B2R z) (B2R zl) -> same_binade (B2R z) (B2R zu) ->
  (Rabs (B2R zl) - e <= Rabs v <= Rabs (B2R zu) + e)%R.
Proof.
  intros Ff (Fz & Hb & H1 & H2) Hv Fl Fu Bl Bu.
  pose proof (leading_abs zl f Fl Ff (same_binade_sym _ _ (same_binade_trans _ _ _ Hb Bl)) H1) as L1.
  pose proof (leading_abs f zu Ff Fu (same_binade_trans _ _ _ Hb Bu) H2) as L2.
  pose proof (Rabs_triang_inv2 (B2R f) v) as T.
  pose proof (Rle_trans _ _ _ T Hv) as T'. apply Rabs_le_inv in T'. lra.
Qed.
Print Assumptions C63_interval.

(** ** Negative values *)
(** [AssertIsLessOrEqual] compares mantissas: an interval of negative numbers, given by its ends
    in their order, is empty for the circuit, for every prover and argument. *)
Theorem C63_negative ft X Z Zl Zu : 0 <= X < modulus -> 0 <= Z < modulus ->
  (0 <= Zl < 2 ^ 64 -> 0 <= Zu < 2 ^ 64 ->
   is_finite (of_bits 11 52 Zl) = true -> is_finite (of_bits 11 52 Zu) = true ->
   same_binade (R64 Zl) (R64 Zu) -> (R64 Zl < R64 Zu < 0)%R ->
   ~ accepts 0 ft (CircuitATanRemez64ULP X Z Zl Zu) tt /\ ~ accepts 0 ft (CircuitSin64ULP X Z Zl Zu) tt) /\
  (0 <= Zl < 2 ^ 32 -> 0 <= Zu < 2 ^ 32 ->
   is_finite (of_bits 8 23 Zl) = true -> is_finite (of_bits 8 23 Zu) = true ->
   same_binade (R32 Zl) (R32 Zu) -> (R32 Zl < R32 Zu < 0)%R ->
   ~ accepts 0 ft (CircuitATanRemez32ULP X Z Zl Zu) tt).
Proof.
  intros HX HZ. destruct (ulp_widths ft X Z Zl Zu) as (W1 & W2 & W3).
  pose proof (params64 8 ltac:(lia)) as HP64. pose proof (params32 8 ltac:(lia)) as HP32. split.
  - intros HL HU FL FU HB HN. pose proof (negative_leading _ _ FL FU HB HN) as H.
    rewrite W2, W3.
    unfold CircuitATanRemez64ULP, CircuitSin64ULP, accepted.
    split; exact (ulp_empty (b:=8) _ X Z Zl Zu HX HZ (in_field64 _ HL) (in_field64 _ HU) H).
  - intros HL HU FL FU HB HN. pose proof (negative_leading _ _ FL FU HB HN) as H.
    rewrite W1. unfold CircuitATanRemez32ULP, accepted. exact (ulp_empty (b:=8) _ X Z Zl Zu HX HZ (in_field32 _ HL) (in_field32 _ HU) H).
Qed.
Print Assumptions C63_negative.

(** Lines of the repository's data are such: data/f64/atan_ulp:101, data/f64/sin_ulp:1 and
    data/f32/atan_ulp:101.  The tests that read them (math/math_test.go:317-371, 400-427) expect
    the prover to succeed. *)
Theorem C63_vectors_refuted : exists X1 Z1 L1 U1 X2 Z2 L2 U2 X3 Z3 L3 U3,
  (X1, Z1, L1, U1) = (0xC05015AFCDD78468, 0xBFF8E252EE716F1B, 0xBFF8E252EE716F1C, 0xBFF8E252EE716F1A) /\
  (X2, Z2, L2, U2) = (0x405452B2900E620A, 0xBFD849CC25E0A25B, 0xBFD849CC25E0A25C, 0xBFD849CC25E0A25A) /\
  (X3, Z3, L3, U3) = (0xC190345A, 0xBFC1F7DA, 0xBFC1F7DB, 0xBFC1F7D9) /\
  forall ft, ~ accepts 0 ft (CircuitATanRemez64ULP X1 Z1 L1 U1) tt /\
    ~ accepts 0 ft (CircuitSin64ULP X2 Z2 L2 U2) tt /\
    ~ accepts 0 ft (CircuitATanRemez32ULP X3 Z3 L3 U3) tt.
Proof.
  do 12 eexists. split; [reflexivity|]. split; [reflexivity|]. split; [reflexivity|].
  intros ft. pose proof (params64 8 ltac:(lia)) as HP64. pose proof (params32 8 ltac:(lia)) as HP32.
  split; [|split]; intros H.
  - rewrite (proj1 (proj2 (ulp_widths ft _ _ _ _))) in H. unfold CircuitATanRemez64ULP, accepted in H.
    rewrite ulp_sat in H by (apply in_field64; lia).
    destruct H as (_ & _ & _ & _ & r & _ & _ & H1 & H2). pose proof (Z.le_trans _ _ _ H1 H2) as H.
    vm_compute in H. apply H. reflexivity.
  - rewrite (proj2 (proj2 (ulp_widths ft _ _ _ _))) in H. unfold CircuitSin64ULP, accepted in H.
    rewrite ulp_sat in H by (apply in_field64; lia).
    destruct H as (_ & _ & _ & _ & r & _ & _ & H1 & H2). pose proof (Z.le_trans _ _ _ H1 H2) as H.
    vm_compute in H. apply H. reflexivity.
  - rewrite (proj1 (ulp_widths ft _ _ _ _)) in H. unfold CircuitATanRemez32ULP, accepted in H.
    rewrite ulp_sat in H by (apply in_field32; lia).
    destruct H as (_ & _ & _ & _ & r & _ & _ & H1 & H2). pose proof (Z.le_trans _ _ _ H1 H2) as H.
    vm_compute in H. apply H. reflexivity.
Qed.
Print Assumptions C63_vectors_refuted.

(** The binades of the bounds are not looked at: 1024 is accepted as a lower and a number below
    1/256 as an upper bound of the arctangent of 1. *)
Theorem C63_bounds_refuted : exists Z Zl Zu,
  run 8 (CircuitATanRemez64ULP 0x3FF0000000000000 Z Zl Zu) = Some tt /\
  (R64 Zu < / 256)%R /\ (/ 2 < R64 Z < 1)%R /\ R64 Zl = 1024%R.
Proof.
  exists 0x3FE921FB54442D18, 0x4090000000000000, 0x3F6FFFFFFFFFFFFF. split; [vm_compute; reflexivity|].
  assert (H1 : B2SF (of_bits 11 52 0x3F6FFFFFFFFFFFFF) = SpecFloat.S754_finite false 0x1FFFFFFFFFFFFF (-61))
    by (vm_compute; reflexivity).
  assert (H2 : B2SF (of_bits 11 52 0x3FE921FB54442D18) = SpecFloat.S754_finite false 0x1921FB54442D18 (-53))
    by (vm_compute; reflexivity).
  assert (H3 : B2SF (of_bits 11 52 0x4090000000000000) = SpecFloat.S754_finite false 0x10000000000000 (-42))
    by (vm_compute; reflexivity).
  rewrite (proj1 (B2R_of_SF _ _ _ _ H1)), (proj1 (B2R_of_SF _ _ _ _ H2)), (proj1 (B2R_of_SF _ _ _ _ H3)).
  unfold F2R. cbn [SpecFloat.cond_Zopp Fnum Fexp].
  cbv [bpow Z.pow_pos Pos.iter radix2 radix_val Z.mul Pos.mul]. repeat split; lra.
Qed.
Print Assumptions C63_bounds_refuted.

(** The first line of data/f32/atan_ulp is accepted. *)
Example C63_ex :
  run 8 (CircuitATanRemez32ULP 0x42AD7C41 0x3FC7961C 0x3FC7961B 0x3FC7961D) = Some tt.
Proof. vm_compute. reflexivity. Qed.
