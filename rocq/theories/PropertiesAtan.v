(** Property C45: the arctangent. *)
From Coq Require Import ZArith Reals Lra Lia Bool List.
From Flocq Require Import Core BinarySingleNaN.
From Verif Require Import Field FieldFacts Circuit RangeCheck FloatModel RoundFacts Spec RepFacts EqFacts
  Forge Witness Math AtanAccuracy.
Import ListNotations.
Local Open Scope Z_scope.

(** Every finite argument, any prover: the honest run succeeds, every accepted
    result is the honest one, has the sign of the argument and is close to its
    arctangent. *)
Theorem C45_atan64 {MOD : Modulus} {b : Z} {HP : Params 11 52 b} x (fx : fmt 11 52) :
  pow2_size 11 52 mod b = 0 -> represents x fx -> is_finite fx = true ->
  exists r (f : fmt 11 52), represents r f /\ is_finite f = true /\
    exec b (AtanRemez64 x) = Some r /\ (forall r', sat b (AtanRemez64 x) r' -> r' = r) /\
    Bsign f = Bsign fx /\ (Rabs (B2R f - atan (B2R fx)) <= / 10000000000000)%R.
Proof.
  intros Hd Hx Fx. destruct (atan64_near x fx Hd Hx Fx) as (f & H). exists (wires f), f.
  split; [apply wires_represents|exact H].
Qed.
Print Assumptions C45_atan64.

Theorem C45_atan32 {MOD : Modulus} {b : Z} {HP : Params 8 23 b} x (fx : fmt 8 23) :
  pow2_size 8 23 mod b = 0 -> represents x fx -> is_finite fx = true ->
  exists r (f : fmt 8 23), represents r f /\ is_finite f = true /\
    exec b (AtanRemez32 x) = Some r /\ (forall r', sat b (AtanRemez32 x) r' -> r' = r) /\
    Bsign f = Bsign fx /\ (Rabs (B2R f - atan (B2R fx)) <= 54 / 10000000)%R.
Proof.
  intros Hd Hx Fx. destruct (atan32_near x fx Hd Hx Fx) as (f & H). exists (wires f), f.
  split; [apply wires_represents|exact H].
Qed.
Print Assumptions C45_atan32.

(** The angle of a point: off the axis [x = 0], and as long as the quotient does
    not overflow, the result is close to an angle [t] in [-pi, pi] with
    [x = d cos t] and [y = d sin t], [d] the distance to the origin. *)
Theorem C45_atan2_64 {MOD : Modulus} {b : Z} {HP : Params 11 52 b} y x (fy fx : fmt 11 52) :
  pow2_size 11 52 mod b = 0 -> represents y fy -> represents x fx ->
  is_finite fy = true -> is_finite fx = true -> B2R fx <> 0%R ->
  (Rabs (rne 11 52 (B2R fy / B2R fx)) < bpow radix2 1024)%R ->
  exists r (f : fmt 11 52), represents r f /\ is_finite f = true /\
    exec b (Atan2_64 y x) = Some r /\ (forall r', sat b (Atan2_64 y x) r' -> r' = r) /\
    exists t d, (- PI <= t <= PI)%R /\ (0 <= d)%R /\ (B2R fx = d * cos t)%R /\ (B2R fy = d * sin t)%R /\
      (Rabs (B2R f - t) <= / 10000000000000)%R.
Proof.
  intros Hd Hy Hx Fy Fx Nx Hq.
  destruct (atan2_64_near y x fy fx Hd Hy Hx Fy Fx Nx Hq) as (f & Ff & X & S & t & (T1 & T2 & T3) & Ht).
  exists (wires f), f. split; [apply wires_represents|]. split; [exact Ff|]. split; [exact X|]. split; [exact S|].
  exists t, (sqrt (B2R fx * B2R fx + B2R fy * B2R fy)). split; [exact T1|].
  split; [apply sqrt_pos|]. split; [exact T2|]. split; [exact T3|exact Ht].
Qed.
Print Assumptions C45_atan2_64.

Lemma unflagged_no_datum (f : fmt 11 52) : ~ represents (MOD:=bn254) (mkF 0 1024 0 0) f.
Proof.
  intros (z & Hz & Hf). pose proof (params64 8 ltac:(lia)) as HP.
  pose proof (zrep_zwf (E:=11) (M:=52) _ _ Hf) as Wz.
  change (mkF 0 1024 0 0) with (embF (MOD:=bn254) (mkZ false 1024 0 false)) in Hz. symmetry in Hz.
  apply (embF_inj (E:=11) (M:=52)) in Hz; [|exact Wz|vm_compute; intuition congruence|vm_compute; intuition congruence].
  subst z. destruct Wz as [_ Wz]. vm_compute in Wz. intuition congruence.
Qed.

(** Infinity is not handled: the honest run at an infinite argument, whose
    arctangent is pi/2, ends in wires that stand for no datum, since the abnormal
    flag of the result is the constant 0. *)
Theorem C45_infinity_refuted : exists r,
  run 8 (AtanRemez64 (MOD:=bn254) (w64 (B754_infinity false))) = Some r /\
  forall f : fmt 11 52, ~ represents (MOD:=bn254) r f.
Proof. exists (mkF 0 1024 0 0). split; [vm_compute; reflexivity|exact unflagged_no_datum]. Qed.
Print Assumptions C45_infinity_refuted.

(** Nor is the axis: the point (0, 1) has the direction pi/2. *)
Theorem C45_atan2_axis_refuted : exists (fy fx : fmt 11 52) r,
  B2R fy = 1%R /\ B2R fx = 0%R /\ run 8 (Atan2_64 (MOD:=bn254) (w64 fy) (w64 fx)) = Some r /\
  forall f : fmt 11 52, ~ represents (MOD:=bn254) r f.
Proof.
  exists (of_bits 11 52 one_64), (B754_zero false), (mkF 0 1024 0 0). split; [exact one64_R|].
  split; [reflexivity|]. split; [vm_compute; reflexivity|exact unflagged_no_datum].
Qed.
Print Assumptions C45_atan2_axis_refuted.

(** The error is absolute: the arctangent of zero is not zero. *)
Theorem C45_zero_refuted : exists r (f : fmt 11 52),
  run 8 (AtanRemez64 (MOD:=bn254) (w64 (B754_zero false))) = Some r /\
  represents (MOD:=bn254) r f /\ is_finite f = true /\ (0 < B2R f)%R.
Proof.
  exists (w64 (f64 8703235009495304 (-114))), (f64 8703235009495304 (-114)).
  split; [vm_compute; reflexivity|]. split; [apply wires_represents|]. split; [vm_compute; reflexivity|].
  assert (H : B2SF (f64 8703235009495304 (-114)) = SpecFloat.S754_finite false 8703235009495304 (-114))
    by (vm_compute; reflexivity).
  destruct (SinAccuracy.B2R_of_SF _ _ _ _ H) as (V & _ & _). rewrite V.
  apply F2R_gt_0. reflexivity.
Qed.
Print Assumptions C45_zero_refuted.

(** The arctangent of -3, and the direction of (-1, -1). *)
Example C45_ex : pow2_size 11 52 mod 8 = 0 /\ pow2_size 8 23 mod 8 = 0 /\
  run 8 (AtanRemez32 (MOD:=bn254) (w32 (f32 (-3) 0))) = Some (w32 (f32 (-10477756) (-23))) /\
  run 8 (Atan2_64 (MOD:=bn254) (w64 (f64 (-1) 0)) (w64 (f64 (-1) 0))) = Some (w64 (f64 (-5305678314021330) (-51))).
Proof. repeat apply conj; vm_compute; reflexivity. Qed.
