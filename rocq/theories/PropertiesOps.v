(** Properties C18-C26: comparisons, rounding to integers, integer conversion,
    equality assertions, sign operations and selection. *)
From Coq Require Import ZArith Reals Bool List.
From Flocq Require Import Core BinarySingleNaN.
From Verif Require Import Field Circuit RangeCheck FloatModel RoundFacts Spec AddSpec Forge
  CmpFacts TruncFacts TruncSpec ToIntFacts EqFacts Witness.
Import ListNotations.
Local Open Scope Z_scope.

#[local] Existing Instance bn254 | 1000.
#[local] Notation trunc32 := (Trunc (MOD:=bn254) 8 23).
#[local] Notation floor32 := (Floor (MOD:=bn254) 8 23).
#[local] Notation ceil32 := (Ceil (MOD:=bn254) 8 23).
#[local] Notation trunc64 := (Trunc (MOD:=bn254) 11 52).
#[local] Notation floor64 := (Floor (MOD:=bn254) 11 52).
#[local] Notation ceil64 := (Ceil (MOD:=bn254) 11 52).
#[local] Notation toint32 := (ToInt (MOD:=bn254) 8 23).
#[local] Notation toint64 := (ToInt (MOD:=bn254) 11 52).
#[local] Notation custom32 := (AssertIsEqualOrCustomULP (MOD:=bn254) 8 23).

(** ** C18: comparisons *)

Theorem C18_cmp_complete {MOD : Modulus} {E M b : Z} {HP : Params E M b} {HF : Format E M}
  x y (fx fy : fmt E M) : represents x fx -> represents y fy ->
  exec b (IsLt E M x y) = Some (emb (Z.b2z (ieee_lt E M fx fy))) /\
  exec b (IsLe E M x y) = Some (emb (Z.b2z (ieee_le E M fx fy))) /\
  exec b (IsGt E M x y) = Some (emb (Z.b2z (ieee_lt E M fy fx))) /\
  exec b (IsGe E M x y) = Some (emb (Z.b2z (ieee_le E M fy fx))).
Proof. exact (cmp_complete x y fx fy). Qed.
Print Assumptions C18_cmp_complete.

Theorem C18_cmp_sound {MOD : Modulus} {E M b : Z} {HP : Params E M b} {HF : Format E M}
  x y (fx fy : fmt E M) r : represents x fx -> represents y fy ->
  (sat b (IsLt E M x y) r -> r = emb (Z.b2z (ieee_lt E M fx fy))) /\
  (sat b (IsLe E M x y) r -> r = emb (Z.b2z (ieee_le E M fx fy))) /\
  (sat b (IsGt E M x y) r -> r = emb (Z.b2z (ieee_lt E M fy fx))) /\
  (sat b (IsGe E M x y) r -> r = emb (Z.b2z (ieee_le E M fy fx))).
Proof. exact (cmp_sound x y fx fy r). Qed.
Print Assumptions C18_cmp_sound.

Example C18_ex :
  run 7 (IsLt (MOD:=bn254) 8 23 (w32 (f32 (-3) 4)) (w32 (f32 (-3) 3))) = Some 1 /\
  run 7 (IsLe (MOD:=bn254) 8 23 (w32 (B754_zero false)) (w32 (B754_zero true))) = Some 1 /\
  run 7 (IsLt (MOD:=bn254) 8 23 (w32 (B754_zero true)) (w32 (B754_zero false))) = Some 0 /\
  run 7 (IsGe (MOD:=bn254) 8 23 (w32 B754_nan) (w32 B754_nan)) = Some 0 /\
  run 7 (IsGt (MOD:=bn254) 11 52 (w64 (B754_infinity false)) (w64 max64)) = Some 1.
Proof. repeat split; vm_compute; reflexivity. Qed.

(** ** C19, C20: rounding to an integral value *)

Theorem C19_trunc_complete {MOD : Modulus} {E M b : Z} {HP : Params E M b} {HF : Format E M}
  x (fx : fmt E M) : represents x fx ->
  exists r, exec b (Trunc E M x) = Some r /\ represents r (ieee_trunc E M fx).
Proof. exact (trunc_complete x fx). Qed.
Print Assumptions C19_trunc_complete.

Theorem C19_floor_complete {MOD : Modulus} {E M b : Z} {HP : Params E M b} {HF : Format E M}
  x (fx : fmt E M) : represents x fx ->
  exists r, exec b (Floor E M x) = Some r /\ represents r (ieee_floor E M fx).
Proof. exact (floor_complete x fx). Qed.
Print Assumptions C19_floor_complete.

Theorem C19_ceil_complete {MOD : Modulus} {E M b : Z} {HP : Params E M b} {HF : Format E M}
  x (fx : fmt E M) : represents x fx ->
  exists r, exec b (Ceil E M x) = Some r /\ represents r (ieee_ceil E M fx).
Proof. exact (ceil_complete x fx). Qed.
Print Assumptions C19_ceil_complete.

Example C19_ex_trunc :
  run 5 (trunc32 (w32 (f32 (-29) (-2)))) = Some (w32 (f32 (-7) 0)) /\
  run 5 (trunc32 (w32 (f32 (-1) (-149)))) = Some (w32 (B754_zero true)) /\
  run 5 (trunc64 (w64 (B754_infinity true))) = Some (w64 (B754_infinity true)).
Proof. repeat split; vm_compute; reflexivity. Qed.
Example C19_ex_floor :
  run 5 (floor32 (w32 (f32 (-29) (-2)))) = Some (w32 (f32 (-8) 0)) /\
  run 5 (floor32 (w32 (f32 (-1) (-149)))) = Some (w32 (f32 (-1) 0)) /\
  run 5 (floor64 (w64 (f64 (- (2 ^ 53 - 1)) (-1)))) = Some (w64 (f64 (-1) 52)).
Proof. repeat split; vm_compute; reflexivity. Qed.
Example C19_ex_ceil :
  run 5 (ceil32 (w32 (f32 29 (-2)))) = Some (w32 (f32 8 0)) /\
  run 5 (ceil32 (w32 (f32 (-1) (-1)))) = Some (w32 (B754_zero true)) /\
  run 5 (ceil64 (w64 (f64 3 70))) = Some (w64 (f64 3 70)).
Proof. repeat split; vm_compute; reflexivity. Qed.

Theorem C20_trunc_sound {MOD : Modulus} {E M b : Z} {HP : Params E M b} {HF : Format E M}
  x (fx : fmt E M) r : pow2_size E M mod b = 0 -> represents x fx ->
  sat b (Trunc E M x) r ->
  represents r (ieee_trunc E M fx) \/
  (in_1_2 E M fx /\ represents (E:=E) (M:=M) r (B754_zero (Bsign fx))).
Proof. exact (trunc_sound x fx r). Qed.
Print Assumptions C20_trunc_sound.

Theorem C20_floor_sound {MOD : Modulus} {E M b : Z} {HP : Params E M b} {HF : Format E M}
  x (fx : fmt E M) r : pow2_size E M mod b = 0 -> represents x fx ->
  sat b (Floor E M x) r ->
  represents r (ieee_floor E M fx) \/
  (in_1_2 E M fx /\
   represents r (if Bsign fx then ieee_neg E M (ieee_one E M) else B754_zero false)).
Proof. exact (floor_sound x fx r). Qed.
Print Assumptions C20_floor_sound.

Theorem C20_ceil_sound {MOD : Modulus} {E M b : Z} {HP : Params E M b} {HF : Format E M}
  x (fx : fmt E M) r : pow2_size E M mod b = 0 -> represents x fx ->
  sat b (Ceil E M x) r ->
  represents r (ieee_ceil E M fx) \/
  (in_1_2 E M fx /\ represents r (if Bsign fx then B754_zero true else ieee_one E M)).
Proof. exact (ceil_sound x fx r). Qed.
Print Assumptions C20_ceil_sound.

Example C20_ex : pow2_size 8 23 mod 16 = 0 /\
  accepted 16 (trunc32 (w32 (f32 29 (-2)))) (w32 (f32 7 0)) /\
  accepted 16 (floor64 (w64 (f64 (-29) (-2)))) (w64 (f64 (-8) 0)) /\
  accepted 16 (ceil64 (w64 (f64 (-29) (-2)))) (w64 (f64 (-7) 0)).
Proof.
  split; [reflexivity|]. repeat split; apply accepted_run; vm_compute; reflexivity.
Qed.

(** The exception is real, for every datum of magnitude in [1,2) and every
    base width. *)
Theorem C20_trunc_forgery {MOD : Modulus} {E M b : Z} {HP : Params E M b} {HF : Format E M}
  x (fx : fmt E M) : represents x fx -> in_1_2 E M fx ->
  exists r, sat b (Trunc E M x) r /\ represents (E:=E) (M:=M) r (B754_zero (Bsign fx)).
Proof. exact (trunc_forgery x fx). Qed.
Print Assumptions C20_trunc_forgery.

Theorem C20_floor_forgery {MOD : Modulus} {E M b : Z} {HP : Params E M b} {HF : Format E M}
  x (fx : fmt E M) : represents x fx -> in_1_2 E M fx ->
  exists r, sat b (Floor E M x) r /\
    represents r (if Bsign fx then ieee_neg E M (ieee_one E M) else B754_zero false).
Proof. exact (floor_forgery x fx). Qed.
Print Assumptions C20_floor_forgery.

Theorem C20_ceil_forgery {MOD : Modulus} {E M b : Z} {HP : Params E M b} {HF : Format E M}
  x (fx : fmt E M) : represents x fx -> in_1_2 E M fx ->
  exists r, sat b (Ceil E M x) r /\
    represents r (if Bsign fx then B754_zero true else ieee_one E M).
Proof. exact (ceil_forgery x fx). Qed.
Print Assumptions C20_ceil_forgery.

(** Trunc(1.5) = 0, Floor(-1.5) = -1, Ceil(1.5) = 1: the prover answers 0 to
    "is the exponent 0 positive?". *)
Example C20_ex_forged :
  accepted 8 (trunc32 (w32 (f32 3 (-1)))) (w32 (B754_zero false)) /\
  accepted 8 (floor32 (w32 (f32 (-3) (-1)))) (w32 (f32 (-1) 0)) /\
  accepted 8 (ceil32 (w32 (f32 3 (-1)))) (w32 (f32 1 0)).
Proof.
  repeat split; apply (accepted_forge 8 _ [Some 0]); vm_compute; reflexivity.
Qed.

Theorem C20_trunc_only_ieee_refuted : exists (fx : fmt 8 23) r,
  accepted 8 (trunc32 (w32 fx)) r /\ ~ represents (MOD:=bn254) r (ieee_trunc 8 23 fx).
Proof.
  exists (f32 3 (-1)), (w32 (B754_zero false)). split.
  - apply (accepted_forge 8 _ [Some 0]). vm_compute. reflexivity.
  - intros H. apply (represents_inj (MOD:=bn254) (HP:=params32 8 ltac:(Lia.lia)) _ _ (B754_zero false)) in H;
      [|apply wires_represents].
    apply (f_equal (fun f => B2SF f)) in H. vm_compute in H. discriminate H.
Qed.
Print Assumptions C20_trunc_only_ieee_refuted.

(** ** C21, C22: conversion to an integer *)

Theorem C21_toint_complete {MOD : Modulus} {E M b : Z} {HP : Params E M b} {HF : Format E M}
  x (fx : fmt E M) n : represents x fx -> is_finite fx = true -> B2R fx = IZR n ->
  Z.abs n < 2 ^ (M + E + 1) -> exec b (ToInt E M x) = Some (emb n).
Proof. exact (toint_complete x fx n). Qed.
Print Assumptions C21_toint_complete.

Theorem C21_toint_sound {MOD : Modulus} {E M b : Z} {HP : Params E M b} {HF : Format E M}
  x (fx : fmt E M) n r : pow2_size E M mod b = 0 -> represents x fx ->
  is_finite fx = true -> B2R fx = IZR n -> sat b (ToInt E M x) r ->
  Z.abs n < 2 ^ (M + E + 1) /\ r = emb n.
Proof. exact (toint_sound_integral x fx n r). Qed.
Print Assumptions C21_toint_sound.

(** Applied to a datum that is not an integer, it is only accepted for a finite
    one of magnitude 0 or in [1, 2^(M+E+1)), and gives the quotient in the field
    of the scaled value by 2^M. *)
Theorem C21_toint_sound_any {MOD : Modulus} {E M b : Z} {HP : Params E M b} {HF : Format E M}
  x (fx : fmt E M) r : pow2_size E M mod b = 0 -> represents x fx ->
  sat b (ToInt E M x) r ->
  is_finite fx = true /\ (B2R fx = 0%R \/ (1 <= Rabs (B2R fx))%R) /\
  (Rabs (B2R fx) < bpow radix2 (M + E + 1))%R /\
  exists k, (B2R fx * bpow radix2 M)%R = IZR k /\ emb (r * 2 ^ M) = emb k.
Proof. exact (toint_sound x fx r). Qed.
Print Assumptions C21_toint_sound_any.

Example C21_ex :
  run 9 (toint32 (w32 (f32 (-7) 0))) = Some (bn254 - 7) /\
  run 9 (toint32 (w32 (f32 5 20))) = Some (5 * 2 ^ 20) /\
  run 9 (toint32 (w32 (B754_zero true))) = Some 0 /\
  run 9 (toint32 (w32 (f32 1 32))) = None /\
  run 9 (toint64 (w64 (f64 (2 ^ 53 - 1) 0))) = Some (2 ^ 53 - 1).
Proof. repeat split; vm_compute; reflexivity. Qed.

Theorem C22_toint_forgery {MOD : Modulus} {E M b : Z} {HP : Params E M b} {HF : Format E M}
  x (fx : fmt E M) n : pow2_size E M mod b <> 0 -> represents x fx ->
  is_finite fx = true -> B2R fx = IZR n -> n <> 0 -> Z.abs n < 2 ^ (M + E) ->
  exists r, sat b (ToInt E M x) r /\ r <> emb n.
Proof. exact (toint_forgery x fx n). Qed.
Print Assumptions C22_toint_forgery.

(** ToInt(1.0) = 2 + 2^32. *)
Theorem C22_toint_refuted : pow2_size 8 23 mod 12 <> 0 /\
  accepted 12 (toint32 (w32 (f32 1 0))) (2 + 2 ^ 32) /\
  run 12 (toint32 (w32 (f32 1 0))) = Some 1.
Proof.
  split; [vm_compute; discriminate|]. split; [|vm_compute; reflexivity].
  apply (accepted_forge 12 _ [Some (2 + 2 ^ 32)]). vm_compute. reflexivity.
Qed.
Print Assumptions C22_toint_refuted.

(** 1966081 * 1 = 0: the power of two for the shift 0 is answered by
    [2^15 + 15 * 2^32 = 2^15 * 1966081]. *)
Theorem C22_mul_refuted : exists fx fy : fmt 8 23,
  accepted 12 (Mul (MOD:=bn254) 8 23 (w32 fx) (w32 fy)) (w32 (B754_zero false)) /\
  B2SF (ieee_mul 8 23 fx fy) = B2SF (f32 1966081 0).
Proof.
  exists (f32 1966081 0), (f32 1 0). split; [|vm_compute; reflexivity].
  apply (accepted_forge 12 _ (honest 5 ++ [Some (2 ^ 15 + 15 * 2 ^ 32)])).
  vm_compute. reflexivity.
Qed.
Print Assumptions C22_mul_refuted.

(** Trunc(65537/256) with mantissa 0. *)
Theorem C22_trunc_refuted :
  accepted 12 (trunc32 (w32 (f32 65537 (-8)))) (mkF 0 8 0 0) /\
  run 12 (trunc32 (w32 (f32 65537 (-8)))) = Some (w32 (f32 256 0)).
Proof.
  split; [|vm_compute; reflexivity].
  apply (accepted_forge 12 _ (honest 4 ++ [Some (2 ^ 16 + 2 ^ 32)])). vm_compute. reflexivity.
Qed.
Print Assumptions C22_trunc_refuted.

(** ** C23: AssertIsEqual *)

Theorem C23_eq {MOD : Modulus} {E M b : Z} {HP : Params E M b} {HF : Format E M}
  x y (fx fy : fmt E M) : represents x fx -> represents y fy ->
  (sat b (AssertIsEqual x y) tt <-> fx = fy) /\ (exec b (AssertIsEqual x y) = Some tt <-> fx = fy).
Proof. exact (eq_spec x y fx fy). Qed.
Print Assumptions C23_eq.

Example C23_ex :
  run 4 (AssertIsEqual (w32 (f32 3 5)) (w32 (f32 6 4))) = Some tt /\
  run 4 (AssertIsEqual (w32 (B754_zero true)) (w32 (B754_zero false))) = None /\
  run 4 (AssertIsEqual (embF (mkZ true 128 0 true)) (embF (mkZ false 128 0 true))) = Some tt /\
  run 4 (AssertIsEqual (w32 (f32 1 (-149))) (w32 (B754_zero false))) = None.
Proof. repeat split; vm_compute; reflexivity. Qed.

(** ** C24: AssertIsEqualOrULP *)

Theorem C24_eq_or_ulp {MOD : Modulus} {E M b : Z} {HP : Params E M b} {HF : Format E M}
  x y (fx fy : fmt E M) : represents x fx -> represents y fy ->
  (sat b (AssertIsEqualOrULP M x y) tt
     <-> fx = fy \/ ulp_above E M fx fy \/ ulp_above E M fy fx) /\
  (exec b (AssertIsEqualOrULP M x y) = Some tt
     <-> fx = fy \/ ulp_above E M fx fy \/ ulp_above E M fy fx).
Proof. exact (eq_ulp_spec x y fx fy). Qed.
Print Assumptions C24_eq_or_ulp.

Example C24_ex :
  run 4 (AssertIsEqualOrULP 23 (w32 (f32 (2 ^ 23) 0)) (w32 (f32 (2 ^ 23 + 1) 0))) = Some tt /\
  run 4 (AssertIsEqualOrULP 23 (w32 (f32 (2 ^ 24 - 1) 0)) (w32 (f32 (2 ^ 24) 0))) = Some tt /\
  run 4 (AssertIsEqualOrULP 23 (w32 (f32 (2 ^ 23) 0)) (w32 (f32 (2 ^ 23 + 2) 0))) = None /\
  run 4 (AssertIsEqualOrULP 23 (w32 (f32 1 0)) (w32 (f32 (-1) 0))) = None /\
  run 4 (AssertIsEqualOrULP 23 (w32 B754_nan) (w32 (f32 (-1) 0))) = None.
Proof. repeat split; vm_compute; reflexivity. Qed.
(** The largest finite datum counts as one ulp below infinity; adjacent
    subnormals, and zero and the least subnormal, do not count. *)
Theorem C24_largest_and_infinity : ulp_above 8 23 max32 (B754_infinity false).
Proof.
  apply (zulp_spec (comps max32) (comps (B754_infinity false)) _ _ (comps_zrep _) (comps_zrep _)).
  vm_compute. reflexivity.
Qed.
Print Assumptions C24_largest_and_infinity.
Theorem C24_subnormals_not : ~ ulp_above 8 23 (f32 5 (-149)) (f32 6 (-149)) /\
  ~ ulp_above 8 23 (B754_zero false) (f32 1 (-149)).
Proof.
  split; intros H; apply (zulp_spec (comps _) (comps _) _ _ (comps_zrep _) (comps_zrep _)) in H;
    vm_compute in H; discriminate H.
Qed.
Print Assumptions C24_subnormals_not.
Example C24_ex_extremes :
  run 4 (AssertIsEqualOrULP 23 (w32 max32) (w32 (B754_infinity false))) = Some tt /\
  run 4 (AssertIsEqualOrULP 23 (w32 (f32 5 (-149))) (w32 (f32 6 (-149)))) = None /\
  run 4 (AssertIsEqualOrULP 23 (w32 (f32 1 (-149))) (w32 (B754_zero false))) = None.
Proof. repeat split; vm_compute; reflexivity. Qed.

(** ** C25: AssertIsEqualOrCustomULP *)

Theorem C25_custom_complete {MOD : Modulus} {E M b : Z} {HP : Params E M b} {HF : Format E M}
  x y (fx fy : fmt E M) t : 0 <= t < 2 ^ (E + M + 1) -> represents x fx -> represents y fy ->
  (exec b (AssertIsEqualOrCustomULP E M x y t) = Some tt <-> ieee_within E M fx fy t).
Proof. exact (eq_custom_complete x y fx fy t). Qed.
Print Assumptions C25_custom_complete.

Theorem C25_custom_sound {MOD : Modulus} {E M b : Z} {HP : Params E M b} {HF : Format E M}
  x y (fx fy : fmt E M) t : pow2_size E M mod b = 0 -> 0 <= t < 2 ^ (E + M + 1) ->
  represents x fx -> represents y fy ->
  (sat b (AssertIsEqualOrCustomULP E M x y t) tt <-> ieee_within E M fx fy t).
Proof. exact (eq_custom_sound x y fx fy t). Qed.
Print Assumptions C25_custom_sound.

(** With tolerance 1.0: 1 and 1.5 pass although 2^22 units in the last place
    apart; 2^100 and its successor do not. *)
Example C25_ex :
  run 4 (custom32 (w32 (f32 1 0)) (w32 (f32 3 (-1))) (127 * 2 ^ 23)) = Some tt /\
  run 4 (custom32 (w32 (f32 (2 ^ 23) 77)) (w32 (f32 (2 ^ 23 + 1) 77)) (127 * 2 ^ 23)) = None /\
  run 4 (custom32 (w32 max32) (w32 max32) 0) = Some tt /\
  run 4 (custom32 (w32 (f32 1 (-10))) (w32 (f32 (-1) (-10))) (127 * 2 ^ 23)) = None.
Proof. repeat split; vm_compute; reflexivity. Qed.

(** ** C26: sign operations and selection *)

Theorem C26_neg {MOD : Modulus} {E M : Z}
  x (fx : fmt E M) : represents x fx -> represents (Neg x) (ieee_neg E M fx).
Proof. exact (neg_spec x fx). Qed.
Print Assumptions C26_neg.

Theorem C26_abs {MOD : Modulus} {E M : Z}
  x (fx : fmt E M) : represents x fx -> represents (FAbs x) (ieee_abs E M fx).
Proof. exact (abs_spec x fx). Qed.
Print Assumptions C26_abs.

Theorem C26_select {MOD : Modulus} {E M b : Z} {HP : Params E M b} {HF : Format E M}
  (c : bool) x y :
  exec b (FSelect (emb (Z.b2z c)) x y) = Some (if c then x else y) /\
  (forall r, sat b (FSelect (emb (Z.b2z c)) x y) r -> r = if c then x else y).
Proof. exact (select_spec c x y). Qed.
Print Assumptions C26_select.

Theorem C26_select_boolean {MOD : Modulus} {E M b : Z} {HP : Params E M b} {HF : Format E M}
  v x y r : sat b (FSelect v x y) r -> v = emb 0 \/ v = emb 1.
Proof. exact (select_bool v x y r). Qed.
Print Assumptions C26_select_boolean.

Example C26_ex :
  Neg (w32 (f32 3 0)) = w32 (f32 (-3) 0) /\ FAbs (w32 (f32 (-3) 0)) = w32 (f32 3 0) /\
  Neg (w32 (B754_zero false)) = w32 (B754_zero true) /\
  run 4 (FSelect 1 (w32 (f32 3 0)) (w32 (f32 5 0))) = Some (w32 (f32 3 0)) /\
  run 4 (FSelect 0 (w32 (f32 3 0)) (w32 (f32 5 0))) = Some (w32 (f32 5 0)) /\
  run 4 (FSelect 2 (w32 (f32 3 0)) (w32 (f32 3 0))) = None.
Proof. repeat split; vm_compute; reflexivity. Qed.
