(** Properties C29, C41 and C42: polynomials, the sine, and the circuits that
    test them. *)
From Coq Require Import ZArith Reals Lra Bool List.
From Flocq Require Import Core BinarySingleNaN.
From Verif Require Import Field FieldFacts Circuit RangeCheck FloatModel RoundFacts Spec Outcomes
  Witness Math MathSpec ValueFacts MathFacts ErrorFacts EvalKFacts SinError SinAccuracy
  MathCircuitFacts.
Import ListNotations.
Local Open Scope Z_scope.

(** ** C29: polynomial evaluation *)

(** Honest run of [Eval]: Horner's rule in IEEE arithmetic, [p_i] being the
    coefficient of [x^i]. *)
Theorem C29_eval_complete {MOD : Modulus} {E M b : Z} {HP : Params E M b} {HF : Format E M}
    p at_ (fp : list (fmt E M)) (fa : fmt E M) :
  Forall2 represents p fp -> represents at_ fa -> horner_no_max_cancel E M fp fa ->
  exists r, exec b (Eval E M p at_) = Some r /\ represents r (ieee_horner E M fp fa).
Proof. exact (eval_complete p at_ fp fa). Qed.
Print Assumptions C29_eval_complete.

(** Any prover: the value is that of Horner's rule, rounded at each step. *)
Theorem C29_eval_sound {MOD : Modulus} {E M b : Z} {HP : Params E M b} {HF : Format E M}
    p at_ (vp : list R) (va : R) r :
  pow2_size E M mod b = 0 -> Forall2 (valued (E:=E) (M:=M)) p vp -> valued (E:=E) (M:=M) at_ va ->
  horner_fits E M vp va -> sat b (Eval E M p at_) r ->
  exists f : fmt E M, represents r f /\ is_finite f = true /\ B2R f = rounded_horner E M vp va.
Proof. intros Hd Hp Ha Hf. exact (proj2 (eval_value p at_ vp va Hd Hp Ha Hf) r). Qed.
Print Assumptions C29_eval_sound.

(** That value is the polynomial up to the classical error bound. *)
Theorem C29_eval_error {E M : Z} {HF : Format E M} (p : list R) (x : R) :
  Forall (in_format (E:=E) (M:=M)) p ->
  (Rabs (rounded_horner E M p x - poly p x) <= horner_error E M p x)%R.
Proof. exact (horner_error_bound p x). Qed.
Print Assumptions C29_eval_error.

(** [EvalK] with one part is [Eval] on the reversed list: same accepted results,
    same honest run. *)
Theorem C29_evalk_one {MOD : Modulus} {E M b : Z} {HP : Params E M b} p at_ :
  (forall r, sat b (EvalK E M p at_ 1) r <-> sat b (Eval E M (rev p) at_) r) /\
  exec b (EvalK E M p at_ 1) = exec b (Eval E M (rev p) at_).
Proof. exact (evalk_one (b:=b) p at_). Qed.
Print Assumptions C29_evalk_one.

(** With [k] parts it is not polynomial evaluation: at the point 1 the constant
    polynomial 1 gives [k], whoever proves. *)
Theorem C29_evalk_many {MOD : Modulus} {E M b : Z} {HP : Params E M b} {HF : Format E M} one at_ k :
  pow2_size E M mod b = 0 -> M + 2 < emax E - 1 -> (1 <= k)%nat -> Z.of_nat k <= 2 ^ (M + 1) ->
  valued (E:=E) (M:=M) one 1 -> valued (E:=E) (M:=M) at_ 1 ->
  (exists r, exec b (EvalK E M [one] at_ k) = Some r) /\
  forall r, sat b (EvalK E M [one] at_ k) r ->
  exists f : fmt E M, represents r f /\ is_finite f = true /\ B2R f = IZR (Z.of_nat k).
Proof. intros Hd Hr Hk Hk2 Ho Ha. exact (evalk_ones Hd Hr one at_ k Hk Hk2 Ho Ha). Qed.
Print Assumptions C29_evalk_many.

Lemma f32_R m e : Z.abs m < 2 ^ 24 -> -149 <= e <= 104 -> B2R (f32 m e) = (IZR m * bpow radix2 e)%R.
Proof. intros Hm He. apply (lit_exact (E:=8) (M:=23) m e Hm);
  [change (emin 8 23) with (-149)|change (emax 8) with 128; change (prec 23) with 24]; Lia.lia. Qed.

Theorem C29_evalk_two_refuted :
  exists (p : list (fmt 8 23)) (x g : fmt 8 23) b r, poly (map B2R p) (B2R x) = 1%R /\
    B2R g = 2%R /\ represents (MOD:=bn254) r g /\
    run b (EvalK (MOD:=bn254) 8 23 (map w32 p) (w32 x) 2) = Some r.
Proof.
  exists [f32 1 0], (f32 1 0), (f32 1 1), 8, (w32 (f32 1 1)).
  assert (H1 : B2R (f32 1 0) = 1%R).
  { rewrite (f32_R 1 0) by (vm_compute; intuition congruence). cbn. lra. }
  split; [cbn [map poly]; rewrite H1; lra|]. split.
  - rewrite (f32_R 1 1) by (vm_compute; intuition congruence). cbn. lra.
  - split; [apply wires_represents|]. vm_compute. reflexivity.
Qed.
Print Assumptions C29_evalk_two_refuted.

(** 3 + 2x + x^2 at x = 5, from the lowest coefficient with [Eval] and from the
    highest with [EvalK]. *)
Example C29_ex :
  run 8 (Eval (MOD:=bn254) 8 23 (map w32 [f32 3 0; f32 1 1; f32 1 0]) (w32 (f32 5 0)))
    = Some (w32 (f32 38 0)) /\
  run 8 (EvalK (MOD:=bn254) 8 23 (map w32 [f32 1 0; f32 1 1; f32 3 0]) (w32 (f32 5 0)) 1)
    = Some (w32 (f32 38 0)).
Proof. split; vm_compute; reflexivity. Qed.

(** Rounded at each step: the square of 1 + 2^-12 loses its last term. *)
Example C29_ex_rounded :
  run 8 (Eval (MOD:=bn254) 8 23 (map w32 [f32 0 0; f32 0 0; f32 1 0]) (w32 (f32 4097 (-12))))
    = Some (w32 (f32 4098 (-12))).
Proof. vm_compute. reflexivity. Qed.

(** The vector of math/math_test.go:60-61. *)
Example C29_ex_repository :
  run 6 (PolynomialEvalCircuit (MOD:=bn254) 0xC0439E19C2746C32 0xC105BF38139DAE59) = Some tt.
Proof. vm_compute. reflexivity. Qed.

(** ** C41: the sine *)

(** [B2R (of_bits 11 52 pi_64)] is the constant [math.Pi] of the circuit. *)
Theorem C41_sin64 {MOD : Modulus} {b : Z} {HP : Params 11 52 b} x (fx : fmt 11 52) :
  pow2_size 11 52 mod b = 0 -> represents x fx -> is_finite fx = true ->
  (- PI <= B2R fx <= B2R (of_bits 11 52 pi_64))%R ->
  (exists r, exec b (SinTaylor64 x) = Some r) /\
  forall r, sat b (SinTaylor64 x) r ->
  exists f : fmt 11 52, represents r f /\ is_finite f = true /\
    (Rabs (B2R f - sin (B2R fx)) <= 23 / 1000000000000000)%R.
Proof. exact (sin64_wide x fx). Qed.
Print Assumptions C41_sin64.

Theorem C41_sin64_near {MOD : Modulus} {b : Z} {HP : Params 11 52 b} x (fx : fmt 11 52) :
  pow2_size 11 52 mod b = 0 -> represents x fx -> is_finite fx = true ->
  (- (8 / 5) <= B2R fx <= B2R (of_bits 11 52 pi_64))%R ->
  (exists r, exec b (SinTaylor64 x) = Some r) /\
  forall r, sat b (SinTaylor64 x) r ->
  exists f : fmt 11 52, represents r f /\ is_finite f = true /\
    (Rabs (B2R f - sin (B2R fx)) <= 5 / 1000000000000000)%R.
Proof. exact (sin64_near x fx). Qed.
Print Assumptions C41_sin64_near.

Theorem C41_sin32 {MOD : Modulus} {b : Z} {HP : Params 8 23 b} x (fx : fmt 8 23) :
  pow2_size 8 23 mod b = 0 -> represents x fx -> is_finite fx = true ->
  (- PI <= B2R fx <= B2R (of_bits 8 23 pi_32))%R ->
  (exists r, exec b (SinTaylor32 x) = Some r) /\
  forall r, sat b (SinTaylor32 x) r ->
  exists f : fmt 8 23, represents r f /\ is_finite f = true /\
    (Rabs (B2R f - sin (B2R fx)) <= 13 / 1000000)%R.
Proof. exact (sin32_wide x fx). Qed.
Print Assumptions C41_sin32.

Theorem C41_sin32_near {MOD : Modulus} {b : Z} {HP : Params 8 23 b} x (fx : fmt 8 23) :
  pow2_size 8 23 mod b = 0 -> represents x fx -> is_finite fx = true ->
  (- (8 / 5) <= B2R fx <= B2R (of_bits 8 23 pi_32))%R ->
  (exists r, exec b (SinTaylor32 x) = Some r) /\
  forall r, sat b (SinTaylor32 x) r ->
  exists f : fmt 8 23, represents r f /\ is_finite f = true /\
    (Rabs (B2R f - sin (B2R fx)) <= 25 / 10000000)%R.
Proof. exact (sin32_near x fx). Qed.
Print Assumptions C41_sin32_near.

(** Beyond pi the folding loses the sign: sin 4 is negative, the gadget's answer
    is above 3/4. *)
Theorem C41_beyond_pi_refuted :
  exists (x g : fmt 8 23) b r, (PI < B2R x < 2 * PI)%R /\ (sin (B2R x) < 0)%R /\
    (3 / 4 < B2R g)%R /\ represents (MOD:=bn254) r g /\
    run b (SinTaylor32 (MOD:=bn254) (w32 x)) = Some r.
Proof.
  exists (f32 1 2), (f32 12697039 (-24)), 8, (w32 (f32 12697039 (-24))).
  assert (H1 : B2R (f32 1 2) = 4%R).
  { rewrite (f32_R 1 2) by (vm_compute; intuition congruence). cbn. lra. }
  pose proof pi_bounds as Hp. rewrite H1. split; [lra|]. split; [apply sin_lt_0; lra|]. split.
  - rewrite (f32_R 12697039 (-24)) by (vm_compute; intuition congruence). cbn. lra.
  - split; [apply wires_represents|]. vm_compute. reflexivity.
Qed.
Print Assumptions C41_beyond_pi_refuted.

Example C41_ex : pow2_size 8 23 mod 8 = 0 /\ pow2_size 11 52 mod 8 = 0 /\
  run 8 (SinTaylor32 (MOD:=bn254) (w32 (f32 1 0))) = Some (w32 (f32 14117540 (-24))) /\
  run 8 (SinTaylor32 (MOD:=bn254) (w32 (f32 (-1) 0))) = Some (w32 (f32 (-14117540) (-24))).
Proof. repeat apply conj; vm_compute; reflexivity. Qed.

(** ** C42: the circuits of math/math_test.go *)

Theorem C42_sign_free {MOD : Modulus} {b : Z} {HP : Params 11 52 b} op X Z :
  0 <= X < modulus -> 0 <= Z < 2 ^ 63 ->
  (exists u, sat b (function_circuit op X Z) u) <->
  (exists u, sat b (function_circuit op X (Z + 2 ^ 63)) u).
Proof. exact (function_flip op X Z). Qed.
Print Assumptions C42_sign_free.

Theorem C42_sign_free_polynomial {MOD : Modulus} {b : Z} {HP : Params 11 52 b} eval coeffs X P :
  0 <= X < modulus -> 0 <= P < 2 ^ 63 ->
  (exists u, sat b (polynomial_circuit eval coeffs X P) u) <->
  (exists u, sat b (polynomial_circuit eval coeffs X (P + 2 ^ 63)) u).
Proof. exact (polynomial_flip eval coeffs X P). Qed.
Print Assumptions C42_sign_free_polynomial.

(** The repository's vector with the sign of the expected value flipped. *)
Example C42_ex :
  run 6 (PolynomialEvalCircuit (MOD:=bn254) 0xC0439E19C2746C32 0x4105BF38139DAE59) = Some tt /\
  run 6 (SinCircuit (MOD:=bn254) 0x40006CE012F22593 0xBFEC594B3C98BE54) = Some tt /\
  run 6 (PolynomialEvalCircuit (MOD:=bn254) 0xC0439E19C2746C32 0x4105BF38139DAE58) = None.
Proof. repeat apply conj; vm_compute; reflexivity. Qed.
