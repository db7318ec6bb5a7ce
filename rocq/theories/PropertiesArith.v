(** Properties C10-C17: multiplication, division, square root, addition and
    subtraction against IEEE-754. *)
From Coq Require Import ZArith Reals Bool List.
From Flocq Require Import Core BinarySingleNaN.
From Verif Require Import Field Circuit RangeCheck FloatModel RoundFacts Spec MulFacts
  DivFacts SqrtFacts AddFacts AddSpec Forge Witness.
Import ListNotations.
Local Open Scope Z_scope.

#[local] Existing Instance bn254 | 1000.
#[local] Notation mul32 := (Mul (MOD:=bn254) 8 23).
#[local] Notation mul64 := (Mul (MOD:=bn254) 11 52).
#[local] Notation div32 := (Div (MOD:=bn254) 8 23).
#[local] Notation div64 := (Div (MOD:=bn254) 11 52).
#[local] Notation sqrt32 := (Sqrt (MOD:=bn254) 8 23).
#[local] Notation sqrt64 := (Sqrt (MOD:=bn254) 11 52).
#[local] Notation add32 := (Add (MOD:=bn254) 8 23).
#[local] Notation add64 := (Add (MOD:=bn254) 11 52).
#[local] Notation sub32 := (Sub (MOD:=bn254) 8 23).
#[local] Notation sub64 := (Sub (MOD:=bn254) 11 52).

(** ** C10, C11: multiplication *)

Theorem C10_mul_complete {MOD : Modulus} {E M b : Z} {HP : Params E M b} {HF : Format E M}
  x y (fx fy : fmt E M) : represents x fx -> represents y fy ->
  exists r, exec b (Mul E M x y) = Some r /\ represents r (ieee_mul E M fx fy).
Proof. exact (mul_complete x y fx fy). Qed.
Print Assumptions C10_mul_complete.

Example C10_ex_normal :
  run 8 (mul32 (w32 (f32 3 (-1))) (w32 (f32 (-5) (-1)))) = Some (w32 (f32 (-15) (-2))).
Proof. vm_compute. reflexivity. Qed.
(** A product rounded to a subnormal, half way between two of them. *)
Example C10_ex_subnormal :
  run 5 (mul32 (w32 (f32 3 (-100))) (w32 (f32 1 (-50)))) = Some (w32 (f32 2 (-149))) /\
  B2SF (ieee_mul 8 23 (f32 3 (-100)) (f32 1 (-50))) = B2SF (f32 2 (-149)).
Proof. split; vm_compute; reflexivity. Qed.
Example C10_ex_overflow :
  run 17 (mul64 (w64 max64) (w64 (f64 2 0))) = Some (w64 (B754_infinity false)).
Proof. vm_compute. reflexivity. Qed.

Theorem C11_mul_sound {MOD : Modulus} {E M b : Z} {HP : Params E M b} {HF : Format E M}
  x y (fx fy : fmt E M) r : pow2_size E M mod b = 0 ->
  represents x fx -> represents y fy -> sat b (Mul E M x y) r ->
  represents r (ieee_mul E M fx fy) \/
  (is_finite fx = true /\ is_finite fy = true /\
   overflow_wires E M (xorb (Bsign fx) (Bsign fy)) (B2R fx * B2R fy) r).
Proof. exact (mul_sound_exact x y fx fy r). Qed.
Print Assumptions C11_mul_sound.

Example C11_ex : pow2_size 8 23 mod 8 = 0 /\ pow2_size 11 52 mod 16 = 0 /\
  represents (MOD:=bn254) (w32 (f32 3 (-1))) (f32 3 (-1)) /\
  accepted 8 (mul32 (w32 (f32 3 (-1))) (w32 (f32 7 3))) (w32 (f32 21 2)).
Proof.
  split; [reflexivity|]. split; [reflexivity|]. split; [apply wires_represents|].
  apply accepted_run. vm_compute. reflexivity.
Qed.

Theorem C11_mul_overflow_forgery {MOD : Modulus} {E M b : Z} {HP : Params E M b}
  {HF : Format E M} x y (fx fy : fmt E M) r : represents x fx -> represents y fy ->
  is_finite fx = true -> is_finite fy = true ->
  overflow_wires E M (xorb (Bsign fx) (Bsign fy)) (B2R fx * B2R fy) r ->
  sat b (Mul E M x y) r.
Proof. exact (mul_forgery x y fx fy r). Qed.
Print Assumptions C11_mul_overflow_forgery.

(** Such an output is no IEEE datum. *)
Theorem C11_overflow_no_datum {MOD : Modulus} {E M b : Z} {HP : Params E M b}
  {HF : Format E M} s v r : overflow_wires E M s v r ->
  forall f : fmt E M, ~ represents r f.
Proof. exact (overflow_no_datum (b:=b) s v r). Qed.
Print Assumptions C11_overflow_no_datum.

(** [2^127 * 2]: the eleventh hint is the sign of a zero difference; answering
    0 gives [2^128] without the abnormal flag. *)
Theorem C11_mul_only_ieee_refuted : exists (fx fy : fmt 8 23) r,
  accepted 8 (mul32 (w32 fx) (w32 fy)) r /\
  forall f : fmt 8 23, ~ represents (MOD:=bn254) r f.
Proof.
  exists (f32 1 127), (f32 1 1), (mkF 0 128 (2 ^ 23) 0). split.
  - apply (accepted_forge 8 _ (honest 10 ++ [Some 0])). vm_compute. reflexivity.
  - exact (malformed_no_datum (MOD:=bn254) (HP:=params32 8 ltac:(Lia.lia)) false (2 ^ 23)
             ltac:(Lia.lia)).
Qed.
Print Assumptions C11_mul_only_ieee_refuted.

(** ** C12, C13: division *)

Theorem C12_div_complete {MOD : Modulus} {E M b : Z} {HP : Params E M b} {HF : Format E M}
  x y (fx fy : fmt E M) : represents x fx -> represents y fy ->
  exists r, exec b (Div E M x y) = Some r /\ represents r (ieee_div E M fx fy).
Proof. exact (div_complete x y fx fy). Qed.
Print Assumptions C12_div_complete.

Example C12_ex_third :
  run 8 (div32 (w32 (f32 1 0)) (w32 (f32 3 0))) = Some (w32 (f32 11184811 (-25))).
Proof. vm_compute. reflexivity. Qed.
Example C12_ex_subnormal :
  run 3 (div64 (w64 (f64 (-1) (-1000))) (w64 (f64 3 60))) = Some (w64 (f64 (-5461) (-1074))).
Proof. vm_compute. reflexivity. Qed.
Example C12_ex_zero :
  run 11 (div32 (w32 (f32 (-1) 0)) (w32 (B754_zero false))) = Some (w32 (B754_infinity true)) /\
  run 11 (div32 (w32 (B754_zero true)) (w32 (B754_zero false)))
  = Some (embF (MOD:=bn254) (mkZ true 128 0 true)).
Proof. split; vm_compute; reflexivity. Qed.

Theorem C13_div_sound {MOD : Modulus} {E M b : Z} {HP : Params E M b} {HF : Format E M}
  x y (fx fy : fmt E M) r : pow2_size E M mod b = 0 ->
  represents x fx -> represents y fy -> sat b (Div E M x y) r ->
  represents r (ieee_div E M fx fy) \/
  (is_finite fx = true /\ is_finite_strict fy = true /\
   overflow_wires E M (xorb (Bsign fx) (Bsign fy)) (B2R fx / B2R fy) r).
Proof. exact (div_sound_exact x y fx fy r). Qed.
Print Assumptions C13_div_sound.

Example C13_ex : pow2_size 11 52 mod 8 = 0 /\
  accepted 8 (div64 (w64 (f64 7 0)) (w64 (f64 2 0))) (w64 (f64 7 (-1))).
Proof. split; [reflexivity|]. apply accepted_run. vm_compute. reflexivity. Qed.

Theorem C13_div_overflow_forgery {MOD : Modulus} {E M b : Z} {HP : Params E M b}
  {HF : Format E M} x y (fx fy : fmt E M) r : represents x fx -> represents y fy ->
  is_finite fx = true -> is_finite_strict fy = true ->
  overflow_wires E M (xorb (Bsign fx) (Bsign fy)) (B2R fx / B2R fy) r ->
  sat b (Div E M x y) r.
Proof. exact (div_forgery x y fx fy r). Qed.
Print Assumptions C13_div_overflow_forgery.

(** [2^127 / 0.5]. *)
Theorem C13_div_only_ieee_refuted : exists (fx fy : fmt 8 23) r,
  accepted 8 (div32 (w32 fx) (w32 fy)) r /\
  forall f : fmt 8 23, ~ represents (MOD:=bn254) r f.
Proof.
  exists (f32 1 127), (f32 1 (-1)), (mkF 0 128 (2 ^ 23) 0). split.
  - apply (accepted_forge 8 _ (honest 11 ++ [Some 0])). vm_compute. reflexivity.
  - exact (malformed_no_datum (MOD:=bn254) (HP:=params32 8 ltac:(Lia.lia)) false (2 ^ 23)
             ltac:(Lia.lia)).
Qed.
Print Assumptions C13_div_only_ieee_refuted.

(** ** C14, C15: square root *)

Theorem C14_sqrt_complete {MOD : Modulus} {E M b : Z} {HP : Params E M b} {HF : Format E M}
  x (fx : fmt E M) : represents x fx ->
  exists r, exec b (Sqrt E M x) = Some r /\ represents r (ieee_sqrt E M fx).
Proof. exact (sqrt_complete x fx). Qed.
Print Assumptions C14_sqrt_complete.

Example C14_ex_two :
  run 8 (sqrt32 (w32 (f32 2 0))) = Some (w32 (f32 11863283 (-23))).
Proof. vm_compute. reflexivity. Qed.
Example C14_ex_special :
  run 9 (sqrt64 (w64 (f64 (-4) 0))) = Some (embF (MOD:=bn254) (mkZ true 1024 0 true)) /\
  run 9 (sqrt64 (w64 (B754_zero true))) = Some (w64 (B754_zero true)) /\
  run 9 (sqrt64 (w64 (f64 1 (-1074)))) = Some (w64 (f64 1 (-537))).
Proof. repeat split; vm_compute; reflexivity. Qed.

Theorem C15_sqrt_sound {MOD : Modulus} {E M b : Z} {HP : Params E M b} {HF : Format E M}
  x (fx : fmt E M) r : pow2_size E M mod b = 0 ->
  represents x fx -> sat b (Sqrt E M x) r -> represents r (ieee_sqrt E M fx).
Proof. exact (sqrt_sound x fx r). Qed.
Print Assumptions C15_sqrt_sound.

Example C15_ex : accepted 16 (sqrt64 (w64 (f64 49 (-2)))) (w64 (f64 7 (-1))).
Proof. apply accepted_run. vm_compute. reflexivity. Qed.

(** ** C16: the honest sum and difference *)

Theorem C16_add_complete {MOD : Modulus} {E M b : Z} {HP : Params E M b} {HF : Format E M}
  x y (fx fy : fmt E M) : represents x fx -> represents y fy ->
  exists r, exec b (Add E M x y) = Some r /\
    (~ max_cancel E M fx fy -> represents r (ieee_add E M fx fy)) /\
    (max_cancel E M fx fy -> represents (E:=E) (M:=M) r (B754_infinity false)).
Proof. exact (add_complete x y fx fy). Qed.
Print Assumptions C16_add_complete.

Example C16_ex_carry :
  run 8 (add32 (w32 (f32 1 0)) (w32 (f32 1 (-24)))) = Some (w32 (f32 1 0)) /\
  run 8 (add32 (w32 (f32 8388609 (-23))) (w32 (f32 1 (-24)))) = Some (w32 (f32 4194305 (-22))).
Proof. split; vm_compute; reflexivity. Qed.
Example C16_ex_cancel :
  run 8 (add64 (w64 (f64 3 500)) (w64 (f64 (-3) 500))) = Some (w64 (B754_zero false)).
Proof. vm_compute. reflexivity. Qed.

Theorem C16_sub_complete {MOD : Modulus} {E M b : Z} {HP : Params E M b} {HF : Format E M}
  x y (fx fy : fmt E M) : represents x fx -> represents y fy ->
  exists r, exec b (Sub E M x y) = Some r /\
    (~ max_cancel E M fx (ieee_neg E M fy) -> represents r (ieee_sub E M fx fy)) /\
    (max_cancel E M fx (ieee_neg E M fy) -> represents (E:=E) (M:=M) r (B754_infinity false)).
Proof. exact (sub_complete x y fx fy). Qed.
Print Assumptions C16_sub_complete.

Lemma max32_cancel : max_cancel 8 23 max32 (ieee_neg 8 23 max32).
Proof.
  assert (Hr : B2R max32 = (IZR (2 ^ 24 - 1) * bpow radix2 104)%R).
  { apply (proj1 (lit_exact (E:=8) (M:=23) (2 ^ 24 - 1) 104 ltac:(reflexivity) ltac:(discriminate)
      ltac:(discriminate))). }
  split; [vm_compute; reflexivity|]. split; [vm_compute; reflexivity|].
  unfold ieee_neg. rewrite B2R_Bopp, Ropp_involutive. split; [reflexivity|].
  rewrite Hr, Rabs_pos_eq.
  - replace (emax 8 - 1) with (23 + 104) by reflexivity. rewrite bpow_plus.
    apply Rmult_le_compat_r; [apply bpow_ge_0|].
    change (bpow radix2 23) with (IZR (2 ^ 23)). apply IZR_le. discriminate.
  - apply Rmult_le_pos; [apply IZR_le; discriminate|apply bpow_ge_0].
Qed.

(** FLT_MAX - FLT_MAX is +infinity in the circuit and +0 in IEEE-754. *)
Theorem C16_sub_always_ieee_refuted : exists fx fy : fmt 8 23,
  run 8 (sub32 (w32 fx) (w32 fy)) = Some (w32 (B754_infinity false)) /\
  ieee_sub 8 23 fx fy = B754_zero false.
Proof. exists max32, max32. split; vm_compute; reflexivity. Qed.
Print Assumptions C16_sub_always_ieee_refuted.

(** ** C17: any accepted sum and difference *)

Theorem C17_add_sound {MOD : Modulus} {E M b : Z} {HP : Params E M b} {HF : Format E M}
  x y (fx fy : fmt E M) r : pow2_size E M mod b = 0 ->
  represents x fx -> represents y fy -> sat b (Add E M x y) r ->
  represents r (ieee_add E M fx fy) \/
  (is_finite fx = true /\ is_finite fy = true /\
   (overflow_wires E M (Bsign fx) (B2R fx + B2R fy) r \/
    (Bsign fx <> Bsign fy /\ B2R fx = (- B2R fy)%R /\
     (represents (E:=E) (M:=M) r (B754_zero true) \/
      ((bpow radix2 (emax E - 1) <= Rabs (B2R fx))%R /\
       exists s, represents (E:=E) (M:=M) r (B754_infinity s)))))).
Proof. exact (add_sound_exact x y fx fy r). Qed.
Print Assumptions C17_add_sound.

Example C17_ex : pow2_size 8 23 mod 4 = 0 /\
  accepted 4 (add32 (w32 (f32 3 0)) (w32 (f32 (-5) (-2)))) (w32 (f32 7 (-2))).
Proof. split; [reflexivity|]. apply accepted_run. vm_compute. reflexivity. Qed.

Theorem C17_sub_sound {MOD : Modulus} {E M b : Z} {HP : Params E M b} {HF : Format E M}
  x y (fx fy : fmt E M) r : pow2_size E M mod b = 0 ->
  represents x fx -> represents y fy -> sat b (Sub E M x y) r ->
  represents r (ieee_sub E M fx fy) \/
  (is_finite fx = true /\ is_finite fy = true /\
   (overflow_wires E M (Bsign fx) (B2R fx - B2R fy) r \/
    (Bsign fx = Bsign fy /\ B2R fx = B2R fy /\
     (represents (E:=E) (M:=M) r (B754_zero true) \/
      ((bpow radix2 (emax E - 1) <= Rabs (B2R fx))%R /\
       exists s, represents (E:=E) (M:=M) r (B754_infinity s)))))).
Proof. exact (sub_sound_exact x y fx fy r). Qed.
Print Assumptions C17_sub_sound.

(** Each exception is accepted. *)
Theorem C17_add_overflow_forgery {MOD : Modulus} {E M b : Z} {HP : Params E M b}
  {HF : Format E M} x y (fx fy : fmt E M) r : represents x fx -> represents y fy ->
  is_finite fx = true -> is_finite fy = true ->
  overflow_wires E M (Bsign fx) (B2R fx + B2R fy) r -> sat b (Add E M x y) r.
Proof. exact (add_overflow_forgery x y fx fy r). Qed.
Print Assumptions C17_add_overflow_forgery.

Theorem C17_add_cancel_forgery {MOD : Modulus} {E M b : Z} {HP : Params E M b}
  {HF : Format E M} x y (fx fy : fmt E M) s : represents x fx -> represents y fy ->
  is_finite fx = true -> is_finite fy = true ->
  Bsign fx <> Bsign fy -> B2R fx = (- B2R fy)%R ->
  (exists r, sat b (Add E M x y) r /\ represents (E:=E) (M:=M) r (B754_zero s)) /\
  ((bpow radix2 (emax E - 1) <= Rabs (B2R fx))%R ->
   exists r, sat b (Add E M x y) r /\ represents (E:=E) (M:=M) r (B754_infinity s)).
Proof. exact (add_cancel_forgery x y fx fy s). Qed.
Print Assumptions C17_add_cancel_forgery.

(** [1 + (-1) = -0] is accepted. *)
Theorem C17_add_only_ieee_refuted :
  accepted 8 (add32 (w32 (f32 1 0)) (w32 (f32 (-1) 0))) (w32 (B754_zero true)) /\
  ieee_add 8 23 (f32 1 0) (f32 (-1) 0) = B754_zero false.
Proof.
  split; [|vm_compute; reflexivity].
  apply (accepted_forge 8 _ (honest 5 ++ [Some 0])). vm_compute. reflexivity.
Qed.
Print Assumptions C17_add_only_ieee_refuted.

Theorem C17_sub_overflow_forgery {MOD : Modulus} {E M b : Z} {HP : Params E M b}
  {HF : Format E M} x y (fx fy : fmt E M) r : represents x fx -> represents y fy ->
  is_finite fx = true -> is_finite fy = true ->
  overflow_wires E M (Bsign fx) (B2R fx - B2R fy) r -> sat b (Sub E M x y) r.
Proof. exact (sub_overflow_forgery x y fx fy r). Qed.
Print Assumptions C17_sub_overflow_forgery.

Theorem C17_sub_cancel_forgery {MOD : Modulus} {E M b : Z} {HP : Params E M b}
  {HF : Format E M} x y (fx fy : fmt E M) s : represents x fx -> represents y fy ->
  is_finite fx = true -> is_finite fy = true ->
  Bsign fx = Bsign fy -> B2R fx = B2R fy ->
  (exists r, sat b (Sub E M x y) r /\ represents (E:=E) (M:=M) r (B754_zero s)) /\
  ((bpow radix2 (emax E - 1) <= Rabs (B2R fx))%R ->
   exists r, sat b (Sub E M x y) r /\ represents (E:=E) (M:=M) r (B754_infinity s)).
Proof. exact (sub_cancel_forgery x y fx fy s). Qed.
Print Assumptions C17_sub_cancel_forgery.
