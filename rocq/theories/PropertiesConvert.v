(** Property C64: unit conversions on the host and the decimal text of the H3 tools' arguments. *)
From Coq Require Import ZArith Reals Lra Lia Bool String.
From Flocq Require Import Core BinarySingleNaN.
From Verif Require Import Spec MathSpec RepFacts SinError SinAccuracy CompFacts Text TextFacts Convert ConvertFacts.
Local Open Scope Z_scope.

(** Degrees: accurate to 1.5e-16 relative, that is less than 1.36 roundings. *)
Theorem C64_degrees (x : fmt 11 52) : is_finite x = true -> (Rabs (B2R x) <= bpow radix2 1000)%R ->
  is_finite (RadiansToDegrees x) = true /\
  (Rabs (B2R (RadiansToDegrees x) - B2R x * (180 / PI)) <=
   15 / 100000000000000000 * Rabs (B2R x * (180 / PI)) + half_min 11 52)%R.
Proof. exact (degrees_error x). Qed.
Print Assumptions C64_degrees.

(** Scaled integers: rounded once as long as the integer is a double; then the integer can be
    recovered from the result, below 2^52. *)
Theorem C64_scaled n : Z.abs n <= 2 ^ 53 -> is_finite (ScaledIntToFloat64 n) = true /\
  B2R (ScaledIntToFloat64 n) = rne 11 52 (IZR n / 1000000000).
Proof. exact (scaled_exact n). Qed.
Print Assumptions C64_scaled.

Theorem C64_scaled_back n : Z.abs n < 2 ^ 52 -> ZnearestE (B2R (ScaledIntToFloat64 n) * 1000000000) = n.
Proof. exact (scaled_back n). Qed.
Print Assumptions C64_scaled_back.

(** For every [int]. *)
Theorem C64_scaled_int n : - 2 ^ 63 <= n < 2 ^ 63 -> is_finite (ScaledIntToFloat64 n) = true /\
  (Rabs (B2R (ScaledIntToFloat64 n) - IZR n / 1000000000) <=
   23 / 100000000000000000 * Rabs (IZR n / 1000000000) + 2 / 1000000000000000000000000000000)%R.
Proof. intros H. apply scaled_error. lia. Qed.
Print Assumptions C64_scaled_int.

(** Not every [int] can be recovered. *)
Theorem C64_scaled_refuted : exists m n, m <> n /\ - 2 ^ 63 <= m < 2 ^ 63 /\ - 2 ^ 63 <= n < 2 ^ 63 /\
  ScaledIntToFloat64 m = ScaledIntToFloat64 n.
Proof.
  exists (2 ^ 53), (2 ^ 53 + 1). split; [discriminate|]. split; [lia|]. split; [lia|].
  apply B2SF_inj. vm_compute. reflexivity.
Qed.
Print Assumptions C64_scaled_refuted.

(** The text of a finite double is the decimal number with thirty places nearest to it, with the
    even last digit for ties, and its sign. *)
Theorem C64_decimals (x : fmt 11 52) : is_finite x = true ->
  decimal (Sprintf30f x) (sgn (Bsign x) * (IZR (ZnearestE (Rabs (B2R x) * IZR (10 ^ 30))) / IZR (10 ^ 30))).
Proof. exact (text_exact x). Qed.
Print Assumptions C64_decimals.

Theorem C64_text (x : fmt 11 52) : is_finite x = true ->
  exists v, decimal (Sprintf30f x) v /\ (Rabs (v - B2R x) <= / 2 / IZR (10 ^ 30))%R.
Proof. exact (text_near x). Qed.
Print Assumptions C64_text.

(** Zero, and doubles of at least 2^-46 in magnitude, are read back unchanged by a reader that
    rounds correctly. *)
Theorem C64_read (x : fmt 11 52) v : is_finite x = true ->
  B2R x = 0%R \/ (bpow radix2 (-46) <= Rabs (B2R x))%R ->
  decimal (Sprintf30f x) v -> rne 11 52 v = B2R x.
Proof. exact (text_read x v). Qed.
Print Assumptions C64_read.

(** Smaller ones need not be. *)
Theorem C64_read_refuted : exists x : fmt 11 52, is_finite x = true /\ (B2R x <> 0)%R /\
  forall v, decimal (Sprintf30f x) v -> v = 0%R.
Proof.
  set (x := of_bits 11 52 0x3370000000000000).
  assert (HS : B2SF x = SpecFloat.S754_finite false 4503599627370496 (- (252))) by (vm_compute; reflexivity).
  destruct (B2R_of_SF _ _ _ _ HS) as (V & F & _). exists x. split; [exact F|]. split.
  - rewrite V. intros H. apply eq_0_F2R in H. discriminate H.
  - intros v Hv. assert (T : Sprintf30f x = fixed 30 false 0) by (vm_compute; reflexivity). rewrite T in Hv.
    rewrite (decimal_fun _ _ _ Hv (fixed_decimal false 0 ltac:(lia))). unfold Rdiv. ring.
Qed.
Print Assumptions C64_read_refuted.

(** Together: an angle in radians reaches the tool, in degrees, with an error of at most 4e-14. *)
Theorem C64_argument (x : fmt 11 52) : is_finite x = true -> (Rabs (B2R x) <= 4)%R ->
  exists v, decimal (Sprintf30f (RadiansToDegrees x)) v /\
    (Rabs (v - B2R x * (180 / PI)) <= 4 / 100000000000000)%R.
Proof.
  intros Fx Bx.
  assert (B : (Rabs (B2R x) <= bpow radix2 1000)%R).
  { eapply Rle_trans; [exact Bx|]. change 4%R with (bpow radix2 2). apply bpow_le. lia. }
  destruct (C64_degrees x Fx B) as [F H]. destruct (C64_text _ F) as (v & Hv & Ev). exists v. split; [exact Hv|].
  pose proof eta_small as He. pose proof pi_bounds as HP.
  assert (P : (0 < 180 / PI <= 573 / 10)%R).
  { split; [apply Rdiv_lt_0_compat; lra|]. apply Rmult_le_reg_r with PI; [lra|]. unfold Rdiv at 1.
    rewrite Rmult_assoc, Rinv_l by lra. lra. }
  assert (A : (Rabs (B2R x * (180 / PI)) <= 4 * (573 / 10))%R).
  { rewrite Rabs_mult, (Rabs_pos_eq (180 / PI)) by lra. apply Rmult_le_compat; [apply Rabs_pos|lra|exact Bx|lra]. }
  replace (v - B2R x * (180 / PI))%R
    with ((v - B2R (RadiansToDegrees x)) + (B2R (RadiansToDegrees x) - B2R x * (180 / PI)))%R by ring.
  eapply Rle_trans; [apply Rabs_triang|].
  assert (Q : (/ 2 / IZR (10 ^ 30) = 1 / 2000000000000000000000000000000)%R) by (change (10 ^ 30) with 1000000000000000000000000000000; lra).
  rewrite Q in Ev. lra.
Qed.
Print Assumptions C64_argument.

(** -1.5 radians, as in util/util_test.go:22. *)
Example C64_ex : RadiansToDegrees (of_bits 11 52 0xBFF8000000000000) = of_bits 11 52 0xC0557C6513CAD17A /\
  Sprintf30f (of_bits 11 52 0xC0557C6513CAD17A) = "-85.943669269623484296971582807600"%string /\
  Sprintf30f (of_bits 11 52 0x404458369FCF3DC0) = "40.689166999999997642589733004570"%string /\
  ScaledIntToFloat64 40689167000 = of_bits 11 52 0x404458369FCF3DC0.
Proof.
  split; [apply B2SF_inj; vm_compute; reflexivity|]. split; [vm_compute; reflexivity|]. split; [vm_compute; reflexivity|].
  apply B2SF_inj; vm_compute; reflexivity.
Qed.
