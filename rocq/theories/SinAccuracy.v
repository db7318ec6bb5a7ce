(** The sine gadget at both precisions: every accepted result is close to the
    sine. *)
From Coq Require Import ZArith Reals Lra Lia Bool List.
From Flocq Require Import Core BinarySingleNaN.
From Verif Require Import Field FieldFacts Circuit RangeCheck FloatModel Math MathSpec RoundFacts Spec
  RepFacts NewFacts ErrorFacts SinFacts SinError.
Import ListNotations.
Local Open Scope Z_scope.

(** A finite datum from its mantissa and exponent. *)
Lemma B2R_of_SF {E M : Z} (f : fmt E M) s m e : B2SF f = SpecFloat.S754_finite s m e ->
  B2R f = F2R (Float radix2 (cond_Zopp s (Zpos m)) e) /\ is_finite f = true /\ Bsign f = s.
Proof.
  intros H. destruct f as [s'|s'| |s' m' e' B]; cbn in H; try discriminate.
  injection H as -> -> ->. repeat split.
Qed.

(** Value with the given sign and magnitude. *)
Lemma signed_value {E M : Z} (f : fmt E M) : B2R f = ((if Bsign f then -1 else 1) * Rabs (B2R f))%R.
Proof.
  destruct f as [s|s| |s m e B]; cbn [B2R Bsign]; rewrite ?Rabs_R0; try (destruct s; ring); try ring.
  rewrite <- F2R_Zabs, abs_cond_Zopp. destruct s; cbn [cond_Zopp Z.abs]; [|ring].
  rewrite F2R_Zopp. ring.
Qed.
Lemma sign_neg {E M : Z} (f : fmt E M) : (B2R f < 0)%R -> Bsign f = true.
Proof.
  intros H. rewrite signed_value in H. destruct (Bsign f); [reflexivity|].
  pose proof (Rabs_pos (B2R f)). lra.
Qed.
Lemma sign_pos {E M : Z} (f : fmt E M) : (0 < B2R f)%R -> Bsign f = false.
Proof.
  intros H. rewrite signed_value in H. destruct (Bsign f); [|reflexivity].
  pose proof (Rabs_pos (B2R f)). lra.
Qed.

Section Accuracy.
Context {MOD : Modulus} {E M b : Z} {HP : Params E M b} {HF : Format E M}.
Hypothesis HE8 : 8 <= E.
Hypothesis HM23 : 23 <= M.
Hypothesis Hd : pow2_size E M mod b = 0.
Notation fmt := (fmt E M).

Variables pi halfPi : Z.
Hypothesis Hpi : 0 <= pi < 2 ^ (E + M + 1).
Hypothesis Hhp : 0 <= halfPi < 2 ^ (E + M + 1).
Hypothesis Fp : is_finite (of_bits E M pi) = true.
Hypothesis Fh : is_finite (of_bits E M halfPi) = true.
Variables zu ze zb zB : Z.
Variables B eps : R.
Hypothesis Hzu : bpow radix2 (- prec M) = up zu.
Hypothesis Hzu1 : (up zu <= 1 / 1000)%R.
Hypothesis Hze1 : (up ze <= 1 / 1000)%R.
Hypothesis Hze : (half_min E M <= up ze)%R.
Hypothesis HB : (8 / 5 <= B <= 22 / 7)%R.
Hypothesis HzB : (B <= up zB)%R.
Hypothesis HzBB : (B * B <= up zb)%R.
Hypothesis Heps : (up (taylor_errorZ zu ze zb (mulu zu zb + ze) 15 1 0 0 zB 0 + tailZ zb 15 zB) <= eps)%R.

Let P : R := B2R (of_bits E M pi).
Let H : R := B2R (of_bits E M halfPi).
Variable dp : R.
Hypothesis HPdp : (Rabs (P - PI) <= dp)%R.
Hypothesis HH : (0 <= H <= 8 / 5)%R.
Hypothesis HPH : (0 <= P - H <= 158 / 100)%R.
Hypothesis HP4 : (0 <= P <= 4)%R.

Theorem sin_near x (fx : fmt) ex : represents x fx -> is_finite fx = true ->
  (- B <= B2R fx <= P)%R -> (0 <= ex <= dp)%R -> (- PI - ex <= B2R fx)%R ->
  (exists r, exec b (SinTaylor E M pi halfPi x) = Some r) /\
  forall r, sat b (SinTaylor E M pi halfPi x) r ->
  exists f : fmt, represents r f /\ is_finite f = true /\
    (Rabs (B2R f - sin (B2R fx)) <= eps + dp + ex + up zu * (8 / 5) + up ze)%R.
Proof.
  intros Rx Fx Hv Hex0 HvP.
  assert (B4 : bpow radix2 2 = 4%R) by (simpl; lra).
  assert (S1 : (Rabs (B2R fx) <= bpow radix2 2)%R) by (rewrite B4; apply Rabs_le; lra).
  assert (S2 : (Rabs P <= bpow radix2 2)%R) by (rewrite B4; apply Rabs_le; lra).
  destruct (sin_sound HE8 HM23 pi halfPi Hpi Hhp Fp Fh S2 (proj1 HP4) (proj1 HH) Hd x fx Rx Fx S1) as [Hex Hs].
  split; [exact Hex|]. intros r Hr. destruct (Hs r Hr) as (f & Rf & Ff & Sf & Vf).
  exists f. split; [exact Rf|]. split; [exact Ff|].
  rewrite (signed_value f), Sf, Vf.
  assert (Hu0 : (0 <= up zu)%R) by (rewrite <- Hzu; apply bpow_ge_0).
  assert (He0 : (0 <= up ze)%R) by (eapply Rle_trans; [|exact Hze]; apply bpow_ge_0).
  assert (U0 : (0 <= 0 <= up 0)%R) by (unfold up; lra).
  assert (HBB : (0 <= B * B <= up zb)%R) by nra.
  apply (rounded_sin_error (E:=E) (M:=M) (up zu) (up ze)) with (B:=B); try assumption.
  - unfold unit_ro. rewrite Hzu. lra.
  - eapply Rle_trans; [|exact Heps]. apply up_add.
    + apply taylor_errorZ_bound; try assumption; try lra; try lia.
      pose proof (up_mul zu zb (up zu) (B * B) ltac:(lra) HBB).
      split; [nra|]. apply up_add; lra.
    + apply tailZ_bound; [assumption|lra].
  - apply sign_neg.
  - apply sign_pos.
Qed.
End Accuracy.

(** [z] as a fraction of [2^140]. *)
Lemma up_frac n d : 0 < d -> (IZR n / IZR d <= up (n * scale / d + 1))%R.
Proof.
  intros Hd. unfold up. pose proof scale_pos as Hs. assert (Hd' : (0 < IZR d)%R) by (apply IZR_lt, Hd).
  apply Rmult_le_reg_r with (IZR d * IZR scale)%R; [nra|].
  replace (IZR n / IZR d * (IZR d * IZR scale))%R with (IZR (n * scale)) by (rewrite mult_IZR; field; lra).
  replace (IZR (n * scale / d + 1) / IZR scale * (IZR d * IZR scale))%R
    with (IZR ((n * scale / d + 1) * d)) by (rewrite mult_IZR; field; lra).
  apply IZR_le. pose proof (Z.mul_succ_div_gt (n * scale) d Hd). lia.
Qed.
Lemma up_check z n d : 0 < d -> z * d <= n * scale -> (up z <= IZR n / IZR d)%R.
Proof.
  intros Hd Hz. unfold up. pose proof scale_pos as Hs. assert (Hd' : (0 < IZR d)%R) by (apply IZR_lt, Hd).
  apply Rmult_le_reg_r with (IZR d * IZR scale)%R; [nra|].
  replace (IZR n / IZR d * (IZR d * IZR scale))%R with (IZR (n * scale)) by (rewrite mult_IZR; field; lra).
  replace (IZR z / IZR scale * (IZR d * IZR scale))%R with (IZR (z * d)) by (rewrite mult_IZR; field; lra).
  apply IZR_le, Hz.
Qed.
Lemma up_bpow k : 0 <= k <= 140 -> bpow radix2 (- k) = up (2 ^ (140 - k)).
Proof.
  intros Hk. unfold up, scale. change 2 with (radix_val radix2). rewrite !IZR_Zpower by lia.
  unfold Rdiv. rewrite <- bpow_opp, <- bpow_plus. f_equal. lia.
Qed.

Section Sin64.
Context {MOD : Modulus} {b : Z} {HP : Params 11 52 b}.

Lemma pi64_value : B2SF (of_bits 11 52 pi_64) = SpecFloat.S754_finite false 7074237752028440 (1 - 52).
Proof. vm_compute. reflexivity. Qed.
Lemma half64_value : B2SF (of_bits 11 52 half_pi_64) = SpecFloat.S754_finite false 7074237752028440 (- (52)).
Proof. vm_compute. reflexivity. Qed.
Lemma pi64_R : B2R (of_bits 11 52 pi_64) = (7074237752028440 / 2251799813685248)%R.
Proof. rewrite (proj1 (B2R_of_SF _ _ _ _ pi64_value)). unfold F2R. cbn. lra. Qed.
Lemma half64_R : B2R (of_bits 11 52 half_pi_64) = (7074237752028440 / 4503599627370496)%R.
Proof. rewrite (proj1 (B2R_of_SF _ _ _ _ half64_value)). unfold F2R. cbn. lra. Qed.
Lemma half_min64 : (half_min 11 52 <= up 1)%R.
Proof.
  unfold half_min. apply Rle_trans with (bpow radix2 (- (140))).
  - apply bpow_le. vm_compute. congruence.
  - rewrite up_bpow by lia. change (2 ^ (140 - 140)) with 1. lra.
Qed.
Lemma pi64_PI : (Rabs (7074237752028440 / 2251799813685248 - PI) <= 13 / 100000000000000000)%R.
Proof. pose proof pi_bounds. apply Rabs_le. lra. Qed.

Theorem sin64_near x (fx : fmt 11 52) : pow2_size 11 52 mod b = 0 ->
  represents x fx -> is_finite fx = true ->
  (- (8 / 5) <= B2R fx <= B2R (of_bits 11 52 pi_64))%R ->
  (exists r, exec b (SinTaylor64 x) = Some r) /\
  forall r, sat b (SinTaylor64 x) r ->
  exists f : fmt 11 52, represents r f /\ is_finite f = true /\
    (Rabs (B2R f - sin (B2R fx)) <= 5 / 1000000000000000)%R.
Proof.
  intros Hd Rx Fx Hv. unfold SinTaylor64.
  assert (HpiR : 0 <= pi_64 < 2 ^ (11 + 52 + 1)) by (split; vm_compute; congruence).
  assert (HhR : 0 <= half_pi_64 < 2 ^ (11 + 52 + 1)) by (split; vm_compute; congruence).
  assert (Fp : is_finite (of_bits 11 52 pi_64) = true) by (vm_compute; reflexivity).
  assert (Fh : is_finite (of_bits 11 52 half_pi_64) = true) by (vm_compute; reflexivity).
  assert (C2 : (up 1 <= 1 / 1000000000000000000000)%R) by (apply up_check; vm_compute; congruence).
  assert (C3 : (up (2 ^ 87) <= 112 / 1000000000000000000)%R) by (apply up_check; vm_compute; congruence).
  assert (C4 : (up (taylor_errorZ (2 ^ 87) 1 (64 * scale / 25 + 1) (mulu (2 ^ 87) (64 * scale / 25 + 1) + 1) 15 1 0 0
      (8 * scale / 5 + 1) 0 + tailZ (64 * scale / 25 + 1) 15 (8 * scale / 5 + 1)) <= 4200 / 1000000000000000000)%R)
    by (apply up_check; vm_compute; congruence).
  pose proof pi_bounds as Hpb. pose proof pi64_PI as Hp.
  pose proof (up_frac 8 5 ltac:(lia)) as C5. pose proof (up_frac 64 25 ltac:(lia)) as C6.
  pose proof (up_bpow 53 ltac:(lia)) as C7.
  rewrite <- pi64_R in Hp.
  assert (C8 : (0 <= B2R (of_bits 11 52 half_pi_64) <= 8 / 5)%R) by (rewrite half64_R; lra).
  assert (C9 : (0 <= B2R (of_bits 11 52 pi_64) - B2R (of_bits 11 52 half_pi_64) <= 158 / 100)%R)
    by (rewrite pi64_R, half64_R; lra).
  assert (C10 : (0 <= B2R (of_bits 11 52 pi_64) <= 4)%R) by (rewrite pi64_R; lra).
  destruct (sin_near ltac:(lia) ltac:(lia) Hd pi_64 half_pi_64 HpiR HhR Fp Fh
    (2 ^ 87) 1 (64 * scale / 25 + 1) (8 * scale / 5 + 1) (8 / 5) _ C7 ltac:(lra) ltac:(lra) half_min64 ltac:(lra)
    C5 ltac:(lra) C4 _ Hp C8 C9 C10 x fx 0%R Rx Fx Hv ltac:(lra) ltac:(lra)) as [H1 H2].
  split; [exact H1|]. intros r Hr. destruct (H2 r Hr) as (f & R & F & V). exists f.
  split; [exact R|]. split; [exact F|]. lra.
Qed.

Theorem sin64_wide x (fx : fmt 11 52) : pow2_size 11 52 mod b = 0 ->
  represents x fx -> is_finite fx = true ->
  (- PI <= B2R fx <= B2R (of_bits 11 52 pi_64))%R ->
  (exists r, exec b (SinTaylor64 x) = Some r) /\
  forall r, sat b (SinTaylor64 x) r ->
  exists f : fmt 11 52, represents r f /\ is_finite f = true /\
    (Rabs (B2R f - sin (B2R fx)) <= 23 / 1000000000000000)%R.
Proof.
  intros Hd Rx Fx Hv. unfold SinTaylor64.
  assert (HpiR : 0 <= pi_64 < 2 ^ (11 + 52 + 1)) by (split; vm_compute; congruence).
  assert (HhR : 0 <= half_pi_64 < 2 ^ (11 + 52 + 1)) by (split; vm_compute; congruence).
  assert (Fp : is_finite (of_bits 11 52 pi_64) = true) by (vm_compute; reflexivity).
  assert (Fh : is_finite (of_bits 11 52 half_pi_64) = true) by (vm_compute; reflexivity).
  assert (C2 : (up 1 <= 1 / 1000000000000000000000)%R) by (apply up_check; vm_compute; congruence).
  assert (C3 : (up (2 ^ 87) <= 112 / 1000000000000000000)%R) by (apply up_check; vm_compute; congruence).
  assert (C4 : (up (taylor_errorZ (2 ^ 87) 1 (484 * scale / 49 + 1) (mulu (2 ^ 87) (484 * scale / 49 + 1) + 1) 15 1 0 0
      (22 * scale / 7 + 1) 0 + tailZ (484 * scale / 49 + 1) 15 (22 * scale / 7 + 1)) <= 22500 / 1000000000000000000)%R)
    by (apply up_check; vm_compute; congruence).
  pose proof pi_bounds as Hpb. pose proof pi64_PI as Hp.
  pose proof (up_frac 22 7 ltac:(lia)) as C5. pose proof (up_frac 484 49 ltac:(lia)) as C6.
  pose proof (up_bpow 53 ltac:(lia)) as C7.
  rewrite <- pi64_R in Hp.
  assert (C8 : (0 <= B2R (of_bits 11 52 half_pi_64) <= 8 / 5)%R) by (rewrite half64_R; lra).
  assert (C9 : (0 <= B2R (of_bits 11 52 pi_64) - B2R (of_bits 11 52 half_pi_64) <= 158 / 100)%R)
    by (rewrite pi64_R, half64_R; lra).
  assert (C10 : (0 <= B2R (of_bits 11 52 pi_64) <= 4)%R) by (rewrite pi64_R; lra).
  destruct (sin_near ltac:(lia) ltac:(lia) Hd pi_64 half_pi_64 HpiR HhR Fp Fh
    (2 ^ 87) 1 (484 * scale / 49 + 1) (22 * scale / 7 + 1) (22 / 7) _ C7 ltac:(lra) ltac:(lra) half_min64 ltac:(lra)
    C5 ltac:(lra) C4 _ Hp C8 C9 C10 x fx 0%R Rx Fx ltac:(lra) ltac:(lra) ltac:(lra)) as [H1 H2].
  split; [exact H1|]. intros r Hr. destruct (H2 r Hr) as (f & R & F & V). exists f.
  split; [exact R|]. split; [exact F|]. lra.
Qed.
End Sin64.

Section Sin32.
Context {MOD : Modulus} {b : Z} {HP : Params 8 23 b}.

Lemma pi32_value : B2SF (of_bits 8 23 pi_32) = SpecFloat.S754_finite false 13176795 (1 - 23).
Proof. vm_compute. reflexivity. Qed.
Lemma half32_value : B2SF (of_bits 8 23 half_pi_32) = SpecFloat.S754_finite false 13176795 (- (23)).
Proof. vm_compute. reflexivity. Qed.
Lemma pi32_R : B2R (of_bits 8 23 pi_32) = (13176795 / 4194304)%R.
Proof. rewrite (proj1 (B2R_of_SF _ _ _ _ pi32_value)). unfold F2R. cbn. lra. Qed.
Lemma half32_R : B2R (of_bits 8 23 half_pi_32) = (13176795 / 8388608)%R.
Proof. rewrite (proj1 (B2R_of_SF _ _ _ _ half32_value)). unfold F2R. cbn. lra. Qed.
Lemma half_min32 : (half_min 8 23 <= up 1)%R.
Proof.
  unfold half_min. apply Rle_trans with (bpow radix2 (- (140))).
  - apply bpow_le. vm_compute. congruence.
  - rewrite up_bpow by lia. change (2 ^ (140 - 140)) with 1. lra.
Qed.
Lemma pi32_PI : (Rabs (13176795 / 4194304 - PI) <= 88 / 1000000000)%R.
Proof. pose proof pi_bounds. apply Rabs_le. lra. Qed.

Theorem sin32_near x (fx : fmt 8 23) : pow2_size 8 23 mod b = 0 ->
  represents x fx -> is_finite fx = true ->
  (- (8 / 5) <= B2R fx <= B2R (of_bits 8 23 pi_32))%R ->
  (exists r, exec b (SinTaylor32 x) = Some r) /\
  forall r, sat b (SinTaylor32 x) r ->
  exists f : fmt 8 23, represents r f /\ is_finite f = true /\
    (Rabs (B2R f - sin (B2R fx)) <= 25 / 10000000)%R.
Proof.
  intros Hd Rx Fx Hv. unfold SinTaylor32.
  assert (HpiR : 0 <= pi_32 < 2 ^ (8 + 23 + 1)) by (split; vm_compute; congruence).
  assert (HhR : 0 <= half_pi_32 < 2 ^ (8 + 23 + 1)) by (split; vm_compute; congruence).
  assert (Fp : is_finite (of_bits 8 23 pi_32) = true) by (vm_compute; reflexivity).
  assert (Fh : is_finite (of_bits 8 23 half_pi_32) = true) by (vm_compute; reflexivity).
  assert (C2 : (up 1 <= 1 / 1000000000000000000000)%R) by (apply up_check; vm_compute; congruence).
  assert (C3 : (up (2 ^ 116) <= 60 / 1000000000)%R) by (apply up_check; vm_compute; congruence).
  assert (C4 : (up (taylor_errorZ (2 ^ 116) 1 (64 * scale / 25 + 1) (mulu (2 ^ 116) (64 * scale / 25 + 1) + 1) 15 1 0 0
      (8 * scale / 5 + 1) 0 + tailZ (64 * scale / 25 + 1) 15 (8 * scale / 5 + 1)) <= 2300 / 1000000000)%R)
    by (apply up_check; vm_compute; congruence).
  pose proof pi_bounds as Hpb. pose proof pi32_PI as Hp.
  pose proof (up_frac 8 5 ltac:(lia)) as C5. pose proof (up_frac 64 25 ltac:(lia)) as C6.
  pose proof (up_bpow 24 ltac:(lia)) as C7.
  rewrite <- pi32_R in Hp.
  assert (C8 : (0 <= B2R (of_bits 8 23 half_pi_32) <= 8 / 5)%R) by (rewrite half32_R; lra).
  assert (C9 : (0 <= B2R (of_bits 8 23 pi_32) - B2R (of_bits 8 23 half_pi_32) <= 158 / 100)%R)
    by (rewrite pi32_R, half32_R; lra).
  assert (C10 : (0 <= B2R (of_bits 8 23 pi_32) <= 4)%R) by (rewrite pi32_R; lra).
  destruct (sin_near ltac:(lia) ltac:(lia) Hd pi_32 half_pi_32 HpiR HhR Fp Fh
    (2 ^ 116) 1 (64 * scale / 25 + 1) (8 * scale / 5 + 1) (8 / 5) _ C7 ltac:(lra) ltac:(lra) half_min32 ltac:(lra)
    C5 ltac:(lra) C4 _ Hp C8 C9 C10 x fx 0%R Rx Fx Hv ltac:(lra) ltac:(lra)) as [H1 H2].
  split; [exact H1|]. intros r Hr. destruct (H2 r Hr) as (f & R & F & V). exists f.
  split; [exact R|]. split; [exact F|]. lra.
Qed.

Theorem sin32_wider x (fx : fmt 8 23) : pow2_size 8 23 mod b = 0 ->
  represents x fx -> is_finite fx = true ->
  (- B2R (of_bits 8 23 pi_32) <= B2R fx <= B2R (of_bits 8 23 pi_32))%R ->
  (exists r, exec b (SinTaylor32 x) = Some r) /\
  forall r, sat b (SinTaylor32 x) r ->
  exists f : fmt 8 23, represents r f /\ is_finite f = true /\
    (Rabs (B2R f - sin (B2R fx)) <= 13 / 1000000)%R.
Proof.
  intros Hd Rx Fx Hv. unfold SinTaylor32.
  assert (HpiR : 0 <= pi_32 < 2 ^ (8 + 23 + 1)) by (split; vm_compute; congruence).
  assert (HhR : 0 <= half_pi_32 < 2 ^ (8 + 23 + 1)) by (split; vm_compute; congruence).
  assert (Fp : is_finite (of_bits 8 23 pi_32) = true) by (vm_compute; reflexivity).
  assert (Fh : is_finite (of_bits 8 23 half_pi_32) = true) by (vm_compute; reflexivity).
  assert (C2 : (up 1 <= 1 / 1000000000000000000000)%R) by (apply up_check; vm_compute; congruence).
  assert (C3 : (up (2 ^ 116) <= 60 / 1000000000)%R) by (apply up_check; vm_compute; congruence).
  assert (C4 : (up (taylor_errorZ (2 ^ 116) 1 (484 * scale / 49 + 1) (mulu (2 ^ 116) (484 * scale / 49 + 1) + 1) 15 1 0 0
      (22 * scale / 7 + 1) 0 + tailZ (484 * scale / 49 + 1) 15 (22 * scale / 7 + 1)) <= 12500 / 1000000000)%R)
    by (apply up_check; vm_compute; congruence).
  pose proof pi_bounds as Hpb. pose proof pi32_PI as Hp.
  pose proof (up_frac 22 7 ltac:(lia)) as C5. pose proof (up_frac 484 49 ltac:(lia)) as C6.
  pose proof (up_bpow 24 ltac:(lia)) as C7.
  rewrite <- pi32_R in Hp.
  assert (Hlow : (- PI - 88 / 1000000000 <= B2R fx /\ - (22 / 7) <= B2R fx)%R)
    by (apply Rabs_le_inv in Hp; rewrite pi32_R in *; lra).
  assert (C8 : (0 <= B2R (of_bits 8 23 half_pi_32) <= 8 / 5)%R) by (rewrite half32_R; lra).
  assert (C9 : (0 <= B2R (of_bits 8 23 pi_32) - B2R (of_bits 8 23 half_pi_32) <= 158 / 100)%R)
    by (rewrite pi32_R, half32_R; lra).
  assert (C10 : (0 <= B2R (of_bits 8 23 pi_32) <= 4)%R) by (rewrite pi32_R; lra).
  destruct (sin_near ltac:(lia) ltac:(lia) Hd pi_32 half_pi_32 HpiR HhR Fp Fh
    (2 ^ 116) 1 (484 * scale / 49 + 1) (22 * scale / 7 + 1) (22 / 7) _ C7 ltac:(lra) ltac:(lra) half_min32 ltac:(lra)
    C5 ltac:(lra) C4 _ Hp C8 C9 C10 x fx (88 / 1000000000)%R Rx Fx ltac:(lra) ltac:(lra) ltac:(lra)) as [H1 H2].
  split; [exact H1|]. intros r Hr. destruct (H2 r Hr) as (f & R & F & V). exists f.
  split; [exact R|]. split; [exact F|]. lra.
Qed.

Theorem sin32_wide x (fx : fmt 8 23) : pow2_size 8 23 mod b = 0 ->
  represents x fx -> is_finite fx = true ->
  (- PI <= B2R fx <= B2R (of_bits 8 23 pi_32))%R ->
  (exists r, exec b (SinTaylor32 x) = Some r) /\
  forall r, sat b (SinTaylor32 x) r ->
  exists f : fmt 8 23, represents r f /\ is_finite f = true /\
    (Rabs (B2R f - sin (B2R fx)) <= 13 / 1000000)%R.
Proof. intros Hd Rx Fx Hv. apply sin32_wider; try assumption. rewrite pi32_R in *. pose proof pi_bounds. lra. Qed.
End Sin32.
