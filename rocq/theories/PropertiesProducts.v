(** Property C52: products and quotients for every base width of the range
    check, in particular the automatically chosen ones. *)
From Coq Require Import ZArith Reals Bool List Lia Lra.
From Flocq Require Import Core BinarySingleNaN.
From Verif Require Import Field Circuit RangeCheck FloatModel RoundFacts Spec Deferred Shapes
  Circuits CircuitShapes CircuitSpec ForgeSpec ForgeFacts AnyWidthData Witness.
Import ListNotations.
Local Open Scope Z_scope.

#[local] Existing Instance bn254 | 1000.
#[local] Notation bits E M v := (0 <= v < 2 ^ (E + M + 1)).

(** ** The circuits, for every base width *)

Theorem C52_mul {MOD : Modulus} {E M b : Z} {HP : Params E M b} {HF : Format E M} X Y Z :
  2 ^ 250 <= modulus -> fill b M + fill b (2 * M + 2) + fill b (E + M + 1) + 2 <= 250 ->
  0 <= X < modulus -> 0 <= Y < modulus -> 0 <= Z < modulus ->
  (sat b (binary_circuit E M (Mul E M) X Y Z) tt <->
   bits E M X /\ bits E M Y /\ bits E M Z /\
   product_outcome b (of_bits E M X) (of_bits E M Y) (of_bits E M Z)).
Proof.
  intros Hbig Hf HX HY HZ. apply binary_sat; try assumption.
  intros x y fx fy. exact (mul_yields_any Hbig Hf x y fx fy).
Qed.
Print Assumptions C52_mul.

Theorem C52_div {MOD : Modulus} {E M b : Z} {HP : Params E M b} {HF : Format E M} X Y Z :
  2 ^ 250 <= modulus -> fill b M + fill b (2 * M + 2) + fill b (E + M + 1) + 2 <= 250 ->
  0 <= X < modulus -> 0 <= Y < modulus -> 0 <= Z < modulus ->
  (sat b (binary_circuit E M (Div E M) X Y Z) tt <->
   bits E M X /\ bits E M Y /\ bits E M Z /\
   quotient_outcome b (of_bits E M X) (of_bits E M Y) (of_bits E M Z)).
Proof.
  intros Hbig Hf HX HY HZ. apply binary_sat; try assumption.
  intros x y fx fy. exact (div_yields_any Hbig Hf x y fx fy).
Qed.
Print Assumptions C52_div.

(** The condition on the width holds for every width with binary32 and for all
    but 15 and 17 with binary64. *)
Theorem C52_widths b : 2 <= b <= 17 ->
  fill b 23 + fill b (2 * 23 + 2) + fill b (8 + 23 + 1) + 2 <= 250 /\
  (b <> 15 -> b <> 17 -> fill b 52 + fill b (2 * 52 + 2) + fill b (11 + 52 + 1) + 2 <= 250).
Proof.
  intros Hb.
  assert (b = 2 \/ b = 3 \/ b = 4 \/ b = 5 \/ b = 6 \/ b = 7 \/ b = 8 \/ b = 9 \/ b = 10 \/ b = 11 \/
          b = 12 \/ b = 13 \/ b = 14 \/ b = 15 \/ b = 16 \/ b = 17) as H by lia.
  repeat (destruct H as [->|H]; [split; [|intros H1 H2]; vm_compute; congruence|]).
  subst b. split; [|intros H1 H2]; vm_compute; congruence.
Qed.
Print Assumptions C52_widths.

(** The gadgets inside larger circuits. *)
Theorem C52_gadgets {MOD : Modulus} {E M b : Z} {HP : Params E M b} {HF : Format E M}
    x y (fx fy : fmt E M) z (fz : fmt E M) :
  2 ^ 250 <= modulus -> fill b M + fill b (2 * M + 2) + fill b (E + M + 1) + 2 <= 250 ->
  represents x fx -> represents y fy -> represents z fz ->
  (sat b (r <- Mul E M x y ;; AssertIsEqual r z) tt <-> product_outcome b fx fy fz) /\
  (sat b (r <- Div E M x y ;; AssertIsEqual r z) tt <-> quotient_outcome b fx fy fz).
Proof.
  intros Hbig Hf Hx Hy Hz. split; apply check_step; try exact Hz.
  - exact (mul_yields_any Hbig Hf x y fx fy Hx Hy).
  - exact (div_yields_any Hbig Hf x y fx fy Hx Hy).
Qed.
Print Assumptions C52_gadgets.

(** ** What the outcomes allow *)

(** Widths that divide the table size leave the IEEE result only. *)
Theorem C52_dividing {E M : Z} {HF : Format E M} b (x y f : fmt E M) :
  0 < b -> (E + M + 1) mod b = 0 ->
  (product_outcome b x y f <-> f = ieee_mul E M x y) /\
  (quotient_outcome b x y f <-> f = ieee_div E M x y).
Proof. intros Hb Hd. split; [apply product_binds|apply quotient_binds]; assumption. Qed.
Print Assumptions C52_dividing.

(** A wrong result is a zero of the right sign, or NaN. *)
Theorem C52_wrong {E M : Z} {HF : Format E M} b (x y f : fmt E M) :
  (product_outcome b x y f ->
   f = ieee_mul E M x y \/ f = B754_zero (xorb (Bsign x) (Bsign y)) \/ f = B754_nan) /\
  (quotient_outcome b x y f ->
   f = ieee_div E M x y \/ f = B754_zero (xorb (Bsign x) (Bsign y)) \/ f = B754_nan).
Proof. split; [apply product_wrong|apply quotient_wrong]. Qed.
Print Assumptions C52_wrong.

(** ** Automatically chosen widths over BN254 *)

Definition mul_width32 (ft : frontend_type) : Z := match ft with R1CS => 4 | SCS => 5 end.

Theorem C52_auto32 ft X Y Z :
  0 <= X < modulus -> 0 <= Y < modulus -> 0 <= Z < modulus ->
  (accepts 0 ft (binary_circuit 8 23 (Mul 8 23) X Y Z) tt <->
   bits 8 23 X /\ bits 8 23 Y /\ bits 8 23 Z /\
   product_outcome (mul_width32 ft) (of_bits 8 23 X) (of_bits 8 23 Y) (of_bits 8 23 Z)) /\
  (accepts 0 ft (binary_circuit 8 23 (Div 8 23) X Y Z) tt <->
   bits 8 23 X /\ bits 8 23 Y /\ bits 8 23 Z /\
   quotient_outcome 5 (of_bits 8 23 X) (of_bits 8 23 Y) (of_bits 8 23 Z)).
Proof.
  intros HX HY HZ. assert (Hbig : 2 ^ 250 <= @modulus bn254) by (vm_compute; discriminate).
  rewrite (accepts_static 0 ft _ _ tt (collects_binary 8 23 _ _ X Y Z (collects_Mul 8 23))).
  rewrite (accepts_static 0 ft _ _ tt (collects_binary 8 23 _ _ X Y Z (collects_Div 8 23))).
  assert (W1 : baseLength 0 ft (items_of (binary_shape 8 23 (mul_shape 8 23))) = mul_width32 ft)
    by (destruct ft; vm_compute; reflexivity).
  assert (W2 : baseLength 0 ft (items_of (binary_shape 8 23 (div_shape 8 23))) = 5)
    by (destruct ft; vm_compute; reflexivity).
  rewrite W1, W2.
  assert (Hw : 2 <= mul_width32 ft <= 17) by (destruct ft; cbn; lia).
  pose proof (params32 _ Hw) as HP1. pose proof (params32 5 ltac:(lia)) as HP2.
  split.
  - exact (C52_mul X Y Z Hbig (proj1 (C52_widths _ Hw)) HX HY HZ).
  - exact (C52_div X Y Z Hbig (proj1 (C52_widths 5 ltac:(lia))) HX HY HZ).
Qed.
Print Assumptions C52_auto32.

Theorem C52_auto64 ft X Y Z :
  0 <= X < modulus -> 0 <= Y < modulus -> 0 <= Z < modulus ->
  (accepts 0 ft (binary_circuit 11 52 (Mul 11 52) X Y Z) tt <->
   bits 11 52 X /\ bits 11 52 Y /\ bits 11 52 Z /\
   product_outcome 6 (of_bits 11 52 X) (of_bits 11 52 Y) (of_bits 11 52 Z)) /\
  (accepts 0 ft (binary_circuit 11 52 (Div 11 52) X Y Z) tt <->
   bits 11 52 X /\ bits 11 52 Y /\ bits 11 52 Z /\
   quotient_outcome 6 (of_bits 11 52 X) (of_bits 11 52 Y) (of_bits 11 52 Z)).
Proof.
  intros HX HY HZ. assert (Hbig : 2 ^ 250 <= @modulus bn254) by (vm_compute; discriminate).
  rewrite (accepts_static 0 ft _ _ tt (collects_binary 11 52 _ _ X Y Z (collects_Mul 11 52))).
  rewrite (accepts_static 0 ft _ _ tt (collects_binary 11 52 _ _ X Y Z (collects_Div 11 52))).
  assert (W1 : baseLength 0 ft (items_of (binary_shape 11 52 (mul_shape 11 52))) = 6)
    by (destruct ft; vm_compute; reflexivity).
  assert (W2 : baseLength 0 ft (items_of (binary_shape 11 52 (div_shape 11 52))) = 6)
    by (destruct ft; vm_compute; reflexivity).
  rewrite W1, W2. pose proof (params64 6 ltac:(lia)) as HP1.
  pose proof (proj2 (C52_widths 6 ltac:(lia)) ltac:(lia) ltac:(lia)) as Hf.
  split.
  - exact (C52_mul X Y Z Hbig Hf HX HY HZ).
  - exact (C52_div X Y Z Hbig Hf HX HY HZ).
Qed.
Print Assumptions C52_auto64.

Lemma odd_bound32 : odd_bound (E:=8) (M:=23) 5 (7 * 2 ^ 25).
Proof.
  intros k H1 _ H. change (fill 5 (23 + 8 + 1)) with 35 in H. change (23 + 8 + 1) with 32 in *.
  assert (0 < 2 ^ k) by (apply Z.pow_pos_nonneg; lia).
  assert (k = 1 \/ k = 2 \/ k = 3 \/ k = 4 \/ k = 5 \/ k = 6 \/ k = 7) as Hk by lia.
  repeat (destruct Hk as [->|Hk]; [vm_compute; discriminate|]). subst k. vm_compute. discriminate.
Qed.

Lemma odd_bound64 : odd_bound (E:=11) (M:=52) 6 (3 * 2 ^ 61).
Proof.
  intros k H1 _ H. change (fill 6 (52 + 11 + 1)) with 66 in H. change (52 + 11 + 1) with 64 in *.
  assert (0 < 2 ^ k) by (apply Z.pow_pos_nonneg; lia).
  assert (k = 1 \/ k = 2 \/ k = 3) as Hk by lia.
  repeat (destruct Hk as [->|Hk]; [vm_compute; discriminate|]). subst k. vm_compute. discriminate.
Qed.

(** At the automatically chosen widths, quotients that do not fall below the
    normal range bind ... *)
Theorem C52_auto_quotient ft X Y Z :
  0 <= X < modulus -> 0 <= Y < modulus -> 0 <= Z < modulus ->
  (is_zero (of_bits 8 23 Y) = true \/
   (bpow radix2 (-126) <= magv 8 23 (of_bits 8 23 X) / magv 8 23 (of_bits 8 23 Y))%R ->
   accepts 0 ft (binary_circuit 8 23 (Div 8 23) X Y Z) tt <->
   bits 8 23 X /\ bits 8 23 Y /\ bits 8 23 Z /\
   of_bits 8 23 Z = ieee_div 8 23 (of_bits 8 23 X) (of_bits 8 23 Y)) /\
  (is_zero (of_bits 11 52 Y) = true \/
   (bpow radix2 (-1022) <= magv 11 52 (of_bits 11 52 X) / magv 11 52 (of_bits 11 52 Y))%R ->
   accepts 0 ft (binary_circuit 11 52 (Div 11 52) X Y Z) tt <->
   bits 11 52 X /\ bits 11 52 Y /\ bits 11 52 Z /\
   of_bits 11 52 Z = ieee_div 11 52 (of_bits 11 52 X) (of_bits 11 52 Y)).
Proof.
  intros HX HY HZ. split; intros H.
  - rewrite (proj2 (C52_auto32 ft X Y Z HX HY HZ)), quotient_normal; [reflexivity|lia| |exact H].
    intros k H1 H2 H3. apply Z.le_trans with (2 := odd_bound32 k H1 H2 H3). vm_compute. discriminate.
  - rewrite (proj2 (C52_auto64 ft X Y Z HX HY HZ)), quotient_normal; [reflexivity|lia| |exact H].
    intros k H1 H2 H3. apply Z.le_trans with (2 := odd_bound64 k H1 H2 H3). vm_compute. discriminate.
Qed.
Print Assumptions C52_auto_quotient.

(** ... and so do products in the normal range that need at most 27 bits, or 62
    bits with binary64; for binary32 with Groth16, all products. *)
Theorem C52_auto_product ft X Y Z m j :
  0 <= X < modulus -> 0 <= Y < modulus -> 0 <= Z < modulus ->
  ((magv 8 23 (of_bits 8 23 X) * magv 8 23 (of_bits 8 23 Y) = IZR m * bpow radix2 j)%R ->
   Z.abs m <= 2 ^ 27 ->
   (bpow radix2 (-126) <= magv 8 23 (of_bits 8 23 X) * magv 8 23 (of_bits 8 23 Y))%R ->
   accepts 0 ft (binary_circuit 8 23 (Mul 8 23) X Y Z) tt <->
   bits 8 23 X /\ bits 8 23 Y /\ bits 8 23 Z /\
   of_bits 8 23 Z = ieee_mul 8 23 (of_bits 8 23 X) (of_bits 8 23 Y)) /\
  ((magv 11 52 (of_bits 11 52 X) * magv 11 52 (of_bits 11 52 Y) = IZR m * bpow radix2 j)%R ->
   Z.abs m <= 2 ^ 62 ->
   (bpow radix2 (-1022) <= magv 11 52 (of_bits 11 52 X) * magv 11 52 (of_bits 11 52 Y))%R ->
   accepts 0 ft (binary_circuit 11 52 (Mul 11 52) X Y Z) tt <->
   bits 11 52 X /\ bits 11 52 Y /\ bits 11 52 Z /\
   of_bits 11 52 Z = ieee_mul 11 52 (of_bits 11 52 X) (of_bits 11 52 Y)).
Proof.
  intros HX HY HZ. split; intros Hv Hm Hn.
  - rewrite (proj1 (C52_auto32 ft X Y Z HX HY HZ)). destruct ft; cbn [mul_width32].
    + rewrite product_binds; [reflexivity|lia|reflexivity].
    + rewrite (product_short 5 (7 * 2 ^ 25)); [reflexivity|lia|exact odd_bound32|exact Hv| |exact Hn].
      apply Z.le_trans with (1 := Hm). vm_compute. discriminate.
  - rewrite (proj1 (C52_auto64 ft X Y Z HX HY HZ)).
    rewrite (product_short 6 (3 * 2 ^ 61)); [reflexivity|lia|exact odd_bound64|exact Hv| |exact Hn].
    apply Z.le_trans with (1 := Hm). vm_compute. discriminate.
Qed.
Print Assumptions C52_auto_product.

(** ** Instances *)

(** 3303821 * 325 = 2^30 + 1 with base width 5: the wrong power of two divides
    the significand, so zero is an outcome. *)
Lemma C52_escape_ex : product_escapes 5 (f32 3303821 0) (f32 325 0) 30.
Proof.
  exists (1073741825 * 2 ^ 17). split; [vm_compute; split; [discriminate|reflexivity]|]. split.
  - cbn. unfold F2R. cbn. rewrite !Rabs_pos_eq by lra. lra.
  - exists (2 ^ 4 + 4 * 2 ^ 32). split.
    + exists 4. vm_compute. repeat split; discriminate.
    + exists (2 ^ 17 * 2 ^ (23 + 2 + (fill 5 (2 * 23 + 2) - (2 * 23 + 2))) / 2 ^ 4). vm_compute. reflexivity.
Qed.

Theorem C52_product_refuted :
  product_outcome 5 (f32 3303821 0) (f32 325 0) (B754_zero false) /\
  (B754_zero false : fmt 8 23) <> ieee_mul 8 23 (f32 3303821 0) (f32 325 0).
Proof.
  split.
  - right. exists 30. split; [exact C52_escape_ex|]. left. split; [reflexivity|].
    split; [vm_compute; discriminate|reflexivity].
  - intros H. apply (f_equal B2SF) in H. vm_compute in H. discriminate.
Qed.
Print Assumptions C52_product_refuted.

(** The hypotheses of the theorems about binding results are met by 1.5 * 2.5
    and 1 / 3, and the circuits accept these. *)
Example C52_ex :
  of_bits 8 23 0x3FC00000 = f32 3 (-1) /\ of_bits 8 23 0x40200000 = f32 5 (-1) /\
  (magv 8 23 (f32 3 (-1)) * magv 8 23 (f32 5 (-1)) = IZR 15 * bpow radix2 (-2))%R /\
  Z.abs 15 <= 2 ^ 27 /\
  (bpow radix2 (-126) <= magv 8 23 (f32 3 (-1)) * magv 8 23 (f32 5 (-1)))%R /\
  (bpow radix2 (-126) <= magv 8 23 (f32 1 0) / magv 8 23 (f32 3 0))%R /\
  run 5 (binary_circuit 8 23 (Mul 8 23) 0x3FC00000 0x40200000 0x40700000) = Some tt /\
  run 5 (binary_circuit 8 23 (Div 8 23) 0x3F800000 0x40400000 0x3EAAAAAB) = Some tt /\
  run 6 (binary_circuit 11 52 (Mul 11 52) 0x3FF8000000000000 0x4004000000000000 0x400E000000000000)
    = Some tt /\
  run 6 (binary_circuit 11 52 (Mul 11 52) 0x3FF8000000000000 0x4004000000000000 0) = None.
Proof.
  assert (Hs : (bpow radix2 (-126) <= / 1024)%R).
  { change (/ 1024)%R with (bpow radix2 (-10)). apply bpow_le. lia. }
  split; [apply B2SF_inj; vm_compute; reflexivity|].
  split; [apply B2SF_inj; vm_compute; reflexivity|].
  split; [cbn; unfold F2R; cbn; rewrite !Rabs_pos_eq by lra; lra|].
  split; [vm_compute; discriminate|].
  split; [apply Rle_trans with (1 := Hs); cbn; unfold F2R; cbn; rewrite !Rabs_pos_eq by lra; lra|].
  split; [apply Rle_trans with (1 := Hs); cbn; unfold F2R; cbn; rewrite !Rabs_pos_eq by lra; lra|].
  split; [vm_compute; reflexivity|]. split; [vm_compute; reflexivity|].
  split; vm_compute; reflexivity.
Qed.
