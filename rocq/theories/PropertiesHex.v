(** Property C34: hex2dToCoordIJK. *)
From Coq Require Import ZArith Reals Lra Lia Bool List.
From Flocq Require Import Core BinarySingleNaN.
From Verif Require Import Field FieldFacts Circuit RangeCheck RangeFacts GadgetFacts FloatModel Math
  RoundFacts Spec RoundCore RepFacts NewFacts Outcomes Witness Loc2Index LocConst NormFacts HexFacts.
Import ListNotations.
Local Open Scope Z_scope.

(** The four constants are bit patterns of the format, of the expected sizes. *)
Definition hex_patterns (E M : Z) {HF : Format E M} (K : constants) : Prop :=
  Forall (fun p => 0 <= p < 2 ^ (E + M + 1)) [k_half K; k_third K; k_two_thirds K; k_sin60 K] /\
  hex_constants (of_bits E M (k_half K)) (of_bits E M (k_third K)) (of_bits E M (k_two_thirds K))
    (of_bits E M (k_sin60 K)).

(** The repository's prover: H3's coordinates, for every point up to [2^29]
    from both axes whose first coordinate is not -0. *)
Theorem C34_hex2d_complete {MOD : Modulus} {E M b : Z} {HP : Params E M b} {HF : Format E M} K x y (fx fy : fmt E M) :
  8 <= E -> 23 <= M -> hex_patterns E M K -> represents x fx -> represents y fy ->
  is_finite fx = true -> is_finite fy = true -> fx <> B754_zero true ->
  (Rabs (B2R fx) <= bpow radix2 29)%R -> (Rabs (B2R fy) <= bpow radix2 29)%R ->
  exec b (hex2dToCoordIJK E M K x y) =
  Some (embed3 (h3_hex2d (of_bits E M (k_half K)) (of_bits E M (k_third K)) (of_bits E M (k_two_thirds K))
    (of_bits E M (k_sin60 K)) fx fy)).
Proof.
  intros HE HM [HK1 HK2] Hx Hy Fx Fy Nx Bx By.
  destruct (hex_spec Honest ltac:(discriminate) HE HM K HK1 HK2 0 0 x y fx fy Hx Hy Fx Fy Nx Bx By
    ltac:(discriminate)) as (r & H & m1 & m2 & [-> ->] & ->).
  exact H.
Qed.
Print Assumptions C34_hex2d_complete.

(** Any prover: exactly the results H3 would return with the integer parts the
    prover chooses, the true ones or, for a skewed coordinate in [1,2), 0. *)
Theorem C34_hex2d_exact {MOD : Modulus} {E M b : Z} {HP : Params E M b} {HF : Format E M} K x y (fx fy : fmt E M) :
  8 <= E -> 23 <= M -> hex_patterns E M K -> pow2_size E M mod b = 0 ->
  represents x fx -> represents y fy ->
  is_finite fx = true -> is_finite fy = true -> fx <> B754_zero true ->
  (Rabs (B2R fx) <= bpow radix2 29)%R -> (Rabs (B2R fy) <= bpow radix2 29)%R ->
  forall r, sat b (hex2dToCoordIJK E M K x y) r <->
  exists m1 m2, int_part (h3_x1 (of_bits E M (k_sin60 K)) fx fy) m1 /\
    int_part (h3_x2 (of_bits E M (k_sin60 K)) fy) m2 /\
    r = embed3 (h3_hex2d_with (of_bits E M (k_half K)) (of_bits E M (k_third K)) (of_bits E M (k_two_thirds K))
      (of_bits E M (k_sin60 K)) m1 m2 fx fy).
Proof.
  intros HE HM [HK1 HK2] Hd Hx Hy Fx Fy Nx Bx By r. split.
  - intros Hr. destruct (hex_spec Anyone (fun _ => Hd) HE HM K HK1 HK2 0 0 x y fx fy Hx Hy Fx Fy Nx Bx By
      ltac:(discriminate) r Hr) as (m1 & m2 & [H1 H2] & ->).
    exists m1, m2. auto.
  - intros (n1 & n2 & H1 & H2 & ->).
    destruct (hex_spec Someone ltac:(discriminate) HE HM K HK1 HK2 n1 n2 x y fx fy Hx Hy Fx Fy Nx Bx By
      (fun _ => conj H1 H2)) as (r & Hr & m1 & m2 & [-> ->] & ->).
    exact Hr.
Qed.
Print Assumptions C34_hex2d_exact.

(** Hence H3's coordinates only, when no skewed coordinate lies in [1,2). *)
Theorem C34_hex2d_sound {MOD : Modulus} {E M b : Z} {HP : Params E M b} {HF : Format E M} K x y (fx fy : fmt E M) :
  8 <= E -> 23 <= M -> hex_patterns E M K -> pow2_size E M mod b = 0 ->
  represents x fx -> represents y fy ->
  is_finite fx = true -> is_finite fy = true -> fx <> B754_zero true ->
  (Rabs (B2R fx) <= bpow radix2 29)%R -> (Rabs (B2R fy) <= bpow radix2 29)%R ->
  ~ in_1_2 E M (h3_x1 (of_bits E M (k_sin60 K)) fx fy) -> ~ in_1_2 E M (h3_x2 (of_bits E M (k_sin60 K)) fy) ->
  forall r, sat b (hex2dToCoordIJK E M K x y) r ->
  r = embed3 (h3_hex2d (of_bits E M (k_half K)) (of_bits E M (k_third K)) (of_bits E M (k_two_thirds K))
    (of_bits E M (k_sin60 K)) fx fy).
Proof.
  intros HE HM HK Hd Hx Hy Fx Fy Nx Bx By I1 I2 r Hr.
  destruct (proj1 (C34_hex2d_exact K x y fx fy HE HM HK Hd Hx Hy Fx Fy Nx Bx By r) Hr)
    as (m1 & m2 & [->|[H _]] & [->|[H' _]] & ->); [reflexivity|contradiction..].
Qed.
Print Assumptions C34_hex2d_sound.

(** The repository's constants qualify. *)
Lemma datum_value {E M : Z} {HF : Format E M} (f : fmt E M) m e : B2SF f = SpecFloat.S754_finite false m e ->
  is_finite f = true /\ B2R f = (IZR (Zpos m) * bpow radix2 e)%R.
Proof. destruct f; try discriminate. cbn [B2SF]. intros [= -> -> ->]. split; reflexivity. Qed.

Lemma hex_patterns_32 : hex_patterns 8 23 constants32.
Proof.
  split; [repeat constructor; vm_compute; congruence|].
  destruct (datum_value (of_bits 8 23 (k_half constants32)) 8388608 (-24) ltac:(vm_compute; reflexivity)) as [F1 V1].
  destruct (datum_value (of_bits 8 23 (k_third constants32)) 11184811 (-25) ltac:(vm_compute; reflexivity)) as [F2 V2].
  destruct (datum_value (of_bits 8 23 (k_two_thirds constants32)) 11184811 (-24) ltac:(vm_compute; reflexivity)) as [F3 V3].
  destruct (datum_value (of_bits 8 23 (k_sin60 constants32)) 14529495 (-24) ltac:(vm_compute; reflexivity)) as [F4 V4].
  assert (B : bpow radix2 (-24) = (/ 16777216)%R) by reflexivity. rewrite B in *.
  unfold hex_constants. rewrite V1, V3, V4. repeat (split; try assumption); lra.
Qed.

Lemma hex_patterns_64 : hex_patterns 11 52 constants64.
Proof.
  split; [repeat constructor; vm_compute; congruence|].
  destruct (datum_value (of_bits 11 52 (k_half constants64)) 4503599627370496 (-53) ltac:(vm_compute; reflexivity)) as [F1 V1].
  destruct (datum_value (of_bits 11 52 (k_third constants64)) 6004799503160661 (-54) ltac:(vm_compute; reflexivity)) as [F2 V2].
  destruct (datum_value (of_bits 11 52 (k_two_thirds constants64)) 6004799503160661 (-53) ltac:(vm_compute; reflexivity)) as [F3 V3].
  destruct (datum_value (of_bits 11 52 (k_sin60 constants64)) 7800463371553962 (-53) ltac:(vm_compute; reflexivity)) as [F4 V4].
  assert (B : bpow radix2 (-53) = (/ 9007199254740992)%R) by reflexivity. rewrite B in *.
  unfold hex_constants. rewrite V1, V3, V4. repeat (split; try assumption); lra.
Qed.

Definition spec_32 (x y : Z) : Z * Z * Z :=
  h3_hex2d (of_bits 8 23 (k_half constants32)) (of_bits 8 23 (k_third constants32))
    (of_bits 8 23 (k_two_thirds constants32)) (of_bits 8 23 (k_sin60 constants32)) (of_bits 8 23 x) (of_bits 8 23 y).
Definition hex_32 (x y : Z) : circ (Z * Z * Z) :=
  hex2dToCoordIJK (MOD:=bn254) 8 23 constants32 (NewConstant (MOD:=bn254) 8 23 x) (NewConstant (MOD:=bn254) 8 23 y).

Lemma datum_small {E M : Z} {HF : Format E M} (f : fmt E M) s m e : B2SF f = SpecFloat.S754_finite s m e ->
  Zpos m <= 2 ^ 29 -> e <= 0 ->
  is_finite f = true /\ f <> B754_zero true /\ (Rabs (B2R f) <= bpow radix2 29)%R.
Proof.
  destruct f as [|  | |s' m' e' H]; try discriminate. cbn [B2SF]. intros [= -> -> ->] Hm He.
  split; [reflexivity|]. split; [discriminate|]. cbn [B2R]. rewrite <- F2R_Zabs, abs_cond_Zopp.
  unfold F2R. cbn [Fnum Fexp Z.abs]. rewrite <- (Rmult_1_r (bpow radix2 29)). change 1%R with (bpow radix2 0).
  apply Rmult_le_compat; [apply IZR_le; lia|apply bpow_ge_0| |apply bpow_le; exact He].
  rewrite <- IZR_pow2 by lia. apply IZR_le. exact Hm.
Qed.

(** (2.7, -3.3) is in the cell (5, 0, 4), for every prover. *)
Example C34_hex2d_ex :
  spec_32 1076677837 3226678067 = (5, 0, 4) /\
  run 8 (hex_32 1076677837 3226678067) = Some (5, 0, 4) /\
  (forall r, accepted 8 (hex_32 1076677837 3226678067) r -> r = (5, 0, 4)).
Proof.
  split; [vm_compute; reflexivity|]. split; [vm_compute; reflexivity|]. intros r Hr.
  destruct (datum_small (of_bits 8 23 1076677837) false 11324621 (-22) ltac:(vm_compute; reflexivity)
    ltac:(vm_compute; congruence) ltac:(lia)) as (X1 & X2 & X3).
  destruct (datum_small (of_bits 8 23 3226678067) true 13841203 (-22) ltac:(vm_compute; reflexivity)
    ltac:(vm_compute; congruence) ltac:(lia)) as (Y1 & _ & Y3).
  pose proof (params32 8 ltac:(lia)) as HP.
  refine (C34_hex2d_sound (MOD:=bn254) (b:=8) (HP:=HP) constants32 _ _ (of_bits 8 23 1076677837) (of_bits 8 23 3226678067)
    ltac:(lia) ltac:(lia) hex_patterns_32 eq_refl _ _ X1 Y1 X2 X3 Y3 _ _ r Hr).
  - apply newconst_spec. vm_compute; split; congruence.
  - apply newconst_spec. vm_compute; split; congruence.
  - intros [_ H]. destruct (datum_value (h3_x1 (of_bits 8 23 (k_sin60 constants32)) (of_bits 8 23 1076677837)
      (of_bits 8 23 3226678067)) 9657922 (-21) ltac:(vm_compute; reflexivity)) as [_ V].
    rewrite V in H. assert (B : bpow radix2 (-21) = (/ 2097152)%R) by reflexivity. rewrite B in H.
    rewrite Rabs_pos_eq in H by lra. lra.
  - intros [_ H]. destruct (datum_value (h3_x2 (of_bits 8 23 (k_sin60 constants32))
      (of_bits 8 23 3226678067)) 15982445 (-22) ltac:(vm_compute; reflexivity)) as [_ V].
    rewrite V in H. assert (B : bpow radix2 (-22) = (/ 4194304)%R) by reflexivity. rewrite B in H.
    rewrite Rabs_pos_eq in H by lra. lra.
Qed.

(** On the axis x = -0 the circuit takes the fold of negative x, C does not:
    (-0, sin60) belongs to (1,1,0) as (+0, sin60) does. *)
Theorem C34_minus_zero_refuted :
  exists x y r, of_bits 8 23 x = B754_zero true /\ is_finite (of_bits 8 23 y) = true /\
    run 8 (hex_32 x y) = Some r /\ spec_32 x y <> r /\
    run 8 (hex_32 0 y) = Some (spec_32 x y).
Proof.
  exists 2147483648, 1063105495, (0, 1, 0). split; [apply B2SF_inj; vm_compute; reflexivity|].
  split; [vm_compute; reflexivity|]. split; [vm_compute; reflexivity|].
  split; [vm_compute; discriminate|vm_compute; reflexivity].
Qed.
Print Assumptions C34_minus_zero_refuted.

(** A prover can move the point (1.6, 0) from (2,0,0) to (1,0,0). *)
Theorem C34_any_prover_refuted :
  exists x y r, is_finite (of_bits 8 23 x) = true /\ is_finite (of_bits 8 23 y) = true /\
    run 8 (hex_32 x y) = Some (spec_32 x y) /\
    accepted 8 (hex_32 x y) r /\ r <> spec_32 x y.
Proof.
  exists 1070386381, 0, (1, 0, 0). split; [vm_compute; reflexivity|]. split; [vm_compute; reflexivity|].
  split; [vm_compute; reflexivity|]. split; [|vm_compute; discriminate].
  destruct (datum_small (of_bits 8 23 1070386381) false 13421773 (-23) ltac:(vm_compute; reflexivity)
    ltac:(vm_compute; congruence) ltac:(lia)) as (X1 & X2 & X3).
  pose proof (params32 8 ltac:(lia)) as HP.
  refine (proj2 (C34_hex2d_exact (MOD:=bn254) (b:=8) (HP:=HP) constants32 _ _ (of_bits 8 23 1070386381) (of_bits 8 23 0)
    ltac:(lia) ltac:(lia) hex_patterns_32 eq_refl _ _ X1 _ X2 X3 _ (1, 0, 0)) _).
  - apply newconst_spec. vm_compute; split; congruence.
  - apply newconst_spec. vm_compute; split; congruence.
  - vm_compute; reflexivity.
  - replace (of_bits 8 23 0) with (B754_zero false : fmt 8 23) by (apply B2SF_inj; vm_compute; reflexivity).
    cbn [B2R]. rewrite Rabs_R0. apply bpow_ge_0.
  - exists 0, 0. split; [|split].
    + right. split; [|reflexivity].
      destruct (datum_value (h3_x1 (of_bits 8 23 (k_sin60 constants32)) (of_bits 8 23 1070386381)
        (of_bits 8 23 0)) 13421773 (-23) ltac:(vm_compute; reflexivity)) as [F V].
      split; [exact F|]. rewrite V. assert (B : bpow radix2 (-23) = (/ 8388608)%R) by reflexivity. rewrite B.
      rewrite Rabs_pos_eq by lra. lra.
    + left. vm_compute. reflexivity.
    + vm_compute. reflexivity.
Qed.
Print Assumptions C34_any_prover_refuted.
