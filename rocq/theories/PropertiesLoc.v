(** Properties C33 to C38: the location circuits. *)
From Coq Require Import ZArith Reals Lra Lia Bool List.
From Flocq Require Import Core BinarySingleNaN.
From Verif Require Import Field FieldFacts Circuit RangeCheck RangeFacts GadgetFacts FloatModel Math RoundFacts Spec Outcomes
  Witness ExprFacts Loc2Index LocConst NormFacts ScaleFacts ClosestFacts LocFacts LocCircuitFacts.
Import ListNotations.
Local Open Scope Z_scope.

(** ** C33: NormalizeIJK *)

(** Any prover: H3's normalisation of the signed coordinates.  The modulus
    must be at least [2^K]; for BN254, [K] can be 253. *)
Theorem C33_normalize_sound {MOD : Modulus} {b K : Z} {HW : Width b K} iNeg i jNeg j kNeg k r :
  32 + b <= K -> 0 <= i < 2 ^ (K - 4) -> 0 <= j < 2 ^ (K - 4) -> 0 <= k < 2 ^ (K - 4) ->
  sat b (NormalizeIJK (emb (Z.b2z iNeg)) (emb i) (emb (Z.b2z jNeg)) (emb j) (emb (Z.b2z kNeg)) (emb k)) r ->
  r = embed3 (h3_normalize (signed iNeg i, signed jNeg j, signed kNeg k)).
Proof. intros HbK. exact (normalize_sound HbK iNeg i jNeg j kNeg k r). Qed.
Print Assumptions C33_normalize_sound.

(** The repository's prover obtains it for magnitudes below [2^31]. *)
Theorem C33_normalize_complete {MOD : Modulus} {b K : Z} {HW : Width b K} iNeg i jNeg j kNeg k :
  32 + b <= K -> 0 <= i < 2 ^ 31 -> 0 <= j < 2 ^ 31 -> 0 <= k < 2 ^ 31 ->
  exec b (NormalizeIJK (emb (Z.b2z iNeg)) (emb i) (emb (Z.b2z jNeg)) (emb j) (emb (Z.b2z kNeg)) (emb k)) =
  Some (embed3 (h3_normalize (signed iNeg i, signed jNeg j, signed kNeg k))).
Proof. intros HbK. exact (normalize_complete HbK iNeg i jNeg j kNeg k). Qed.
Print Assumptions C33_normalize_complete.

(** H3's normalisation is the one non-negative representative with a zero. *)
Theorem C33_canonical c d : h3_normalize c = d <-> canonical c d.
Proof.
  split; [intros <-; apply h3_canonical|].
  intros H. exact (canonical_unique c _ d (h3_canonical c) H).
Qed.
Print Assumptions C33_canonical.

Lemma width_bn254 b : 2 <= b <= 17 -> @Width bn254 b 253.
Proof. intros H. constructor; try exact H; vm_compute; congruence. Qed.

(** (-2, 3, -7) is normalised to (5, 10, 0). *)
Example C33_normalize_ex :
  run 8 (NormalizeIJK (MOD:=bn254) 1 2 0 3 1 7) = Some (5, 10, 0) /\
  (forall r, accepted 8 (NormalizeIJK (MOD:=bn254) 1 2 0 3 1 7) r -> r = (5, 10, 0)) /\
  canonical (-2, 3, -7) (5, 10, 0).
Proof.
  split; [vm_compute; reflexivity|]. split.
  - intros r H. 
    exact (C33_normalize_sound (MOD:=bn254) (HW:=width_bn254 8 ltac:(lia)) true 2 false 3 true 7 r
      ltac:(lia) ltac:(lia) ltac:(lia) ltac:(lia) H).
  - apply C33_canonical. reflexivity.
Qed.

(** ** C36: scaleR *)

(** The accepted results are those of the product with the factor selected by
    the resolution, which must be below 16. *)
Theorem C36_scale_exact {MOD : Modulus} {E M b : Z} {HP : Params E M b} {HF : Format E M} K r res x :
  good_powers (E:=E) (M:=M) (k_powers K) -> pow2_size E M mod b = 0 -> 0 <= res < modulus ->
  (sat b (scaleR E M K r res) x <->
   res < 16 /\ sat b (Mul E M r (wires (ieee_scale (map (of_bits E M) (k_powers K)) res))) x).
Proof. intros Hk. exact (scale_sat K Hk r res x). Qed.
Print Assumptions C36_scale_exact.

(** Hence, for any prover, the IEEE product whenever it does not overflow. *)
Theorem C36_scale_sound {MOD : Modulus} {E M b : Z} {HP : Params E M b} {HF : Format E M} K r (fr : fmt E M) res x :
  good_powers (E:=E) (M:=M) (k_powers K) -> pow2_size E M mod b = 0 -> 0 <= res < modulus ->
  represents r fr ->
  (is_finite fr = true -> is_finite (ieee_mul E M fr (ieee_scale (map (of_bits E M) (k_powers K)) res)) = true) ->
  sat b (scaleR E M K r res) x ->
  res < 16 /\ represents x (ieee_mul E M fr (ieee_scale (map (of_bits E M) (k_powers K)) res)).
Proof.
  intros Hk Hd Hres Hr Hf H. apply (scale_sat K Hk r res x Hd Hres) in H. destruct H as [H1 H2].
  split; [exact H1|].
  exact (mul_safe r _ fr _ x Hd Hr (wires_represents _) (fun F _ => Hf F) H2).
Qed.
Print Assumptions C36_scale_sound.

(** The repository's prover obtains it for all sixteen resolutions. *)
Theorem C36_scale_complete {MOD : Modulus} {E M b : Z} {HP : Params E M b} {HF : Format E M} K r (fr : fmt E M) res :
  good_powers (E:=E) (M:=M) (k_powers K) -> 0 <= res < 16 -> represents r fr ->
  exists x, exec b (scaleR E M K r res) = Some x /\
  represents x (ieee_mul E M fr (ieee_scale (map (of_bits E M) (k_powers K)) res)).
Proof. intros Hk. exact (scale_exec K Hk r fr res). Qed.
Print Assumptions C36_scale_complete.

(** With the constants of the repository the factor is close to the power of
    the square root of 7. *)
Theorem C36_factor_32 res : 0 <= res < 16 ->
  (Rabs (B2R (ieee_scale (map (of_bits 8 23) (k_powers constants32)) res) - sqrt 7 ^ Z.to_nat res) <=
   bpow radix2 (-19) * sqrt 7 ^ Z.to_nat res)%R.
Proof. apply (scale_accuracy _ 19); [lia|vm_compute; reflexivity]. Qed.
Print Assumptions C36_factor_32.

Theorem C36_factor_64 res : 0 <= res < 16 ->
  (Rabs (B2R (ieee_scale (map (of_bits 11 52) (k_powers constants64)) res) - sqrt 7 ^ Z.to_nat res) <=
   bpow radix2 (-48) * sqrt 7 ^ Z.to_nat res)%R.
Proof. apply (scale_accuracy _ 48); [lia|vm_compute; reflexivity]. Qed.
Print Assumptions C36_factor_64.

(** Resolution 5 and [r = 1]: 129.6418; resolution 16 is refused. *)
Example C36_scale_ex :
  run 8 (scaleR (MOD:=bn254) 8 23 constants32 (w32 (f32 1 0)) 5) = Some (w32 (f32 8496204 (-16))) /\
  (forall x, accepted 8 (scaleR (MOD:=bn254) 8 23 constants32 (w32 (f32 1 0)) 5) x ->
     represents (MOD:=bn254) x (f32 8496204 (-16))) /\
  (forall x, ~ accepted 8 (scaleR (MOD:=bn254) 8 23 constants32 (w32 (f32 1 0)) 16) x).
Proof.
  split; [vm_compute; reflexivity|]. split.
  - intros x H. 
    assert (E1 : ieee_mul 8 23 (f32 1 0) (ieee_scale (map (of_bits 8 23) (k_powers constants32)) 5)
      = f32 8496204 (-16)) by (apply B2SF_inj; vm_compute; reflexivity).
    rewrite <- E1.
    apply (C36_scale_sound (MOD:=bn254) (HP:=params32 8 ltac:(lia)) constants32 (w32 (f32 1 0)) (f32 1 0) 5 x
      good_powers_32 eq_refl ltac:(split; vm_compute; congruence) (wires_represents _)
      ltac:(intros _; rewrite E1; reflexivity) H).
  - intros x H. 
    destruct (proj1 (C36_scale_exact (MOD:=bn254) (HP:=params32 8 ltac:(lia)) constants32 (w32 (f32 1 0)) 16 x
      good_powers_32 eq_refl ltac:(split; vm_compute; congruence)) H) as [F _]. lia.
Qed.

(** ** C35: closestFaceCalculations *)

(** The repository's prover, all inputs: the first face at minimal distance
    among those nearer than 5 ([picked]); a NaN distance is never selected. *)
Theorem C35_closest_complete {MOD : Modulus} {E M b : Z} {HP : Params E M b} {HF : Format E M}
    faces x y z lng (fx fy fz : fmt E M) :
  Forall (good_face (E:=E) (M:=M)) faces -> represents x fx -> represents y fy -> represents z fz ->
  exists c, exec b (closestFaceCalculations E M faces x y z lng) = Some c /\
  picked faces fx fy fz (of_bits E M (int_bits E M 5)) c.
Proof. exact (closest_exec faces x y z lng fx fy fz). Qed.
Print Assumptions C35_closest_complete.

(** Any prover, as long as no distance overflows. *)
Theorem C35_closest_sound {MOD : Modulus} {E M b : Z} {HP : Params E M b} {HF : Format E M}
    faces x y z lng (fx fy fz : fmt E M) c :
  pow2_size E M mod b = 0 -> Forall (good_face (E:=E) (M:=M)) faces ->
  represents x fx -> represents y fy -> represents z fz ->
  Forall (fun f => is_finite (ieee_distance f fx fy fz) = true) faces ->
  sat b (closestFaceCalculations E M faces x y z lng) c ->
  picked faces fx fy fz (of_bits E M (int_bits E M 5)) c.
Proof. exact (closest_sat faces x y z lng fx fy fz c). Qed.
Print Assumptions C35_closest_sound.

(** There is only one such face. *)
Theorem C35_closest_unique {E M : Z} {HF : Format E M} (dist : face -> fmt E M) five faces n f m g :
  first_nearest dist five faces n f -> first_nearest dist five faces m g -> n = m /\ f = g.
Proof. exact (first_nearest_unique dist five faces n f m g). Qed.
Print Assumptions C35_closest_unique.

(** At the north pole, face 1 of the binary32 table, for any prover. *)
Example C35_closest_ex c :
  let zero := f32 0 0 in let one := f32 1 0 in
  let f := nth 1 faces32 zero_face in
  accepted 8 (closestFaceCalculations (MOD:=bn254) 8 23 faces32 (w32 zero) (w32 zero) (w32 one) (w32 zero)) c ->
  carries (MOD:=bn254) c (ieee_distance (E:=8) (M:=23) f zero zero one) f.
Proof.
  intros zero one f H.
  set (D := fun g => ieee_distance (E:=8) (M:=23) g zero zero one).
  set (five := of_bits 8 23 (int_bits 8 23 5)).
  assert (HF : Forall (fun g => is_finite (D g) = true) faces32)
    by (apply Forall_forall, forallb_forall; vm_compute; reflexivity).
  pose proof (C35_closest_sound (MOD:=bn254) (HP:=params32 8 ltac:(lia)) faces32 (w32 zero) (w32 zero) (w32 one)
    (w32 zero) zero zero one c eq_refl
    good_faces_32 (wires_represents zero) (wires_represents zero) (wires_represents one) HF H) as HP.
  assert (HN : first_nearest D five faces32 1 f).
  { split; [reflexivity|]. split; [vm_compute; reflexivity|]. split.
    - intros m g Hg. apply nth_error_In in Hg. revert g Hg.
      assert (A : forallb (fun g => negb (ieee_lt 8 23 (D g) (D f))) faces32 = true) by (vm_compute; reflexivity).
      rewrite forallb_forall in A. intros g Hg. specialize (A g Hg). destruct (ieee_lt 8 23 (D g) (D f)); [discriminate|reflexivity].
    - intros m g Hm. assert (m = 0%nat) as -> by lia. intros Hg. injection Hg as <-. vm_compute. reflexivity. }
  destruct HP as [[HP _]|(n & g & H1 & H2)].
  - exfalso. specialize (HP 1%nat f eq_refl). destruct HN as (_ & HN & _).
    exact (eq_true_false_abs _ HN HP).
  - destruct (C35_closest_unique D five faces32 1 f n g HN H1) as [_ <-]. exact H2.
Qed.

(** ** C38: what the hint-based circuits check of the position *)

(** Exactly: two bit patterns that do not compare above pi/2 and pi, a resolution
    of at most 15, and a condition on the outputs in which the position does not
    occur.  Any tables and constants. *)
Theorem C38_checks_32 {MOD : Modulus} {b : Z} {HP : Params 8 23 b} K faces trig Lat Lng res I J K_ :
  0 <= Lat < modulus -> 0 <= Lng < modulus ->
  (sat b (loc2Index32Circuit K faces trig Lat Lng res I J K_) tt <->
   position_ok 8 23 half_pi_32 pi_32 Lat Lng /\ res <= 15 /\
   sat b (index_circuit32 K faces res I J K_) tt).
Proof. exact (loc32_sat K faces trig Lat Lng res I J K_). Qed.
Print Assumptions C38_checks_32.

Theorem C38_checks_64 {MOD : Modulus} {b : Z} {HP : Params 11 52 b} K faces trig Lat Lng res I J K_ :
  0 <= Lat < modulus -> 0 <= Lng < modulus ->
  (sat b (loc2Index64Circuit K faces trig Lat Lng res I J K_) tt <->
   position_ok 11 52 half_pi_64 pi_64 Lat Lng /\ res <= 15 /\
   sat b (index_circuit64 K faces res I J K_) tt).
Proof. exact (loc64_sat K faces trig Lat Lng res I J K_). Qed.
Print Assumptions C38_checks_64.

(** Positions above the bounds are refused, whatever the witness. *)
Theorem C38_above_refused {MOD : Modulus} {b : Z} K faces trig Lat Lng res I J K_ :
  0 <= Lat < modulus -> 0 <= Lng < modulus ->
  (forall HP : Params 8 23 b,
     ieee_lt 8 23 (of_bits 8 23 half_pi_32) (of_bits 8 23 Lat) = true \/
     ieee_lt 8 23 (of_bits 8 23 pi_32) (of_bits 8 23 Lng) = true ->
     ~ sat b (loc2Index32Circuit K faces trig Lat Lng res I J K_) tt) /\
  (forall HP : Params 11 52 b,
     ieee_lt 11 52 (of_bits 11 52 half_pi_64) (of_bits 11 52 Lat) = true \/
     ieee_lt 11 52 (of_bits 11 52 pi_64) (of_bits 11 52 Lng) = true ->
     ~ sat b (loc2Index64Circuit K faces trig Lat Lng res I J K_) tt).
Proof.
  intros Ha Hn. split; intros HP H G.
  - apply (loc32_sat K faces trig Lat Lng res I J K_ Ha Hn) in G.
    destruct G as [(_ & _ & G1 & G2) _]. destruct H; congruence.
  - apply (loc64_sat K faces trig Lat Lng res I J K_ Ha Hn) in G.
    destruct G as [(_ & _ & G1 & G2) _]. destruct H; congruence.
Qed.
Print Assumptions C38_above_refused.

(** Negative values, -infinity and NaN all pass, for either coordinate. *)
Definition unbounded_below {E M : Z} {HF : Format E M} (v : Z) : Prop :=
  0 <= v < 2 ^ (E + M + 1) /\ (is_nan (of_bits E M v) = true \/ Bsign (of_bits E M v) = true).

Theorem C38_negative_or_nan_pass Lat Lng :
  (unbounded_below (E:=8) (M:=23) Lat -> unbounded_below (E:=8) (M:=23) Lng ->
   position_ok 8 23 half_pi_32 pi_32 Lat Lng) /\
  (unbounded_below (E:=11) (M:=52) Lat -> unbounded_below (E:=11) (M:=52) Lng ->
   position_ok 11 52 half_pi_64 pi_64 Lat Lng).
Proof.
  split; intros [H1 H2] [H3 H4]; (split; [exact H1|split; [exact H3|]]);
    split; apply lt_negative; first [assumption|vm_compute; reflexivity].
Qed.
Print Assumptions C38_negative_or_nan_pass.

(** ** C37: the outputs are not bound to the position *)

(** For any two positions let through, the same outputs are accepted. *)
Theorem C37_same_outputs_32 {MOD : Modulus} {b : Z} {HP : Params 8 23 b} K faces trig trig'
    Lat Lng Lat' Lng' res I J K_ :
  0 <= Lat < modulus -> 0 <= Lng < modulus -> 0 <= Lat' < modulus -> 0 <= Lng' < modulus ->
  position_ok 8 23 half_pi_32 pi_32 Lat Lng -> position_ok 8 23 half_pi_32 pi_32 Lat' Lng' ->
  (sat b (loc2Index32Circuit K faces trig Lat Lng res I J K_) tt <->
   sat b (loc2Index32Circuit K faces trig' Lat' Lng' res I J K_) tt).
Proof.
  intros H1 H2 H3 H4 P P'. rewrite (loc32_sat K faces trig Lat Lng res I J K_ H1 H2).
  rewrite (loc32_sat K faces trig' Lat' Lng' res I J K_ H3 H4). tauto.
Qed.
Print Assumptions C37_same_outputs_32.

Theorem C37_same_outputs_64 {MOD : Modulus} {b : Z} {HP : Params 11 52 b} K faces trig trig'
    Lat Lng Lat' Lng' res I J K_ :
  0 <= Lat < modulus -> 0 <= Lng < modulus -> 0 <= Lat' < modulus -> 0 <= Lng' < modulus ->
  position_ok 11 52 half_pi_64 pi_64 Lat Lng -> position_ok 11 52 half_pi_64 pi_64 Lat' Lng' ->
  (sat b (loc2Index64Circuit K faces trig Lat Lng res I J K_) tt <->
   sat b (loc2Index64Circuit K faces trig' Lat' Lng' res I J K_) tt).
Proof.
  intros H1 H2 H3 H4 P P'. rewrite (loc64_sat K faces trig Lat Lng res I J K_ H1 H2).
  rewrite (loc64_sat K faces trig' Lat' Lng' res I J K_ H3 H4). tauto.
Qed.
Print Assumptions C37_same_outputs_64.

(** Sines and so on, for the positions of the next example: line 61 of
    data/f32/loc2index32.txt, and the point (0, 0). *)
Definition trig_ex (v : Z) : list Z :=
  match v with
  | 0 => [0; 0; 0; 1065353216]
  | 1060488744 => [1052627239; 1059512654; 1051851453; 1064306938]
  | 1058244021 => [1050132148; 1057717752; 1049722196; 1064661610]
  | _ => []
  end.

(** The index (273, 0, 176) of resolution 6 is what the honest prover obtains
    for (0x3f35c628, 0x3f1385b5); another prover has it accepted for (0, 0), and
    for (NaN, -infinity). *)
Theorem C37_binding_refuted :
  exists Lat Lng Lat' Lng' res I J K,
    run 8 (loc2Index32Circuit (MOD:=bn254) constants32 faces32 trig_ex Lat Lng res I J K) = Some tt /\
    accepted 8 (loc2Index32Circuit (MOD:=bn254) constants32 faces32 trig_ex Lat' Lng' res I J K) tt /\
    accepted 8 (loc2Index32Circuit (MOD:=bn254) constants32 faces32 trig_ex 2143289344 4286578688 res I J K) tt.
Proof.
  exists 1060488744, 1058244021, 0, 0, 6, 273, 0, 176.
  assert (H : run 8 (loc2Index32Circuit (MOD:=bn254) constants32 faces32 trig_ex 1060488744 1058244021 6 273 0 176) = Some tt)
    by (vm_compute; reflexivity).
  pose proof (accepted_run _ _ _ H) as H'.
  assert (HP : @Params bn254 8 23 8) by (apply params32; lia).
  assert (R : forall v, 0 <= v < 2 ^ 32 -> 0 <= v < @modulus bn254).
  { intros v Hv. assert (2 ^ 32 < @modulus bn254) by (vm_compute; reflexivity). lia. }
  assert (P0 : position_ok 8 23 half_pi_32 pi_32 1060488744 1058244021)
    by (repeat apply conj; vm_compute; congruence).
  split; [exact H|].
  split; refine (proj1 (C37_same_outputs_32 (MOD:=bn254) constants32 faces32 trig_ex trig_ex
    1060488744 1058244021 _ _ 6 273 0 176 (R _ _) (R _ _) (R _ _) (R _ _) P0 _) H');
    try lia; repeat apply conj; vm_compute; congruence.
Qed.
Print Assumptions C37_binding_refuted.

(** Likewise in binary64, line 61 of data/f64/loc2index64.txt and (-infinity,
    NaN), whatever the hint functions return; above pi/2 nothing is accepted. *)
Example C38_checks_ex_64 trig :
  (forall I J K,
    accepted 8 (loc2Index64Circuit (MOD:=bn254) constants64 faces64 trig
      4604570825329266274 4603365698600819173 6 I J K) tt <->
    accepted 8 (loc2Index64Circuit (MOD:=bn254) constants64 faces64 trig
      18442240474082181120 9221120237041090560 6 I J K) tt) /\
  (forall I J K, ~ accepted 8 (loc2Index64Circuit (MOD:=bn254) constants64 faces64 trig
    4609753056924675353 4603365698600819173 6 I J K) tt).
Proof.
  assert (HP : @Params bn254 11 52 8) by (apply params64; lia).
  assert (R : forall v, 0 <= v < 2 ^ 64 -> 0 <= v < @modulus bn254).
  { intros v Hv. assert (2 ^ 64 < @modulus bn254) by (vm_compute; reflexivity). lia. }
  split.
  - intros I J K. refine (C37_same_outputs_64 (MOD:=bn254) constants64 faces64 trig trig
      4604570825329266274 4603365698600819173 _ _ 6 I J K (R _ _) (R _ _) (R _ _) (R _ _) _ _);
      try lia; repeat apply conj; vm_compute; congruence.
  - intros I J K. refine (proj2 (C38_above_refused (MOD:=bn254) constants64 faces64 trig _ _ 6 I J K
      (R _ _) (R _ _)) HP _); try lia. left. vm_compute. reflexivity.
Qed.
