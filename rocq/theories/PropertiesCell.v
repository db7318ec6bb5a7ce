(** Property C54: the cell that hex2dToCoordIJK returns contains the point. *)
From Coq Require Import ZArith Reals Lra Lia Bool List.
From Flocq Require Import Core BinarySingleNaN.
From Verif Require Import Field FieldFacts Circuit RangeCheck RangeFacts GadgetFacts FloatModel Math
  MathSpec RoundFacts Spec RoundCore RepFacts NewFacts Outcomes Witness Loc2Index LocConst NormFacts HexFacts
  HexCell PropertiesHex.
Import ListNotations.
Local Open Scope Z_scope.

(** The constants are bit patterns of the format, and 1/2, 1/3, 2/3 and sin 60
    degrees to its precision. *)
Definition cell_patterns (E M : Z) {HF : Format E M} (K : constants) : Prop :=
  Forall (fun p => 0 <= p < 2 ^ (E + M + 1)) [k_half K; k_third K; k_two_thirds K; k_sin60 K] /\
  cell_constants (of_bits E M (k_half K)) (of_bits E M (k_third K)) (of_bits E M (k_two_thirds K))
    (of_bits E M (k_sin60 K)).

(** The hexagon of unit width around the centre of a cell holds exactly the
    points that are nowhere nearer to the centre of another cell. *)
Theorem C54_cell_is_nearest p c :
  in_cell 1 p c <-> forall c', (dist2 p (hex_centre c) <= dist2 p (hex_centre c'))%R.
Proof. exact (in_cell_nearest p c). Qed.
Print Assumptions C54_cell_is_nearest.

(** H3's rounding in either format: the hexagon, wider by the rounding, holds the point. *)
Theorem C54_h3_cell {E M : Z} {HF : Format E M} K (fx fy : fmt E M) :
  8 <= E -> 23 <= M -> cell_patterns E M K -> is_finite fx = true -> is_finite fy = true ->
  (Rabs (B2R fx) <= bpow radix2 29)%R -> (Rabs (B2R fy) <= bpow radix2 29)%R ->
  in_cell (1 + unit_ro M * (12 * (Rabs (B2R fx) + Rabs (B2R fy)) + 90)) (B2R fx, B2R fy)
    (h3_hex2d (of_bits E M (k_half K)) (of_bits E M (k_third K)) (of_bits E M (k_two_thirds K))
      (of_bits E M (k_sin60 K)) fx fy).
Proof. intros HE HM [_ HC]. exact (h3_cell_contains HE HM K HC fx fy). Qed.
Print Assumptions C54_h3_cell.

(** The repository's prover is accepted with such a cell. *)
Theorem C54_circuit_complete {MOD : Modulus} {E M b : Z} {HP : Params E M b} {HF : Format E M} K x y (fx fy : fmt E M) :
  8 <= E -> 23 <= M -> cell_patterns E M K -> represents x fx -> represents y fy ->
  is_finite fx = true -> is_finite fy = true ->
  (Rabs (B2R fx) <= bpow radix2 29)%R -> (Rabs (B2R fy) <= bpow radix2 29)%R ->
  exists c, exec b (hex2dToCoordIJK E M K x y) = Some (embed3 c) /\ reduced c /\
    in_cell (1 + unit_ro M * (12 * (Rabs (B2R fx) + Rabs (B2R fy)) + 90)) (B2R fx, B2R fy) c.
Proof. intros HE HM [HK HC] Hx Hy Fx Fy Bx By. exact (proj1 (circuit_cell HE HM K HK HC x y fx fy Hx Hy Fx Fy Bx By)). Qed.
Print Assumptions C54_circuit_complete.

(** Any prover: the point is in the hexagon widened by 5/2, and in the hexagon
    itself when no skewed coordinate lies in [1,2). *)
Theorem C54_circuit_sound {MOD : Modulus} {E M b : Z} {HP : Params E M b} {HF : Format E M} K x y (fx fy : fmt E M) :
  8 <= E -> 23 <= M -> cell_patterns E M K -> pow2_size E M mod b = 0 -> represents x fx -> represents y fy ->
  is_finite fx = true -> is_finite fy = true ->
  (Rabs (B2R fx) <= bpow radix2 29)%R -> (Rabs (B2R fy) <= bpow radix2 29)%R ->
  forall r, sat b (hex2dToCoordIJK E M K x y) r ->
  exists c, r = embed3 c /\ reduced c /\
    in_cell (5 / 2 + unit_ro M * (12 * (Rabs (B2R fx) + Rabs (B2R fy)) + 90)) (B2R fx, B2R fy) c /\
    (~ in_1_2 E M (h3_x1 (of_bits E M (k_sin60 K)) fx fy) -> ~ in_1_2 E M (h3_x2 (of_bits E M (k_sin60 K)) fy) ->
     in_cell (1 + unit_ro M * (12 * (Rabs (B2R fx) + Rabs (B2R fy)) + 90)) (B2R fx, B2R fy) c).
Proof. intros HE HM [HK HC] Hd Hx Hy Fx Fy Bx By. exact (proj2 (circuit_cell HE HM K HK HC x y fx fy Hx Hy Fx Fy Bx By) Hd). Qed.
Print Assumptions C54_circuit_sound.

(** The repository's constants qualify. *)
Lemma sqrt_between v lo hi : (0 <= lo -> 0 <= hi -> lo * lo <= v -> v <= hi * hi -> lo <= sqrt v <= hi)%R.
Proof.
  intros L H HL HH. split.
  - rewrite <- (sqrt_square lo L). apply sqrt_le_1_alt, HL.
  - rewrite <- (sqrt_square hi H). apply sqrt_le_1_alt, HH.
Qed.

Lemma cell_patterns_32 : cell_patterns 8 23 constants32.
Proof.
  split; [apply hex_patterns_32|].
  destruct (datum_value (of_bits 8 23 (k_half constants32)) 8388608 (-24) ltac:(vm_compute; reflexivity)) as [F1 V1].
  destruct (datum_value (of_bits 8 23 (k_third constants32)) 11184811 (-25) ltac:(vm_compute; reflexivity)) as [F2 V2].
  destruct (datum_value (of_bits 8 23 (k_two_thirds constants32)) 11184811 (-24) ltac:(vm_compute; reflexivity)) as [F3 V3].
  destruct (datum_value (of_bits 8 23 (k_sin60 constants32)) 14529495 (-24) ltac:(vm_compute; reflexivity)) as [F4 V4].
  assert (B : bpow radix2 (-24) = (/ 16777216)%R) by reflexivity.
  assert (B' : bpow radix2 (-25) = (/ 33554432)%R) by reflexivity. rewrite B in *. rewrite B' in *.
  assert (U : unit_ro 23 = (/ 16777216)%R) by exact B.
  unfold cell_constants. rewrite V1, V2, V3, V4, U. repeat (split; [assumption|]).
  pose proof (sqrt_between 3 (2 * (14529495 - 1) / 16777216) (2 * (14529495 + 1) / 16777216)
    ltac:(lra) ltac:(lra) ltac:(lra) ltac:(lra)).
  split; [lra|]. repeat split; apply Rabs_le; lra.
Qed.

Lemma cell_patterns_64 : cell_patterns 11 52 constants64.
Proof.
  split; [apply hex_patterns_64|].
  destruct (datum_value (of_bits 11 52 (k_half constants64)) 4503599627370496 (-53) ltac:(vm_compute; reflexivity)) as [F1 V1].
  destruct (datum_value (of_bits 11 52 (k_third constants64)) 6004799503160661 (-54) ltac:(vm_compute; reflexivity)) as [F2 V2].
  destruct (datum_value (of_bits 11 52 (k_two_thirds constants64)) 6004799503160661 (-53) ltac:(vm_compute; reflexivity)) as [F3 V3].
  destruct (datum_value (of_bits 11 52 (k_sin60 constants64)) 7800463371553962 (-53) ltac:(vm_compute; reflexivity)) as [F4 V4].
  assert (B : bpow radix2 (-53) = (/ 9007199254740992)%R) by reflexivity.
  assert (B' : bpow radix2 (-54) = (/ 18014398509481984)%R) by reflexivity. rewrite B in *. rewrite B' in *.
  assert (U : unit_ro 52 = (/ 9007199254740992)%R) by exact B.
  unfold cell_constants. rewrite V1, V2, V3, V4, U. repeat (split; [assumption|]).
  pose proof (sqrt_between 3 (2 * (7800463371553962 - 1) / 9007199254740992) (2 * (7800463371553962 + 1) / 9007199254740992)
    ltac:(lra) ltac:(lra) ltac:(lra) ltac:(lra)).
  split; [lra|]. repeat split; apply Rabs_le; lra.
Qed.

(** (2.7, -3.3) is in the hexagon of the cell (5,0,4) around (3, -2 sqrt 3),
    and in no other hexagon. *)
Definition point_ex : R * R := (11324621 / 4194304, - (13841203 / 4194304))%R.

Lemma point_ex_value : B2R (of_bits 8 23 1076677837) = fst point_ex /\ B2R (of_bits 8 23 3226678067) = snd point_ex.
Proof.
  assert (B : bpow radix2 (-22) = (/ 4194304)%R) by reflexivity. split.
  - destruct (datum_value (of_bits 8 23 1076677837) 11324621 (-22) ltac:(vm_compute; reflexivity)) as [_ ->].
    rewrite B. unfold point_ex. cbn [fst]. lra.
  - assert (H : B2SF (of_bits 8 23 3226678067) = SpecFloat.S754_finite true 13841203 (-22)) by (vm_compute; reflexivity).
    destruct (of_bits 8 23 3226678067) as [|  | |s' m' e' H']; try discriminate. cbn [B2SF] in H. injection H as -> -> ->.
    cbn [B2R]. unfold F2R. cbn [Fnum Fexp]. change (cond_Zopp true 13841203) with (-13841203). rewrite B. unfold point_ex. cbn [snd]. lra.
Qed.

Example C54_h3_cell_ex :
  spec_32 1076677837 3226678067 = (5, 0, 4) /\ in_cell 1 point_ex (5, 0, 4) /\
  forall c, in_cell 1 point_ex c -> hex_centre c = hex_centre (5, 0, 4).
Proof.
  split; [vm_compute; reflexivity|].
  pose proof (sqrt_between 3 (173205 / 100000) (173206 / 100000) ltac:(lra) ltac:(lra) ltac:(lra) ltac:(lra)) as HB.
  pose proof sqrt3 as H3.
  assert (Q : (-190535 / 100000 <= snd point_ex / sqrt 3 <= -190520 / 100000)%R).
  { unfold point_ex. cbn [snd]. split; apply Rmult_le_reg_r with (sqrt 3); try lra;
    replace (- (13841203 / 4194304) / sqrt 3 * sqrt 3)%R with (- (13841203 / 4194304))%R by (field; lra); lra. }
  assert (L : forall c, in_cell 1 point_ex c <->
    (Rabs (2 * (fst (skew point_ex) - fst (skew (hex_centre c))) - (snd (skew point_ex) - snd (skew (hex_centre c)))) <= 1 /\
     Rabs (2 * (snd (skew point_ex) - snd (skew (hex_centre c))) - (fst (skew point_ex) - fst (skew (hex_centre c)))) <= 1 /\
     Rabs (fst (skew point_ex) - fst (skew (hex_centre c)) + (snd (skew point_ex) - snd (skew (hex_centre c)))) <= 1)%R).
  { intros c. unfold in_cell. rewrite hexagon_skew. unfold skew at 1 2 3 4 5 6. cbn [fst snd].
    replace (2 * snd point_ex / sqrt 3)%R with (2 * (snd point_ex / sqrt 3))%R by (field; lra).
    unfold skew. cbn [fst snd].
    replace ((snd point_ex - snd (hex_centre c)) / sqrt 3)%R
      with (snd point_ex / sqrt 3 - snd (hex_centre c) / sqrt 3)%R by (field; lra).
    replace (2 * (snd point_ex - snd (hex_centre c)) / sqrt 3)%R
      with (2 * (snd point_ex / sqrt 3) - 2 * snd (hex_centre c) / sqrt 3)%R by (field; lra).
    replace (2 * snd point_ex / sqrt 3)%R with (2 * (snd point_ex / sqrt 3))%R by (field; lra).
    match goal with |- ?A /\ ?B /\ ?C <-> ?A' /\ ?B' /\ ?C' =>
      replace A' with A by (do 2 f_equal; ring); replace B' with B by (do 2 f_equal; ring);
      replace C' with C by (do 2 f_equal; ring) end. reflexivity. }
  assert (S1 : (79460 / 100000 <= fst (skew point_ex) <= 79490 / 100000)%R).
  { unfold skew, point_ex in *. cbn [fst snd] in *. lra. }
  assert (S2 : (-381080 / 100000 <= snd (skew point_ex) <= -381030 / 100000)%R).
  { unfold skew, point_ex in *. cbn [fst snd] in *.
    replace (2 * - (13841203 / 4194304) / sqrt 3)%R with (2 * (- (13841203 / 4194304) / sqrt 3))%R by (field; lra). lra. }
  split.
  - apply L. rewrite skew_centre. cbn [fst snd]. change (5 - 4)%Z with 1%Z. change (0 - 4)%Z with (-4)%Z.
    repeat split; apply Rabs_le; lra.
  - intros [[i j] k] H. apply L in H. rewrite skew_centre in H. cbn [fst snd] in H.
    destruct H as (A1 & A2 & A3). apply Rabs_le_inv in A1, A2, A3.
    assert (I : i - k = 1).
    { assert (-1 < i - k - 1 < 1); [split; apply lt_IZR; rewrite !minus_IZR in *; lra|lia]. }
    assert (J : j - k = -4).
    { assert (-1 < j - k + 4 < 1); [split; apply lt_IZR; rewrite plus_IZR, !minus_IZR in *; lra|lia]. }
    unfold hex_centre. rewrite I, J. reflexivity.
Qed.

(** The factor 5/2 is needed: from the point (0.505, 1.73), in the cell (2,2,0),
    a prover reaches the cell (2,1,0), whose hexagon holds the point only when
    widened by more than 12/5. *)
Example C54_circuit_sound_tight :
  spec_32 1057048494 1071476900 = (2, 2, 0) /\ accepted 8 (hex_32 1057048494 1071476900) (2, 1, 0) /\
  B2R (of_bits 8 23 1057048494) = (4236247 / 8388608)%R /\ B2R (of_bits 8 23 1071476900) = (3628073 / 2097152)%R /\
  ~ in_cell (12 / 5) (4236247 / 8388608, 3628073 / 2097152)%R (2, 1, 0).
Proof.
  split; [vm_compute; reflexivity|].
  destruct (datum_value (of_bits 8 23 1057048494) 8472494 (-24) ltac:(vm_compute; reflexivity)) as [FX VX].
  destruct (datum_value (of_bits 8 23 1071476900) 14512292 (-23) ltac:(vm_compute; reflexivity)) as [FY VY].
  assert (B24 : bpow radix2 (-24) = (/ 16777216)%R) by reflexivity.
  assert (B23 : bpow radix2 (-23) = (/ 8388608)%R) by reflexivity.
  rewrite B24 in VX. rewrite B23 in VY.
  split; [|split; [rewrite VX; lra|split; [rewrite VY; lra|]]].
  - destruct (datum_small (of_bits 8 23 1057048494) false 8472494 (-24) ltac:(vm_compute; reflexivity)
      ltac:(vm_compute; congruence) ltac:(lia)) as (X1 & X2 & X3).
    destruct (datum_small (of_bits 8 23 1071476900) false 14512292 (-23) ltac:(vm_compute; reflexivity)
      ltac:(vm_compute; congruence) ltac:(lia)) as (Y1 & Y2 & Y3).
    pose proof (params32 8 ltac:(lia)) as HP.
    refine (proj2 (C34_hex2d_exact (MOD:=bn254) (b:=8) (HP:=HP) constants32 _ _ (of_bits 8 23 1057048494)
      (of_bits 8 23 1071476900) ltac:(lia) ltac:(lia) hex_patterns_32 eq_refl _ _ X1 Y1 X2 X3 Y3 (2, 1, 0)) _).
    + apply newconst_spec. vm_compute; split; congruence.
    + apply newconst_spec. vm_compute; split; congruence.
    + exists 1, 0. split; [left; vm_compute; reflexivity|]. split; [|vm_compute; reflexivity].
      right. split; [|reflexivity].
      destruct (datum_value (h3_x2 (of_bits 8 23 (k_sin60 constants32)) (of_bits 8 23 1071476900)) 16757352 (-23)
        ltac:(vm_compute; reflexivity)) as [F V].
      split; [exact F|]. rewrite V, B23. rewrite Rabs_pos_eq by lra. lra.
  - intros (_ & _ & H). cbn [fst snd hex_centre] in H. change (2 - 0)%Z with 2%Z in H. change (1 - 0)%Z with 1%Z in H.
    pose proof (sqrt_between 3 (173205 / 100000) (173206 / 100000) ltac:(lra) ltac:(lra) ltac:(lra) ltac:(lra)) as HB.
    pose proof sqrt3 as H3. apply Rabs_le_inv in H.
    replace ((3628073 / 2097152 - 1 * (sqrt 3 / 2)) * (sqrt 3 / 2))%R
      with (3628073 / 2097152 * (sqrt 3 / 2) - sqrt 3 * sqrt 3 / 4)%R in H by field.
    rewrite H3 in H. lra.
Qed.
