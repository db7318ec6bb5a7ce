(** Property C43: from the trigonometric values to the coordinates. *)
From Coq Require Import ZArith Reals Lra Lia Bool List.
From Flocq Require Import Core BinarySingleNaN.
From Verif Require Import Field FieldFacts Circuit RangeCheck RangeFacts GadgetFacts FloatModel Math
  RoundFacts Spec RoundCore RepFacts NewFacts Outcomes Witness Loc2Index LocConst NormFacts
  ScaleFacts ClosestFacts HexFacts PipeFacts LocFacts PropertiesHex.
Import ListNotations.
Local Open Scope Z_scope.

(** What the circuit computes, over the reals: with [d] the squared distance of
    two points of the sphere, [1 - d/2] is the cosine of the angle between
    them, and the circuit's quotient its tangent. *)
Theorem C43_tangent lat lng flat flng :
  let d := chord (on_sphere flat flng) (on_sphere lat lng) in
  (1 - d / 2 = sin flat * sin lat + cos flat * cos lat * cos (lng - flng) /\
   (0 < d < 2 -> tan (acos (1 - d / 2)) = sqrt ((4 - d) * d) / (2 - d)))%R.
Proof. intros d. split; [apply chord_cos|apply chord_tangent]. Qed.
Print Assumptions C43_tangent.

(** The direction, [az] being H3's azimuth [atan2 y x] and [axis] that of the
    axis of the face: [r] at the angle [axis - az], as in H3. *)
Theorem C43_direction lat lng flat flng az axis r :
  let x := (cos flat * sin lat - sin flat * cos lat * (cos lng * cos flng + sin lng * sin flng))%R in
  let y := (cos lat * (sin lng * cos flng - cos lng * sin flng))%R in
  let z := sqrt (x * x + y * y) in
  (x = cos flat * sin lat - sin flat * cos lat * cos (lng - flng) /\
   y = cos lat * sin (lng - flng) /\
   (0 < z -> x = z * cos az -> y = z * sin az ->
    (cos axis * (x / z) + sin axis * (y / z)) * r = r * cos (axis - az) /\
    (sin axis * (x / z) - cos axis * (y / z)) * r = r * sin (axis - az)))%R.
Proof.
  intros x y z. split; [apply azimuth_x|]. split; [apply azimuth_y|].
  intros Hz Hx Hy. exact (point_direction x y az axis r Hz Hx Hy).
Qed.
Print Assumptions C43_direction.

(** Conditions on the constants. *)
Definition pipe_constants (E M : Z) {HF : Format E M} (K : constants) (faces : list face) : Prop :=
  hex_patterns E M K /\ good_powers (E:=E) (M:=M) (k_powers K) /\ 0 <= k_res K < 2 ^ (E + M + 1) /\
  Forall (good_face (E:=E) (M:=M)) faces /\ Forall (good_axes (E:=E) (M:=M)) faces.

(** The repository's prover: accepted are exactly the coordinates of H3, in IEEE
    arithmetic on the given sines and cosines ([located]: the nearest face, and
    the point [(hx, hy)] in its plane). *)
Theorem C43_locate_complete {MOD : Modulus} {E M b : Z} {HP : Params E M b} {HF : Format E M} K faces
    lng cosLat cosLng z sinLng res I J K_ (sl cl sg cg hx hy : fmt E M) :
  8 <= E -> 23 <= M -> pipe_constants E M K faces -> 0 <= res < 16 ->
  represents z sl -> represents cosLat cl -> represents sinLng sg -> represents cosLng cg ->
  located K faces res sl cl sg cg hx hy ->
  (exec b (locate E M K faces lng cosLat cosLng z sinLng res I J K_) = Some tt <->
   (I, J, K_) = embed3 (h3_hex2d (of_bits E M (k_half K)) (of_bits E M (k_third K)) (of_bits E M (k_two_thirds K))
     (of_bits E M (k_sin60 K)) hx hy)).
Proof.
  intros HE HM ([P1 P2] & Hk & Hu & G & GA) Hres R1 R2 R3 R4 HL.
  destruct (coordinates_gives HE HM Honest ltac:(discriminate) K Hk Hu P1 P2 0 0 faces lng cosLat cosLng z sinLng
    res sl cl sg cg hx hy Hres G GA R1 R2 R3 R4 HL ltac:(discriminate)) as ([[i j] k] & H & m1 & m2 & [-> ->] & Er).
  rewrite (locate_exec K faces lng cosLat cosLng z sinLng res I J K_ i j k H).
  unfold h3_hex2d. unfold h3_with in Er. rewrite Er. reflexivity.
Qed.
Print Assumptions C43_locate_complete.

(** Any prover: exactly the results with the integer parts within reach. *)
Theorem C43_locate_exact {MOD : Modulus} {E M b : Z} {HP : Params E M b} {HF : Format E M} K faces
    lng cosLat cosLng z sinLng res I J K_ (sl cl sg cg hx hy : fmt E M) :
  8 <= E -> 23 <= M -> pipe_constants E M K faces -> pow2_size E M mod b = 0 -> 0 <= res < modulus ->
  represents z sl -> represents cosLat cl -> represents sinLng sg -> represents cosLng cg ->
  located K faces res sl cl sg cg hx hy ->
  (sat b (locate E M K faces lng cosLat cosLng z sinLng res I J K_) tt <->
   res < 16 /\
   exists m1 m2, int_part (h3_x1 (of_bits E M (k_sin60 K)) hx hy) m1 /\
     int_part (h3_x2 (of_bits E M (k_sin60 K)) hy) m2 /\
     (I, J, K_) = embed3 (h3_hex2d_with (of_bits E M (k_half K)) (of_bits E M (k_third K)) (of_bits E M (k_two_thirds K))
       (of_bits E M (k_sin60 K)) m1 m2 hx hy)).
Proof.
  intros HE HM ([P1 P2] & Hk & Hu & G & GA) Hd Hres R1 R2 R3 R4 HL.
  rewrite locate_sat. split.
  - intros H. pose proof (coordinates_resolution K Hk faces _ _ _ _ _ res _ Hd Hres H) as Hlt.
    split; [exact Hlt|].
    destruct (coordinates_gives HE HM Anyone (fun _ => Hd) K Hk Hu P1 P2 0 0 faces lng cosLat cosLng z sinLng
      res sl cl sg cg hx hy (conj (proj1 Hres) Hlt) G GA R1 R2 R3 R4 HL ltac:(discriminate) _ H)
      as (m1 & m2 & [H1 H2] & Er). exists m1, m2. auto.
  - intros (Hlt & m1 & m2 & H1 & H2 & ->).
    destruct (coordinates_gives HE HM Someone ltac:(discriminate) K Hk Hu P1 P2 m1 m2 faces lng cosLat cosLng z sinLng
      res sl cl sg cg hx hy (conj (proj1 Hres) Hlt) G GA R1 R2 R3 R4 HL (fun _ => conj H1 H2))
      as (r & H & n1 & n2 & [-> ->] & ->). exact H.
Qed.
Print Assumptions C43_locate_exact.

(** Hence, away from skewed coordinates in [1,2), H3's coordinates only. *)
Theorem C43_locate_sound {MOD : Modulus} {E M b : Z} {HP : Params E M b} {HF : Format E M} K faces
    lng cosLat cosLng z sinLng res I J K_ (sl cl sg cg hx hy : fmt E M) :
  8 <= E -> 23 <= M -> pipe_constants E M K faces -> pow2_size E M mod b = 0 -> 0 <= res < modulus ->
  represents z sl -> represents cosLat cl -> represents sinLng sg -> represents cosLng cg ->
  located K faces res sl cl sg cg hx hy ->
  ~ in_1_2 E M (h3_x1 (of_bits E M (k_sin60 K)) hx hy) -> ~ in_1_2 E M (h3_x2 (of_bits E M (k_sin60 K)) hy) ->
  sat b (locate E M K faces lng cosLat cosLng z sinLng res I J K_) tt ->
  (I, J, K_) = embed3 (h3_hex2d (of_bits E M (k_half K)) (of_bits E M (k_third K)) (of_bits E M (k_two_thirds K))
     (of_bits E M (k_sin60 K)) hx hy).
Proof.
  intros HE HM HK Hd Hres R1 R2 R3 R4 HL N1 N2 H.
  destruct (proj1 (C43_locate_exact K faces lng cosLat cosLng z sinLng res I J K_ sl cl sg cg hx hy
    HE HM HK Hd Hres R1 R2 R3 R4 HL) H) as (_ & m1 & m2 & [->|[F _]] & [->|[F' _]] & ->); [reflexivity|contradiction..].
Qed.
Print Assumptions C43_locate_sound.

(** The constants of the repository qualify. *)
Lemma pipe_constants_32 : pipe_constants 8 23 constants32 faces32.
Proof.
  split; [exact hex_patterns_32|]. split; [exact good_powers_32|]. split; [vm_compute; split; congruence|].
  split; [exact good_faces_32|].
  apply Forall_forall. intros f Hf. apply Forall_forall, forallb_forall. revert f Hf. apply forallb_forall.
  vm_compute. reflexivity.
Qed.
Lemma pipe_constants_64 : pipe_constants 11 52 constants64 faces64.
Proof.
  split; [exact hex_patterns_64|]. split; [exact good_powers_64|]. split; [vm_compute; split; congruence|].
  split; [exact good_faces_64|].
  apply Forall_forall. intros f Hf. apply Forall_forall, forallb_forall. revert f Hf. apply forallb_forall.
  vm_compute. reflexivity.
Qed.

Definition nearestb {E M : Z} {HF : Format E M} (dist : face -> fmt E M) (five : fmt E M) (faces : list face) (n : nat) : bool :=
  match nth_error faces n with
  | None => false
  | Some f => ieee_lt E M (dist f) five &&
      forallb (fun g => negb (ieee_lt E M (dist g) (dist f))) faces &&
      forallb (fun g => negb (ieee_le E M (dist g) (dist f))) (firstn n faces)
  end.
Lemma nearestb_spec {E M : Z} {HF : Format E M} (dist : face -> fmt E M) five faces n f : nth_error faces n = Some f ->
  nearestb dist five faces n = true -> first_nearest dist five faces n f.
Proof.
  unfold nearestb. intros Hf H. rewrite Hf in H. apply andb_prop in H as [H H3]. apply andb_prop in H as [H1 H2].
  rewrite forallb_forall in H2, H3. split; [exact Hf|]. split; [exact H1|]. split.
  - intros m g Hg. apply negb_true_iff. apply H2. exact (nth_error_In _ _ Hg).
  - intros m g Hm Hg. apply negb_true_iff. apply H3. apply (nth_error_In _ m).
    rewrite <- (firstn_skipn n faces) in Hg. rewrite nth_error_app1 in Hg; [exact Hg|].
    rewrite firstn_length. apply Nat.min_glb_lt; [exact Hm|].
    apply Nat.lt_trans with n; [exact Hm|]. apply nth_error_Some. rewrite Hf. discriminate.
Qed.

(** A point at sine 0.6 north, on face 10, at resolution 3: cell (37, 0, 15),
    for every prover. *)
Definition p_06 : Z := 1058642330.
Definition p_08 : Z := 1061997773.
Definition p_m06 : Z := 3206125978.
Definition locate_ex (I J K_ : Z) : circ unit :=
  let c := NewConstant (MOD:=bn254) 8 23 in
  locate (MOD:=bn254) 8 23 constants32 faces32 (c 0) (c p_08) (c p_m06) (c p_06) (c p_08) 3 I J K_.

Lemma plane_eq {E M : Z} (o : option (fmt E M * fmt E M)) hx hy :
  match o with Some (a, c) => Some (B2SF a, B2SF c) | None => None end = Some (B2SF hx, B2SF hy) ->
  o = Some (hx, hy).
Proof.
  destruct o as [[a c]|]; [|discriminate]. intros [= H1 H2].
  rewrite (B2SF_inj _ _ _ _ H1), (B2SF_inj _ _ _ _ H2). reflexivity.
Qed.

Example C43_locate_ex :
  run 8 (locate_ex 37 0 15) = Some tt /\
  (forall I J K_, accepted 8 (locate_ex I J K_) tt -> (I, J, K_) = (37, 0, 15)).
Proof.
  set (o := of_bits 8 23).
  set (hx := binary_normalize _ _ (fmt_prec_gt_0 8 23) (fmt_prec_lt_emax 8 23) mode_NE 15695514 (-19) false : fmt 8 23).
  set (hy := binary_normalize _ _ (fmt_prec_gt_0 8 23) (fmt_prec_lt_emax 8 23) mode_NE (-13504054) (-20) false : fmt 8 23).
  assert (HL : located (E:=8) (M:=23) constants32 faces32 3 (o p_06) (o p_08) (o p_08) (o p_m06) hx hy).
  { split; [apply Forall_forall, forallb_forall; vm_compute; reflexivity|].
    exists 10%nat, (nth 10 faces32 zero_face). split; [apply nearestb_spec; [reflexivity|vm_compute; reflexivity]|].
    split.
    - apply plane_eq. vm_compute. reflexivity.
    - destruct (datum_value hx 15695514 (-19) ltac:(vm_compute; reflexivity)) as [_ ->].
      apply Rmult_integral_contrapositive_currified; [apply IZR_neq; discriminate|].
      apply Rgt_not_eq, bpow_gt_0. }
  pose proof (params32 8 ltac:(lia)) as HP.
  assert (R : forall p, 0 <= p < 2 ^ 32 -> represents (MOD:=bn254) (NewConstant (MOD:=bn254) 8 23 p) (o p)).
  { intros p Hp. apply newconst_spec. exact Hp. }
  assert (R1 := R p_06 ltac:(split; vm_compute; congruence)).
  assert (R2 := R p_08 ltac:(split; vm_compute; congruence)).
  assert (R3 := R p_m06 ltac:(split; vm_compute; congruence)).
  unfold run, accepted, locate_ex. cbv zeta. set (c := NewConstant (MOD:=bn254) 8 23) in *.
  assert (HE : embed3 (MOD:=bn254) (h3_hex2d (o (k_half constants32)) (o (k_third constants32)) (o (k_two_thirds constants32))
    (o (k_sin60 constants32)) hx hy) = (37, 0, 15)) by (vm_compute; reflexivity).
  split.
  { apply (C43_locate_complete (MOD:=bn254) (b:=8) (HP:=HP) constants32 faces32 (c 0) (c p_08) (c p_m06)
      (c p_06) (c p_08) 3 37 0 15 (o p_06) (o p_08) (o p_08) (o p_m06) hx hy ltac:(lia) ltac:(lia) pipe_constants_32
      ltac:(lia) R1 R2 R2 R3 HL). symmetry. exact HE. }
  intros I J K_ H. rewrite <- HE.
  apply (C43_locate_sound (MOD:=bn254) (b:=8) (HP:=HP) constants32 faces32 (c 0) (c p_08) (c p_m06)
    (c p_06) (c p_08) 3 I J K_ (o p_06) (o p_08) (o p_08) (o p_m06) hx hy ltac:(lia) ltac:(lia) pipe_constants_32 eq_refl
    ltac:(split; vm_compute; congruence) R1 R2 R2 R3 HL); [| |exact H].
  - intros [_ F]. destruct (datum_value (h3_x1 (of_bits 8 23 (k_sin60 constants32)) hx hy) 9796899 (-18)
      ltac:(vm_compute; reflexivity)) as [_ V]. rewrite V in F.
    assert (B : bpow radix2 (-18) = (/ 262144)%R) by reflexivity. rewrite B in F. rewrite Rabs_pos_eq in F by lra. lra.
  - intros [_ F]. destruct (datum_value (h3_x2 (of_bits 8 23 (k_sin60 constants32)) hy) 15593139 (-20)
      ltac:(vm_compute; reflexivity)) as [_ V]. rewrite V in F.
    assert (B : bpow radix2 (-20) = (/ 1048576)%R) by reflexivity. rewrite B in F. rewrite Rabs_pos_eq in F by lra. lra.
Qed.
