(** Property C60: an accepted proof puts the position into one of 20 small discs. *)
From Coq Require Import ZArith Reals Lra Lia Bool List.
From Flocq Require Import Core BinarySingleNaN.
From Verif Require Import Field FieldFacts Circuit CircuitFacts RangeCheck RangeFacts GadgetFacts FloatModel Math
  MathSpec RoundFacts Spec RoundCore RepFacts NewFacts Outcomes Witness ErrorFacts Loc2Index LocConst NormFacts
  PipeFacts HexCell WrapperFacts TableFacts Angles PlaneError Gnomonic CellFacts FaceFree BindFacts SinAccuracy
  PropertiesWrapper PropertiesWhere PropertiesFaces.
Import ListNotations.
Local Open Scope Z_scope.

(** The position whose projection on a face is the centre of the cell. *)
Definition is_place (res : Z) (c : Z * Z * Z) (l : literal) (q : R * R) : Prop :=
  (0 < upwards l (fst q) (snd q))%R /\ (gnomonic_x l res (fst q) (snd q), gnomonic_y l res (fst q) (snd q)) = hex_centre c.

(** The radius of the disc around it: the cell, scaled by [s], and the errors. *)
Definition reach (s : R) (res : Z) (dl : R) : R := (s / sqrt 3 / unit_of res + 106 * dl)%R.

(** For each public output there are 20 places, one for each face, such that
    whoever is accepted with this output is near one of them (or within [20 dl] of
    the centre of a face): within the circumcircle of the cell for the repository's
    prover, within 5/2 times this distance for any prover. *)
Definition pins {MOD : Modulus} (E M b : Z) {HF : Format E M} (K : constants) (faces : list face) (dl : R) : Prop :=
  forall res I J K_, 0 <= res < 16 ->
  exists qs, Forall2 (is_place res (I, J, K_)) literals qs /\
  forall lng' cosLat cosLng z sinLng lat lng (sl cl sg cg : fmt E M),
  represents z sl -> represents cosLat cl -> represents sinLng sg -> represents cosLng cg ->
  is_finite sl = true -> is_finite cl = true -> is_finite sg = true -> is_finite cg = true ->
  (Rabs (B2R sl - sin lat) <= dl)%R -> (Rabs (B2R cl - cos lat) <= dl)%R ->
  (Rabs (B2R sg - sin lng) <= dl)%R -> (Rabs (B2R cg - cos lng) <= dl)%R ->
  (exists l, In l literals /\ (apart l lat lng < 20 * dl)%R) \/
  ((exec b (locate E M K faces lng' cosLat cosLng z sinLng res I J K_) = Some tt ->
    exists q, In q qs /\ (distance (lat, lng) q <= reach 1 res dl)%R) /\
   (pow2_size E M mod b = 0 -> sat b (locate E M K faces lng' cosLat cosLng z sinLng res I J K_) tt ->
    exists q, In q qs /\ (distance (lat, lng) q <= reach (5 / 2) res dl)%R)).

Lemma places res c : 0 <= res < 16 -> exists qs, Forall2 (is_place res c) literals qs.
Proof.
  intros Hr. apply choose_places. intros l _. destruct (hex_centre c) as [X Y] eqn:EC.
  destruct (unproject l res X Y Hr) as (lat & lng & _ & EX & EY & HU & _). exists (lat, lng). split; [exact HU|].
  cbn [fst snd]. rewrite EX, EY, EC. reflexivity.
Qed.

Lemma places_in {A B} (P : A -> B -> Prop) ls ps l : Forall2 P ls ps -> In l ls -> exists p, In p ps /\ P l p.
Proof.
  induction 1 as [|a p ls ps HP H IH]; intros [].
  - subst a. exists p. split; [left; reflexivity|exact HP].
  - destruct (IH H0) as (q & Hq & HQ). exists q. split; [right; exact Hq|exact HQ].
Qed.

Lemma reach_spec s res dl d : 0 <= res < 16 -> (0 <= dl)%R ->
  (unit_of res * d <= (s + 480 * sqrt 7 ^ Z.to_nat res * dl) / sqrt 3)%R -> (d <= reach s res dl)%R.
Proof.
  intros Hr Hd H. pose proof res0_bounds as R0. pose proof (sqrt7_bounds res Hr) as S7.
  assert (S3 : (17320 / 10000 <= sqrt 3)%R) by (pose proof (sqrt_pos 3); pose proof sqrt3; nra).
  unfold reach, unit_of in *. set (S := (sqrt 7 ^ Z.to_nat res)%R) in *. set (u := res0_unit) in *.
  assert (U : (0 < S / u)%R) by (apply Rdiv_lt_0_compat; lra).
  apply Rmult_le_reg_l with (S / u)%R; [exact U|]. eapply Rle_trans; [exact H|].
  replace (S / u * (s / sqrt 3 / (S / u) + 106 * dl))%R with (s / sqrt 3 + S / u * (106 * dl))%R by (field; lra).
  replace ((s + 480 * S * dl) / sqrt 3)%R with (s / sqrt 3 + S * dl * (480 / sqrt 3))%R by (field; lra).
  apply Rplus_le_compat_l. replace (S / u * (106 * dl))%R with (S * dl * (106 / u))%R by (field; lra).
  apply Rmult_le_compat_l; [nra|].
  apply Rmult_le_reg_r with (sqrt 3 * u)%R; [nra|]. replace (480 / sqrt 3 * (sqrt 3 * u))%R with (480 * u)%R by (field; lra).
  replace (106 / u * (sqrt 3 * u))%R with (106 * sqrt 3)%R by (field; lra). lra.
Qed.

(** A cell that contains the projection, and the place of its centre. *)
Lemma place_near {MOD : Modulus} res s dl l lat lng c I J K_ q : 0 <= res < 16 -> 2 ^ 60 <= modulus ->
  (0 <= s <= 10)%R -> (0 <= dl <= 1 / 10000)%R ->
  (apart l lat lng <= 68 / 100)%R -> reduced c -> (I, J, K_) = embed3 c ->
  in_cell (s + 480 * sqrt 7 ^ Z.to_nat res * dl) (gnomonic_x l res lat lng, gnomonic_y l res lat lng) c ->
  is_place res (I, J, K_) l q -> (distance (lat, lng) q <= reach s res dl)%R.
Proof.
  intros Hr Hm Hs Hd HA Rc HE Hc [Uq Hq].
  pose proof (sqrt7_bounds res Hr) as S7. set (S := (sqrt 7 ^ Z.to_nat res)%R) in *.
  assert (H0 : (0 <= s + 480 * S * dl)%R) by nra.
  assert (EQ : (I, J, K_) = c).
  { destruct (gnomonic_bound l res lat lng HA Hr) as [Bx By]. fold S in Bx, By.
    pose proof (in_cell_small (s + 480 * S * dl) (22 / 10 * S) (gnomonic_x l res lat lng, gnomonic_y l res lat lng) c H0 Bx By Rc Hc) as B.
    destruct c as [[i j] k]. destruct Rc as (Ri & Rj & Rk & _).
    assert (B' : i + j + k < 2 ^ 60).
    { apply lt_IZR. eapply Rle_lt_trans; [exact B|]. change (2 ^ 60) with 1152921504606846976.
      assert (480 * S * dl <= 144000)%R by nra. lra. }
    rewrite HE. unfold embed3, emb. rewrite !Z.mod_small by lia. reflexivity. }
  rewrite EQ in Hq. apply (reach_spec s res dl _ Hr (proj1 Hd)). fold S.
  assert (Up : (0 < upwards l lat lng)%R).
  { pose proof (apart_up l lat lng). pose proof (apart_pos l lat lng). nra. }
  eapply Rle_trans; [exact (unproject_near l res (lat, lng) q Hr Up Uq)|]. cbn [fst snd]. rewrite Hq.
  exact (in_cell_disc _ _ c H0 Hc).
Qed.

Theorem finds_pins {MOD : Modulus} {E M b : Z} {HF : Format E M} K faces dl : 2 ^ 60 <= modulus ->
  (0 <= dl <= 1 / 10000)%R -> finds_cell E M b K faces dl -> pins E M b K faces dl.
Proof.
  intros Hm Hd HC res I J K_ Hr. destruct (places res (I, J, K_) Hr) as (qs & Hqs). exists qs. split; [exact Hqs|].
  intros lng' cosLat cosLng z sinLng lat lng sl cl sg cg R1 R2 R3 R4 F1 F2 F3 F4 A1 A2 A3 A4.
  destruct (HC lng' cosLat cosLng z sinLng lat lng sl cl sg cg R1 R2 R3 R4 F1 F2 F3 F4 A1 A2 A3 A4 res Hr)
    as (l & Hl & HA & _ & HX).
  destruct (Rlt_dec (apart l lat lng) (20 * dl)) as [N|N]; [left; eauto|right].
  destruct (HX (Rnot_lt_le _ _ N)) as [(c & Rc & Hc & HE) HS]. clear HX.
  destruct (places_in _ _ _ l Hqs Hl) as (q & Hin & Hq). split.
  - intros H. apply HE in H. exists q. split; [exact Hin|].
    exact (place_near res 1 dl l lat lng c I J K_ q Hr Hm ltac:(lra) Hd HA Rc H Hc Hq).
  - intros Hb H. destruct (HS Hb I J K_ H) as (c' & E' & Rc' & Hc'). exists q. split; [exact Hin|].
    exact (place_near res (5 / 2) dl l lat lng c' I J K_ q Hr Hm ltac:(lra) Hd HA Rc' E' Hc' Hq).
Qed.

Lemma params_big {MOD : Modulus} {E M b : Z} {HP : Params E M b} : 2 ^ 60 <= modulus.
Proof.
  pose proof (p_mod (E:=E) (M:=M) (b:=b)) as H. pose proof (p_E (E:=E) (M:=M) (b:=b)). pose proof (p_EM (E:=E) (M:=M) (b:=b)).
  eapply Z.le_trans; [|exact H]. apply Z.pow_le_mono_r; lia.
Qed.

Theorem C60_pins_32 {MOD : Modulus} {b : Z} {HP : Params 8 23 b} dl : (bpow radix2 (-19) <= dl <= 1 / 10000)%R ->
  pins 8 23 b constants32 faces32 dl.
Proof.
  intros D. apply finds_pins; [exact (params_big (HP:=HP))| |apply C57_cell_32; exact D].
  pose proof (bpow_ge_0 radix2 (-19)). lra.
Qed.
Print Assumptions C60_pins_32.

Theorem C60_pins_64 {MOD : Modulus} {b : Z} {HP : Params 11 52 b} dl : (bpow radix2 (-47) <= dl <= 1 / 10000)%R ->
  pins 11 52 b constants64 faces64 dl.
Proof.
  intros D. apply finds_pins; [exact (params_big (HP:=HP))| |apply C57_cell_64; exact D].
  pose proof (bpow_ge_0 radix2 (-47)). lra.
Qed.
Print Assumptions C60_pins_64.

(** The circuit without hints: whoever is accepted, with whatever latitude and
    longitude in range, is near one of the 20 places of the public output, or near
    the centre of a face.  The distances are in radii of the sphere: 3/10000 is
    1.9 km, [106 dl] is 10 km. *)
Theorem C60_wrapper {MOD : Modulus} {b : Z} {HP : Params 8 23 b} res I J K_ :
  pow2_size 8 23 mod b = 0 -> 0 <= res < 16 ->
  exists qs, Forall2 (is_place res (I, J, K_)) literals qs /\
  forall Lat Lng, 0 <= Lat < modulus -> 0 <= Lng < modulus -> 0 <= Lat < 2 ^ 32 -> 0 <= Lng < 2 ^ 32 ->
  is_finite (of_bits 8 23 Lat) = true -> is_finite (of_bits 8 23 Lng) = true ->
  let lat := R32 Lat in let lng := R32 Lng in
  (- R32 half_pi_32 < lat <= R32 half_pi_32)%R -> (- R32 pi_32 <= lng <= R32 pi_32)%R -> lng <> (- R32 half_pi_32)%R ->
  sat b (loc2Index32CircuitWrapper constants32 faces32 Lat Lng res I J K_) tt ->
  (exists l, In l literals /\ (apart l lat lng < 3 / 10000)%R) \/
  (exists q, In q qs /\ (distance (lat, lng) q <= reach (5 / 2) res (15 / 1000000))%R).
Proof.
  intros Hb Hr. destruct (places res (I, J, K_) Hr) as (qs & Hqs). exists qs. split; [exact Hqs|].
  intros Lat Lng Ml Mg Hl Hg Fl Fg lat lng Vl Vg Hn HSat.
  destruct (C57_wrapper (b:=b) Lat Lng res Hb Ml Mg Hl Hg Fl Fg Vl Vg Hn Hr) as (l & Hin & HA & _ & HX). fold lat lng in HA, HX.
  destruct (Rlt_dec (apart l lat lng) (3 / 10000)) as [N|N]; [left; eauto|right].
  destruct (HX (Rnot_lt_le _ _ N)) as [_ HS]. destruct (HS I J K_ HSat) as (c & Ec & Rc & Hc).
  destruct (places_in _ _ _ l Hqs Hin) as (q & Hq & HP'). exists q. split; [exact Hq|].
  refine (place_near res (5 / 2) (15 / 1000000) l lat lng c I J K_ q Hr (params_big (HP:=HP)) ltac:(lra) ltac:(lra) HA Rc Ec _ HP').
  replace (480 * sqrt 7 ^ Z.to_nat res * (15 / 1000000))%R with (72 / 10000 * sqrt 7 ^ Z.to_nat res)%R by field. exact Hc.
Qed.
Print Assumptions C60_wrapper.

(** At the finest resolution the disc has a radius of 0.0016 of that of the sphere. *)
Example C60_reach : (reach (5 / 2) 15 (15 / 1000000) <= 16 / 10000)%R.
Proof.
  pose proof res0_bounds as R0. assert (S3 : (17320 / 10000 <= sqrt 3)%R) by (pose proof (sqrt_pos 3); pose proof sqrt3; nra).
  assert (S7 : (2000000 <= sqrt 7 ^ Z.to_nat 15)%R).
  { change (Z.to_nat 15) with (S (2 * 7)). rewrite <- tech_pow_Rmult, sqrt7_even.
    assert (2640 / 1000 <= sqrt 7)%R by (rewrite <- (sqrt_square (2640 / 1000)) by lra; apply sqrt_le_1_alt; lra).
    simpl. lra. }
  unfold reach, unit_of. set (S := (sqrt 7 ^ Z.to_nat 15)%R) in *. set (u := res0_unit) in *.
  assert (5 / 2 / sqrt 3 <= 15 / 10)%R.
  { apply Rmult_le_reg_r with (sqrt 3); [lra|]. unfold Rdiv. rewrite Rmult_assoc, Rinv_l by lra. lra. }
  assert (0 <= 5 / 2 / sqrt 3)%R by (apply Rlt_le, Rdiv_lt_0_compat; lra).
  assert (I : (/ (S / u) <= / 2000000)%R).
  { apply Rinv_le_contravar; [lra|]. apply Rmult_le_reg_r with u; [lra|]. unfold Rdiv. rewrite Rmult_assoc, Rinv_l by lra. nra. }
  assert (0 <= / (S / u))%R by (apply Rlt_le, Rinv_0_lt_compat, Rdiv_lt_0_compat; lra).
  assert (5 / 2 / sqrt 3 / (S / u) <= 15 / 10 * / 2000000)%R by (unfold Rdiv at 1; apply Rmult_le_compat; assumption).
  lra.
Qed.

(** The position on the equator and the first meridian at resolution 3. *)
Example C60_ex : exists I J K_ qs, run 8 (loc2Index32CircuitWrapper (MOD:=bn254) constants32 faces32 0 0 3 I J K_) = Some tt /\
  Forall2 (is_place 3 (I, J, K_)) literals qs /\ exists q, In q qs /\ (distance (0, 0)%R q <= reach (5 / 2) 3 (15 / 1000000))%R.
Proof.
  destruct C57_ex as (l & c & Hin & _ & HE). destruct (embed3 (MOD:=bn254) c) as [[I J] K_] eqn:EC.
  exists I, J, K_. pose proof (params32 8 ltac:(lia)) as HP.
  destruct (C60_wrapper (MOD:=bn254) (b:=8) (HP:=HP) 3 I J K_ eq_refl ltac:(lia)) as (qs & HQ & HB).
  assert (HX : run 8 (loc2Index32CircuitWrapper (MOD:=bn254) constants32 faces32 0 0 3 I J K_) = Some tt) by (apply HE; reflexivity).
  exists qs. split; [exact HX|]. split; [exact HQ|].
  pose proof SinAccuracy.pi32_R as P1. pose proof SinAccuracy.half32_R as P2.
  assert (V : R32 0 = 0%R) by reflexivity. assert (F : is_finite (of_bits 8 23 0) = true) by reflexivity.
  assert (H1 : (- R32 half_pi_32 < R32 0 <= R32 half_pi_32)%R) by (rewrite V, P2; lra).
  assert (H2 : (- R32 pi_32 <= R32 0 <= R32 pi_32)%R) by (rewrite V, P1; lra).
  assert (H3 : R32 0 <> (- R32 half_pi_32)%R) by (rewrite V, P2; lra).
  assert (M0 : 0 <= 0 < modulus (Modulus:=bn254)) by (split; vm_compute; congruence).
  destruct (HB 0 0 M0 M0 ltac:(lia) ltac:(lia) F F H1 H2 H3 (exec_sat _ _ _ HX)) as [(g & Hg & A)|H]; [|exact H].
  pose proof (origin_off g Hg). rewrite V in A. lra.
Qed.
