(** The gnomonic projection of H3, and the point the circuit computes. *)
From Coq Require Import ZArith Reals Lra Lia Bool List.
From Flocq Require Import Core BinarySingleNaN.
From Verif Require Import FloatModel Spec MathSpec HexFacts PipeFacts ErrorFacts Loc2Index ClosestFacts
  TableFacts Angles PlaneError PlanePoint Covering.
Import ListNotations.
Local Open Scope Z_scope.

(** ** Specification, over the reals *)
Section GnomonicSpec.
Local Open Scope R_scope.

(** The centre of a face and the direction of its first axis: the literals.  Odd
    resolutions turn the axis. *)
Definition face_lat (l : literal) : R := asin (lit 18 (l_sinlat l)).
Definition face_lng (l : literal) : R := lit 18 (l_lng l).
Definition face_axis (l : literal) (res : Z) : R := if Z.odd res then lit 18 (l_az l) - ap7rot else lit 18 (l_az l).

(** The components of a position to the north, to the east and upwards, seen from
    the centre of the face, and its distance from the centre along a chord. *)
Definition to_north (l : literal) (lat lng : R) : R :=
  cos (face_lat l) * sin lat - sin (face_lat l) * cos lat * cos (lng - face_lng l).
Definition to_east (l : literal) (lat lng : R) : R := cos lat * sin (lng - face_lng l).
Definition upwards (l : literal) (lat lng : R) : R :=
  sin (face_lat l) * sin lat + cos (face_lat l) * cos lat * cos (lng - face_lng l).
Definition apart (l : literal) (lat lng : R) : R :=
  sqrt (chord (on_sphere (face_lat l) (face_lng l)) (on_sphere lat lng)).

(** The projection from the centre of the sphere to the plane that touches it at
    the centre of the face, in the unit of the resolution, in the coordinates
    along the axis and across it. *)
Definition res0_unit : R := (3 - sqrt 5) / 2.
Definition unit_of (res : Z) : R := sqrt 7 ^ Z.to_nat res / res0_unit.
Definition gnomonic_x (l : literal) (res : Z) (lat lng : R) : R :=
  unit_of res * ((cos (face_axis l res) * to_north l lat lng + sin (face_axis l res) * to_east l lat lng) / upwards l lat lng).
Definition gnomonic_y (l : literal) (res : Z) (lat lng : R) : R :=
  unit_of res * ((sin (face_axis l res) * to_north l lat lng - cos (face_axis l res) * to_east l lat lng) / upwards l lat lng).

(** It is what H3 computes in polar coordinates ([_geoToHex2d] of faceijk.c): the
    tangent of the angle to the centre, in the direction [axis - azimuth]. *)
Lemma gnomonic_polar l res lat lng rho az : 0 < rho < PI / 2 -> cos rho = upwards l lat lng ->
  sin rho * cos az = to_north l lat lng -> sin rho * sin az = to_east l lat lng ->
  let r := tan rho / res0_unit * sqrt 7 ^ Z.to_nat res in
  gnomonic_x l res lat lng = r * cos (face_axis l res - az) /\ gnomonic_y l res lat lng = r * sin (face_axis l res - az).
Proof.
  intros Hr Hc Hn He r. unfold gnomonic_x, gnomonic_y, r, unit_of, tan. rewrite <- Hc, <- Hn, <- He, cos_minus, sin_minus.
  assert (0 < cos rho) by (apply cos_gt_0; lra).
  assert (U : 0 < res0_unit).
  { unfold res0_unit. assert (sqrt 5 < 3); [|lra]. rewrite <- (sqrt_square 3) by lra. apply sqrt_lt_1_alt. lra. }
  split; field; lra.
Qed.

Lemma apart_up l lat lng : apart l lat lng * apart l lat lng = 2 - 2 * upwards l lat lng.
Proof.
  unfold apart, upwards. rewrite <- chord_cos. rewrite sqrt_sqrt; [field|].
  unfold chord, on_sphere. pose proof (fun a b => pow2_ge_0 (a - b)) as P.
  repeat apply Rplus_le_le_0_compat; apply P.
Qed.
Lemma apart_pos l lat lng : 0 <= apart l lat lng. Proof. apply sqrt_pos. Qed.

Lemma res0_bounds : 38196 / 100000 <= res0_unit <= 38197 / 100000.
Proof.
  unfold res0_unit.
  assert (22360 / 10000 <= sqrt 5) by (rewrite <- (sqrt_square (22360 / 10000)) by lra; apply sqrt_le_1_alt; lra).
  assert (sqrt 5 <= 223607 / 100000) by (rewrite <- (sqrt_square (223607 / 100000)) by lra; apply sqrt_le_1_alt; lra).
  assert (sqrt 5 <= 2236068 / 1000000) by (rewrite <- (sqrt_square (2236068 / 1000000)) by lra; apply sqrt_le_1_alt; lra).
  assert (2236067 / 1000000 <= sqrt 5) by (rewrite <- (sqrt_square (2236067 / 1000000)) by lra; apply sqrt_le_1_alt; lra).
  lra.
Qed.

Lemma sqrt7_bounds res : (0 <= res < 16)%Z -> 1 <= sqrt 7 ^ Z.to_nat res <= 3000000.
Proof.
  intros Hr.
  assert (S1 : 1 <= sqrt 7) by (rewrite <- sqrt_1; apply sqrt_le_1_alt; lra).
  assert (S2 : sqrt 7 <= 265 / 100) by (rewrite <- (sqrt_square (265 / 100)) by lra; apply sqrt_le_1_alt; lra).
  split; [apply pow_R1_Rle, S1|].
  apply Rle_trans with (sqrt 7 ^ 15); [apply Rle_pow; [exact S1|lia]|].
  apply Rle_trans with ((265 / 100) ^ 15); [apply pow_incr; lra|]. simpl. lra.
Qed.

End GnomonicSpec.

(** ** The nearest face exists *)
Section Exists.
Context {E M : Z} {HF : Format E M}.
Lemma nearest_or_none (dist : face -> fmt E M) five fs :
  (exists n f, first_nearest dist five fs n f) \/ none_near dist five fs.
Proof.
  induction fs as [|g pre IH] using rev_ind; [right; intros [|m] g H; discriminate|].
  destruct IH as [(n & f & H)|H].
  - left. pose proof (nearest_step _ _ _ _ _ g H) as S. destruct (ieee_lt E M (dist g) (dist f)); eauto.
  - pose proof (none_step _ _ _ g H) as S. destruct (ieee_lt E M (dist g) five); eauto.
Qed.
End Exists.

(** All columns of a row are finite. *)
Definition finite_row {E M : Z} {HF : Format E M} (f : face) : bool :=
  forallb (fun p => is_finite (of_bits E M p))
    [centre_x f; centre_y f; centre_z f; c_sinFaceLat f; c_cosFaceLat f; c_sinFaceLng f; c_cosFaceLng f;
     c_sinAzimuth f; c_cosAzimuth f; c_sinAzimuthRot f; c_cosAzimuthRot f].

Section Plane.
Context {E M : Z} {HF : Format E M}.
Context (HE8 : 8 <= E) (HM23 : 23 <= M).
Notation fmt := (Spec.fmt E M).
Notation u := (unit_ro M).
Variable dl : R.
Hypothesis Hu : (u <= dl / 4)%R.
Hypothesis Hdl : (dl <= 1 / 10000)%R.
Notation app := (app (E:=E) (M:=M) dl).
Let dl0 : (0 < dl)%R := dl_pos dl Hu.

(** One face: everything in terms of sines and cosines. *)
Section Face.
Variables SL CL SG CG F1 F2 F3 F4 SA CA SF : R.
Hypothesis U1 : (SL * SL + CL * CL = 1)%R.
Hypothesis U2 : (SG * SG + CG * CG = 1)%R.
Hypothesis U3 : (F1 * F1 + F2 * F2 = 1)%R.
Hypothesis U4 : (F3 * F3 + F4 * F4 = 1)%R.
Hypothesis U5 : (SA * SA + CA * CA = 1)%R.
Hypothesis HS : (1 <= SF <= 3000000)%R.
Notation up := (upc SL CL SG CG F1 F2 F3 F4).
Notation X := (northc SL CL SG CG F1 F2 F3 F4).
Notation Y := (eastc CL SG CG F3 F4).
Notation rho := (chordc F1 F2 F3 F4 SL CL SG CG).
Variables sl cl sg cg unit scale : fmt.
Variable f : face.
Variable res : Z.
Hypothesis Asl : app sl SL 1.
Hypothesis Acl : app cl CL 1.
Hypothesis Asg : app sg SG 1.
Hypothesis Acg : app cg CG 1.
Hypothesis Aunit : app unit res0_unit 1.
Hypothesis Ascale : app scale SF SF.
Hypothesis Hcx : app (of_bits E M (centre_x f)) (F2 * F4) 1.
Hypothesis Hcy : app (of_bits E M (centre_y f)) (F2 * F3) 1.
Hypothesis Hcz : app (of_bits E M (centre_z f)) F1 1.
Hypothesis H1 : app (of_bits E M (c_sinFaceLat f)) F1 1.
Hypothesis H2 : app (of_bits E M (c_cosFaceLat f)) F2 1.
Hypothesis H3 : app (of_bits E M (c_sinFaceLng f)) F3 1.
Hypothesis H4 : app (of_bits E M (c_cosFaceLng f)) F4 1.
Hypothesis H5 : app (of_bits E M (if Z.odd res then c_sinAzimuthRot f else c_sinAzimuth f)) SA 1.
Hypothesis H6 : app (of_bits E M (if Z.odd res then c_cosAzimuthRot f else c_cosAzimuth f)) CA 1.
Hypothesis Hrho : (20 * dl <= rho <= 68 / 100)%R.

Lemma keep_unit (g : fmt) v : app g v 1 -> (Rabs v <= 1)%R -> keep g = Some g.
Proof. intros A V. apply (app_small HE8 dl Hu Hdl g v 1 1 A V); [simpl pow|]; lra. Qed.

Lemma face_point : exists hx hy,
  h3_plane unit scale f res sl cl sg cg (ieee_distance f (ieee_mul E M cl cg) (ieee_mul E M cl sg) sl) = Some (hx, hy) /\
  app hx (SF / res0_unit * ((CA * X + SA * Y) / up)) (148 * SF) /\
  app hy (SF / res0_unit * ((SA * X - CA * Y) / up)) (148 * SF).
Proof.
  pose proof res0_bounds as UB.
  destruct (unit_le dl Hu Hdl _ _ U1) as [B1 B2]. destruct (unit_le dl Hu Hdl _ _ U2) as [B3 B4]. destruct (unit_le dl Hu Hdl _ _ U3) as [B5 B6].
  destruct (unit_le dl Hu Hdl _ _ U4) as [B7 B8]. destruct (unit_le dl Hu Hdl _ _ U5) as [B9 B10].
  destruct (distance_near HE8 HM23 dl Hu Hdl F1 F2 F3 F4 SL CL SG CG U1 U2 U3 U4 sl cl sg cg Asl Acl Asg Acg f Hcx Hcy Hcz)
    as (Fd & Rd & Dd).
  set (d := ieee_distance f _ _ sl) in *.
  pose proof (chord_up F1 F2 F3 F4 SL CL SG CG U1 U2 U3 U4) as CU.
  pose proof (components SL CL SG CG F1 F2 F3 F4 U1 U2 U3 U4) as CC.
  destruct (rho_sqr (M:=M) dl Hu Hdl rho Hrho) as [R0 R2].
  pose proof (root_bounds (M:=M) dl Hu Hdl rho Hrho) as RB.
  pose proof (tangent_bounds (M:=M) dl Hu Hdl rho Hrho) as TB.
  destruct (radius_near HE8 HM23 dl Hu Hdl rho res0_unit SF Hrho ltac:(lra) HS d unit scale Fd (proj1 Rd) Dd Aunit Ascale)
    as (r & Hr & Ar).
  set (N := norm3 X Y 0).
  assert (UP : (7688 / 10000 <= up <= 1)%R) by lra.
  assert (NN : (N * N = 1 - up * up)%R) by (unfold N; rewrite norm3_sqr; lra).
  assert (N0 : (0 <= N)%R) by apply norm3_pos.
  set (q := sqrt (4 - rho * rho)) in *.
  assert (QQ : (q * q = 4 - rho * rho)%R) by (apply sqrt_sqrt; lra).
  assert (NR : (N = rho * q / 2)%R).
  { apply Rsqr_inj; [exact N0| |].
    - unfold Rdiv. apply Rmult_le_pos; [apply Rmult_le_pos; lra|lra].
    - unfold Rsqr. rewrite NN. replace (rho * q / 2 * (rho * q / 2))%R with (rho * rho * (q * q) / 4)%R by field.
      rewrite QQ, CU. field. }
  assert (TN : (tangent rho = N / up)%R).
  { unfold tangent. fold q. rewrite NR. replace (2 - rho * rho)%R with (2 * up)%R by (rewrite CU; ring). field. lra. }
  assert (NL : (18 * dl <= N)%R) by (rewrite NR; nra).
  assert (N1 : (N <= 1)%R) by nra.
  assert (NP : (0 < N)%R) by lra.
  set (RR := (tangent rho / res0_unit * SF)%R) in *.
  assert (IU : (0 < / res0_unit <= 1 / 38196 * 100000)%R).
  { split; [apply Rinv_0_lt_compat; lra|]. replace (1 / 38196 * 100000)%R with (/ (38196 / 100000))%R by field.
    apply Rinv_le_contravar; lra. }
  assert (IP : (0 < / up <= 1 / 7688 * 10000)%R).
  { split; [apply Rinv_0_lt_compat; lra|]. replace (1 / 7688 * 10000)%R with (/ (7688 / 10000))%R by field.
    apply Rinv_le_contravar; lra. }
  assert (HR : (0 <= RR <= 218 / 100 * SF)%R).
  { unfold RR, Rdiv. split.
    - apply Rmult_le_pos; [apply Rmult_le_pos|]; lra.
    - apply Rmult_le_compat_r; [lra|]. apply Rle_trans with (832 / 1000 * (1 / 38196 * 100000))%R; [|lra].
      apply Rmult_le_compat; lra. }
  assert (HRN : (RR <= 341 / 100 * SF * N)%R).
  { unfold RR. rewrite TN. unfold Rdiv. replace (N * / up * / res0_unit * SF)%R with (/ up * / res0_unit * (SF * N))%R by ring.
    replace (341 * / 100 * SF * N)%R with (341 / 100 * (SF * N))%R by (unfold Rdiv; ring).
    apply Rmult_le_compat_r; [apply Rmult_le_pos; lra|].
    apply Rle_trans with (1 / 7688 * 10000 * (1 / 38196 * 100000))%R; [|lra]. apply Rmult_le_compat; lra. }
  assert (G : exists p, h3_point sl cl sg cg (of_bits E M (c_sinFaceLat f)) (of_bits E M (c_cosFaceLat f))
      (of_bits E M (c_sinFaceLng f)) (of_bits E M (c_cosFaceLng f))
      (of_bits E M (if Z.odd res then c_sinAzimuthRot f else c_sinAzimuth f))
      (of_bits E M (if Z.odd res then c_cosAzimuthRot f else c_cosAzimuth f)) r = Some p /\
    app (fst p) (along_x SA CA X Y / N * RR) (148 * SF) /\ app (snd p) (along_y SA CA X Y / N * RR) (148 * SF)).
  { unfold h3_point.
    refine (direction HE8 HM23 dl Hu Hdl SL CL SG CG F1 F2 F3 F4 U1 U2 U3 U4 sl cl sg cg _ _ _ _ Asl Acl Asg Acg H1 H2 H3 H4
      _ (fun p => app (fst p) (along_x SA CA X Y / N * RR) (148 * SF) /\ app (snd p) (along_y SA CA X Y / N * RR) (148 * SF)) _).
    intros x y Ax Ay.
    destruct (axis_point HE8 HM23 dl Hu Hdl SA CA X Y N SF (341 / 100 * SF) U5 eq_refl NL N1 HS RR HR HRN x y _ _ r Ax Ay H5 H6 Ar)
      as (hx & hy & Hp & P1 & P2).
    exists (hx, hy). split; [exact Hp|]. cbn [fst snd].
    split; (eapply app_weaken; [exact Hu|eassumption|lra]). }
  destruct G as ([hx hy] & G & P1 & P2). cbn [fst snd] in P1, P2. exists hx, hy.
  assert (KX : forall z, (z / N * RR = SF / res0_unit * (z / up))%R).
  { intros z. unfold RR. rewrite TN. field. repeat split; lra. }
  split; [|split; [eapply app_value; [exact P1|apply KX]|eapply app_value; [exact P2|apply KX]]].
  unfold h3_plane.
  rewrite (keep_unit sl _ Asl B1), (keep_unit cl _ Acl B2), (keep_unit sg _ Asg B3), (keep_unit cg _ Acg B4). cbn [obind].
  assert (Kd : keep d = Some d).
  { unfold keep. rewrite (small_intro d 29 Fd); [reflexivity| |lia|exact HE8]. rewrite Rabs_pos_eq by lra.
    change (bpow radix2 29) with (IZR (2 ^ 29)). change (2 ^ 29) with 536870912. lra. }
  rewrite Kd. cbn [obind].
  rewrite (keep_unit unit _ Aunit) by (rewrite Rabs_pos_eq; lra). cbn [obind].
  rewrite (app_small HE8 dl Hu Hdl scale SF SF SF Ascale) by (try (rewrite Rabs_pos_eq; lra); simpl pow; lra). cbn [obind].
  rewrite (keep_unit _ _ H1 B5), (keep_unit _ _ H2 B6), (keep_unit _ _ H3 B7), (keep_unit _ _ H4 B8),
    (keep_unit _ _ H5 B9), (keep_unit _ _ H6 B10). cbn [obind].
  rewrite Hr. cbn [obind]. exact G.
Qed.
End Face.

(** A row of the table against the literals. *)
Definition good_row (l : literal) (f : face) : Prop := true_row (E:=E) (M:=M) dl l f /\ finite_row (E:=E) (M:=M) f = true.

Lemma near_app (p : Z) v : near dl (val (E:=E) (M:=M) p) v -> is_finite (of_bits E M p) = true -> app (of_bits E M p) v 1.
Proof. intros H F. split; [exact F|]. rewrite Rmult_1_l. exact H. Qed.

Lemma rows_nth P ls fs : rows P ls fs -> forall n f, nth_error fs n = Some f -> exists l, nth_error ls n = Some l /\ P l f.
Proof.
  revert fs. induction ls as [|l ls IH]; intros [|f fs]; cbn [rows]; try contradiction; intros H n g Hn.
  - destruct n; discriminate.
  - destruct H as [H1 H2]. destruct n as [|n]; cbn [nth_error] in *; [injection Hn as <-; eauto|]. eapply IH; eassumption.
Qed.
Lemma rows_nth' P ls fs : rows P ls fs -> forall n l, nth_error ls n = Some l -> exists f, nth_error fs n = Some f /\ P l f.
Proof.
  revert fs. induction ls as [|l ls IH]; intros [|f fs]; cbn [rows]; try contradiction; intros H n g Hn.
  - destruct n; discriminate.
  - destruct H as [H1 H2]. destruct n as [|n]; cbn [nth_error] in *; [injection Hn as <-; eauto|]. eapply IH; eassumption.
Qed.

Lemma finite_not_nan (x : fmt) : is_finite x = true -> is_nan x = false.
Proof. destruct x; try discriminate; reflexivity. Qed.

Section Position.
Variables lat lng : R.
Variables sl cl sg cg : fmt.
Hypothesis Asl : app sl (sin lat) 1.
Hypothesis Acl : app cl (cos lat) 1.
Hypothesis Asg : app sg (sin lng) 1.
Hypothesis Acg : app cg (cos lng) 1.
Notation dist := (fun f => ieee_distance f (ieee_mul E M cl cg) (ieee_mul E M cl sg) sl).
Notation rho l := (chordc (sin (face_lat l)) (cos (face_lat l)) (sin (face_lng l)) (cos (face_lng l)) (sin lat) (cos lat) (sin lng) (cos lng)).
Notation upl l := (upc (sin lat) (cos lat) (sin lng) (cos lng) (sin (face_lat l)) (cos (face_lat l)) (sin (face_lng l)) (cos (face_lng l))).

Lemma circle1 a : (sin a * sin a + cos a * cos a = 1)%R.
Proof. pose proof (sin2_cos2 a) as H. unfold Rsqr in H. exact H. Qed.

Lemma upwards_upc l : upwards l lat lng = upl l.
Proof. unfold upwards, upc. rewrite cos_minus. ring. Qed.

Lemma apart_chordc l : apart l lat lng = rho l.
Proof.
  apply Rsqr_inj; [apply apart_pos|apply norm3_pos|]. unfold Rsqr. rewrite apart_up, upwards_upc. symmetry.
  apply chord_up; apply circle1.
Qed.

Lemma row_distance l f : good_row l f ->
  is_finite (dist f) = true /\ (0 <= B2R (dist f) <= 5)%R /\ (Rabs (sqrt (B2R (dist f)) - apart l lat lng) <= 75 / 10 * dl)%R.
Proof.
  intros [(_ & _ & _ & _ & _ & _ & _ & _ & T1 & T2 & T3) F]. unfold finite_row in F. cbn [forallb] in F.
  apply andb_prop in F as [F1 F]. apply andb_prop in F as [F2 F]. apply andb_prop in F as [F3 _].
  rewrite apart_chordc.
  apply (distance_near HE8 HM23 dl Hu Hdl (sin (face_lat l)) (cos (face_lat l)) (sin (face_lng l)) (cos (face_lng l))
    (sin lat) (cos lat) (sin lng) (cos lng) (circle1 _) (circle1 _) (circle1 _) (circle1 _) sl cl sg cg Asl Acl Asg Acg f);
    apply near_app; assumption.
Qed.

Lemma nearer_apart l f g h : good_row l f -> good_row g h -> ieee_lt E M (dist h) (dist f) = false ->
  (apart l lat lng <= apart g lat lng + 15 * dl)%R.
Proof.
  intros R1 R2 H. destruct (row_distance l f R1) as (F1 & D1 & A1), (row_distance g h R2) as (F2 & D2 & A2).
  assert (K : (B2R (dist f) <= B2R (dist h))%R).
  { destruct (Rle_lt_dec (B2R (dist f)) (B2R (dist h))) as [K|K]; [exact K|exfalso].
    assert (Nf : is_nan (dist f) = false) by (apply finite_not_nan; exact F1).
    assert (Nh : is_nan (dist h) = false) by (apply finite_not_nan; exact F2).
    assert (Q : ieee_lt E M (dist h) (dist f) = true); [|cbv beta in Q; congruence]. apply (lt_key _ _ Nh Nf).
    rewrite (proj1 (key_finite _ F1)), (proj1 (key_finite _ F2)). exact K. }
  apply sqrt_le_1_alt in K. apply Rabs_le_inv in A1, A2. lra.
Qed.

Variables (ls : list literal) (fs : list face) (e : R) (five : fmt).
Hypothesis HT : rows good_row ls fs.
Hypothesis HB : balanced e (map (centre_vec (E:=E) (M:=M)) fs).
Hypothesis HA : antipodal e (map (centre_vec (E:=E) (M:=M)) fs).
Hypothesis He : (0 <= e <= 1 / 100000)%R.
Hypothesis Ff : is_finite five = true.
Hypothesis H5 : B2R five = 5%R.

Lemma some_near : exists n l f, nth_error ls n = Some l /\ nth_error fs n = Some f /\ good_row l f /\ (apart l lat lng <= 676 / 1000)%R.
Proof.
  destruct (covering e _ (cos lat * cos lng) (cos lat * sin lng) (sin lat) HB HA He) as (v & Hv & Hd).
  { pose proof (circle1 lat). pose proof (circle1 lng).
    replace (cos lat * cos lng * (cos lat * cos lng) + cos lat * sin lng * (cos lat * sin lng) + sin lat * sin lat)%R
      with (cos lat * cos lat * (sin lng * sin lng + cos lng * cos lng) + sin lat * sin lat)%R by ring. rewrite H0. lra. }
  apply in_map_iff in Hv as (f & <- & Hf). apply In_nth_error in Hf as (n & Hn).
  destruct (rows_nth _ _ _ HT n f Hn) as (l & Hl & HR). exists n, l, f. do 3 (split; [assumption|]).
  destruct HR as [(_ & _ & _ & _ & _ & _ & _ & _ & T1 & T2 & T3) _]. fold (face_lat l) (face_lng l) in T1, T2, T3.
  unfold near in T1, T2, T3. unfold centre_vec, dot in Hd.
  set (a := val (centre_x f)) in *. set (b := val (centre_y f)) in *. set (c := val (centre_z f)) in *.
  assert (UP : (upwards l lat lng = cos (face_lat l) * cos (face_lng l) * (cos lat * cos lng)
     + cos (face_lat l) * sin (face_lng l) * (cos lat * sin lng) + sin (face_lat l) * sin lat)%R)
    by (unfold upwards; rewrite cos_minus; ring).
  assert (P : forall x y w, (Rabs (x - y) <= dl)%R -> (Rabs w <= 1)%R -> (x * w <= y * w + dl)%R).
  { intros x y w H1 H2. assert (Rabs ((x - y) * w) <= dl * 1)%R
      by (rewrite Rabs_mult; apply Rmult_le_compat; auto using Rabs_pos).
    apply Rabs_le_inv in H. lra. }
  destruct (unit_le dl Hu Hdl _ _ (circle1 lat)) as [B1 B2]. destruct (unit_le dl Hu Hdl _ _ (circle1 lng)) as [B3 B4].
  assert (M1 : (Rabs (cos lat * cos lng) <= 1)%R) by (rewrite Rabs_mult; pose proof (Rabs_pos (cos lat)); pose proof (Rabs_pos (cos lng)); nra).
  assert (M2 : (Rabs (cos lat * sin lng) <= 1)%R) by (rewrite Rabs_mult; pose proof (Rabs_pos (cos lat)); pose proof (Rabs_pos (sin lng)); nra).
  pose proof (P _ _ _ T1 M1). pose proof (P _ _ _ T2 M2). pose proof (P _ _ _ T3 B1).
  assert (UL : (7717 / 10000 <= upwards l lat lng)%R) by lra.
  pose proof (apart_up l lat lng) as AU. pose proof (apart_pos l lat lng).
  set (p := apart l lat lng) in *. clear - UL AU H2. nra.
Qed.

Lemma chosen : Forall (fun f => is_finite (dist f) = true) fs /\ exists n l f, first_nearest dist five fs n f /\
  nth_error ls n = Some l /\ good_row l f /\ (forall g, In g ls -> (apart l lat lng <= apart g lat lng + 15 * dl)%R) /\
  (apart l lat lng <= 68 / 100)%R.
Proof.
  split.
  { apply Forall_forall. intros f Hf. apply In_nth_error in Hf as (n & Hn).
    destruct (rows_nth _ _ _ HT n f Hn) as (l & Hl & HR). apply (row_distance l f HR). }
  destruct some_near as (n0 & l0 & f0 & Hl0 & Hf0 & HR0 & A0).
  destruct (nearest_or_none dist five fs) as [(n & f & HN)|HN].
  - destruct (rows_nth _ _ _ HT n f (proj1 HN)) as (l & Hl & HR). exists n, l, f. do 3 (split; [assumption|]).
    assert (G : forall g, In g ls -> (apart l lat lng <= apart g lat lng + 15 * dl)%R).
    { intros g Hg. apply In_nth_error in Hg as (m & Hm). destruct (rows_nth' _ _ _ HT m g Hm) as (h & Hh & HRh).
      apply (nearer_apart l f g h HR HRh). exact (proj1 (proj2 (proj2 HN)) m h Hh). }
    split; [exact G|]. pose proof (G l0 (nth_error_In _ _ Hl0)). lra.
  - exfalso. specialize (HN n0 f0 Hf0). destruct (row_distance l0 f0 HR0) as (F & D & A).
    assert (Nf : is_nan (dist f0) = false) by (apply finite_not_nan; exact F).
    assert (N5 : is_nan five = false) by (apply finite_not_nan; exact Ff).
    assert (Q : ieee_lt E M (dist f0) five = true); [|cbv beta in Q; congruence]. apply (lt_key _ _ Nf N5).
    rewrite (proj1 (key_finite _ F)), (proj1 (key_finite _ Ff)), H5.
    assert (sqrt (B2R (dist f0)) <= 1)%R by (apply Rabs_le_inv in A; lra).
    assert (S : (sqrt (B2R (dist f0)) * sqrt (B2R (dist f0)) = B2R (dist f0))%R) by (apply sqrt_sqrt; lra).
    pose proof (sqrt_pos (B2R (dist f0))). nra.
Qed.

Variables (unit scale : fmt) (res : Z).
Hypothesis Hres : 0 <= res < 16.
Hypothesis Aunit : app unit res0_unit 1.
Hypothesis Ascale : app scale (sqrt 7 ^ Z.to_nat res)%R (sqrt 7 ^ Z.to_nat res)%R.

Theorem plane_near : Forall (fun f => is_finite (dist f) = true) fs /\ exists n l f, first_nearest dist five fs n f /\
  nth_error ls n = Some l /\ (forall g, In g ls -> (apart l lat lng <= apart g lat lng + 15 * dl)%R) /\
  (apart l lat lng <= 68 / 100)%R /\
  ((20 * dl <= apart l lat lng)%R -> exists hx hy, h3_plane unit scale f res sl cl sg cg (dist f) = Some (hx, hy) /\
    app hx (gnomonic_x l res lat lng) (148 * sqrt 7 ^ Z.to_nat res) /\
    app hy (gnomonic_y l res lat lng) (148 * sqrt 7 ^ Z.to_nat res)).
Proof.
  destruct chosen as (HFin & n & l & f & HN & Hl & HR & HG & HS). split; [exact HFin|].
  exists n, l, f. do 4 (split; [assumption|]). intros Hmin.
  destruct HR as [(T1 & T2 & T3 & T4 & T5 & T6 & T7 & T8 & T9 & T10 & T11) F].
  unfold finite_row in F. cbn [forallb] in F. repeat rewrite andb_true_iff in F.
  destruct F as (F9 & F10 & F11 & F1 & F2 & F3 & F4 & F5 & F6 & F7 & F8 & _).
  destruct (face_point (sin lat) (cos lat) (sin lng) (cos lng) (sin (face_lat l)) (cos (face_lat l)) (sin (face_lng l)) (cos (face_lng l))
    (sin (face_axis l res)) (cos (face_axis l res)) (sqrt 7 ^ Z.to_nat res) (circle1 _) (circle1 _) (circle1 _) (circle1 _) (circle1 _)
    (sqrt7_bounds res Hres) sl cl sg cg unit scale f res Asl Acl Asg Acg Aunit Ascale) as (hx & hy & Hp & P1 & P2);
    try (apply near_app; assumption).
  - unfold face_axis. destruct (Z.odd res); apply near_app; assumption.
  - unfold face_axis. destruct (Z.odd res); apply near_app; assumption.
  - rewrite <- apart_chordc. lra.
  - exists hx, hy. split; [exact Hp|]. unfold gnomonic_x, gnomonic_y, unit_of, to_north, to_east.
    rewrite upwards_upc, cos_minus, sin_minus.
    split; (eapply app_value; [eassumption|]); unfold northc, eastc; f_equal; f_equal; ring.
Qed.
End Position.
End Plane.
