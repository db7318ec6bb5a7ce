(** proximity/proximity.go: [OldHaversine] in exact real arithmetic (the Go code
    computes with doubles), and geometry on the unit sphere. *)
From Coq Require Import Reals Lra Lia Psatz.
Local Open Scope R_scope.

(** proximity/proximity.go:17-18 *)
Definition RadiusOfEarth : R := 6371000.

(** proximity/proximity.go:32-34 *)
Definition degreesToRadians (degrees : R) : R := degrees * (PI / 180).

(** [math.Atan2 y x] for [0 <= x], [0 <= y], not both zero *)
Definition atan2_pos (y x : R) : R := if Req_EM_T x 0 then PI / 2 else atan (y / x).

(** proximity/proximity.go:22-29 *)
Definition hav_a (lat1 lon1 lat2 lon2 : R) : R :=
  let dLat := degreesToRadians (lat2 - lat1) in
  let dLon := degreesToRadians (lon2 - lon1) in
  sin (dLat / 2) ^ 2 +
  cos (degreesToRadians lat1) * cos (degreesToRadians lat2) * sin (dLon / 2) ^ 2.
Definition OldHaversine (lat1 lon1 lat2 lon2 : R) : R :=
  let a := hav_a lat1 lon1 lat2 lon2 in
  let c := 2 * atan2_pos (sqrt a) (sqrt (1 - a)) in
  RadiusOfEarth * c.

(** ** Specification: the unit sphere *)

(** The point with the given latitude and longitude, in degrees. *)
Definition px (lat lon : R) : R := cos (lat * PI / 180) * cos (lon * PI / 180).
Definition py (lat lon : R) : R := cos (lat * PI / 180) * sin (lon * PI / 180).
Definition pz (lat lon : R) : R := sin (lat * PI / 180).
Definition dot (lat1 lon1 lat2 lon2 : R) : R :=
  px lat1 lon1 * px lat2 lon2 + py lat1 lon1 * py lat2 lon2 + pz lat1 lon1 * pz lat2 lon2.

(** The distance along the great circle. *)
Definition great_circle (lat1 lon1 lat2 lon2 : R) : R :=
  RadiusOfEarth * acos (dot lat1 lon1 lat2 lon2).

(** ** Facts *)

Lemma unit_point lat lon : px lat lon ^ 2 + py lat lon ^ 2 + pz lat lon ^ 2 = 1.
Proof.
  unfold px, py, pz.
  pose proof (sin2_cos2 (lat * PI / 180)) as H1. pose proof (sin2_cos2 (lon * PI / 180)) as H2.
  unfold Rsqr in *. set (a := sin (lat * PI / 180)) in *. set (b := cos (lat * PI / 180)) in *.
  set (c := sin (lon * PI / 180)) in *. set (d := cos (lon * PI / 180)) in *.
  replace ((b * d) ^ 2 + (b * c) ^ 2 + a ^ 2) with (b * b * (c * c + d * d) + a * a) by ring.
  rewrite H2. lra.
Qed.

Lemma half_square x : sin (x / 2) ^ 2 = (1 - cos x) / 2.
Proof.
  replace x with (2 * (x / 2)) at 2 by field. rewrite cos_2a_sin. field.
Qed.

Lemma hav_dot lat1 lon1 lat2 lon2 :
  hav_a lat1 lon1 lat2 lon2 = (1 - dot lat1 lon1 lat2 lon2) / 2.
Proof.
  unfold hav_a, dot, px, py, pz, degreesToRadians. rewrite !half_square.
  replace ((lat2 - lat1) * (PI / 180)) with (lat2 * PI / 180 - lat1 * PI / 180) by field.
  replace ((lon2 - lon1) * (PI / 180)) with (lon2 * PI / 180 - lon1 * PI / 180) by field.
  replace (lat1 * (PI / 180)) with (lat1 * PI / 180) by field.
  replace (lat2 * (PI / 180)) with (lat2 * PI / 180) by field.
  rewrite !cos_minus. field.
Qed.

(** Cauchy-Schwarz in three dimensions. *)
Lemma cauchy a b c x y z :
  (a * x + b * y + c * z) ^ 2 <= (a ^ 2 + b ^ 2 + c ^ 2) * (x ^ 2 + y ^ 2 + z ^ 2).
Proof.
  assert (H : (a ^ 2 + b ^ 2 + c ^ 2) * (x ^ 2 + y ^ 2 + z ^ 2) - (a * x + b * y + c * z) ^ 2 =
    (a * y - b * x) ^ 2 + (a * z - c * x) ^ 2 + (b * z - c * y) ^ 2) by ring.
  pose proof (pow2_ge_0 (a * y - b * x)). pose proof (pow2_ge_0 (a * z - c * x)).
  pose proof (pow2_ge_0 (b * z - c * y)). lra.
Qed.

Lemma dot_range lat1 lon1 lat2 lon2 : -1 <= dot lat1 lon1 lat2 lon2 <= 1.
Proof.
  pose proof (cauchy (px lat1 lon1) (py lat1 lon1) (pz lat1 lon1)
    (px lat2 lon2) (py lat2 lon2) (pz lat2 lon2)) as H.
  rewrite !unit_point in H. unfold dot.
  set (t := _ + _ + _) in *. clearbody t. nra.
Qed.

Lemma sin_atan_sq y x : 0 <= y -> 0 < x -> y ^ 2 + x ^ 2 = 1 -> sin (atan (y / x)) ^ 2 = y ^ 2.
Proof.
  intros Hy Hx H. set (t := atan (y / x)).
  assert (Hb : - PI / 2 < t < PI / 2) by apply atan_bound.
  assert (Hc : 0 < cos t) by (apply cos_gt_0; lra).
  assert (Ht : sin t / cos t = y / x) by (change (tan t = y / x); apply tan_atan).
  pose proof (sin2_cos2 t) as Hs. unfold Rsqr in Hs.
  assert (Hsc : sin t = y / x * cos t).
  { rewrite <- Ht. field. lra. }
  rewrite Hsc in *.
  assert (Hcc : cos t * cos t = x * x).
  { replace (y / x * cos t * (y / x * cos t) + cos t * cos t)
      with (cos t * cos t * ((y ^ 2 + x ^ 2) / (x * x))) in Hs by (field; lra).
    rewrite H in Hs. apply Rmult_eq_reg_r with (1 / (x * x)).
    - rewrite Hs. field. lra.
    - unfold Rdiv. rewrite Rmult_1_l. apply Rinv_neq_0_compat. nra. }
  replace ((y / x * cos t) ^ 2) with (y ^ 2 * (cos t * cos t) / (x * x)) by (field; lra).
  rewrite Hcc. field. lra.
Qed.

(** The haversine formula gives the great-circle distance. *)
Theorem haversine_great_circle lat1 lon1 lat2 lon2 :
  OldHaversine lat1 lon1 lat2 lon2 = great_circle lat1 lon1 lat2 lon2.
Proof.
  unfold OldHaversine, great_circle. f_equal.
  pose proof (dot_range lat1 lon1 lat2 lon2) as Hd. rewrite hav_dot.
  set (d := dot lat1 lon1 lat2 lon2) in *. clearbody d. pose proof PI_RGT_0.
  set (a := (1 - d) / 2). assert (Ha : 0 <= a <= 1) by (unfold a; lra).
  unfold atan2_pos. destruct (Req_EM_T (sqrt (1 - a)) 0) as [H0|H0].
  - assert (1 - a = 0) by (apply sqrt_eq_0; [lra|exact H0]).
    assert (d = -1) as -> by (unfold a in *; lra). replace (-1) with (- (1)) by ring.
    rewrite acos_opp, acos_1. field.
  - assert (Hp : 0 < sqrt (1 - a)).
    { pose proof (sqrt_pos (1 - a)). lra. }
    set (t := atan (sqrt a / sqrt (1 - a))).
    assert (Ht0 : 0 <= t).
    { unfold t. rewrite <- atan_0. destruct (Rle_lt_or_eq_dec 0 (sqrt a / sqrt (1 - a))) as [Hl|He].
      - apply Rmult_le_pos; [apply sqrt_pos|]. left. apply Rinv_0_lt_compat, Hp.
      - left. apply atan_increasing, Hl.
      - rewrite <- He. apply Rle_refl. }
    assert (Ht1 : t < PI / 2) by apply atan_bound.
    assert (Hs : sin t ^ 2 = a).
    { unfold t. rewrite sin_atan_sq; [rewrite pow2_sqrt; lra|apply sqrt_pos|exact Hp|].
      rewrite !pow2_sqrt by lra. ring. }
    rewrite <- (acos_cos (2 * t)) by lra. f_equal. rewrite cos_2a_sin.
    replace (2 * sin t * sin t) with (2 * sin t ^ 2) by ring. rewrite Hs. unfold a. field.
Qed.

(** ** The metric *)

Lemma great_circle_range lat1 lon1 lat2 lon2 :
  0 <= great_circle lat1 lon1 lat2 lon2 <= RadiusOfEarth * PI.
Proof.
  unfold great_circle. pose proof (acos_bound (dot lat1 lon1 lat2 lon2)).
  unfold RadiusOfEarth. lra.
Qed.

Lemma great_circle_sym lat1 lon1 lat2 lon2 :
  great_circle lat1 lon1 lat2 lon2 = great_circle lat2 lon2 lat1 lon1.
Proof. unfold great_circle. do 2 f_equal. unfold dot. ring. Qed.

Lemma acos_le x y : -1 <= x <= 1 -> -1 <= y <= 1 -> x <= y -> acos y <= acos x.
Proof.
  intros Hx Hy H. destruct (Rle_lt_dec (acos y) (acos x)) as [|Hlt]; [assumption|exfalso].
  pose proof (acos_bound x) as Bx. pose proof (acos_bound y) as By.
  assert (cos (acos y) < cos (acos x)) by (apply cos_decreasing_1; lra).
  rewrite !cos_acos in H0 by lra. lra.
Qed.

(** Same distance zero exactly for the same point of the sphere. *)
Lemma great_circle_zero lat1 lon1 lat2 lon2 :
  great_circle lat1 lon1 lat2 lon2 = 0 <->
  px lat1 lon1 = px lat2 lon2 /\ py lat1 lon1 = py lat2 lon2 /\ pz lat1 lon1 = pz lat2 lon2.
Proof.
  unfold great_circle, RadiusOfEarth. pose proof (dot_range lat1 lon1 lat2 lon2) as Hd.
  pose proof (unit_point lat1 lon1) as H1. pose proof (unit_point lat2 lon2) as H2.
  split.
  - intros H. assert (Ha : acos (dot lat1 lon1 lat2 lon2) = 0) by lra.
    assert (Hc : dot lat1 lon1 lat2 lon2 = 1).
    { rewrite <- (cos_acos (dot lat1 lon1 lat2 lon2)) by lra. rewrite Ha. apply cos_0. }
    unfold dot in Hc.
    set (a := px lat1 lon1) in *. set (b := py lat1 lon1) in *. set (c := pz lat1 lon1) in *.
    set (x := px lat2 lon2) in *. set (y := py lat2 lon2) in *. set (z := pz lat2 lon2) in *.
    clearbody a b c x y z. clear - Hc H1 H2.
    assert (Hs : (a - x) ^ 2 + (b - y) ^ 2 + (c - z) ^ 2 = 0) by nra.
    pose proof (pow2_ge_0 (a - x)). pose proof (pow2_ge_0 (b - y)). pose proof (pow2_ge_0 (c - z)).
    assert (Hz : forall u, u ^ 2 = 0 -> u = 0).
    { intros u Hu. destruct (Req_EM_T u 0) as [|Hne]; [assumption|].
      pose proof (pow_nonzero u 2 Hne). contradiction. }
    assert (a - x = 0) by (apply Hz; lra). assert (b - y = 0) by (apply Hz; lra).
    assert (c - z = 0) by (apply Hz; lra). lra.
  - intros (Ha & Hb & Hc). unfold dot. rewrite Ha, Hb, Hc.
    replace (_ + _ + _) with 1 by (rewrite <- H2; ring). rewrite acos_1. ring.
Qed.

(** The angle between unit vectors obeys the triangle inequality. *)
Lemma angle_triangle u v w : -1 <= u <= 1 -> -1 <= v <= 1 -> -1 <= w <= 1 ->
  (w - u * v) ^ 2 <= (1 - u ^ 2) * (1 - v ^ 2) -> acos w <= acos u + acos v.
Proof.
  intros Hu Hv Hw H. pose proof (acos_bound u) as Bu. pose proof (acos_bound v) as Bv.
  pose proof (acos_bound w) as Bw.
  destruct (Rle_lt_dec PI (acos u + acos v)) as [|Hlt]; [lra|].
  assert (Hc : cos (acos u + acos v) <= w).
  { rewrite cos_plus, !cos_acos, !sin_acos by lra. unfold Rsqr.
    assert (Hsq : (w - u * v) ^ 2 <= (sqrt (1 - u * u) * sqrt (1 - v * v)) ^ 2).
    { rewrite Rpow_mult_distr, !pow2_sqrt by nra. replace (u * u) with (u ^ 2) by ring.
      replace (v * v) with (v ^ 2) by ring. exact H. }
    assert (Hp : 0 <= sqrt (1 - u * u) * sqrt (1 - v * v)).
    { apply Rmult_le_pos; apply sqrt_pos. }
    set (q := sqrt (1 - u * u) * sqrt (1 - v * v)) in *. set (p := w - u * v) in *.
    assert (- q <= p) by (clearbody p q; nra). unfold p in *. lra. }
  rewrite <- (acos_cos (acos u + acos v)) by lra. apply acos_le; [apply COS_bound|exact Hw|exact Hc].
Qed.

Theorem great_circle_triangle lat1 lon1 lat2 lon2 lat3 lon3 :
  great_circle lat1 lon1 lat3 lon3 <=
  great_circle lat1 lon1 lat2 lon2 + great_circle lat2 lon2 lat3 lon3.
Proof.
  unfold great_circle.
  pose proof (dot_range lat1 lon1 lat2 lon2) as Hu. pose proof (dot_range lat2 lon2 lat3 lon3) as Hv.
  pose proof (dot_range lat1 lon1 lat3 lon3) as Hw.
  assert (H : acos (dot lat1 lon1 lat3 lon3) <=
    acos (dot lat1 lon1 lat2 lon2) + acos (dot lat2 lon2 lat3 lon3)).
  { apply angle_triangle; try assumption. clear Hu Hv Hw.
    pose proof (unit_point lat1 lon1) as H1. pose proof (unit_point lat2 lon2) as H2.
    pose proof (unit_point lat3 lon3) as H3. unfold dot.
    set (a := px lat1 lon1) in *. set (b := py lat1 lon1) in *. set (c := pz lat1 lon1) in *.
    set (x := px lat2 lon2) in *. set (y := py lat2 lon2) in *. set (z := pz lat2 lon2) in *.
    set (p := px lat3 lon3) in *. set (q := py lat3 lon3) in *. set (r := pz lat3 lon3) in *.
    clearbody a b c x y z p q r.
    set (u := a * x + b * y + c * z). set (v := x * p + y * q + z * r).
    pose proof (cauchy (a - u * x) (b - u * y) (c - u * z) (p - v * x) (q - v * y) (r - v * z)) as C.
    replace ((a - u * x) * (p - v * x) + (b - u * y) * (q - v * y) + (c - u * z) * (r - v * z))
      with (a * p + b * q + c * r - u * v - u * v + u * v * (x ^ 2 + y ^ 2 + z ^ 2)) in C
      by (unfold u, v; ring).
    replace ((a - u * x) ^ 2 + (b - u * y) ^ 2 + (c - u * z) ^ 2)
      with (a ^ 2 + b ^ 2 + c ^ 2 - 2 * u * u + u * u * (x ^ 2 + y ^ 2 + z ^ 2)) in C
      by (unfold u; ring).
    replace ((p - v * x) ^ 2 + (q - v * y) ^ 2 + (r - v * z) ^ 2)
      with (p ^ 2 + q ^ 2 + r ^ 2 - 2 * v * v + v * v * (x ^ 2 + y ^ 2 + z ^ 2)) in C
      by (unfold v; ring).
    rewrite H1, H2, H3 in C.
    replace (a * p + b * q + c * r - u * v - u * v + u * v * 1) with (a * p + b * q + c * r - u * v) in C by ring.
    replace ((1 - u ^ 2) * (1 - v ^ 2)) with ((1 - 2 * u * u + u * u * 1) * (1 - 2 * v * v + v * v * 1)) by ring.
    exact C. }
  unfold RadiusOfEarth. lra.
Qed.

(** ** Edges *)

(** [b] lies on the shortest arc between two vertices. *)
Definition on_edge (lat1 lon1 lat2 lon2 lat lon : R) : Prop :=
  great_circle lat1 lon1 lat lon + great_circle lat lon lat2 lon2 = great_circle lat1 lon1 lat2 lon2.

(** One of the end points is nearer than half the edge. *)
Theorem vertex_error lat1 lon1 lat2 lon2 blat blon lat lon :
  on_edge lat1 lon1 lat2 lon2 blat blon ->
  Rmin (great_circle lat lon lat1 lon1) (great_circle lat lon lat2 lon2) <=
  great_circle lat lon blat blon + great_circle lat1 lon1 lat2 lon2 / 2.
Proof.
  unfold on_edge. intros H.
  pose proof (great_circle_triangle lat lon blat blon lat1 lon1) as T1.
  pose proof (great_circle_triangle lat lon blat blon lat2 lon2) as T2.
  rewrite (great_circle_sym blat blon lat1 lon1) in T1.
  destruct (Rle_lt_dec (great_circle lat1 lon1 blat blon) (great_circle lat1 lon1 lat2 lon2 / 2)) as [Hl|Hl].
  - eapply Rle_trans; [apply Rmin_l|]. lra.
  - eapply Rle_trans; [apply Rmin_r|]. lra.
Qed.
