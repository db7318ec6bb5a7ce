(** From the plane back to the sphere. *)
From Coq Require Import ZArith Reals Lra Lia Bool List.
From Flocq Require Import Core BinarySingleNaN.
From Verif Require Import Field FieldFacts RoundFacts Loc2Index LocConst NormFacts PipeFacts HexCell TableFacts Angles
  PlaneError Gnomonic CellFacts FaceFree.
Import ListNotations.
Local Open Scope R_scope.

(** Two positions on the same side of the sphere are at most as far apart as their
    projections, in the unit of the plane. *)
Lemma frame_dot l lat lng lat' lng' :
  to_north l lat lng * to_north l lat' lng' + to_east l lat lng * to_east l lat' lng' + upwards l lat lng * upwards l lat' lng' =
  sin lat * sin lat' + cos lat * cos lat' * cos (lng - lng').
Proof.
  unfold to_north, to_east, upwards. replace (lng - lng') with ((lng - face_lng l) - (lng' - face_lng l)) by ring.
  rewrite (cos_minus (lng - face_lng l)). pose proof (circle1 (face_lat l)) as C.
  set (s := sin (face_lat l)) in *. set (c := cos (face_lat l)) in *.
  set (h := cos lat * cos (lng - face_lng l)). set (h' := cos lat' * cos (lng' - face_lng l)).
  transitivity ((s * s + c * c) * (sin lat * sin lat') + (s * s + c * c) * (h * h') +
    cos lat * sin (lng - face_lng l) * (cos lat' * sin (lng' - face_lng l))); [unfold h, h'; ring|].
  rewrite C. unfold h, h'. ring.
Qed.

Lemma distance_dot p q : distance p q * distance p q = 2 - 2 * (sin (fst p) * sin (fst q) + cos (fst p) * cos (fst q) * cos (snd p - snd q)).
Proof.
  unfold distance. rewrite sqrt_sqrt.
  - pose proof (chord_cos (fst q) (snd q) (fst p) (snd p)) as H.
    enough (sin (fst p) * sin (fst q) + cos (fst p) * cos (fst q) * cos (snd p - snd q) =
      1 - chord (on_sphere (fst p) (snd p)) (on_sphere (fst q) (snd q)) / 2) by lra.
    rewrite H. replace (snd p - snd q) with (- (snd q - snd p)) by ring. rewrite ?cos_neg. ring.
  - unfold chord, on_sphere. pose proof (fun a b => pow2_ge_0 (a - b)) as P. repeat apply Rplus_le_le_0_compat; apply P.
Qed.

Lemma unproject_near l res p q : (0 <= res < 16)%Z ->
  0 < upwards l (fst p) (snd p) -> 0 < upwards l (fst q) (snd q) ->
  unit_of res * distance p q <= sqrt (dist2 (gnomonic_x l res (fst p) (snd p), gnomonic_y l res (fst p) (snd p))
    (gnomonic_x l res (fst q) (snd q), gnomonic_y l res (fst q) (snd q))).
Proof.
  intros Hr Up Uq. destruct p as [lat lng]. destruct q as [lat' lng']. cbn [fst snd] in *.
  assert (U : 0 < unit_of res).
  { unfold unit_of. pose proof res0_bounds. pose proof (sqrt7_bounds res Hr). apply Rdiv_lt_0_compat; lra. }
  pose proof (distance_dot (lat, lng) (lat', lng')) as D. cbn [fst snd] in D. rewrite <- (frame_dot l) in D.
  assert (O1 : to_north l lat lng * to_north l lat lng + to_east l lat lng * to_east l lat lng + upwards l lat lng * upwards l lat lng = 1).
  { rewrite frame_dot. replace (lng - lng) with 0 by ring. rewrite cos_0. pose proof (circle1 lat). lra. }
  assert (O2 : to_north l lat' lng' * to_north l lat' lng' + to_east l lat' lng' * to_east l lat' lng' + upwards l lat' lng' * upwards l lat' lng' = 1).
  { rewrite frame_dot. replace (lng' - lng') with 0 by ring. rewrite cos_0. pose proof (circle1 lat'). lra. }
  assert (P : 0 <= distance (lat, lng) (lat', lng')) by apply sqrt_pos.
  set (d := distance (lat, lng) (lat', lng')) in *. clearbody d.
  apply Rsqr_incr_0_var; [|apply sqrt_pos]. unfold Rsqr. rewrite sqrt_sqrt.
  2: { unfold dist2. cbn [fst snd]. pose proof (fun a b => pow2_ge_0 (a - b)) as Q. apply Rplus_le_le_0_compat; apply Q. }
  unfold dist2, gnomonic_x, gnomonic_y. cbn [fst snd]. set (k := unit_of res) in *.
  pose proof (circle1 (face_axis l res)) as CA. set (s := sin (face_axis l res)) in *. set (c := cos (face_axis l res)) in *.
  set (n := to_north l lat lng) in *. set (e := to_east l lat lng) in *. set (w := upwards l lat lng) in *.
  set (n' := to_north l lat' lng') in *. set (e' := to_east l lat' lng') in *. set (w' := upwards l lat' lng') in *.
  clearbody k s c n e w n' e' w'.
  set (x := n / w - n' / w'). set (y := e / w - e' / w').
  apply Rle_trans with (k * k * ((s * s + c * c) * (x * x + y * y))).
  2: { right. unfold x, y. field. split; lra. }
  rewrite CA, Rmult_1_l. replace (k * d * (k * d)) with (k * k * (d * d)) by ring. apply Rmult_le_compat_l; [nra|].
  rewrite D.
  assert (E : x * x + y * y = (1 / w - 1 / w') * (1 / w - 1 / w') + 2 * (1 / w) * (1 / w') * (1 - (n * n' + e * e' + w * w'))).
  { unfold x, y. replace (n / w - n' / w') with (n * (1 / w) - n' * (1 / w')) by (field; lra).
    replace (e / w - e' / w') with (e * (1 / w) - e' * (1 / w')) by (field; lra).
    assert (I1 : w * (1 / w) = 1) by (field; lra). assert (I2 : w' * (1 / w') = 1) by (field; lra).
    set (a := 1 / w) in *. set (b := 1 / w') in *. clearbody a b.
    transitivity ((n * n + e * e) * (a * a) + (n' * n' + e' * e') * (b * b) - 2 * a * b * (n * n' + e * e')); [ring|].
    replace (n * n + e * e) with (1 - w * w) by lra. replace (n' * n' + e' * e') with (1 - w' * w') by lra.
    replace ((1 - w * w) * (a * a)) with (a * a - (w * a) * (w * a)) by ring.
    replace ((1 - w' * w') * (b * b)) with (b * b - (w' * b) * (w' * b)) by ring.
    rewrite I1, I2.
    replace (2 * a * b * (1 - (n * n' + e * e' + w * w'))) with (2 * a * b - 2 * a * b * (n * n' + e * e') - 2 * (w * a) * (w' * b)) by ring.
    rewrite I1, I2. ring. }
  rewrite E.
  assert (W1 : w <= 1) by nra. assert (W2 : w' <= 1) by nra.
  assert (A1 : 1 <= 1 / w) by (unfold Rdiv; rewrite Rmult_1_l, <- Rinv_1 at 1; apply Rinv_le_contravar; lra).
  assert (A2 : 1 <= 1 / w') by (unfold Rdiv; rewrite Rmult_1_l, <- Rinv_1 at 1; apply Rinv_le_contravar; lra).
  assert (T : 0 <= 1 - (n * n' + e * e' + w * w')) by nra.
  set (a := 1 / w) in *. set (b := 1 / w') in *. set (t := 1 - (n * n' + e * e' + w * w')) in *.
  replace (2 - 2 * (n * n' + e * e' + w * w')) with (2 * t) by (unfold t; ring). clearbody a b t. clear - A1 A2 T.
  assert (1 <= a * b) by nra. pose proof (Rle_0_sqr (a - b)) as Q. unfold Rsqr in Q. nra.
Qed.

(** A hexagon is in a disc. *)
Lemma hexagon_disc s p : hexagon s p -> fst p * fst p + snd p * snd p <= s * s / 3.
Proof.
  destruct p as [x y]. unfold hexagon. cbn [fst snd]. intros (A & B & C). pose proof sqrt3 as T.
  set (t := y * sqrt 3). assert (E : y * y = t * t / 3) by (unfold t; replace (y * sqrt 3 * (y * sqrt 3)) with (y * y * (sqrt 3 * sqrt 3)) by ring; rewrite T; field).
  rewrite E. replace (x * (1 / 2) + y * (sqrt 3 / 2)) with ((x + t) / 2) in B by (unfold t; field).
  replace (- x * (1 / 2) + y * (sqrt 3 / 2)) with ((t - x) / 2) in C by (unfold t; field). clearbody t. clear E T.
  apply Rabs_le_inv in A, B, C. destruct (Rle_dec 0 x) as [X|X].
  - assert (t * t <= (s - x) * (s - x)) by nra. nra.
  - assert (t * t <= (s + x) * (s + x)) by nra. nra.
Qed.

Lemma in_cell_disc s p c : 0 <= s -> in_cell s p c -> sqrt (dist2 p (hex_centre c)) <= s / sqrt 3.
Proof.
  intros Hs H. apply hexagon_disc in H. cbn [fst snd] in H. pose proof sqrt3 as T.
  assert (S3 : 0 < sqrt 3) by (apply sqrt_lt_R0; lra).
  apply Rsqr_incr_0_var; [|apply Rmult_le_pos; [exact Hs|apply Rlt_le, Rinv_0_lt_compat; exact S3]].
  unfold Rsqr. rewrite sqrt_sqrt.
  - unfold dist2. replace (s / sqrt 3 * (s / sqrt 3)) with (s * s / (sqrt 3 * sqrt 3)) by (field; lra). rewrite T. simpl. lra.
  - unfold dist2. pose proof (fun a b => pow2_ge_0 (a - b)) as Q. apply Rplus_le_le_0_compat; apply Q.
Qed.

(** The coordinates of an accepted cell are small. *)
Lemma in_cell_small s B p c : 0 <= s -> Rabs (fst p) <= B -> Rabs (snd p) <= B -> reduced c -> in_cell s p c ->
  let '(i, j, k) := c in IZR (i + j + k) <= 6 * (B + s).
Proof.
  destruct c as [[i j] k]. intros Hs A1 A2 (Ri & Rj & Rk & Rz) (H1 & H2 & H3). unfold hex_centre in *. cbn [fst snd] in *.
  destruct p as [x y]. cbn [fst snd] in *. pose proof sqrt3 as T.
  assert (T' : 17 / 10 <= sqrt 3 <= 18 / 10) by (pose proof (sqrt_pos 3); split; nra).
  set (t := sqrt 3 * y). assert (Tt : Rabs t <= 18 / 10 * B).
  { unfold t. rewrite Rabs_mult, (Rabs_pos_eq (sqrt 3)) by lra. pose proof (Rabs_pos y). nra. }
  assert (B2 : Rabs (x + t - (IZR (i - k) + IZR (j - k))) <= s).
  { match type of H2 with Rabs ?u <= _ => replace (x + t - (IZR (i - k) + IZR (j - k))) with (2 * u) end.
    - rewrite Rabs_mult, (Rabs_pos_eq 2) by lra. lra.
    - unfold t. match goal with |- 2 * ?u = _ => replace (2 * u) with ((x - (IZR (i - k) - IZR (j - k) / 2)) + sqrt 3 * y - IZR (j - k) * (sqrt 3 * sqrt 3) / 2) by field end.
      rewrite T. field. }
  assert (B3 : Rabs (t - x - (2 * IZR (j - k) - IZR (i - k))) <= s).
  { match type of H3 with Rabs ?u <= _ => replace (t - x - (2 * IZR (j - k) - IZR (i - k))) with (2 * u) end.
    - rewrite Rabs_mult, (Rabs_pos_eq 2) by lra. lra.
    - unfold t. match goal with |- 2 * ?u = _ => replace (2 * u) with (- (x - (IZR (i - k) - IZR (j - k) / 2)) + sqrt 3 * y - IZR (j - k) * (sqrt 3 * sqrt 3) / 2) by field end.
      rewrite T. field. }
  rewrite !minus_IZR in *. rewrite !plus_IZR. apply Rabs_le_inv in A1, Tt, H1, B2, B3.
  assert (0 <= IZR i) by (apply IZR_le; lia). assert (0 <= IZR j) by (apply IZR_le; lia). assert (0 <= IZR k) by (apply IZR_le; lia).
  destruct Rz as [->|[->| ->]]; lra.
Qed.
