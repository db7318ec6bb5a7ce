(** Property C56: the plane coordinates the circuits compute are those of H3's
    gnomonic projection of the position, on a face that is nearest. *)
From Coq Require Import ZArith Reals Lra Lia Bool List.
From Flocq Require Import Core BinarySingleNaN.
From Verif Require Import Field Circuit RangeCheck Witness FloatModel Spec MathSpec ErrorFacts Loc2Index LocConst HexFacts Math SinAccuracy ScaleFacts ClosestFacts PipeFacts TableFacts
  Angles PlaneError PlanePoint Covering Gnomonic PropertiesHex PropertiesPipe PropertiesLoc PropertiesTable PropertiesAngles.
Import ListNotations.
Local Open Scope Z_scope.

Lemma good_rows {E M : Z} {HF : Format E M} eps dl ls fs : (eps <= dl)%R -> rows (true_row (E:=E) (M:=M) eps) ls fs ->
  forallb (finite_row (E:=E) (M:=M)) fs = true -> rows (good_row (E:=E) (M:=M) dl) ls fs.
Proof.
  intros He. revert fs. induction ls as [|l ls IH]; intros [|f fs]; cbn [rows forallb]; try contradiction; [trivial|].
  intros [H1 H2] F. apply andb_prop in F as [F1 F2]. split; [|apply IH; assumption].
  split; [|exact F1]. unfold true_row, near in *. cbv zeta in *. intuition lra.
Qed.

Lemma below_16 (P : Z -> bool) : forallb P (map Z.of_nat (seq 0 16)) = true -> forall res, 0 <= res < 16 -> P res = true.
Proof.
  intros H res Hr. apply (proj1 (forallb_forall _ _) H). apply in_map_iff. exists (Z.to_nat res).
  split; [lia|]. apply in_seq. lia.
Qed.

(** The projection is H3's: [r = tan rho / unit * sqrt 7 ^ res] at the angle
    [axis - azimuth], for the angular distance [rho] and the azimuth of the
    position seen from the centre of the face. *)
Theorem C56_projection l res lat lng rho az : (0 < rho < PI / 2)%R -> cos rho = upwards l lat lng ->
  (sin rho * cos az)%R = to_north l lat lng -> (sin rho * sin az)%R = to_east l lat lng ->
  let r := (tan rho / res0_unit * sqrt 7 ^ Z.to_nat res)%R in
  gnomonic_x l res lat lng = (r * cos (face_axis l res - az))%R /\
  gnomonic_y l res lat lng = (r * sin (face_axis l res - az))%R.
Proof. exact (gnomonic_polar l res lat lng rho az). Qed.
Print Assumptions C56_projection.

(** Sines and cosines that are [dl] off: the face that is picked is nearest up to
    [15 dl] and never further than 0.68; unless the position is within [20 dl] of
    its centre, the coordinates are [148 sqrt 7 ^ res dl] off. *)
Definition projects {E M : Z} {HF : Format E M} (K : constants) (faces : list face) (dl : R) : Prop :=
  forall lat lng (sl cl sg cg : fmt E M) res, 0 <= res < 16 ->
  is_finite sl = true -> is_finite cl = true -> is_finite sg = true -> is_finite cg = true ->
  (Rabs (B2R sl - sin lat) <= dl)%R -> (Rabs (B2R cl - cos lat) <= dl)%R ->
  (Rabs (B2R sg - sin lng) <= dl)%R -> (Rabs (B2R cg - cos lng) <= dl)%R ->
  let dist f := ieee_distance f (ieee_mul E M cl cg) (ieee_mul E M cl sg) sl in
  Forall (fun f => is_finite (dist f) = true) faces /\
  exists n l f, first_nearest dist (of_bits E M (int_bits E M 5)) faces n f /\ nth_error literals n = Some l /\
    (forall g, In g literals -> apart l lat lng <= apart g lat lng + 15 * dl)%R /\ (apart l lat lng <= 68 / 100)%R /\
    ((20 * dl <= apart l lat lng)%R -> exists hx hy,
      h3_plane (of_bits E M (k_res K)) (ieee_scale (map (of_bits E M) (k_powers K)) res) f res sl cl sg cg (dist f) = Some (hx, hy) /\
      is_finite hx = true /\ is_finite hy = true /\
      (Rabs (B2R hx - gnomonic_x l res lat lng) <= 148 * sqrt 7 ^ Z.to_nat res * dl)%R /\
      (Rabs (B2R hy - gnomonic_y l res lat lng) <= 148 * sqrt 7 ^ Z.to_nat res * dl)%R).

Lemma projects_intro {E M : Z} {HF : Format E M} K faces dl eps j : 8 <= E -> 23 <= M ->
  (unit_ro M <= dl / 4)%R -> (dl <= 1 / 10000)%R ->
  rows (true_row (E:=E) (M:=M) eps) literals faces -> (eps <= dl)%R ->
  forallb (finite_row (E:=E) (M:=M)) faces = true ->
  17 <= j -> coveringb (E:=E) (M:=M) j faces = true ->
  is_finite (of_bits E M (int_bits E M 5)) = true -> B2R (of_bits E M (int_bits E M 5)) = 5%R ->
  is_finite (of_bits E M (k_res K)) = true -> near dl (val (E:=E) (M:=M) (k_res K)) ((3 - sqrt 5) / 2) ->
  (forall res, 0 <= res < 16 -> is_finite (ieee_scale (map (of_bits E M) (k_powers K)) res) = true /\
    (Rabs (B2R (ieee_scale (map (of_bits E M) (k_powers K)) res) - sqrt 7 ^ Z.to_nat res) <= dl * sqrt 7 ^ Z.to_nat res)%R) ->
  projects (E:=E) (M:=M) K faces dl.
Proof.
  intros HE HM Hu Hdl HT He HFi Hj HC F5 V5 Fu Vu HS lat lng sl cl sg cg res Hres Fsl Fcl Fsg Fcg Asl Acl Asg Acg.
  destruct (HS res Hres) as [Fs Vs]. destruct (coveringb_spec j faces HC) as [HB HA].
  assert (J : (0 <= bpow radix2 (- j) <= 1 / 100000)%R).
  { split; [apply bpow_ge_0|]. apply Rle_trans with (bpow radix2 (-17)); [apply bpow_le; lia|].
    change (bpow radix2 (-17)) with (/ 131072)%R. lra. }
  destruct (plane_near HE HM dl Hu Hdl lat lng sl cl sg cg) with (ls := literals) (fs := faces) (e := bpow radix2 (- j))
    (five := of_bits E M (int_bits E M 5)) (unit := of_bits E M (k_res K))
    (scale := ieee_scale (map (of_bits E M) (k_powers K)) res) (res := res) as (P1 & n & l & f & P2 & P3 & P4 & P5 & P6);
    try assumption; try (split; [assumption|rewrite Rmult_1_l; assumption]).
  - exact (good_rows eps dl literals faces He HT HFi).
  - split; [exact Fs|]. rewrite Rmult_comm. exact Vs.
  - split; [exact P1|]. exists n, l, f. do 4 (split; [assumption|]). intros Hmin.
    destruct (P6 Hmin) as (hx & hy & Hp & [Fx Vx] & [Fy Vy]). exists hx, hy. auto.
Qed.

Theorem C56_projects_32 dl : (bpow radix2 (-19) <= dl <= 1 / 10000)%R -> projects (E:=8) (M:=23) constants32 faces32 dl.
Proof.
  intros [D1 D2].
  assert (B : forall k, k <= -19 -> (bpow radix2 k <= dl)%R)
    by (intros k Hk; apply Rle_trans with (bpow radix2 (-19)); [apply bpow_le; lia|exact D1]).
  apply (projects_intro constants32 faces32 dl (bpow radix2 (-22)) 19); try lia; try assumption.
  - change (unit_ro 23) with (bpow radix2 (-22 + -2)). rewrite bpow_plus. pose proof (B (-22) ltac:(lia)).
    change (bpow radix2 (-2)) with (/ 4)%R. lra.
  - exact C55_exact_32.
  - apply B. lia.
  - vm_compute. reflexivity.
  - vm_compute. reflexivity.
  - vm_compute. reflexivity.
  - destruct (datum_value (of_bits 8 23 (int_bits 8 23 5)) 10485760 (-21) ltac:(vm_compute; reflexivity)) as [_ ->].
    change (bpow radix2 (-21)) with (/ 2097152)%R. lra.
  - vm_compute. reflexivity.
  - pose proof C46_constants_32 as (_ & _ & _ & _ & H). unfold near in *. pose proof (B (-20) ltac:(lia)). lra.
  - intros res Hr. split.
    + revert res Hr. apply below_16. vm_compute. reflexivity.
    + eapply Rle_trans; [apply C36_factor_32; exact Hr|]. apply Rmult_le_compat_r; [|apply B; lia].
      pose proof (sqrt7_bounds res Hr). lra.
Qed.
Print Assumptions C56_projects_32.

Theorem C56_projects_64 dl : (bpow radix2 (-47) <= dl <= 1 / 10000)%R -> projects (E:=11) (M:=52) constants64 faces64 dl.
Proof.
  intros [D1 D2].
  assert (B : forall k, k <= -47 -> (bpow radix2 k <= dl)%R)
    by (intros k Hk; apply Rle_trans with (bpow radix2 (-47)); [apply bpow_le; lia|exact D1]).
  apply (projects_intro constants64 faces64 dl (bpow radix2 (-50)) 40); try lia; try assumption.
  - change (unit_ro 52) with (bpow radix2 (-51 + -2)). rewrite bpow_plus. pose proof (B (-51) ltac:(lia)).
    change (bpow radix2 (-2)) with (/ 4)%R. lra.
  - exact C55_exact_64.
  - apply B. lia.
  - vm_compute. reflexivity.
  - vm_compute. reflexivity.
  - vm_compute. reflexivity.
  - destruct (datum_value (of_bits 11 52 (int_bits 11 52 5)) 5629499534213120 (-50) ltac:(vm_compute; reflexivity)) as [_ ->].
    change (bpow radix2 (-50)) with (/ 1125899906842624)%R. lra.
  - vm_compute. reflexivity.
  - pose proof C46_constants_64 as (_ & _ & _ & _ & H). unfold near in *. pose proof (B (-47) ltac:(lia)). lra.
  - intros res Hr. split.
    + revert res Hr. apply below_16. vm_compute. reflexivity.
    + eapply Rle_trans; [apply C36_factor_64; exact Hr|]. apply Rmult_le_compat_r; [|apply B; lia].
      pose proof (sqrt7_bounds res Hr). lra.
Qed.
Print Assumptions C56_projects_64.

(** The centre of a face is not covered, and not every position has an index: at
    this one (28.15 and 22.75 degrees, the centre of face 4) the components to
    the north and to the east are both computed as 0, and the repository's prover
    fails for every index. *)
Theorem C56_every_position_refuted : exists Lat Lng res,
  is_finite (of_bits 8 23 Lat) = true /\ is_finite (of_bits 8 23 Lng) = true /\ 0 <= res <= 15 /\
  (0 < B2R (of_bits 8 23 Lat) < 1 / 2)%R /\ (0 < B2R (of_bits 8 23 Lng) < 1 / 2)%R /\
  forall I J K_, run 8 (loc2Index32CircuitWrapper (MOD:=bn254) constants32 faces32 Lat Lng res I J K_) = None.
Proof.
  exists 1056686623, 1053675876, 7.
  destruct (datum_value (of_bits 8 23 1056686623) 16499231 (-25) ltac:(vm_compute; reflexivity)) as [Fl ->].
  destruct (datum_value (of_bits 8 23 1053675876) 13488484 (-25) ltac:(vm_compute; reflexivity)) as [Fg ->].
  change (bpow radix2 (-25)) with (/ 33554432)%R.
  split; [exact Fl|]. split; [exact Fg|]. split; [lia|]. split; [lra|]. split; [lra|].
  intros I J K_. vm_compute. reflexivity.
Qed.
Print Assumptions C56_every_position_refuted.

(** The position on the equator and the first meridian at resolution 3: face 9,
    (-22.716, -19.431) up to 0.006. *)
Example C56_ex : exists l, nth_error literals 9 = Some l /\
  (Rabs (gnomonic_x l 3 0 0 + 22716 / 1000) <= 6 / 1000)%R /\ (Rabs (gnomonic_y l 3 0 0 + 19431 / 1000) <= 6 / 1000)%R.
Proof.
  set (zero := of_bits 8 23 0). set (one := of_bits 8 23 1065353216). set (dl := bpow radix2 (-19)).
  assert (D : dl = (/ 524288)%R) by reflexivity.
  assert (V1 : B2R one = 1%R).
  { unfold one. destruct (datum_value (of_bits 8 23 1065353216) 8388608 (-23) ltac:(vm_compute; reflexivity)) as [_ ->].
    change (bpow radix2 (-23)) with (/ 8388608)%R. lra. }
  assert (V0 : B2R zero = 0%R) by reflexivity.
  assert (Z : (Rabs 0 <= dl)%R) by (rewrite Rabs_R0; lra).
  destruct (C56_projects_32 dl ltac:(rewrite D; unfold dl; change (bpow radix2 (-19)) with (/ 524288)%R; lra) 0%R 0%R zero one zero one 3 ltac:(lia)) as (_ & n & l & f & HN & Hl & _ & _ & HP);
    try (vm_compute; reflexivity); try (rewrite ?sin_0, ?cos_0, ?V0, ?V1; replace (0 - 0)%R with 0%R by ring; replace (1 - 1)%R with 0%R by ring; exact Z).
  assert (G : n = 9%nat /\ f = nth 9 faces32 zero_face).
  { eapply first_nearest_unique; [exact HN|]. apply nearestb_spec; [reflexivity|vm_compute; reflexivity]. }
  destruct G as [-> ->]. exists l. split; [exact Hl|].
  assert (A : (20 * dl <= apart l 0 0)%R).
  { pose proof (good_rows _ dl _ _ (bpow_le radix2 (-22) (-19) ltac:(lia)) C55_exact_32 ltac:(vm_compute; reflexivity)) as HT.
    destruct (rows_nth' _ _ _ HT 9 l Hl) as (g & Hg & [(_ & _ & _ & _ & _ & _ & _ & _ & T & _) _]).
    injection Hg as <-. cbn [centre_x] in T.
    match type of T with near _ (val ?p) _ => destruct (datum_value (of_bits 8 23 p) 14281276 (-24) ltac:(vm_compute; reflexivity)) as [_ V] end.
    unfold near, val in T. rewrite V in T. change (bpow radix2 (-24)) with (/ 16777216)%R in T.
    fold (face_lat l) (face_lng l) in T. apply Rabs_le_inv in T.
    pose proof (apart_up l 0 0) as U. pose proof (apart_pos l 0 0).
    assert (W : upwards l 0 0 = (cos (face_lat l) * cos (face_lng l))%R).
    { unfold upwards. rewrite sin_0, cos_0, Rminus_0_l, cos_neg. ring. }
    rewrite W in U. rewrite D in *. set (a := apart l 0 0) in *. clear - T U H. nra. }
  destruct (HP A) as (hx & hy & Hp & _ & _ & X & Y).
  set (bn m e := binary_normalize _ _ (fmt_prec_gt_0 8 23) (fmt_prec_lt_emax 8 23) mode_NE m e false : fmt 8 23).
  match type of Hp with ?t = _ => assert (Q : t = Some (bn (-11909776) (-19), bn (-10187144) (-19))) by (apply plane_eq; vm_compute; reflexivity) end.
  rewrite Q in Hp.
  assert (Q1 : hx = bn (-11909776) (-19)) by congruence. assert (Q2 : hy = bn (-10187144) (-19)) by congruence.
  rewrite Q1 in X. rewrite Q2 in Y.
  rewrite (proj1 (B2R_of_SF (bn (-11909776) (-19)) true 11909776 (-19) ltac:(vm_compute; reflexivity))) in X.
  rewrite (proj1 (B2R_of_SF (bn (-10187144) (-19)) true 10187144 (-19) ltac:(vm_compute; reflexivity))) in Y.
  unfold F2R in X, Y. cbn [Fnum Fexp cond_Zopp] in X, Y.
  change (bpow radix2 (-19)) with (/ 524288)%R in X, Y. rewrite D in X, Y.
  assert (S : (sqrt 7 ^ Z.to_nat 3 <= 186 / 10)%R).
  { change (Z.to_nat 3) with 3%nat. replace (sqrt 7 ^ 3)%R with (sqrt 7 * sqrt 7 * sqrt 7)%R by (simpl; ring).
    rewrite sqrt_sqrt by lra. assert (sqrt 7 <= 265 / 100)%R by (rewrite <- (sqrt_square (265 / 100)) by lra; apply sqrt_le_1_alt; lra). lra. }
  pose proof (sqrt7_bounds 3 ltac:(lia)).
  change (IZR (- (11909776))) with (-11909776)%R in X. change (IZR (- (10187144))) with (-10187144)%R in Y.
  apply Rabs_le_inv in X, Y. split; apply Rabs_le; lra.
Qed.
