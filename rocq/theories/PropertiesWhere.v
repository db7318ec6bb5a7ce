(** Property C57: the accepted cell contains the projected position. *)
From Coq Require Import ZArith Reals Lra Lia Bool List.
From Flocq Require Import Core BinarySingleNaN.
From Verif Require Import Field FieldFacts Circuit RangeCheck RangeFacts GadgetFacts FloatModel Math
  MathSpec RoundFacts Spec RoundCore RepFacts NewFacts Outcomes Witness ErrorFacts Loc2Index LocConst NormFacts ScaleFacts
  ClosestFacts HexFacts PipeFacts LocFacts WrapperFacts HexCell TableFacts Angles PlaneError PlanePoint Gnomonic CellFacts
  SinAccuracy PropertiesHex PropertiesPipe PropertiesCell PropertiesAngles PropertiesGnomonic PropertiesWrapper.
Import ListNotations.
Local Open Scope Z_scope.

(** Sines and cosines [dl] off, by whatever means: some face is nearest up to
    [15 dl] and, unless the position is within [20 dl] of its centre, the
    repository's prover is accepted with one cell, whose hexagon, wider by [480
    sqrt 7 ^ res dl], contains H3's projection of the position on that face; any
    prover is accepted only with cells whose hexagon does so when scaled by 5/2
    in addition. *)
Definition finds_cell {MOD : Modulus} (E M b : Z) {HF : Format E M} (K : constants) (faces : list face) (dl : R) : Prop :=
  forall lng' cosLat cosLng z sinLng lat lng (sl cl sg cg : fmt E M),
  represents z sl -> represents cosLat cl -> represents sinLng sg -> represents cosLng cg ->
  is_finite sl = true -> is_finite cl = true -> is_finite sg = true -> is_finite cg = true ->
  (Rabs (B2R sl - sin lat) <= dl)%R -> (Rabs (B2R cl - cos lat) <= dl)%R ->
  (Rabs (B2R sg - sin lng) <= dl)%R -> (Rabs (B2R cg - cos lng) <= dl)%R ->
  forall res, 0 <= res < 16 ->
  exists l, In l literals /\ (apart l lat lng <= 68 / 100)%R /\
  (forall g, In g literals -> apart l lat lng <= apart g lat lng + 15 * dl)%R /\
  ((20 * dl <= apart l lat lng)%R ->
   let p := (gnomonic_x l res lat lng, gnomonic_y l res lat lng) in
   let off := (480 * sqrt 7 ^ Z.to_nat res * dl)%R in
   (exists c, reduced c /\ in_cell (1 + off) p c /\ forall I J K_,
      exec b (locate E M K faces lng' cosLat cosLng z sinLng res I J K_) = Some tt <-> (I, J, K_) = embed3 c) /\
   (pow2_size E M mod b = 0 -> forall I J K_, sat b (locate E M K faces lng' cosLat cosLng z sinLng res I J K_) tt ->
      exists c, (I, J, K_) = embed3 c /\ reduced c /\ in_cell (5 / 2 + off) p c)).

Theorem C57_cell_32 {MOD : Modulus} {b : Z} {HP : Params 8 23 b} dl : (bpow radix2 (-19) <= dl <= 1 / 10000)%R ->
  finds_cell 8 23 b constants32 faces32 dl.
Proof.
  intros D. intros lng' cosLat cosLng z sinLng lat lng sl cl sg cg R1 R2 R3 R4 F1 F2 F3 F4 A1 A2 A3 A4.
  apply (cell_of_position (E:=8) (M:=23) ltac:(lia) ltac:(lia) constants32 faces32 pipe_constants_32 cell_patterns_32 dl lng' cosLat cosLng z sinLng lat lng sl cl sg cg);
    try assumption; [|lra|apply C56_projects_32; exact D].
  change (unit_ro 23) with (bpow radix2 (-22 + -2)). rewrite bpow_plus.
  assert (bpow radix2 (-22) <= bpow radix2 (-19))%R by (apply bpow_le; lia). change (bpow radix2 (-2)) with (/ 4)%R. lra.
Qed.
Print Assumptions C57_cell_32.

Theorem C57_cell_64 {MOD : Modulus} {b : Z} {HP : Params 11 52 b} dl : (bpow radix2 (-47) <= dl <= 1 / 10000)%R ->
  finds_cell 11 52 b constants64 faces64 dl.
Proof.
  intros D. intros lng' cosLat cosLng z sinLng lat lng sl cl sg cg R1 R2 R3 R4 F1 F2 F3 F4 A1 A2 A3 A4.
  apply (cell_of_position (E:=11) (M:=52) ltac:(lia) ltac:(lia) constants64 faces64 pipe_constants_64 cell_patterns_64 dl lng' cosLat cosLng z sinLng lat lng sl cl sg cg);
    try assumption; [|lra|apply C56_projects_64; exact D].
  change (unit_ro 52) with (bpow radix2 (-51 + -2)). rewrite bpow_plus.
  assert (bpow radix2 (-51) <= bpow radix2 (-47))%R by (apply bpow_le; lia). change (bpow radix2 (-2)) with (/ 4)%R. lra.
Qed.
Print Assumptions C57_cell_64.

(** The circuit without hints, from latitude and longitude to the cell. *)
Theorem C57_wrapper {MOD : Modulus} {b : Z} {HP : Params 8 23 b} Lat Lng res :
  pow2_size 8 23 mod b = 0 ->
  0 <= Lat < modulus -> 0 <= Lng < modulus -> 0 <= Lat < 2 ^ 32 -> 0 <= Lng < 2 ^ 32 ->
  is_finite (of_bits 8 23 Lat) = true -> is_finite (of_bits 8 23 Lng) = true ->
  let lat := R32 Lat in let lng := R32 Lng in
  (- R32 half_pi_32 < lat <= R32 half_pi_32)%R -> (- R32 pi_32 <= lng <= R32 pi_32)%R -> lng <> (- R32 half_pi_32)%R ->
  0 <= res < 16 ->
  exists l, In l literals /\ (apart l lat lng <= 68 / 100)%R /\
  (forall g, In g literals -> apart l lat lng <= apart g lat lng + 225 / 1000000)%R /\
  ((3 / 10000 <= apart l lat lng)%R ->
   let p := (gnomonic_x l res lat lng, gnomonic_y l res lat lng) in
   let off := (72 / 10000 * sqrt 7 ^ Z.to_nat res)%R in
   (exists c, reduced c /\ in_cell (1 + off) p c /\ forall I J K_,
      exec b (loc2Index32CircuitWrapper constants32 faces32 Lat Lng res I J K_) = Some tt <-> (I, J, K_) = embed3 c) /\
   (forall I J K_, sat b (loc2Index32CircuitWrapper constants32 faces32 Lat Lng res I J K_) tt ->
      exists c, (I, J, K_) = embed3 c /\ reduced c /\ in_cell (5 / 2 + off) p c)).
Proof.
  intros Hd Ml Mg Hl Hg Fl Fg lat lng Vl Vg Hn Hres.
  destruct (wrapper_reduces Hd Lat Lng Ml Mg Hl Hg Fl Fg Vl Vg Hn)
    as (sl & cl & sg & cg & (F1 & F2 & F3 & F4) & _ & A1 & A2 & A3 & A4 & HW). fold lat lng in A1, A2, A3, A4.
  assert (D : (bpow radix2 (-19) <= 15 / 1000000 <= 1 / 10000)%R) by (change (bpow radix2 (-19)) with (/ 524288)%R; lra).
  destruct (C57_cell_32 (b:=b) (15 / 1000000) D (wires (of_bits 8 23 Lng)) (wires cl) (wires cg) (wires sl) (wires sg) lat lng sl cl sg cg
    (wires_represents _) (wires_represents _) (wires_represents _) (wires_represents _) F1 F2 F3 F4
    ltac:(lra) ltac:(lra) ltac:(lra) ltac:(lra) res Hres) as (l & Hin & HA & HG & HC).
  exists l. split; [exact Hin|]. split; [exact HA|]. split; [intros g Hg'; pose proof (HG g Hg'); lra|]. intros Hmin p off.
  assert (EO : off = (480 * sqrt 7 ^ Z.to_nat res * (15 / 1000000))%R) by (unfold off; field).
  destruct (HC ltac:(lra)) as [(c & Rc & Hc & HE) HS]. rewrite EO. split.
  - exists c. split; [exact Rc|]. split; [exact Hc|]. intros I J K_. rewrite (proj1 (HW constants32 faces32 res I J K_)), HE. intuition lia.
  - intros I J K_ H. apply (proj2 (HW constants32 faces32 res I J K_)) in H as [_ H]. exact (HS Hd I J K_ H).
Qed.
Print Assumptions C57_wrapper.

Notation zero32 := (of_bits 8 23 0).
Notation one32 := (of_bits 8 23 1065353216).
Notation zero64 := (of_bits 11 52 0).
Notation one64 := (of_bits 11 52 4607182418800017408).

Lemma one32_val : B2R one32 = 1%R.
Proof.
  destruct (datum_value one32 8388608 (-23) ltac:(vm_compute; reflexivity)) as [_ ->].
  change (bpow radix2 (-23)) with (/ 8388608)%R. lra.
Qed.
Lemma one64_val : B2R one64 = 1%R.
Proof.
  destruct (datum_value one64 4503599627370496 (-52) ltac:(vm_compute; reflexivity)) as [_ ->].
  change (bpow radix2 (-52)) with (/ 4503599627370496)%R. lra.
Qed.

(** No face has its centre near the position on the equator and the first meridian. *)
Lemma origin_off l : In l literals -> (1 / 10 <= apart l 0 0)%R.
Proof.
  intros Hin. apply In_nth_error in Hin as [n Hl].
  pose proof C55_exact_32 as HT.
  destruct (rows_nth' _ _ _ HT n l Hl) as (g & Hg & (_ & _ & _ & _ & _ & _ & _ & _ & T & _)).
  assert (C : forallb (fun f => ltf (fv (E:=8) (M:=23) (centre_x f)) (Float radix2 15 (-4))) faces32 = true) by (vm_compute; reflexivity).
  pose proof (proj1 (forallb_forall _ _) C g (nth_error_In _ _ Hg)) as C'. cbv beta in C'. apply ltf_spec in C'.
  change (F2R (Float radix2 15 (-4))) with (15 * / 16)%R in C'.
  assert (V : val (E:=8) (M:=23) (centre_x g) = F2R (fv (E:=8) (M:=23) (centre_x g))) by (symmetry; apply fv_val).
  unfold near in T. rewrite V in T. fold (face_lat l) (face_lng l) in T. apply Rabs_le_inv in T.
  pose proof (apart_up l 0 0) as U. pose proof (apart_pos l 0 0).
  assert (W : upwards l 0 0 = (cos (face_lat l) * cos (face_lng l))%R).
  { unfold upwards. rewrite sin_0, cos_0, Rminus_0_l, cos_neg. ring. }
  rewrite W in U. change (bpow radix2 (-22)) with (/ 4194304)%R in T.
  set (a := apart l 0 0) in *. set (w := (cos (face_lat l) * cos (face_lng l))%R) in *. clear - T C' U H. nra.
Qed.

(** The widening cannot be dropped: at the finest resolution, with exact sines and
    cosines, the 32-bit circuits accept a cell that does not contain the position,
    not even in its hexagon scaled by 3. *)
Theorem C57_own_cell_refuted : exists (sl cl sg cg : fmt 8 23) lat lng l c,
  is_finite sl = true /\ is_finite cl = true /\ is_finite sg = true /\ is_finite cg = true /\
  B2R sl = sin lat /\ B2R cl = cos lat /\ B2R sg = sin lng /\ B2R cg = cos lng /\
  In l literals /\ (forall g, In g literals -> apart l lat lng <= apart g lat lng + 1 / 1000000000000)%R /\
  (1 / 10 <= apart l lat lng)%R /\
  (forall (MOD : Modulus) (b : Z) (HP : Params 8 23 b) lng' I J K_,
    exec b (locate 8 23 constants32 faces32 lng' (wires cl) (wires cg) (wires sl) (wires sg) 15 I J K_) = Some tt <->
    (I, J, K_) = embed3 c) /\
  ~ in_cell 3 (gnomonic_x l 15 lat lng, gnomonic_y l 15 lat lng) c.
Proof.
  exists zero32, one32, zero32, one32, 0%R, 0%R.
  set (dl := bpow radix2 (-47)).
  assert (D : dl = (/ 140737488355328)%R) by reflexivity.
  assert (Z : (Rabs 0 <= dl)%R) by (rewrite Rabs_R0; lra).
  pose proof one64_val as V1. assert (V0 : B2R zero64 = 0%R) by reflexivity.
  assert (N0 : (Rabs (B2R zero64 - sin 0) <= dl)%R) by (rewrite sin_0, V0, Rminus_0_r; exact Z).
  assert (N1 : (Rabs (B2R one64 - cos 0) <= dl)%R) by (rewrite cos_0, V1; replace (1 - 1)%R with 0%R by ring; exact Z).
  assert (D' : (bpow radix2 (-47) <= dl <= 1 / 10000)%R) by (split; [apply Rle_refl|rewrite D; lra]).
  assert (I0 : is_finite zero64 = true) by reflexivity. assert (I1 : is_finite one64 = true) by (vm_compute; reflexivity).
  destruct (C56_projects_64 dl D' 0%R 0%R zero64 one64 zero64 one64 15 ltac:(lia) I0 I1 I0 I1 N0 N1 N0 N1)
    as (_ & n & l & f & HN & Hl & HG & _ & HP).
  assert (G : n = 9%nat /\ f = nth 9 faces64 zero_face).
  { eapply first_nearest_unique; [exact HN|]. apply nearestb_spec; [reflexivity|vm_compute; reflexivity]. }
  destruct G as [-> ->]. clear HN.
  exists l, (0, 1352719, 3992330). rewrite sin_0, cos_0, one32_val.
  pose proof (nth_error_In _ _ Hl) as Hin. pose proof (origin_off l Hin) as A.
  do 4 (split; [vm_compute; reflexivity|]). do 4 (split; [reflexivity|]).
  split; [exact Hin|]. split; [intros g Hg; pose proof (HG g Hg); rewrite D in *; lra|]. split; [exact A|]. clear HG. split.
  - intros MOD b HP' lng' I J K_.
    set (bn m e := binary_normalize _ _ (fmt_prec_gt_0 8 23) (fmt_prec_lt_emax 8 23) mode_NE m e false : fmt 8 23).
    rewrite (C43_locate_complete constants32 faces32 lng' (wires one32) (wires one32) (wires zero32) (wires zero32) 15 I J K_
      zero32 one32 zero32 one32 (bn (-10690098) (-2)) (bn (-9143880) (-2)) ltac:(lia) ltac:(lia) pipe_constants_32 ltac:(lia)
      (wires_represents _) (wires_represents _) (wires_represents _) (wires_represents _)).
    + match goal with |- _ = embed3 ?t <-> _ => assert (Q : t = (0, 1352719, 3992330)) by (vm_compute; reflexivity) end.
      rewrite Q. reflexivity.
    + split; [|exists 9%nat, (nth 9 faces32 zero_face); split; [|split]].
      * apply Forall_forall. apply (proj1 (forallb_forall (fun f => is_finite (ieee_distance f (ieee_mul 8 23 one32 one32) (ieee_mul 8 23 one32 zero32) zero32)) faces32)).
        vm_compute. reflexivity.
      * apply nearestb_spec; [reflexivity|vm_compute; reflexivity].
      * apply plane_eq; vm_compute; reflexivity.
      * rewrite (proj1 (B2R_of_SF (bn (-10690098) (-2)) true 10690098 (-2) ltac:(vm_compute; reflexivity))).
        unfold F2R. cbn [Fnum Fexp cond_Zopp]. change (bpow radix2 (-2)) with (/ 4)%R.
        change (IZR (- (10690098))) with (-10690098)%R. lra.
  - destruct (HP ltac:(rewrite D; lra)) as (hx & hy & Hp & _ & _ & X & Y). clear HP.
    set (bn m e := binary_normalize _ _ (fmt_prec_gt_0 11 52) (fmt_prec_lt_emax 11 52) mode_NE m e false : fmt 11 52).
    match type of Hp with ?t = _ => assert (Q : t = Some (bn (-5739205684096071) (-31), bn (-4909086233270667) (-31))) by (apply plane_eq; vm_compute; reflexivity) end.
    rewrite Q in Hp.
    assert (Q1 : hx = bn (-5739205684096071) (-31)) by congruence. assert (Q2 : hy = bn (-4909086233270667) (-31)) by congruence.
    clear Hp Q. rewrite Q1 in X. rewrite Q2 in Y. clear Q1 Q2.
    rewrite (proj1 (B2R_of_SF (bn (-5739205684096071) (-31)) true 5739205684096071 (-31) ltac:(vm_compute; reflexivity))) in X.
    rewrite (proj1 (B2R_of_SF (bn (-4909086233270667) (-31)) true 4909086233270667 (-31) ltac:(vm_compute; reflexivity))) in Y.
    unfold F2R in X, Y. cbn [Fnum Fexp cond_Zopp] in X, Y.
    change (bpow radix2 (-31)) with (/ 2147483648)%R in X, Y. rewrite D in X, Y.
    change (IZR (- (5739205684096071))) with (-5739205684096071)%R in X. change (IZR (- (4909086233270667))) with (-4909086233270667)%R in Y.
    assert (S : (0 <= sqrt 7 ^ Z.to_nat 15 <= 2400000)%R).
    { change (Z.to_nat 15) with 15%nat. assert (0 <= sqrt 7 <= 265 / 100)%R.
      { split; [apply sqrt_pos|]. rewrite <- (sqrt_square (265 / 100)) by lra. apply sqrt_le_1_alt. lra. }
      split; [apply pow_le; lra|]. apply Rle_trans with ((265 / 100) ^ 15)%R; [apply pow_incr; lra|lra]. }
    apply Rabs_le_inv in X, Y. intros (_ & H & _). cbn [fst snd hex_centre] in H.
    change (0 - 3992330) with (-3992330) in H. change (1352719 - 3992330) with (-2639611) in H.
    set (x := gnomonic_x l 15 0 0) in *. set (y := gnomonic_y l 15 0 0) in *. set (s := (sqrt 7 ^ Z.to_nat 15)%R) in *.
    clear - H X Y S. pose proof sqrt3 as T. 
    assert (T' : (17320508 / 10000000 <= sqrt 3 <= 17320509 / 10000000)%R) by (pose proof (sqrt_pos 3); split; nra).
    apply Rabs_le_inv in H. destruct H as [H _].
    assert (Y' : (y * sqrt 3 <= - 2285971 * (17320508 / 10000000))%R) by nra. nra.
Qed.
Print Assumptions C57_own_cell_refuted.

(** The same position at resolution 3: the honest prover's cell contains it in a
    hexagon that is wider by 0.14. *)
Example C57_ex : exists l c, In l literals /\ in_cell (114 / 100) (gnomonic_x l 3 0 0, gnomonic_y l 3 0 0) c /\
  forall I J K_, run 8 (loc2Index32CircuitWrapper (MOD:=bn254) constants32 faces32 0 0 3 I J K_) = Some tt <->
    (I, J, K_) = embed3 (MOD:=bn254) c.
Proof.
  pose proof (params32 8 ltac:(lia)) as HP.
  pose proof SinAccuracy.pi32_R as P1. pose proof SinAccuracy.half32_R as P2.
  assert (V : R32 0 = 0%R) by reflexivity. assert (F : is_finite (of_bits 8 23 0) = true) by reflexivity.
  assert (H1 : (- R32 half_pi_32 < R32 0 <= R32 half_pi_32)%R) by (rewrite V, P2; lra).
  assert (H2 : (- R32 pi_32 <= R32 0 <= R32 pi_32)%R) by (rewrite V, P1; lra).
  assert (H3 : R32 0 <> (- R32 half_pi_32)%R) by (rewrite V, P2; lra).
  assert (M0 : 0 <= 0 < modulus (Modulus:=bn254)) by (split; vm_compute; congruence).
  destruct (C57_wrapper (MOD:=bn254) (b:=8) (HP:=HP) 0 0 3 eq_refl M0 M0 ltac:(lia) ltac:(lia) F F H1 H2 H3 ltac:(lia))
    as (l & Hin & _ & _ & HC).
  pose proof (origin_off l Hin) as A. rewrite V in HC. destruct (HC ltac:(lra)) as [(c & _ & Hc & HE) _].
  exists l, c. split; [exact Hin|]. split; [|exact HE].
  refine (in_cell_wider _ _ _ _ _ Hc). change (Z.to_nat 3) with 3%nat.
  replace (sqrt 7 ^ 3)%R with (sqrt 7 * sqrt 7 * sqrt 7)%R by (simpl; ring).
  rewrite sqrt_sqrt by lra. assert (sqrt 7 <= 265 / 100)%R by (rewrite <- (sqrt_square (265 / 100)) by lra; apply sqrt_le_1_alt; lra). lra.
Qed.
