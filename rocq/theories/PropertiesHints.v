(** Property C58: the hint-based location circuits, run with accurate values of
    the trigonometric functions. *)
From Coq Require Import ZArith Reals Lra Lia Bool List.
From Flocq Require Import Core Calc.Operations BinarySingleNaN.
From Verif Require Import Field FieldFacts Circuit CircuitFacts RangeCheck RangeFacts GadgetFacts FloatModel Math
  MathSpec RoundFacts Spec RoundCore RepFacts NewFacts EqFacts Outcomes Witness ErrorFacts Loc2Index LocConst NormFacts ScaleFacts
  ClosestFacts LocCircuitFacts HexFacts PipeFacts LocFacts WrapperFacts HexCell TableFacts FixSin Angles PlaneError PlanePoint Gnomonic CellFacts
  SinFacts SinError SinAccuracy HintFacts PropertiesHex PropertiesPipe PropertiesCell PropertiesAngles PropertiesGnomonic PropertiesWrapper PropertiesWhere.
Import ListNotations.
Local Open Scope Z_scope.

Notation R64 p := (B2R (of_bits 11 52 p)).
Definition ulp_close (x y : fmt 11 52) : Prop := x = y \/ ulp_above 11 52 x y \/ ulp_above 11 52 y x.

Section Circuits.
Context {MOD : Modulus} {b : Z}.

Lemma pi_apart_32 (f : fmt 8 23) : Rabs (B2R f) <> PI.
Proof.
  apply (not_pi (E:=8) (M:=23) ltac:(lia) f 13176794). change (bpow radix2 (23 - 1)) with 4194304%R. rewrite plus_IZR. pose proof pi_bounds. lra.
Qed.
Lemma pi_apart_64 (f : fmt 11 52) : Rabs (B2R f) <> PI.
Proof.
  apply (not_pi (E:=11) (M:=52) ltac:(lia) f 7074237752028440). change (bpow radix2 (52 - 1)) with 2251799813685248%R. rewrite plus_IZR. pose proof pi_bounds. lra.
Qed.

Lemma int1_32 : is_finite (of_bits 8 23 (int_bits 8 23 1)) = true /\ B2R (of_bits 8 23 (int_bits 8 23 1)) = 1%R.
Proof. change (int_bits 8 23 1) with 1065353216. split; [vm_compute; reflexivity|exact one32_val]. Qed.
Lemma int2_32 : is_finite (of_bits 8 23 (int_bits 8 23 2)) = true /\ B2R (of_bits 8 23 (int_bits 8 23 2)) = 2%R.
Proof.
  split; [vm_compute; reflexivity|]. destruct (datum_value (of_bits 8 23 (int_bits 8 23 2)) 8388608 (-22) ltac:(vm_compute; reflexivity)) as [_ ->].
  change (bpow radix2 (-22)) with (/ 4194304)%R. lra.
Qed.
Lemma int1_64 : is_finite (of_bits 11 52 (int_bits 11 52 1)) = true /\ B2R (of_bits 11 52 (int_bits 11 52 1)) = 1%R.
Proof. change (int_bits 11 52 1) with 4607182418800017408. split; [vm_compute; reflexivity|exact one64_val]. Qed.
Lemma int2_64 : is_finite (of_bits 11 52 (int_bits 11 52 2)) = true /\ B2R (of_bits 11 52 (int_bits 11 52 2)) = 2%R.
Proof.
  split; [vm_compute; reflexivity|]. destruct (datum_value (of_bits 11 52 (int_bits 11 52 2)) 4503599627370496 (-51) ltac:(vm_compute; reflexivity)) as [_ ->].
  change (bpow radix2 (-51)) with (/ 2251799813685248)%R. lra.
Qed.
Lemma pi64_ok : 0 <= pi_64 < 2 ^ (11 + 52 + 1). Proof. split; vm_compute; congruence. Qed.
Lemma half64_ok : 0 <= half_pi_64 < 2 ^ (11 + 52 + 1). Proof. split; vm_compute; congruence. Qed.
Lemma pi64_fin : is_finite (of_bits 11 52 pi_64) = true. Proof. vm_compute; reflexivity. Qed.
Lemma half64_fin : is_finite (of_bits 11 52 half_pi_64) = true. Proof. vm_compute; reflexivity. Qed.
Lemma lt_false_64 (f g : fmt 11 52) : is_finite f = true -> is_finite g = true -> (B2R g <= B2R f)%R ->
  ieee_lt 11 52 f g = false.
Proof. intros Ff Fg Hv. rewrite (ieee_lt_R f g Ff Fg). apply Rlt_bool_false, Hv. Qed.

Theorem C58_hints_32 {HP : Params 8 23 b} trig Lat Lng pa pb pg pd qa qb qg qd res :
  0 <= Lat < 2 ^ 32 -> 0 <= Lng < 2 ^ 32 ->
  is_finite (of_bits 8 23 Lat) = true -> is_finite (of_bits 8 23 Lng) = true ->
  let lat := R32 Lat in let lng := R32 Lng in
  (- R32 half_pi_32 <= lat <= R32 half_pi_32)%R -> (- R32 pi_32 <= lng <= R32 pi_32)%R ->
  hints (E:=8) (M:=23) trig Lat pa pb pg pd -> hints (E:=8) (M:=23) trig Lng qa qb qg qd ->
  accurate (of_bits 8 23 Lat) (of_bits 8 23 pa) (of_bits 8 23 pb) (of_bits 8 23 pg) (of_bits 8 23 pd) ->
  accurate (of_bits 8 23 Lng) (of_bits 8 23 qa) (of_bits 8 23 qb) (of_bits 8 23 qg) (of_bits 8 23 qd) ->
  0 <= res < 16 ->
  let dl := bpow radix2 (-18) in
  exists l, In l literals /\ (forall g, In g literals -> apart l lat lng <= apart g lat lng + 15 * dl)%R /\
  ((20 * dl <= apart l lat lng)%R ->
   exists c, reduced c /\ in_cell (1 + 480 * sqrt 7 ^ Z.to_nat res * dl) (gnomonic_x l res lat lng, gnomonic_y l res lat lng) c /\
   forall I J K_, exec b (loc2Index32Circuit constants32 faces32 trig Lat Lng res I J K_) = Some tt <-> (I, J, K_) = embed3 c).
Proof.
  intros Hl Hg Fl Fg lat lng Vl Vg HL HG AL AG Hr dl.
  assert (D : (bpow radix2 (-19) <= dl <= 1 / 10000)%R) by (unfold dl; change (bpow radix2 (-19)) with (/ 524288)%R; change (bpow radix2 (-18)) with (/ 262144)%R; lra).
  assert (one_ok : 0 <= one_32 < 2 ^ (8 + 23 + 1)) by (split; vm_compute; congruence).
  assert (DC : decides (b:=b) (fun x y => AssertIsEqualOrCustomULP 8 23 x y one_32) (fun x y => ieee_within 8 23 x y one_32)).
  { intros x y fx fy Rx Ry. exact (eq_custom_complete x y fx fy one_32 one_ok Rx Ry). }
  assert (EQ : (64 * unit_ro 23 = dl)%R).
  { unfold dl. change (unit_ro 23) with (bpow radix2 (-24)). change 64%R with (bpow radix2 6). rewrite <- bpow_plus. reflexivity. }
  destruct (hint_circuit_exec (b:=b) ltac:(lia) ltac:(lia) _ _ _ _ _ _ _ _ _ _ _ _ trig Lat Lng pa pb pg pd qa qb qg qd
    DC DC DC DC DC DC Hl Hg Fl Fg HL HG AL AG) as (cl & cg & Rl & Rg & [B1 O1] & [B2 O2] & [B3 O3] & [B4 O4] & HX).
  rewrite EQ in *. fold lat lng in O1, O2, O3, O4.
  pose proof (newconst_spec (E:=8) (M:=23) pb (proj1 (proj2 (proj2 HL)))) as Rb.
  pose proof (newconst_spec (E:=8) (M:=23) qb (proj1 (proj2 (proj2 HG)))) as Rb'.
  destruct (C57_cell_32 (b:=b) dl D (NewConstant 8 23 Lng) cl cg _ _ lat lng _ _ _ _ Rb Rl Rb' Rg B1 B2 B3 B4 O1 O2 O3 O4 res Hr)
    as (l & Hin & _ & HN & HC).
  exists l. split; [exact Hin|]. split; [exact HN|]. intros Hap. destruct (HC Hap) as [(c & Rc & Hc & HE) _]. exists c. split; [exact Rc|]. split; [exact Hc|].
  intros I J K_. rewrite <- HE. unfold loc2Index32Circuit.
  rewrite (exec_bind_eq _ _ _ _ (proj1 (newfloat_complete (E:=8) (M:=23) (b:=b) Lat Hl))), (exec_bind_eq _ _ _ _ (proj1 (newfloat_complete (E:=8) (M:=23) (b:=b) Lng Hg))).
  rewrite (bounds_exec (b:=b) _ _ _ _ _ _ res _ _ (newconst_spec (E:=8) (M:=23) Lat Hl) (newconst_spec (E:=8) (M:=23) Lng Hg) pi32_ok half32_ok).
  cbv zeta. rewrite HX. clear HX.
  assert (PP : forall ang a be g d : fmt 8 23, accurate ang a be g d -> (Rabs (B2R ang) <= 32 / 10)%R ->
    passes (fun x y => ieee_within 8 23 x y one_32) (fun x y => ieee_within 8 23 x y one_32) (fun x y => ieee_within 8 23 x y one_32) a be g d).
  { intros ang a be g d A Ha. destruct (half_angle _ Ha (pi_apart_32 _)) as [C0 S0].
    exact (checks_hold (E:=8) (M:=23) ltac:(lia) ltac:(lia) ang a be g d _ _ A C0 int1_32 int2_32 S0 one_32 (proj1 int1_32) (Req_le _ _ (eq_sym (proj2 int1_32)))). }
  pose proof (lt_false _ _ half32_fin Fl (proj2 Vl)) as L1. pose proof (lt_false _ _ pi32_fin Fg (proj2 Vg)) as L2.
  assert (Z1 : (Rabs lat <= 32 / 10)%R) by (rewrite half32_R in Vl; apply Rabs_le; lra).
  assert (Z2 : (Rabs lng <= 32 / 10)%R) by (rewrite pi32_R in Vg; apply Rabs_le; lra).
  pose proof (PP _ _ _ _ _ AL Z1) as P1. pose proof (PP _ _ _ _ _ AG Z2) as P2.
  split; [intros [_ [_ H]]; exact H|]. intros H. split; [split; [exact L1|split; [exact L2|clear - Hr; lia]]|]. split; [split; assumption|exact H].
Qed.

(** What the 64-bit circuit checks up to one unit in the last place: the double
    of the product against the sine, and for the longitude the tangent. *)
Definition exact_checks (be g d a' be' g' d' : fmt 11 52) : Prop :=
  ulp_close (ieee_mul 11 52 (of_bits 11 52 (int_bits 11 52 2)) (ieee_mul 11 52 g d)) be /\
  ulp_close (ieee_mul 11 52 a' d') g' /\
  ulp_close (ieee_mul 11 52 (of_bits 11 52 (int_bits 11 52 2)) (ieee_mul 11 52 g' d')) be'.

Theorem C58_hints_64 {HP : Params 11 52 b} trig Lat Lng pa pb pg pd qa qb qg qd res :
  0 <= Lat < 2 ^ 64 -> 0 <= Lng < 2 ^ 64 ->
  is_finite (of_bits 11 52 Lat) = true -> is_finite (of_bits 11 52 Lng) = true ->
  let lat := R64 Lat in let lng := R64 Lng in
  (- R64 half_pi_64 <= lat <= R64 half_pi_64)%R -> (- R64 pi_64 <= lng <= R64 pi_64)%R ->
  hints (E:=11) (M:=52) trig Lat pa pb pg pd -> hints (E:=11) (M:=52) trig Lng qa qb qg qd ->
  accurate (of_bits 11 52 Lat) (of_bits 11 52 pa) (of_bits 11 52 pb) (of_bits 11 52 pg) (of_bits 11 52 pd) ->
  accurate (of_bits 11 52 Lng) (of_bits 11 52 qa) (of_bits 11 52 qb) (of_bits 11 52 qg) (of_bits 11 52 qd) ->
  0 <= res < 16 ->
  let dl := bpow radix2 (-47) in
  exists l, In l literals /\ (forall g, In g literals -> apart l lat lng <= apart g lat lng + 15 * dl)%R /\
  ((20 * dl <= apart l lat lng)%R ->
   exists c, reduced c /\ in_cell (1 + 480 * sqrt 7 ^ Z.to_nat res * dl) (gnomonic_x l res lat lng, gnomonic_y l res lat lng) c /\
   forall I J K_, exec b (loc2Index64Circuit constants64 faces64 trig Lat Lng res I J K_) = Some tt <->
     (I, J, K_) = embed3 c /\ exact_checks (of_bits 11 52 pb) (of_bits 11 52 pg) (of_bits 11 52 pd) (of_bits 11 52 qa) (of_bits 11 52 qb) (of_bits 11 52 qg) (of_bits 11 52 qd)).
Proof.
  intros Hl Hg Fl Fg lat lng Vl Vg HL HG AL AG Hr dl.
  assert (D : (bpow radix2 (-47) <= dl <= 1 / 10000)%R) by (unfold dl; change (bpow radix2 (-47)) with (/ 140737488355328)%R; lra).
  assert (two_ok : 0 <= two_64 < 2 ^ (11 + 52 + 1)) by (split; vm_compute; congruence).
  assert (DC : decides (b:=b) (fun x y => AssertIsEqualOrCustomULP 11 52 x y two_64) (fun x y => ieee_within 11 52 x y two_64)).
  { intros x y fx fy Rx Ry. exact (eq_custom_complete x y fx fy two_64 two_ok Rx Ry). }
  assert (DU : decides (b:=b) (AssertIsEqualOrULP 52) ulp_close).
  { intros x y fx fy Rx Ry. exact (proj2 (eq_ulp_spec x y fx fy Rx Ry)). }
  assert (EQ : (64 * unit_ro 52 = dl)%R).
  { unfold dl. change (unit_ro 52) with (bpow radix2 (-53)). change 64%R with (bpow radix2 6). rewrite <- bpow_plus. reflexivity. }
  destruct (hint_circuit_exec (b:=b) ltac:(lia) ltac:(lia) _ _ _ _ _ _ _ _ _ _ _ _ trig Lat Lng pa pb pg pd qa qb qg qd
    DC DC DU DC DU DU Hl Hg Fl Fg HL HG AL AG) as (cl & cg & Rl & Rg & [B1 O1] & [B2 O2] & [B3 O3] & [B4 O4] & HX).
  rewrite EQ in *. fold lat lng in O1, O2, O3, O4.
  pose proof (newconst_spec (E:=11) (M:=52) pb (proj1 (proj2 (proj2 HL)))) as Rb.
  pose proof (newconst_spec (E:=11) (M:=52) qb (proj1 (proj2 (proj2 HG)))) as Rb'.
  destruct (C57_cell_64 (b:=b) dl D (NewConstant 11 52 Lng) cl cg _ _ lat lng _ _ _ _ Rb Rl Rb' Rg B1 B2 B3 B4 O1 O2 O3 O4 res Hr)
    as (l & Hin & _ & HN & HC).
  exists l. split; [exact Hin|]. split; [exact HN|]. intros Hap. destruct (HC Hap) as [(c & Rc & Hc & HE) _]. exists c. split; [exact Rc|]. split; [exact Hc|].
  intros I J K_. rewrite <- HE. unfold loc2Index64Circuit.
  rewrite (exec_bind_eq _ _ _ _ (proj1 (newfloat_complete (E:=11) (M:=52) (b:=b) Lat Hl))), (exec_bind_eq _ _ _ _ (proj1 (newfloat_complete (E:=11) (M:=52) (b:=b) Lng Hg))).
  rewrite (bounds_exec (b:=b) _ _ _ _ _ _ res _ _ (newconst_spec (E:=11) (M:=52) Lat Hl) (newconst_spec (E:=11) (M:=52) Lng Hg) pi64_ok half64_ok).
  rewrite (exec_bind_eq _ _ _ _ (leftover_exec (b:=b) _ _ _ _ (newconst_spec (E:=11) (M:=52) Lat Hl) (newconst_spec (E:=11) (M:=52) Lng Hg))).
  cbv zeta. rewrite HX. clear HX. unfold passes, exact_checks.
  assert (PP : forall ang a be g d : fmt 11 52, accurate ang a be g d -> (Rabs (B2R ang) <= 32 / 10)%R ->
    ieee_within 11 52 (ieee_add 11 52 (ieee_mul 11 52 g g) (ieee_mul 11 52 d d)) (of_bits 11 52 (int_bits 11 52 1)) two_64 /\
    ieee_within 11 52 (ieee_mul 11 52 a d) g two_64).
  { intros ang a be g d A Ha. destruct (half_angle _ Ha (pi_apart_64 _)) as [C0 S0].
    assert (T : (1 <= B2R (of_bits 11 52 two_64))%R).
    { change two_64 with (int_bits 11 52 2). rewrite (proj2 int2_64). lra. }
    destruct (checks_hold (E:=11) (M:=52) ltac:(lia) ltac:(lia) ang a be g d _ _ A C0 int1_64 int2_64 S0 two_64 (proj1 int2_64) T) as (X1 & X2 & _).
    split; assumption. }
  pose proof (lt_false_64 _ _ half64_fin Fl (proj2 Vl)) as L1. pose proof (lt_false_64 _ _ pi64_fin Fg (proj2 Vg)) as L2.
  assert (Z1 : (Rabs lat <= 32 / 10)%R) by (rewrite half64_R in Vl; apply Rabs_le; lra).
  assert (Z2 : (Rabs lng <= 32 / 10)%R) by (rewrite pi64_R in Vg; apply Rabs_le; lra).
  destruct (PP _ _ _ _ _ AL Z1) as [P1 P1']. destruct (PP _ _ _ _ _ AG Z2) as [P2 P2']. clear PP HC HE.
  assert (R15 : res <= 15) by (clear - Hr; lia). tauto.
Qed.

End Circuits.
Print Assumptions C58_hints_32.
Print Assumptions C58_hints_64.

(** On the equator no face has its centre near. *)
Lemma equator_off l lng : In l literals -> (7 / 100 <= apart l 0 lng)%R.
Proof.
  intros Hin. unfold apart, chord, on_sphere. rewrite sin_0, Rminus_0_r.
  assert (S : (sin (face_lat l) = lit 18 (l_sinlat l) /\ 7 / 100 <= Rabs (lit 18 (l_sinlat l)))%R).
  { assert (Q : (7 / 100 <= Rabs (lit 18 (l_sinlat l)) <= 1)%R).
    { assert (C : forallb (fun l => (7 * 10 ^ 16 <=? Z.abs (l_sinlat l)) && (Z.abs (l_sinlat l) <=? 10 ^ 18)) literals = true) by (vm_compute; reflexivity).
      pose proof (proj1 (forallb_forall _ _) C l Hin) as C'. cbv beta in C'. apply andb_prop in C' as [C1 C2].
      apply Z.leb_le, IZR_le in C1. apply Z.leb_le, IZR_le in C2. unfold lit, Rdiv. rewrite Rabs_mult, <- abs_IZR.
      change (IZR (7 * 10 ^ 16)) with 70000000000000000%R in C1. change (IZR (10 ^ 18)) with 1000000000000000000%R in *.
      rewrite (Rabs_pos_eq (/ _)) by lra. lra. }
    split; [|lra]. unfold face_lat. apply sin_asin. destruct Q as [_ Q]. apply Rabs_le_inv in Q. lra. }
  destruct S as [-> S]. set (z := lit 18 (l_sinlat l)) in *.
  apply Rsqr_incr_0; [|lra|apply sqrt_pos]. rewrite Rsqr_sqrt by (repeat apply Rplus_le_le_0_compat; apply pow2_ge_0).
  match goal with |- (_ <= ?a ^ 2 + ?c ^ 2 + _)%R => pose proof (pow2_ge_0 a); pose proof (pow2_ge_0 c) end.
  assert (((7 / 100) * (7 / 100) <= Rabs z * Rabs z)%R) by (apply Rmult_le_compat; lra).
  rewrite <- Rabs_mult, (Rabs_pos_eq (z * z)) in H1 by nra. unfold Rsqr. cbn [pow] in *. lra.
Qed.

Lemma accurate_0 {E M : Z} {HF : Format E M} (z one : fmt E M) : B2SF z = SpecFloat.S754_zero false -> is_finite one = true -> B2R one = 1%R ->
  accurate z z z z one.
Proof.
  intros Z F V. assert (Fz : is_finite z = true) by (destruct z; try discriminate Z; reflexivity).
  assert (Vz : B2R z = 0%R) by (destruct z; try discriminate Z; reflexivity).
  pose proof (eta_pos (E:=E) (M:=M)) as E0. pose proof (u_pos (M:=M)) as U0.
  assert (L0 : lib z z 0).
  { split; [exact Fz|]. split; [rewrite Vz, Rminus_eq_0, Rabs_R0; lra|]. rewrite Req_bool_true by reflexivity. reflexivity. }
  unfold accurate. rewrite Vz. replace (0 / 2)%R with 0%R by field. rewrite tan_0, sin_0, cos_0.
  do 3 (split; [exact L0|]). split; [exact F|]. rewrite V, Rminus_eq_0, Rabs_R0, Rabs_R1. split; [lra|].
  rewrite Req_bool_false, Rlt_bool_false by lra. apply pos_sign. lra.
Qed.

(** Values of the library, for a latitude of 0 and a longitude. *)
Definition table (one qa qb qg qd : Z) (v : Z) : list Z := if v =? 0 then [0; 0; 0; one] else [qa; qb; qg; qd].

(** All values correctly rounded, and the sine computed from them as in
    hint.go:37-40: the repository's prover is refused at this position, whatever
    the resolution and the cell. *)
Theorem C58_honest_64_refuted : exists Lng qa qb qg qd,
  let trig := table 4607182418800017408 qa qb qg qd in
  (0 <= Lng < 2 ^ 64 /\ is_finite (of_bits 11 52 Lng) = true /\ (0 <= R64 Lng <= R64 pi_64)%R) /\
  (forall l, In l literals -> (7 / 100 <= apart l 0 (R64 Lng))%R) /\
  hints (E:=11) (M:=52) trig Lng qa qb qg qd /\
  rounded_hint (E:=11) (M:=52) Lng qa qg qd /\
  of_bits 11 52 qb = ieee_mul 11 52 (ieee_mul 11 52 (of_bits 11 52 (int_bits 11 52 2)) (of_bits 11 52 qg)) (of_bits 11 52 qd) /\
  forall (MOD : Modulus) (b : Z) (HP : Params 11 52 b) res I J K_, 0 <= res < 16 ->
    exec b (loc2Index64Circuit constants64 faces64 trig 0 Lng res I J K_) = None.
Proof.
  exists 4607332646671041004, 4603292749862942976, 4605912606815122199, 4602570643901800232, 4606006661395161093. intros trig.
  assert (HB : B2SF (of_bits 11 52 4605912606815122199) = B2SF (ieee_mul 11 52 (ieee_mul 11 52 (of_bits 11 52 (int_bits 11 52 2)) (of_bits 11 52 4602570643901800232)) (of_bits 11 52 4606006661395161093))) by (vm_compute; reflexivity).
  assert (HR : roundedb (E:=11) (M:=52) 4607332646671041004 4603292749862942976 4602570643901800232 4606006661395161093 = true) by (vm_compute; reflexivity).
  assert (HA : accurateb (E:=11) (M:=52) 4607332646671041004 4603292749862942976 4605912606815122199 4602570643901800232 4606006661395161093 = true) by (vm_compute; reflexivity).
  assert (HV : B2SF (of_bits 11 52 4607332646671041004) = SpecFloat.S754_finite false 4653827498394092%positive (-52)) by (vm_compute; reflexivity).
  destruct (datum_value _ _ _ HV) as [FL VL]. change (bpow radix2 (-52)) with (/ 4503599627370496)%R in VL.
  assert (P64 : (R64 4607332646671041004 <= R64 pi_64)%R) by (rewrite VL, pi64_R; lra).
  assert (N0 : (0 <= R64 4607332646671041004)%R) by (rewrite VL; lra).
  assert (RG : 0 <= 4607332646671041004 < 2 ^ 64) by lia.
  assert (HH : hints (E:=11) (M:=52) trig 4607332646671041004 4603292749862942976 4605912606815122199 4602570643901800232 4606006661395161093).
  { split; [reflexivity|]. do 3 (split; [split; [lia|reflexivity]|]). split; [lia|reflexivity]. }
  assert (EO : forall l, In l literals -> (7 / 100 <= apart l 0 (R64 4607332646671041004))%R) by (intros l Hl; apply equator_off, Hl).
  split; [exact (conj RG (conj FL (conj N0 P64)))|]. split; [exact EO|]. split; [exact HH|].
  split; [apply roundedb_spec, HR|]. split; [apply B2SF_inj, HB|]. clear HB HR.
  intros MOD b HP res I J K_ Hr.
  destruct (exec b _) as [[]|] eqn:X; [exfalso|reflexivity].
  assert (H0 : hints (E:=11) (M:=52) trig 0 0 0 0 4607182418800017408).
  { split; [reflexivity|]. do 3 (split; [split; [lia|reflexivity]|]). split; [lia|reflexivity]. }
  assert (Z0 : R64 0 = 0%R) by reflexivity.
  assert (F0 : is_finite (of_bits 11 52 0) = true) by reflexivity.
  assert (F1 : is_finite (of_bits 11 52 4607182418800017408) = true) by (vm_compute; reflexivity).
  assert (B0 : (- R64 half_pi_64 <= R64 0 <= R64 half_pi_64)%R) by (rewrite Z0, half64_R; lra).
  assert (B1 : (- R64 pi_64 <= R64 4607332646671041004 <= R64 pi_64)%R) by (rewrite pi64_R in *; lra).
  destruct (C58_hints_64 (b:=b) trig 0 4607332646671041004 0 0 0 4607182418800017408 4603292749862942976 4605912606815122199 4602570643901800232 4606006661395161093 res
    ltac:(lia) RG F0 FL B0 B1 H0 HH (accurate_0 (of_bits 11 52 0) (of_bits 11 52 4607182418800017408) eq_refl F1 one64_val) (accurateb_spec _ _ _ _ _ HA) Hr) as (l & Hl & _ & HC).
  destruct HC as (c & _ & HE).
  { rewrite Z0. pose proof (EO l Hl). change (bpow radix2 (-47)) with (/ 140737488355328)%R. lra. }
  apply HE in X. destruct X as [_ (_ & X & _)]. clear - X.
  assert (A1 : B2SF (ieee_mul 11 52 (of_bits 11 52 4603292749862942976) (of_bits 11 52 4606006661395161093)) = SpecFloat.S754_finite false 8899023983894310 (-54)) by (vm_compute; reflexivity).
  assert (A2 : B2SF (of_bits 11 52 4602570643901800232) = SpecFloat.S754_finite false 8899023983894312 (-54)) by (vm_compute; reflexivity).
  generalize dependent (ieee_mul 11 52 (of_bits 11 52 4603292749862942976) (of_bits 11 52 4606006661395161093)).
  generalize dependent (of_bits 11 52 4602570643901800232). intros g A2 f X A1.
  destruct (datum_value _ _ _ A1) as [G1 V1]. destruct (datum_value _ _ _ A2) as [G2 V2].
  change (bpow radix2 (-54)) with (/ 18014398509481984)%R in V1, V2.
  assert (MG : forall h : fmt 11 52, is_finite h = true -> magv 11 52 h = Rabs (B2R h)) by (intros [| | |]; cbn; easy).
  assert (UL : forall v, (1 / 4 <= v <= 8899023983894312 / 18014398509481984)%R ->
    (ulp radix2 (FLT_exp (emin 11 52) (prec 52)) v < 2 / 18014398509481984)%R).
  { intros v Hv. eapply Rle_lt_trans; [apply ulp_FLT_le|].
    - rewrite Rabs_pos_eq by lra. apply Rle_trans with (bpow radix2 (-2)); [apply bpow_le; vm_compute; congruence|change (bpow radix2 (-2)) with (/ 4)%R; lra].
    - change (bpow radix2 (1 - prec 52)) with (/ 4503599627370496)%R. rewrite Rabs_pos_eq by lra. lra. }
  destruct X as [X|[(_ & _ & _ & _ & X)|(_ & _ & _ & _ & X)]].
  - rewrite X in A1. rewrite A1 in A2. discriminate A2.
  - rewrite (MG f G1), (MG g G2), V1, V2, !Rabs_pos_eq in X by lra.
    pose proof (UL (8899023983894310 * / 18014398509481984)%R ltac:(lra)) as U. lra.
  - rewrite (MG f G1), (MG g G2), V1, V2, !Rabs_pos_eq in X by lra.
    pose proof (ulp_ge_0 radix2 (FLT_exp (emin 11 52) (prec 52)) (8899023983894312 * / 18014398509481984)). lra.
Qed.
Print Assumptions C58_honest_64_refuted.

(** The repository's prover is accepted on the equator at longitude 1, in both widths. *)
Example C58_ex : forall (MOD : Modulus) (b : Z), (Params 8 23 b -> exists I J K_,
    exec b (loc2Index32Circuit constants32 faces32 (table 1065353216 1057741435 1062693540 1056274244 1063299392) 0 1065353216 9 I J K_) = Some tt) /\
  (Params 11 52 b -> exists I J K_,
    exec b (loc2Index64Circuit constants64 faces64 (table 4607182418800017408 4603095874924660554 4605754516372524270 4602308182625945072 4606079780542709072)
      0 4607182418800017408 9 I J K_) = Some tt).
Proof.
  intros MOD b. assert (Z0 : R64 0 = 0%R) by reflexivity. assert (Y0 : R32 0 = 0%R) by reflexivity. split; intros HP.
  - assert (F0 : is_finite (of_bits 8 23 0) = true) by reflexivity.
    assert (F1 : is_finite (of_bits 8 23 1065353216) = true) by (vm_compute; reflexivity).
    assert (B0 : (- R32 half_pi_32 <= R32 0 <= R32 half_pi_32)%R) by (rewrite Y0, half32_R; lra).
    assert (B1 : (- R32 pi_32 <= R32 1065353216 <= R32 pi_32)%R) by (rewrite one32_val, pi32_R; lra).
    assert (HA : accurateb (E:=8) (M:=23) 1065353216 1057741435 1062693540 1056274244 1063299392 = true) by (vm_compute; reflexivity).
    destruct (C58_hints_32 (b:=b) (table 1065353216 1057741435 1062693540 1056274244 1063299392) 0 1065353216 0 0 0 1065353216 1057741435 1062693540 1056274244 1063299392 9
      ltac:(lia) ltac:(lia) F0 F1 B0 B1) as (l & Hl & _ & HC).
    + split; [reflexivity|]. do 3 (split; [split; [lia|reflexivity]|]). split; [lia|reflexivity].
    + split; [reflexivity|]. do 3 (split; [split; [lia|reflexivity]|]). split; [lia|reflexivity].
    + exact (accurate_0 (of_bits 8 23 0) (of_bits 8 23 1065353216) eq_refl F1 one32_val).
    + exact (accurateb_spec _ _ _ _ _ HA).
    + lia.
    + destruct HC as (c & _ & HE).
      { rewrite Y0. pose proof (equator_off l (R32 1065353216) Hl). change (bpow radix2 (-18)) with (/ 262144)%R. lra. }
      destruct (embed3 c) as [[I J] K_]. exists I, J, K_. apply HE. reflexivity.
  - assert (F0 : is_finite (of_bits 11 52 0) = true) by reflexivity.
    assert (F1 : is_finite (of_bits 11 52 4607182418800017408) = true) by (vm_compute; reflexivity).
    assert (B0 : (- R64 half_pi_64 <= R64 0 <= R64 half_pi_64)%R) by (rewrite Z0, half64_R; lra).
    assert (B1 : (- R64 pi_64 <= R64 4607182418800017408 <= R64 pi_64)%R) by (rewrite one64_val, pi64_R; lra).
    assert (HA : accurateb (E:=11) (M:=52) 4607182418800017408 4603095874924660554 4605754516372524270 4602308182625945072 4606079780542709072 = true) by (vm_compute; reflexivity).
    destruct (C58_hints_64 (b:=b) (table 4607182418800017408 4603095874924660554 4605754516372524270 4602308182625945072 4606079780542709072) 0 4607182418800017408 0 0 0 4607182418800017408
      4603095874924660554 4605754516372524270 4602308182625945072 4606079780542709072 9 ltac:(lia) ltac:(lia) F0 F1 B0 B1) as (l & Hl & _ & HC).
    + split; [reflexivity|]. do 3 (split; [split; [lia|reflexivity]|]). split; [lia|reflexivity].
    + split; [reflexivity|]. do 3 (split; [split; [lia|reflexivity]|]). split; [lia|reflexivity].
    + exact (accurate_0 (of_bits 11 52 0) (of_bits 11 52 4607182418800017408) eq_refl F1 one64_val).
    + exact (accurateb_spec _ _ _ _ _ HA).
    + lia.
    + destruct HC as (c & _ & HE).
      { rewrite Z0. pose proof (equator_off l (R64 4607182418800017408) Hl). change (bpow radix2 (-47)) with (/ 140737488355328)%R. lra. }
      destruct (embed3 c) as [[I J] K_] eqn:EC. exists I, J, K_. apply HE. split; [reflexivity|].
      split; [left|split; left]; apply B2SF_inj; vm_compute; reflexivity.
Qed.
