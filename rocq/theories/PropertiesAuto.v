(** Property C48: the location circuits and the circuits of math/ with the
    range-check width that the repository's configuration chooses. *)
From Coq Require Import ZArith Reals Lra Lia Bool List.
From Flocq Require Import Core BinarySingleNaN.
From Verif Require Import Field FieldFacts Circuit RangeCheck FloatModel Math MathSpec RoundFacts Spec
  RepFacts Deferred Shapes CircuitShapes LocShapes NewFacts CircuitSpec ValueFacts MathFacts SinAccuracy AtanAccuracy
  MathAuto Witness Loc2Index LocConst LocFacts LocCircuitFacts PipeFacts WrapperFacts HonestFacts
  PropertiesMath PropertiesAtan PropertiesLoc PropertiesPipe PropertiesWrapper.
Import ListNotations.
Local Open Scope Z_scope.

#[local] Existing Instance bn254 | 1000.

(** ** The widths *)

Lemma auto_is {A} ft (c : circ A) s w r : collects c s -> auto_width ft s = w ->
  (accepts 0 ft c r <-> accepted w c r).
Proof. intros H <-. exact (accepts_static 0 ft c s r H). Qed.

(** The table of powers of two has 32 entries for binary32 and 64 for binary64:
    the widths 9, 11 and 7 do not divide, nor does 6. *)
Theorem C48_location_widths ft trig Lat Lng res I J K :
  (accepts 0 ft (loc2Index32CircuitWrapper constants32 faces32 Lat Lng res I J K) tt <->
   accepted 9 (loc2Index32CircuitWrapper constants32 faces32 Lat Lng res I J K) tt) /\
  (accepts 0 ft (loc2Index32Circuit constants32 faces32 trig Lat Lng res I J K) tt <->
   accepted 9 (loc2Index32Circuit constants32 faces32 trig Lat Lng res I J K) tt) /\
  (accepts 0 ft (loc2Index64Circuit constants64 faces64 trig Lat Lng res I J K) tt <->
   accepted 11 (loc2Index64Circuit constants64 faces64 trig Lat Lng res I J K) tt).
Proof.
  split; [|split].
  - eapply auto_is; [apply collects_wrapper; reflexivity|destruct ft; vm_compute; reflexivity].
  - eapply auto_is; [apply collects_loc32; reflexivity|destruct ft; vm_compute; reflexivity].
  - eapply auto_is; [apply collects_loc64; reflexivity|destruct ft; vm_compute; reflexivity].
Qed.
Print Assumptions C48_location_widths.

Theorem C48_math_widths ft X Z :
  (accepts 0 ft (SinCircuit X Z) tt <-> accepted 8 (SinCircuit X Z) tt) /\
  (accepts 0 ft (CircuitATanRemez64 X Z) tt <-> accepted 8 (CircuitATanRemez64 X Z) tt) /\
  (accepts 0 ft (PolynomialEvalCircuitDegTen X Z) tt <-> accepted 8 (PolynomialEvalCircuitDegTen X Z) tt) /\
  (accepts 0 ft (PolynomialEvalCircuit X Z) tt <->
   accepted (match ft with R1CS => 6 | SCS => 7 end) (PolynomialEvalCircuit X Z) tt).
Proof.
  split; [|split; [|split]].
  - eapply auto_is; [apply collects_SinCircuit|destruct ft; vm_compute; reflexivity].
  - eapply auto_is; [apply collects_ATanCircuit|destruct ft; vm_compute; reflexivity].
  - eapply auto_is; [apply collects_PolynomialDegTen|destruct ft; vm_compute; reflexivity].
  - eapply auto_is; [apply collects_PolynomialEval|destruct ft; vm_compute; reflexivity].
Qed.
Print Assumptions C48_math_widths.

(** ** Where the width divides: the results are what they should be *)

Notation R64 p := (B2R (of_bits 11 52 p)).

Lemma abs_near u v w e : Rabs w = Rabs u -> (Rabs (u - v) <= e)%R -> (Rabs (Rabs w - Rabs v) <= e)%R.
Proof. intros -> H. eapply Rle_trans; [apply Rabs_triang_inv2|exact H]. Qed.

(** Some expected value is accepted, and every accepted one is a finite double
    whose magnitude is that of the sine. *)
Theorem C48_sine ft X : 0 <= X < 2 ^ 64 -> is_finite (of_bits 11 52 X) = true ->
  (- PI <= R64 X <= R64 pi_64)%R ->
  (exists Z, 0 <= Z < 2 ^ 64 /\ accepts 0 ft (SinCircuit X Z) tt) /\
  forall Z, 0 <= Z < modulus -> accepts 0 ft (SinCircuit X Z) tt ->
  0 <= Z < 2 ^ 64 /\ is_finite (of_bits 11 52 Z) = true /\
  (Rabs (Rabs (R64 Z) - Rabs (sin (R64 X))) <= 23 / 1000000000000000)%R.
Proof.
  intros HX FX VX. pose proof (params64 8 ltac:(lia)) as HP.
  destruct (C41_sin64 (b:=8) (NewConstant 11 52 X) _ eq_refl (newconst_spec (E:=11) (M:=52) X HX) FX VX) as [S1 S2].
  assert (HM : 2 ^ 64 < modulus) by (vm_compute; reflexivity). split.
  - destruct (function_complete (b:=8) SinTaylor64 X HX S1) as (Z & RZ & HZ).
    { intros r Hr. destruct (S2 r Hr) as (f & H1 & H2 & _). exists f. auto. }
    exists Z. split; [exact RZ|]. apply (proj1 (C48_math_widths ft X Z)). exact HZ.
  - intros Z RZ HZ. apply (proj1 (C48_math_widths ft X Z)) in HZ.
    destruct (function_sound (b:=8) SinTaylor64 X Z _ ltac:(lia) RZ (fun _ => S2) HZ)
      as (Z1 & Z2 & f & Hf & Z3).
    split; [exact Z1|]. split; [exact Z2|]. exact (abs_near _ _ _ _ Z3 Hf).
Qed.
Print Assumptions C48_sine.

Theorem C48_arctangent ft X : 0 <= X < 2 ^ 64 -> is_finite (of_bits 11 52 X) = true ->
  (exists Z, 0 <= Z < 2 ^ 64 /\ accepts 0 ft (CircuitATanRemez64 X Z) tt) /\
  forall Z, 0 <= Z < modulus -> accepts 0 ft (CircuitATanRemez64 X Z) tt ->
  0 <= Z < 2 ^ 64 /\ is_finite (of_bits 11 52 Z) = true /\
  (Rabs (Rabs (R64 Z) - Rabs (atan (R64 X))) <= / 10000000000000)%R.
Proof.
  intros HX FX. pose proof (params64 8 ltac:(lia)) as HP.
  destruct (C45_atan64 (b:=8) (NewConstant 11 52 X) _ eq_refl (newconst_spec (E:=11) (M:=52) X HX) FX)
    as (r0 & f & Rf & Ff & S1 & S2 & _ & Vf).
  assert (S3 : forall r, sat 8 (AtanRemez64 (NewConstant 11 52 X)) r -> exists f : fmt 11 52,
    represents r f /\ is_finite f = true /\ (Rabs (B2R f - atan (R64 X)) <= / 10000000000000)%R).
  { intros r Hr. rewrite (S2 r Hr). exists f. auto. }
  assert (HM : 2 ^ 64 < modulus) by (vm_compute; reflexivity). split.
  - destruct (function_complete (b:=8) AtanRemez64 X HX (ex_intro _ r0 S1)) as (Z & RZ & HZ).
    { intros r Hr. destruct (S3 r Hr) as (g & H1 & H2 & _). exists g. auto. }
    exists Z. split; [exact RZ|]. apply (proj1 (proj2 (C48_math_widths ft X Z))). exact HZ.
  - intros Z RZ HZ. apply (proj1 (proj2 (C48_math_widths ft X Z))) in HZ.
    destruct (function_sound (b:=8) AtanRemez64 X Z _ ltac:(lia) RZ (fun _ => S3) HZ)
      as (Z1 & Z2 & g & Hg & Z3).
    split; [exact Z1|]. split; [exact Z2|]. exact (abs_near _ _ _ _ Z3 Hg).
Qed.
Print Assumptions C48_arctangent.

(** The polynomial of degree ten, from the constant coefficient upwards. *)
Definition ten : list R := map IZR [1; 1; 2; 3; 4; 5; 6; 7; 8; 9; 1].

Theorem C48_degree_ten ft X : 0 <= X < 2 ^ 64 -> is_finite (of_bits 11 52 X) = true ->
  (Rabs (R64 X) <= bpow radix2 90)%R ->
  (exists Z, 0 <= Z < 2 ^ 64 /\ accepts 0 ft (PolynomialEvalCircuitDegTen X Z) tt) /\
  exists v, (Rabs (v - poly ten (R64 X)) <= horner_error 11 52 ten (R64 X))%R /\
  forall Z, 0 <= Z < modulus -> accepts 0 ft (PolynomialEvalCircuitDegTen X Z) tt ->
  0 <= Z < 2 ^ 64 /\ is_finite (of_bits 11 52 Z) = true /\ Rabs (R64 Z) = Rabs v.
Proof.
  intros HX FX BX. pose proof (params64 8 ltac:(lia)) as HP.
  set (op := fun x => EvalK 11 52 (map constant [1; 9; 8; 7; 6; 5; 4; 3; 2; 1; 1]) x 1).
  destruct (small_horner (b:=8) [1; 1; 2; 3; 4; 5; 6; 7; 8; 9; 1] (NewConstant 11 52 X) (R64 X) 90 eq_refl
    ltac:(repeat (constructor; [lia|]); constructor) ltac:(lia) ltac:(vm_compute; reflexivity)
    (represents_valued _ _ (newconst_spec (E:=11) (M:=52) X HX) FX) BX) as (S1 & S2 & S3).
  destruct (C29_evalk_one (b:=8) (map constant [1; 9; 8; 7; 6; 5; 4; 3; 2; 1; 1]) (NewConstant 11 52 X)) as [K1 K2].
  change (rev (map constant [1; 9; 8; 7; 6; 5; 4; 3; 2; 1; 1]))
    with (map constant [1; 1; 2; 3; 4; 5; 6; 7; 8; 9; 1]) in *.
  assert (T1 : exists r, exec 8 (op (NewConstant 11 52 X)) = Some r)
    by (destruct S1 as [r Hr]; exists r; unfold op; rewrite K2; exact Hr).
  assert (T2 : forall r, sat 8 (op (NewConstant 11 52 X)) r -> exists f : fmt 11 52, represents r f /\
    is_finite f = true /\ B2R f = rounded_horner 11 52 ten (R64 X)).
  { intros r Hr. exact (S2 r (proj1 (K1 r) Hr)). }
  assert (HM : 2 ^ 64 < modulus) by (vm_compute; reflexivity). split.
  - destruct (function_complete (b:=8) op X HX T1) as (Z & RZ & HZ).
    { intros r Hr. destruct (T2 r Hr) as (f & H1 & H2 & _). exists f. auto. }
    exists Z. split; [exact RZ|]. apply (proj1 (proj2 (proj2 (C48_math_widths ft X Z)))). exact HZ.
  - exists (rounded_horner 11 52 ten (R64 X)). split; [exact S3|]. intros Z RZ HZ.
    apply (proj1 (proj2 (proj2 (C48_math_widths ft X Z)))) in HZ.
    destruct (function_sound (b:=8) op X Z _ ltac:(lia) RZ (fun _ => T2) HZ)
      as (Z1 & Z2 & f & Hf & Z3).
    split; [exact Z1|]. split; [exact Z2|]. rewrite <- Hf. exact Z3.
Qed.
Print Assumptions C48_degree_ten.

(** Hence nobody can satisfy the circuit with the vector of
    math/math_test.go:140-141, which is not the value of Horner's rule. *)
Theorem C48_degree_ten_vector_refuted : exists X Z,
  X = 0x4052804B7BF6345E /\ Z = 0x43D332C535AA3D95 /\
  forall ft, ~ accepts 0 ft (PolynomialEvalCircuitDegTen X Z) tt.
Proof.
  eexists _, _. split; [reflexivity|]. split; [reflexivity|]. intros ft HZ.
  assert (HX : B2SF (of_bits 11 52 0x4052804B7BF6345E) = SpecFloat.S754_finite false 0x12804B7BF6345E (-46))
    by (vm_compute; reflexivity).
  destruct (B2R_of_SF _ _ _ _ HX) as (VX & FX & _).
  destruct (C48_degree_ten ft 0x4052804B7BF6345E ltac:(split; vm_compute; congruence) FX) as (_ & v & _ & H).
  { rewrite VX. unfold F2R. cbn [SpecFloat.cond_Zopp Fnum Fexp]. rewrite Rabs_pos_eq.
    - apply Rle_trans with (bpow radix2 53 * bpow radix2 (-46))%R.
      + apply Rmult_le_compat_r; [apply bpow_ge_0|]. cbn. lra.
      + rewrite <- bpow_plus. apply bpow_le. vm_compute. congruence.
    - apply Rmult_le_pos; [lra|apply bpow_ge_0]. }
  destruct (H 0x43D332C535AA3D95 ltac:(split; vm_compute; congruence) HZ) as (_ & _ & V1).
  assert (HZ' : accepts 0 ft (PolynomialEvalCircuitDegTen 0x4052804B7BF6345E 0x43D332C535AA3D94) tt).
  { apply (proj1 (proj2 (proj2 (C48_math_widths ft _ _)))), accepted_run. vm_compute. reflexivity. }
  destruct (H 0x43D332C535AA3D94 ltac:(split; vm_compute; congruence) HZ') as (_ & _ & V2).
  rewrite <- V1 in V2. revert V2.
  assert (E1 : B2SF (of_bits 11 52 0x43D332C535AA3D95) = SpecFloat.S754_finite false 0x1332C535AA3D95 10)
    by (vm_compute; reflexivity).
  assert (E2 : B2SF (of_bits 11 52 0x43D332C535AA3D94) = SpecFloat.S754_finite false 0x1332C535AA3D94 10)
    by (vm_compute; reflexivity).
  rewrite (proj1 (B2R_of_SF _ _ _ _ E1)), (proj1 (B2R_of_SF _ _ _ _ E2)). unfold F2R.
  cbn [SpecFloat.cond_Zopp Fnum Fexp]. rewrite !Rabs_pos_eq by (apply Rmult_le_pos; [lra|apply bpow_ge_0]).
  pose proof (bpow_gt_0 radix2 10). intros Q. apply Rmult_eq_reg_r in Q; [|lra]. apply eq_IZR in Q. discriminate.
Qed.
Print Assumptions C48_degree_ten_vector_refuted.

(** ** Where it does not *)

(** The location circuits with hints: as in C37, any two positions have the same
    accepted cells. *)
Theorem C48_same_outputs_32 ft trig trig' Lat Lng Lat' Lng' res I J K :
  0 <= Lat < modulus -> 0 <= Lng < modulus -> 0 <= Lat' < modulus -> 0 <= Lng' < modulus ->
  position_ok 8 23 half_pi_32 pi_32 Lat Lng -> position_ok 8 23 half_pi_32 pi_32 Lat' Lng' ->
  (accepts 0 ft (loc2Index32Circuit constants32 faces32 trig Lat Lng res I J K) tt <->
   accepts 0 ft (loc2Index32Circuit constants32 faces32 trig' Lat' Lng' res I J K) tt).
Proof.
  intros H1 H2 H3 H4 P P'. pose proof (params32 9 ltac:(lia)) as HP.
  rewrite (proj1 (proj2 (C48_location_widths ft trig Lat Lng res I J K))).
  rewrite (proj1 (proj2 (C48_location_widths ft trig' Lat' Lng' res I J K))).
  exact (C37_same_outputs_32 (b:=9) constants32 faces32 trig trig' Lat Lng Lat' Lng' res I J K H1 H2 H3 H4 P P').
Qed.
Print Assumptions C48_same_outputs_32.

Theorem C48_same_outputs_64 ft trig trig' Lat Lng Lat' Lng' res I J K :
  0 <= Lat < modulus -> 0 <= Lng < modulus -> 0 <= Lat' < modulus -> 0 <= Lng' < modulus ->
  position_ok 11 52 half_pi_64 pi_64 Lat Lng -> position_ok 11 52 half_pi_64 pi_64 Lat' Lng' ->
  (accepts 0 ft (loc2Index64Circuit constants64 faces64 trig Lat Lng res I J K) tt <->
   accepts 0 ft (loc2Index64Circuit constants64 faces64 trig' Lat' Lng' res I J K) tt).
Proof.
  intros H1 H2 H3 H4 P P'. pose proof (params64 11 ltac:(lia)) as HP.
  rewrite (proj2 (proj2 (C48_location_widths ft trig Lat Lng res I J K))).
  rewrite (proj2 (proj2 (C48_location_widths ft trig' Lat' Lng' res I J K))).
  exact (C37_same_outputs_64 (b:=11) constants64 faces64 trig trig' Lat Lng Lat' Lng' res I J K H1 H2 H3 H4 P P').
Qed.
Print Assumptions C48_same_outputs_64.

(** The location circuit without hints: for the positions of C44 the repository's
    prover, at the width chosen, is accepted with H3's cell for sines and cosines
    close to the real ones, and with no other. *)
Theorem C48_wrapper_honest ft Lat Lng :
  0 <= Lat < 2 ^ 32 -> 0 <= Lng < 2 ^ 32 ->
  is_finite (of_bits 8 23 Lat) = true -> is_finite (of_bits 8 23 Lng) = true ->
  (- R32 half_pi_32 < R32 Lat <= R32 half_pi_32)%R -> (- R32 pi_32 <= R32 Lng <= R32 pi_32)%R ->
  R32 Lng <> (- R32 half_pi_32)%R ->
  exists sl cl sg cg : fmt 8 23,
    (Rabs (B2R sl - sin (R32 Lat)) <= 25 / 10000000)%R /\
    (Rabs (B2R cl - cos (R32 Lat)) <= 31 / 10000000)%R /\
    (Rabs (B2R sg - sin (R32 Lng)) <= 13 / 1000000)%R /\
    (Rabs (B2R cg - cos (R32 Lng)) <= 15 / 1000000)%R /\
    forall res I J K hx hy, 0 <= res < modulus -> located constants32 faces32 res sl cl sg cg hx hy ->
    (run (auto_width ft (wrapper_shape faces32))
      (loc2Index32CircuitWrapper constants32 faces32 Lat Lng res I J K) = Some tt <->
     res <= 15 /\ (I, J, K) = h3_cell hx hy) /\
    (res <= 15 -> (I, J, K) = h3_cell hx hy ->
     accepts 0 ft (loc2Index32CircuitWrapper constants32 faces32 Lat Lng res I J K) tt).
Proof.
  intros Hl Hg Fl Fg Vl Vg Hn. assert (HM : 2 ^ 32 < modulus) by (vm_compute; reflexivity).
  pose proof (params32 8 ltac:(lia)) as HP8. pose proof (params32 9 ltac:(lia)) as HP.
  destruct (C44_wrapper (b:=8) Lat Lng eq_refl ltac:(lia) ltac:(lia) Hl Hg Fl Fg Vl Vg Hn)
    as (sl & cl & sg & cg & HC & A1 & A2 & A3 & A4 & _).
  destruct (wrapper_honest (b:=9) Lat Lng ltac:(lia) ltac:(lia) Hl Hg Fl Fg Vl Vg Hn sl cl sg cg HC) as [_ HW].
  exists sl, cl, sg, cg. do 4 (split; [assumption|]). intros res I J K hx hy Hres HL.
  assert (W : auto_width ft (wrapper_shape faces32) = 9) by (destruct ft; vm_compute; reflexivity).
  assert (H : run 9 (loc2Index32CircuitWrapper constants32 faces32 Lat Lng res I J K) = Some tt <->
     res <= 15 /\ (I, J, K) = h3_cell hx hy).
  { unfold run. rewrite (HW constants32 faces32 res I J K).
    split; intros [H15 H]; (split; [exact H15|]);
      apply (C43_locate_complete (b:=9) constants32 faces32 (wires (of_bits 8 23 Lng)) (wires cl) (wires cg)
        (wires sl) (wires sg) res I J K sl cl sg cg hx hy ltac:(lia) ltac:(lia)
        pipe_constants_32 ltac:(lia) (wires_represents _) (wires_represents _) (wires_represents _) (wires_represents _) HL) in H;
      exact H. }
  rewrite W. split; [exact H|]. intros H15 HC'.
  apply (proj1 (C48_location_widths ft (fun _ => []) Lat Lng res I J K)).
  apply accepted_run, H. auto.
Qed.
Print Assumptions C48_wrapper_honest.

(** Other provers are accepted with other cells.  From 53.7 degrees north and 10
    degrees east, at resolution 3, the honest cell is (27, 0, 5); one forged
    power of two turns the square of the latitude into zero, so that its sine is
    the latitude itself, and (35, 0, 9) is accepted. *)
Definition lat_ex : Z := 126 * 2 ^ 23 + (15728648 - 2 ^ 23).
Definition lng_ex : Z := 124 * 2 ^ 23 + 3355443.

Theorem C48_wrapper_binding_refuted : exists Lat Lng res c c',
  let circuit := fun c : Z * Z * Z => let '(i, j, k) := c in
    loc2Index32CircuitWrapper constants32 faces32 Lat Lng res i j k in
  c <> c' /\ run 9 (circuit c) = Some tt /\
  forall ft, accepts 0 ft (circuit c) tt /\ accepts 0 ft (circuit c') tt.
Proof.
  exists lat_ex, lng_ex, 3, (27, 0, 5), (35, 0, 9). cbv zeta. split; [discriminate|].
  assert (H : run 9 (loc2Index32CircuitWrapper constants32 faces32 lat_ex lng_ex 3 27 0 5) = Some tt)
    by (vm_compute; reflexivity).
  split; [exact H|]. intros ft. split.
  - apply (proj1 (C48_location_widths ft (fun _ => []) lat_ex lng_ex 3 27 0 5)), accepted_run, H.
  - apply (proj1 (C48_location_widths ft (fun _ => []) lat_ex lng_ex 3 35 0 9)).
    apply (accepted_forge 9 _ (honest (2029 + 5) ++ [Some (2 ^ 15 + 15 * 2 ^ 32)])).
    vm_compute. reflexivity.
Qed.
Print Assumptions C48_wrapper_binding_refuted.

(** 3x^3 + 2x^2 + x + 5 at x = -53.854...: 5 is accepted, with Groth16 (width 6)
    and with PLONK (width 7), where the polynomial is below -400000. *)
Theorem C48_polynomial_refuted : exists X Z,
  0 <= X < 2 ^ 64 /\ 0 <= Z < 2 ^ 64 /\ R64 Z = 5%R /\
  (poly (map IZR [5; 1; 2; 3]%Z) (R64 X) < - (400000))%R /\
  forall ft, accepts 0 ft (PolynomialEvalCircuit X Z) tt.
Proof.
  exists 13856148150704320870, 4617315517961601024.
  split; [split; vm_compute; congruence|]. split; [split; vm_compute; congruence|].
  assert (E1 : B2SF (of_bits 11 52 4617315517961601024) = SpecFloat.S754_finite false 5629499534213120 (-50))
    by (vm_compute; reflexivity).
  assert (E2 : B2SF (of_bits 11 52 13856148150704320870) = SpecFloat.S754_finite true 7579296540045670 (-47))
    by (vm_compute; reflexivity).
  split.
  - rewrite (proj1 (B2R_of_SF _ _ _ _ E1)). unfold F2R. cbn. lra.
  - split.
    + rewrite (proj1 (B2R_of_SF _ _ _ _ E2)). unfold F2R. cbn. lra.
    + intros ft. apply (proj2 (proj2 (proj2 (C48_math_widths ft _ _)))).
      apply (accepted_forge _ _ (honest 97 ++ [Some (2 + 2 ^ 64)])). destruct ft; vm_compute; reflexivity.
Qed.
Print Assumptions C48_polynomial_refuted.

(** The sine of 1; the vector of math/math_test.go:60-61; and Horner's
    value for the degree-ten circuit. *)
Example C48_ex :
  run 8 (SinCircuit 4607182418800017408 4605754516372524270) = Some tt /\
  run 8 (PolynomialEvalCircuitDegTen 0x4052804B7BF6345E 0x43D332C535AA3D94) = Some tt /\
  run 6 (PolynomialEvalCircuit 0xC0439E19C2746C32 0xC105BF38139DAE59) = Some tt.
Proof.
  split; [vm_compute; reflexivity|]. split; vm_compute; reflexivity.
Qed.
