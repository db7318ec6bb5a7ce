(** Property C44: the location circuit without hints. *)
From Coq Require Import ZArith Reals Lra Lia Bool List.
From Flocq Require Import Core BinarySingleNaN.
From Verif Require Import Field FieldFacts Circuit RangeCheck RangeFacts GadgetFacts FloatModel Math
  RoundFacts Spec RoundCore RepFacts Forge NewFacts Outcomes Witness Loc2Index LocConst NormFacts
  ScaleFacts ClosestFacts HexFacts PipeFacts LocFacts WrapperFacts PropertiesHex PropertiesPipe.
Import ListNotations.
Local Open Scope Z_scope.

Notation R32 p := (B2R (of_bits 8 23 p)).
Definition h3_cell {MOD : Modulus} (hx hy : fmt 8 23) : Z * Z * Z := (embed3 (h3_hex2d (of_bits 8 23 (k_half constants32)) (of_bits 8 23 (k_third constants32))
  (of_bits 8 23 (k_two_thirds constants32)) (of_bits 8 23 (k_sin60 constants32)) hx hy)).
Definition h3_cell_with {MOD : Modulus} m1 m2 (hx hy : fmt 8 23) : Z * Z * Z := (embed3 (h3_hex2d_with (of_bits 8 23 (k_half constants32))
  (of_bits 8 23 (k_third constants32)) (of_bits 8 23 (k_two_thirds constants32)) (of_bits 8 23 (k_sin60 constants32))
  m1 m2 hx hy)).

(** A position above -pi/2 (the circuit's constant), up to pi/2, and within pi of
    the meridian, but not at longitude -pi/2 exactly.  Its sines and cosines are
    fixed, whoever proves, and close to the real ones.  The repository's prover
    is accepted with H3's cell for them and nothing else; any prover is accepted
    with that, or with integer parts [m1], [m2] it could forge. *)
Theorem C44_wrapper {MOD : Modulus} {b : Z} {HP : Params 8 23 b} Lat Lng :
  pow2_size 8 23 mod b = 0 ->
  0 <= Lat < modulus -> 0 <= Lng < modulus -> 0 <= Lat < 2 ^ 32 -> 0 <= Lng < 2 ^ 32 ->
  is_finite (of_bits 8 23 Lat) = true -> is_finite (of_bits 8 23 Lng) = true ->
  (- R32 half_pi_32 < R32 Lat <= R32 half_pi_32)%R -> (- R32 pi_32 <= R32 Lng <= R32 pi_32)%R ->
  R32 Lng <> (- R32 half_pi_32)%R ->
  exists sl cl sg cg : fmt 8 23,
    computed (b:=b) (of_bits 8 23 Lat) (of_bits 8 23 Lng) sl cl sg cg /\
    (Rabs (B2R sl - sin (R32 Lat)) <= 25 / 10000000)%R /\
    (Rabs (B2R cl - cos (R32 Lat)) <= 31 / 10000000)%R /\
    (Rabs (B2R sg - sin (R32 Lng)) <= 13 / 1000000)%R /\
    (Rabs (B2R cg - cos (R32 Lng)) <= 15 / 1000000)%R /\
    forall res I J K_ hx hy, 0 <= res < modulus -> located constants32 faces32 res sl cl sg cg hx hy ->
    (exec b (loc2Index32CircuitWrapper constants32 faces32 Lat Lng res I J K_) = Some tt <->
     res <= 15 /\ (I, J, K_) = h3_cell hx hy) /\
    (sat b (loc2Index32CircuitWrapper constants32 faces32 Lat Lng res I J K_) tt <->
     res <= 15 /\ exists m1 m2,
       int_part (h3_x1 (of_bits 8 23 (k_sin60 constants32)) hx hy) m1 /\
       int_part (h3_x2 (of_bits 8 23 (k_sin60 constants32)) hy) m2 /\
       (I, J, K_) = h3_cell_with m1 m2 hx hy).
Proof.
  intros Hd Ml Mg Hl Hg Fl Fg Vl Vg Hn.
  destruct (wrapper_reduces Hd Lat Lng Ml Mg Hl Hg Fl Fg Vl Vg Hn)
    as (sl & cl & sg & cg & F & HC & A1 & A2 & A3 & A4 & HW).
  exists sl, cl, sg, cg. do 5 (split; [assumption|]). intros res I J K_ hx hy Hres HL.
  destruct (HW constants32 faces32 res I J K_) as [W1 W2]. split.
  - rewrite W1. split; intros [H15 H]; (split; [exact H15|]);
      apply (C43_locate_complete constants32 faces32 (wires (of_bits 8 23 Lng)) (wires cl) (wires cg)
        (wires sl) (wires sg) res I J K_ sl cl sg cg hx hy ltac:(lia) ltac:(lia)
        pipe_constants_32 ltac:(lia) (wires_represents _) (wires_represents _) (wires_represents _) (wires_represents _) HL) in H;
      exact H.
  - rewrite W2. split; intros [H15 H]; (split; [exact H15|]).
    + exact (proj2 (proj1 (C43_locate_exact constants32 faces32 (wires (of_bits 8 23 Lng)) (wires cl) (wires cg)
        (wires sl) (wires sg) res I J K_ sl cl sg cg hx hy ltac:(lia) ltac:(lia)
        pipe_constants_32 Hd Hres (wires_represents _) (wires_represents _) (wires_represents _) (wires_represents _) HL) H)).
    + apply (proj2 (C43_locate_exact constants32 faces32 (wires (of_bits 8 23 Lng)) (wires cl) (wires cg)
        (wires sl) (wires sg) res I J K_ sl cl sg cg hx hy ltac:(lia) ltac:(lia)
        pipe_constants_32 Hd Hres (wires_represents _) (wires_represents _) (wires_represents _) (wires_represents _) HL)).
      split; [lia|exact H].
Qed.
Print Assumptions C44_wrapper.

(** Unless the prover can forge an integer part, the cell is bound. *)
Theorem C44_binding {MOD : Modulus} {b : Z} {HP : Params 8 23 b} Lat Lng :
  pow2_size 8 23 mod b = 0 ->
  0 <= Lat < modulus -> 0 <= Lng < modulus -> 0 <= Lat < 2 ^ 32 -> 0 <= Lng < 2 ^ 32 ->
  is_finite (of_bits 8 23 Lat) = true -> is_finite (of_bits 8 23 Lng) = true ->
  (- R32 half_pi_32 < R32 Lat <= R32 half_pi_32)%R -> (- R32 pi_32 <= R32 Lng <= R32 pi_32)%R ->
  R32 Lng <> (- R32 half_pi_32)%R ->
  forall sl cl sg cg : fmt 8 23, computed (b:=b) (of_bits 8 23 Lat) (of_bits 8 23 Lng) sl cl sg cg ->
  forall res I J K_ hx hy, 0 <= res < modulus -> located constants32 faces32 res sl cl sg cg hx hy ->
  ~ in_1_2 8 23 (h3_x1 (of_bits 8 23 (k_sin60 constants32)) hx hy) ->
  ~ in_1_2 8 23 (h3_x2 (of_bits 8 23 (k_sin60 constants32)) hy) ->
  sat b (loc2Index32CircuitWrapper constants32 faces32 Lat Lng res I J K_) tt ->
  res <= 15 /\ (I, J, K_) = h3_cell hx hy.
Proof.
  intros Hd Ml Mg Hl Hg Fl Fg Vl Vg Hn sl cl sg cg HC res I J K_ hx hy Hres HL N1 N2 H.
  destruct (C44_wrapper Lat Lng Hd Ml Mg Hl Hg Fl Fg Vl Vg Hn) as (sl' & cl' & sg' & cg' & HC' & _ & _ & _ & _ & HW).
  destruct (computed_unique _ _ _ _ _ _ _ _ _ _ HC HC') as (<- & <- & <- & <-).
  destruct (proj1 (proj2 (HW res I J K_ hx hy Hres HL)) H) as (H15 & m1 & m2 & [->|[F _]] & [->|[F' _]] & ->);
    [split; [exact H15|reflexivity]|contradiction..].
Qed.
Print Assumptions C44_binding.

(** Nothing bounds the latitude from below: -2 radians is accepted. *)
Theorem C44_latitude_bounded_refuted : exists Lat Lng res I J K_,
  (R32 Lat < - (PI / 2))%R /\
  run 8 (loc2Index32CircuitWrapper (MOD:=bn254) constants32 faces32 Lat Lng res I J K_) = Some tt.
Proof.
  exists 3221225472, 0, 3, 36, 0, 10. split; [|vm_compute; reflexivity].
  rewrite (proj1 (SinAccuracy.B2R_of_SF (of_bits 8 23 3221225472) true 8388608 (-22) ltac:(vm_compute; reflexivity))).
  unfold F2R. cbn. pose proof SinError.pi_bounds. lra.
Qed.
Print Assumptions C44_latitude_bounded_refuted.

(** The first position of data/f32/loc2index32.txt, at resolution 3: cell
    (13, 0, 18), for every prover. *)
Definition wrapper_ex (I J K_ : Z) : circ unit :=
  loc2Index32CircuitWrapper (MOD:=bn254) constants32 faces32 1060183999 1060481436 3 I J K_.

Example C44_ex :
  run 8 (wrapper_ex 13 0 18) = Some tt /\
  (forall I J K_, accepted 8 (wrapper_ex I J K_) tt -> (I, J, K_) = (13, 0, 18)).
Proof.
  set (bn m e := binary_normalize _ _ (fmt_prec_gt_0 8 23) (fmt_prec_lt_emax 8 23) mode_NE m e false : fmt 8 23).
  set (sl := bn 10703767 (-24)). set (cl := bn 12919148 (-24)).
  set (sg := bn 10931110 (-24)). set (cg := bn 12727366 (-24)).
  set (hx := bn 8780751 (-21)). set (hy := bn (-16464585) (-20)).
  assert (HC : computed (MOD:=bn254) (b:=8) (of_bits 8 23 1060183999) (of_bits 8 23 1060481436) sl cl sg cg)
    by (repeat (split; [vm_compute; reflexivity|]); vm_compute; reflexivity).
  assert (HL : located (E:=8) (M:=23) constants32 faces32 3 sl cl sg cg hx hy).
  { split; [apply Forall_forall, forallb_forall; vm_compute; reflexivity|].
    exists 4%nat, (nth 4 faces32 zero_face). split; [apply nearestb_spec; [reflexivity|vm_compute; reflexivity]|].
    split.
    - apply plane_eq. vm_compute. reflexivity.
    - destruct (datum_value hx 8780751 (-21) ltac:(vm_compute; reflexivity)) as [_ ->].
      apply Rmult_integral_contrapositive_currified; [apply IZR_neq; discriminate|].
      apply Rgt_not_eq, bpow_gt_0. }
  pose proof (params32 8 ltac:(lia)) as HP.
  destruct (datum_value (of_bits 8 23 1060183999) 11607999 (-24) ltac:(vm_compute; reflexivity)) as [Fl Vl].
  destruct (datum_value (of_bits 8 23 1060481436) 11905436 (-24) ltac:(vm_compute; reflexivity)) as [Fg Vg].
  assert (B : bpow radix2 (-24) = (/ 16777216)%R) by reflexivity. rewrite B in *.
  pose proof SinAccuracy.pi32_R as P1. pose proof SinAccuracy.half32_R as P2.
  assert (HE : h3_cell (MOD:=bn254) hx hy = (13, 0, 18)) by (vm_compute; reflexivity).
  split.
  { destruct (C44_wrapper (MOD:=bn254) (b:=8) (HP:=HP) 1060183999 1060481436 eq_refl
      ltac:(split; vm_compute; congruence) ltac:(split; vm_compute; congruence)
      ltac:(split; vm_compute; congruence) ltac:(split; vm_compute; congruence) Fl Fg
      ltac:(rewrite Vl, P2; lra) ltac:(rewrite Vg, P1; lra) ltac:(rewrite Vg, P2; lra))
      as (sl' & cl' & sg' & cg' & HC' & _ & _ & _ & _ & HW).
    destruct (computed_unique _ _ _ _ _ _ _ _ _ _ HC HC') as (<- & <- & <- & <-).
    apply (proj2 (proj1 (HW 3 13 0 18 hx hy ltac:(split; vm_compute; congruence) HL))).
    split; [lia|symmetry; exact HE]. }
  intros I J K_ H.
  pose proof (fun N1 N2 => C44_binding (MOD:=bn254) (b:=8) (HP:=HP) 1060183999 1060481436 eq_refl
    ltac:(split; vm_compute; congruence) ltac:(split; vm_compute; congruence)
    ltac:(split; vm_compute; congruence) ltac:(split; vm_compute; congruence) Fl Fg
    ltac:(rewrite Vl, P2; lra) ltac:(rewrite Vg, P1; lra) ltac:(rewrite Vg, P2; lra)
    sl cl sg cg HC 3 I J K_ hx hy ltac:(split; vm_compute; congruence) HL N1 N2 H) as HS.
  assert (HS' : (I, J, K_) = h3_cell (MOD:=bn254) hx hy).
  { apply HS; clear HS.
    - intros [_ F]. destruct (datum_value (h3_x1 (of_bits 8 23 (k_sin60 constants32)) hx hy) 13896208 (-20)
        ltac:(vm_compute; reflexivity)) as [_ V]. rewrite V in F.
      assert (B' : bpow radix2 (-20) = (/ 1048576)%R) by reflexivity. rewrite B' in F. rewrite Rabs_pos_eq in F by lra. lra.
    - intros [_ F]. destruct (datum_value (h3_x2 (of_bits 8 23 (k_sin60 constants32)) hy) 9505833 (-19)
        ltac:(vm_compute; reflexivity)) as [_ V]. rewrite V in F.
      assert (B' : bpow radix2 (-19) = (/ 524288)%R) by reflexivity. rewrite B' in F. rewrite Rabs_pos_eq in F by lra. lra. }
  rewrite HS'. exact HE.
Qed.
