(** Property C39, and the part of C22 about automatically chosen base widths:
    the repository's arithmetic circuits, end to end. *)
From Coq Require Import ZArith Reals Bool List.
From Flocq Require Import Core BinarySingleNaN.
From Verif Require Import Field Circuit RangeCheck FloatModel RoundFacts Spec Outcomes
  Deferred Shapes Circuits CircuitShapes CircuitSpec Witness.
Import ListNotations.
Local Open Scope Z_scope.

#[local] Existing Instance bn254 | 1000.
#[local] Notation bits E M v := (0 <= v < 2 ^ (E + M + 1)).

(** ** Any base width for honest provers and comparisons, dividing ones otherwise *)

Theorem C39_mul {MOD : Modulus} {E M b : Z} {HP : Params E M b} {HF : Format E M} X Y Z :
  0 <= X < modulus -> 0 <= Y < modulus -> 0 <= Z < modulus ->
  let ok := bits E M X /\ bits E M Y /\ bits E M Z /\
            of_bits E M Z = ieee_mul E M (of_bits E M X) (of_bits E M Y) in
  (exec b (binary_circuit E M (Mul E M) X Y Z) = Some tt <-> ok) /\
  (pow2_size E M mod b = 0 -> (sat b (binary_circuit E M (Mul E M) X Y Z) tt <-> ok)).
Proof. exact (circuit_mul X Y Z). Qed.
Print Assumptions C39_mul.

Theorem C39_div {MOD : Modulus} {E M b : Z} {HP : Params E M b} {HF : Format E M} X Y Z :
  0 <= X < modulus -> 0 <= Y < modulus -> 0 <= Z < modulus ->
  let ok := bits E M X /\ bits E M Y /\ bits E M Z /\
            of_bits E M Z = ieee_div E M (of_bits E M X) (of_bits E M Y) in
  (exec b (binary_circuit E M (Div E M) X Y Z) = Some tt <-> ok) /\
  (pow2_size E M mod b = 0 -> (sat b (binary_circuit E M (Div E M) X Y Z) tt <-> ok)).
Proof. exact (circuit_div X Y Z). Qed.
Print Assumptions C39_div.

Theorem C39_sqrt {MOD : Modulus} {E M b : Z} {HP : Params E M b} {HF : Format E M} X Y :
  0 <= X < modulus -> 0 <= Y < modulus ->
  let ok := bits E M X /\ bits E M Y /\ of_bits E M Y = ieee_sqrt E M (of_bits E M X) in
  (exec b (unary_circuit E M (Sqrt E M) X Y) = Some tt <-> ok) /\
  (pow2_size E M mod b = 0 -> (sat b (unary_circuit E M (Sqrt E M) X Y) tt <-> ok)).
Proof. exact (circuit_sqrt X Y). Qed.
Print Assumptions C39_sqrt.

Theorem C39_add {MOD : Modulus} {E M b : Z} {HP : Params E M b} {HF : Format E M} X Y Z :
  0 <= X < modulus -> 0 <= Y < modulus -> 0 <= Z < modulus ->
  (exec b (binary_circuit E M (Add E M) X Y Z) = Some tt <->
   bits E M X /\ bits E M Y /\ bits E M Z /\
   of_bits E M Z = honest_sum (of_bits E M X) (of_bits E M Y)) /\
  (pow2_size E M mod b = 0 ->
   (sat b (binary_circuit E M (Add E M) X Y Z) tt <->
    bits E M X /\ bits E M Y /\ bits E M Z /\
    sum_outcome (of_bits E M X) (of_bits E M Y) (of_bits E M Z))).
Proof. exact (circuit_add X Y Z). Qed.
Print Assumptions C39_add.

Theorem C39_sub {MOD : Modulus} {E M b : Z} {HP : Params E M b} {HF : Format E M} X Y Z :
  0 <= X < modulus -> 0 <= Y < modulus -> 0 <= Z < modulus ->
  (exec b (binary_circuit E M (Sub E M) X Y Z) = Some tt <->
   bits E M X /\ bits E M Y /\ bits E M Z /\
   of_bits E M Z = honest_diff (of_bits E M X) (of_bits E M Y)) /\
  (pow2_size E M mod b = 0 ->
   (sat b (binary_circuit E M (Sub E M) X Y Z) tt <->
    bits E M X /\ bits E M Y /\ bits E M Z /\
    diff_outcome (of_bits E M X) (of_bits E M Y) (of_bits E M Z))).
Proof. exact (circuit_sub X Y Z). Qed.
Print Assumptions C39_sub.

Theorem C39_trunc {MOD : Modulus} {E M b : Z} {HP : Params E M b} {HF : Format E M} X Y :
  0 <= X < modulus -> 0 <= Y < modulus ->
  (exec b (unary_circuit E M (Trunc E M) X Y) = Some tt <->
   bits E M X /\ bits E M Y /\ of_bits E M Y = ieee_trunc E M (of_bits E M X)) /\
  (pow2_size E M mod b = 0 ->
   (sat b (unary_circuit E M (Trunc E M) X Y) tt <->
    bits E M X /\ bits E M Y /\ trunc_outcome (of_bits E M X) (of_bits E M Y))).
Proof. exact (circuit_trunc X Y). Qed.
Print Assumptions C39_trunc.

Theorem C39_floor {MOD : Modulus} {E M b : Z} {HP : Params E M b} {HF : Format E M} X Y :
  0 <= X < modulus -> 0 <= Y < modulus ->
  (exec b (unary_circuit E M (Floor E M) X Y) = Some tt <->
   bits E M X /\ bits E M Y /\ of_bits E M Y = ieee_floor E M (of_bits E M X)) /\
  (pow2_size E M mod b = 0 ->
   (sat b (unary_circuit E M (Floor E M) X Y) tt <->
    bits E M X /\ bits E M Y /\ floor_outcome (of_bits E M X) (of_bits E M Y))).
Proof. exact (circuit_floor X Y). Qed.
Print Assumptions C39_floor.

Theorem C39_ceil {MOD : Modulus} {E M b : Z} {HP : Params E M b} {HF : Format E M} X Y :
  0 <= X < modulus -> 0 <= Y < modulus ->
  (exec b (unary_circuit E M (Ceil E M) X Y) = Some tt <->
   bits E M X /\ bits E M Y /\ of_bits E M Y = ieee_ceil E M (of_bits E M X)) /\
  (pow2_size E M mod b = 0 ->
   (sat b (unary_circuit E M (Ceil E M) X Y) tt <->
    bits E M X /\ bits E M Y /\ ceil_outcome (of_bits E M X) (of_bits E M Y))).
Proof. exact (circuit_ceil X Y). Qed.
Print Assumptions C39_ceil.

Theorem C39_comparisons {MOD : Modulus} {E M b : Z} {HP : Params E M b} {HF : Format E M} X Y Z :
  0 <= X < modulus -> 0 <= Y < modulus ->
  Forall (fun p : (FloatVar -> FloatVar -> circ BinNums.Z) * (fmt E M -> fmt E M -> bool) =>
    let ok := bits E M X /\ bits E M Y /\ Z = Z.b2z (snd p (of_bits E M X) (of_bits E M Y)) in
    (sat b (comparison_circuit E M (fst p) X Y Z) tt <-> ok) /\
    (exec b (comparison_circuit E M (fst p) X Y Z) = Some tt <-> ok))
  [(IsLt E M, ieee_lt E M); (IsLe E M, ieee_le E M);
   (IsGt E M, fun x y => ieee_lt E M y x); (IsGe E M, fun x y => ieee_le E M y x)].
Proof.
  intros HX HY. repeat apply Forall_cons; cbn [fst snd].
  - exact (circuit_lt X Y Z HX HY).
  - exact (circuit_le X Y Z HX HY).
  - exact (circuit_gt X Y Z HX HY).
  - exact (circuit_ge X Y Z HX HY).
  - apply Forall_nil.
Qed.
Print Assumptions C39_comparisons.

(** Different NaN patterns are interchangeable. *)
Theorem C39_allocation {MOD : Modulus} {E M b : Z} {HP : Params E M b} {HF : Format E M} X y :
  0 <= X < modulus -> bits E M y ->
  let ok := bits E M X /\ of_bits E M X = of_bits E M y in
  (sat b (allocation_circuit E M X y) tt <-> ok) /\
  (exec b (allocation_circuit E M X y) = Some tt <-> ok).
Proof. exact (allocation_sat X y). Qed.
Print Assumptions C39_allocation.

Theorem C39_conversion {MOD : Modulus} {E M b : Z} {HP : Params E M b} {HF : Format E M} X Y :
  0 <= X < modulus -> pow2_size E M mod b = 0 ->
  Forall (fun p : (FloatVar -> circ FloatVar) * (fmt E M -> Z -> Prop) =>
    sat b (conversion_circuit E M (fst p) X Y) tt <->
    bits E M X /\ is_finite (of_bits E M X) = true /\
    exists n, snd p (of_bits E M X) n /\ Z.abs n < 2 ^ (M + E + 1) /\ Y = emb n)
  [(Trunc E M, trunc_int); (Floor E M, floor_int); (Ceil E M, ceil_int)].
Proof.
  intros HX Hd. repeat apply Forall_cons; cbn [fst snd].
  - exact (circuit_to_int_trunc X Y HX Hd).
  - exact (circuit_to_int_floor X Y HX Hd).
  - exact (circuit_to_int_ceil X Y HX Hd).
  - apply Forall_nil.
Qed.
Print Assumptions C39_conversion.

Theorem C39_conversion_complete {MOD : Modulus} {E M b : Z} {HP : Params E M b}
  {HF : Format E M} X n : bits E M X -> is_finite (of_bits E M X) = true ->
  Z.abs n < 2 ^ (M + E + 1) ->
  (n = Ztrunc (B2R (of_bits E M X)) ->
   exec b (conversion_circuit E M (Trunc E M) X (emb n)) = Some tt) /\
  (n = Zfloor (B2R (of_bits E M X)) ->
   exec b (conversion_circuit E M (Floor E M) X (emb n)) = Some tt) /\
  (n = Zceil (B2R (of_bits E M X)) ->
   exec b (conversion_circuit E M (Ceil E M) X (emb n)) = Some tt).
Proof. exact (circuit_to_int_exec X n). Qed.
Print Assumptions C39_conversion_complete.

(** 1.5 * 2.25 = 3.375; not 3.25. *)
Example C39_ex_mul :
  run 4 (binary_circuit 8 23 (Mul 8 23) 0x3FC00000 0x40100000 0x40580000) = Some tt /\
  run 4 (binary_circuit 8 23 (Mul 8 23) 0x3FC00000 0x40100000 0x40500000) = None /\
  pow2_size 8 23 mod 4 = 0.
Proof. repeat split; vm_compute; reflexivity. Qed.
(** Any NaN for 0/0, and no pattern of 33 bits. *)
Example C39_ex_div :
  run 4 (binary_circuit 8 23 (Div 8 23) 0 0 0x7FC00000) = Some tt /\
  run 4 (binary_circuit 8 23 (Div 8 23) 0 0 0xFFFFFFFF) = Some tt /\
  run 4 (binary_circuit 8 23 (Div 8 23) 0 0 0x17FC00000) = None.
Proof. repeat split; vm_compute; reflexivity. Qed.
Example C39_ex_unary :
  run 8 (unary_circuit 11 52 (Sqrt 11 52) 0x4000000000000000 0x3FF6A09E667F3BCD) = Some tt /\
  run 8 (unary_circuit 11 52 (Floor 11 52) 0xBFF8000000000000 0xC000000000000000) = Some tt /\
  run 8 (unary_circuit 11 52 (Ceil 11 52) 0xBFF8000000000000 0xBFF0000000000000) = Some tt.
Proof. repeat split; vm_compute; reflexivity. Qed.
Example C39_ex_conversion :
  run 4 (conversion_circuit 8 23 (Floor 8 23) 0xC0200000 (emb (-3))) = Some tt /\
  run 4 (conversion_circuit 8 23 (Floor 8 23) 0xC0200000 (emb (-2))) = None.
Proof. split; vm_compute; reflexivity. Qed.

(** ** Automatically chosen base widths *)

(** The tests pass 0 for the size of the range check table, so that the base
    width is the one minimising the estimated number of constraints. *)
Theorem C39_widths :
  map widths
    [(fun E M => binary_shape E M (add_shape E M)); (fun E M => binary_shape E M (mul_shape E M));
     (fun E M => binary_shape E M (div_shape E M)); (fun E M => unary_shape E M (sqrt_shape E M));
     (fun E M => unary_shape E M (trunc_shape E M)); (fun E M => unary_shape E M (cmp_shape E M));
     newfloat_shape; conversion_shape] =
  [[4; 5; 6; 6]; [4; 5; 6; 6]; [5; 5; 6; 6]; [4; 4; 5; 6]; [4; 4; 5; 6]; [4; 4; 4; 4];
   [4; 4; 4; 4]; [4; 4; 4; 5]].
Proof. vm_compute. reflexivity. Qed.
Print Assumptions C39_widths.

(** binary32 multiplication with Groth16. *)
Theorem C39_mul32_groth16 X Y Z :
  0 <= X < modulus -> 0 <= Y < modulus -> 0 <= Z < modulus ->
  (accepts 0 R1CS (binary_circuit 8 23 (Mul 8 23) X Y Z) tt <->
   bits 8 23 X /\ bits 8 23 Y /\ bits 8 23 Z /\
   of_bits 8 23 Z = ieee_mul 8 23 (of_bits 8 23 X) (of_bits 8 23 Y)).
Proof.
  intros HX HY HZ.
  rewrite (accepts_static 0 R1CS _ _ tt (collects_binary 8 23 _ _ X Y Z (collects_Mul 8 23))).
  change (baseLength _ _ _) with (auto_width R1CS (binary_shape 8 23 (mul_shape 8 23))).
  replace (auto_width _ _) with 4 by (vm_compute; reflexivity).
  pose proof (params32 4 ltac:(Lia.lia)) as HP.
  apply (C39_mul (MOD:=bn254) (E:=8) (M:=23) (b:=4) X Y Z HX HY HZ). reflexivity.
Qed.
Print Assumptions C39_mul32_groth16.

(** Addition and subtraction with Groth16. *)
Theorem C39_add32_groth16 X Y Z :
  0 <= X < modulus -> 0 <= Y < modulus -> 0 <= Z < modulus ->
  (accepts 0 R1CS (binary_circuit 8 23 (Add 8 23) X Y Z) tt <->
   bits 8 23 X /\ bits 8 23 Y /\ bits 8 23 Z /\
   sum_outcome (of_bits 8 23 X) (of_bits 8 23 Y) (of_bits 8 23 Z)) /\
  (accepts 0 R1CS (binary_circuit 8 23 (Sub 8 23) X Y Z) tt <->
   bits 8 23 X /\ bits 8 23 Y /\ bits 8 23 Z /\
   diff_outcome (of_bits 8 23 X) (of_bits 8 23 Y) (of_bits 8 23 Z)).
Proof.
  intros HX HY HZ.
  rewrite (accepts_static 0 R1CS _ _ tt (collects_binary 8 23 _ _ X Y Z (collects_Add 8 23))).
  rewrite (accepts_static 0 R1CS _ _ tt (collects_binary 8 23 _ _ X Y Z (collects_Sub 8 23))).
  change (baseLength _ _ _) with (auto_width R1CS (binary_shape 8 23 (add_shape 8 23))).
  replace (auto_width _ _) with 4 by (vm_compute; reflexivity).
  pose proof (params32 4 ltac:(Lia.lia)) as HP. split.
  - apply (C39_add (MOD:=bn254) (E:=8) (M:=23) (b:=4) X Y Z HX HY HZ). reflexivity.
  - apply (C39_sub (MOD:=bn254) (E:=8) (M:=23) (b:=4) X Y Z HX HY HZ). reflexivity.
Qed.
Print Assumptions C39_add32_groth16.

(** Square root and rounding to integral values, either proof system. *)
Theorem C39_unary32 ft X Y : 0 <= X < modulus -> 0 <= Y < modulus ->
  Forall (fun p : (FloatVar -> circ FloatVar) * (fmt 8 23 -> fmt 8 23 -> Prop) =>
    accepts 0 ft (unary_circuit 8 23 (fst p) X Y) tt <->
    bits 8 23 X /\ bits 8 23 Y /\ snd p (of_bits 8 23 X) (of_bits 8 23 Y))
  [(Sqrt 8 23, fun x f => f = ieee_sqrt 8 23 x); (Trunc 8 23, trunc_outcome);
   (Floor 8 23, floor_outcome); (Ceil 8 23, ceil_outcome)].
Proof.
  intros HX HY. pose proof (params32 4 ltac:(Lia.lia)) as HP.
  assert (W1 : auto_width ft (unary_shape 8 23 (sqrt_shape 8 23)) = 4)
    by (destruct ft; vm_compute; reflexivity).
  assert (W2 : auto_width ft (unary_shape 8 23 (trunc_shape 8 23)) = 4)
    by (destruct ft; vm_compute; reflexivity).
  repeat apply Forall_cons; cbn [fst snd].
  - rewrite (accepts_static 0 ft _ _ tt (collects_unary 8 23 _ _ X Y (collects_Sqrt 8 23))).
    change (baseLength _ _ _) with (auto_width ft (unary_shape 8 23 (sqrt_shape 8 23))).
    rewrite W1. apply (C39_sqrt (MOD:=bn254) (E:=8) (M:=23) (b:=4) X Y HX HY). reflexivity.
  - rewrite (accepts_static 0 ft _ _ tt (collects_unary 8 23 _ _ X Y (collects_Trunc 8 23))).
    change (baseLength _ _ _) with (auto_width ft (unary_shape 8 23 (trunc_shape 8 23))).
    rewrite W2. apply (C39_trunc (MOD:=bn254) (E:=8) (M:=23) (b:=4) X Y HX HY). reflexivity.
  - rewrite (accepts_static 0 ft _ _ tt (collects_unary 8 23 _ _ X Y (collects_Floor 8 23))).
    change (baseLength _ _ _) with (auto_width ft (unary_shape 8 23 (trunc_shape 8 23))).
    rewrite W2. apply (C39_floor (MOD:=bn254) (E:=8) (M:=23) (b:=4) X Y HX HY). reflexivity.
  - rewrite (accepts_static 0 ft _ _ tt (collects_unary 8 23 _ _ X Y (collects_Ceil 8 23))).
    change (baseLength _ _ _) with (auto_width ft (unary_shape 8 23 (trunc_shape 8 23))).
    rewrite W2. apply (C39_ceil (MOD:=bn254) (E:=8) (M:=23) (b:=4) X Y HX HY). reflexivity.
  - apply Forall_nil.
Qed.
Print Assumptions C39_unary32.

(** Conversion of binary32 with either proof system, of binary64 with Groth16. *)
Theorem C39_conversion32 ft X Y : 0 <= X < modulus ->
  Forall (fun p : (FloatVar -> circ FloatVar) * (fmt 8 23 -> Z -> Prop) =>
    accepts 0 ft (conversion_circuit 8 23 (fst p) X Y) tt <->
    bits 8 23 X /\ is_finite (of_bits 8 23 X) = true /\
    exists n, snd p (of_bits 8 23 X) n /\ Z.abs n < 2 ^ 32 /\ Y = emb n)
  [(Trunc 8 23, trunc_int); (Floor 8 23, floor_int); (Ceil 8 23, ceil_int)].
Proof.
  intros HX. pose proof (params32 4 ltac:(Lia.lia)) as HP.
  assert (W : auto_width ft (conversion_shape 8 23) = 4) by (destruct ft; vm_compute; reflexivity).
  pose proof (C39_conversion (MOD:=bn254) (E:=8) (M:=23) (b:=4) X Y HX eq_refl) as H.
  inversion_clear H as [|? ? H1 H']. inversion_clear H' as [|? ? H2 H''].
  inversion_clear H'' as [|? ? H3 _].
  repeat apply Forall_cons; cbn [fst snd] in *.
  - rewrite (accepts_static 0 ft _ _ tt (collects_conversion 8 23 _ X Y (collects_Trunc 8 23))).
    change (baseLength _ _ _) with (auto_width ft (conversion_shape 8 23)). rewrite W. exact H1.
  - rewrite (accepts_static 0 ft _ _ tt (collects_conversion 8 23 _ X Y (collects_Floor 8 23))).
    change (baseLength _ _ _) with (auto_width ft (conversion_shape 8 23)). rewrite W. exact H2.
  - rewrite (accepts_static 0 ft _ _ tt (collects_conversion 8 23 _ X Y (collects_Ceil 8 23))).
    change (baseLength _ _ _) with (auto_width ft (conversion_shape 8 23)). rewrite W. exact H3.
  - apply Forall_nil.
Qed.
Print Assumptions C39_conversion32.

Theorem C39_conversion64_groth16 X Y : 0 <= X < modulus ->
  Forall (fun p : (FloatVar -> circ FloatVar) * (fmt 11 52 -> Z -> Prop) =>
    accepts 0 R1CS (conversion_circuit 11 52 (fst p) X Y) tt <->
    bits 11 52 X /\ is_finite (of_bits 11 52 X) = true /\
    exists n, snd p (of_bits 11 52 X) n /\ Z.abs n < 2 ^ 64 /\ Y = emb n)
  [(Trunc 11 52, trunc_int); (Floor 11 52, floor_int); (Ceil 11 52, ceil_int)].
Proof.
  intros HX. pose proof (params64 4 ltac:(Lia.lia)) as HP.
  assert (W : auto_width R1CS (conversion_shape 11 52) = 4) by (vm_compute; reflexivity).
  pose proof (C39_conversion (MOD:=bn254) (E:=11) (M:=52) (b:=4) X Y HX eq_refl) as H.
  inversion_clear H as [|? ? H1 H']. inversion_clear H' as [|? ? H2 H''].
  inversion_clear H'' as [|? ? H3 _].
  repeat apply Forall_cons; cbn [fst snd] in *.
  - rewrite (accepts_static 0 R1CS _ _ tt (collects_conversion 11 52 _ X Y (collects_Trunc 11 52))).
    change (baseLength _ _ _) with (auto_width R1CS (conversion_shape 11 52)). rewrite W. exact H1.
  - rewrite (accepts_static 0 R1CS _ _ tt (collects_conversion 11 52 _ X Y (collects_Floor 11 52))).
    change (baseLength _ _ _) with (auto_width R1CS (conversion_shape 11 52)). rewrite W. exact H2.
  - rewrite (accepts_static 0 R1CS _ _ tt (collects_conversion 11 52 _ X Y (collects_Ceil 11 52))).
    change (baseLength _ _ _) with (auto_width R1CS (conversion_shape 11 52)). rewrite W. exact H3.
  - apply Forall_nil.
Qed.
Print Assumptions C39_conversion64_groth16.

(** Comparisons, both formats and proof systems. *)
Theorem C39_comparisons_auto ft X Y Z : 0 <= X < modulus -> 0 <= Y < modulus ->
  Forall (fun p : (FloatVar -> FloatVar -> circ BinNums.Z) * (fmt 8 23 -> fmt 8 23 -> bool) =>
    accepts 0 ft (comparison_circuit 8 23 (fst p) X Y Z) tt <->
    bits 8 23 X /\ bits 8 23 Y /\ Z = Z.b2z (snd p (of_bits 8 23 X) (of_bits 8 23 Y)))
  [(IsLt 8 23, ieee_lt 8 23); (IsLe 8 23, ieee_le 8 23);
   (IsGt 8 23, fun x y => ieee_lt 8 23 y x); (IsGe 8 23, fun x y => ieee_le 8 23 y x)] /\
  Forall (fun p : (FloatVar -> FloatVar -> circ BinNums.Z) * (fmt 11 52 -> fmt 11 52 -> bool) =>
    accepts 0 ft (comparison_circuit 11 52 (fst p) X Y Z) tt <->
    bits 11 52 X /\ bits 11 52 Y /\ Z = Z.b2z (snd p (of_bits 11 52 X) (of_bits 11 52 Y)))
  [(IsLt 11 52, ieee_lt 11 52); (IsLe 11 52, ieee_le 11 52);
   (IsGt 11 52, fun x y => ieee_lt 11 52 y x); (IsGe 11 52, fun x y => ieee_le 11 52 y x)].
Proof.
  intros HX HY. split.
  - pose proof (params32 4 ltac:(Lia.lia)) as HP.
    assert (W : auto_width ft (unary_shape 8 23 (cmp_shape 8 23)) = 4)
      by (destruct ft; vm_compute; reflexivity).
    pose proof (C39_comparisons (MOD:=bn254) (E:=8) (M:=23) (b:=4) X Y Z HX HY) as H.
    inversion_clear H as [|? ? [H1 _] H']. inversion_clear H' as [|? ? [H2 _] H''].
    inversion_clear H'' as [|? ? [H3 _] H]. inversion_clear H as [|? ? [H4 _] _].
    repeat apply Forall_cons; cbn [fst snd] in *; [| | | |apply Forall_nil].
    + rewrite (accepts_static 0 ft _ _ tt (collects_comparison 8 23 _ _ X Y Z (collects_IsLt 8 23))).
      change (baseLength _ _ _) with (auto_width ft (unary_shape 8 23 (cmp_shape 8 23))).
      rewrite W. exact H1.
    + rewrite (accepts_static 0 ft _ _ tt (collects_comparison 8 23 _ _ X Y Z (collects_IsLe 8 23))).
      change (baseLength _ _ _) with (auto_width ft (unary_shape 8 23 (cmp_shape 8 23))).
      rewrite W. exact H2.
    + rewrite (accepts_static 0 ft _ _ tt (collects_comparison 8 23 _ _ X Y Z (collects_IsGt 8 23))).
      change (baseLength _ _ _) with (auto_width ft (unary_shape 8 23 (cmp_shape 8 23))).
      rewrite W. exact H3.
    + rewrite (accepts_static 0 ft _ _ tt (collects_comparison 8 23 _ _ X Y Z (collects_IsGe 8 23))).
      change (baseLength _ _ _) with (auto_width ft (unary_shape 8 23 (cmp_shape 8 23))).
      rewrite W. exact H4.
  - pose proof (params64 4 ltac:(Lia.lia)) as HP.
    assert (W : auto_width ft (unary_shape 11 52 (cmp_shape 11 52)) = 4)
      by (destruct ft; vm_compute; reflexivity).
    pose proof (C39_comparisons (MOD:=bn254) (E:=11) (M:=52) (b:=4) X Y Z HX HY) as H.
    inversion_clear H as [|? ? [H1 _] H']. inversion_clear H' as [|? ? [H2 _] H''].
    inversion_clear H'' as [|? ? [H3 _] H]. inversion_clear H as [|? ? [H4 _] _].
    repeat apply Forall_cons; cbn [fst snd] in *; [| | | |apply Forall_nil].
    + rewrite (accepts_static 0 ft _ _ tt (collects_comparison 11 52 _ _ X Y Z (collects_IsLt 11 52))).
      change (baseLength _ _ _) with (auto_width ft (unary_shape 11 52 (cmp_shape 11 52))).
      rewrite W. exact H1.
    + rewrite (accepts_static 0 ft _ _ tt (collects_comparison 11 52 _ _ X Y Z (collects_IsLe 11 52))).
      change (baseLength _ _ _) with (auto_width ft (unary_shape 11 52 (cmp_shape 11 52))).
      rewrite W. exact H2.
    + rewrite (accepts_static 0 ft _ _ tt (collects_comparison 11 52 _ _ X Y Z (collects_IsGt 11 52))).
      change (baseLength _ _ _) with (auto_width ft (unary_shape 11 52 (cmp_shape 11 52))).
      rewrite W. exact H3.
    + rewrite (accepts_static 0 ft _ _ tt (collects_comparison 11 52 _ _ X Y Z (collects_IsGe 11 52))).
      change (baseLength _ _ _) with (auto_width ft (unary_shape 11 52 (cmp_shape 11 52))).
      rewrite W. exact H4.
Qed.
Print Assumptions C39_comparisons_auto.

(** ** False results accepted by the repository's own test circuits *)

Ltac accepted_at w shape tape :=
  rewrite (accepts_static 0 _ _ _ tt shape);
  match goal with |- sat ?b ?c _ => replace b with w by (vm_compute; reflexivity) end;
  apply (accepted_forge w _ tape); vm_compute; reflexivity.

(** 13325 * 80581 = 0 with PLONK. *)
Theorem C22_mul32_auto_refuted :
  accepts 0 SCS (binary_circuit 8 23 (Mul 8 23) 0x46503400 0x479D6280 0) tt /\
  of_bits 8 23 0x46503400 = f32 13325 0 /\ of_bits 8 23 0x479D6280 = f32 80581 0 /\
  of_bits 8 23 0 = B754_zero false.
Proof.
  split; [|split; [|split]].
  - accepted_at 5 (collects_binary 8 23 _ _ 0x46503400 0x479D6280 0 (collects_Mul 8 23))
      (honest 17 ++ [Some (16 + 4 * 2 ^ 32)]).
  - apply B2SF_inj. vm_compute. reflexivity.
  - apply B2SF_inj. vm_compute. reflexivity.
  - apply B2SF_inj. vm_compute. reflexivity.
Qed.
Print Assumptions C22_mul32_auto_refuted.

(** 77158673929 * 119537721 = 0 with either proof system. *)
Theorem C22_mul64_auto_refuted ft :
  accepts 0 ft (binary_circuit 11 52 (Mul 11 52) 4769865076612595712 4727794450145738752 0) tt /\
  of_bits 11 52 4769865076612595712 = f64 77158673929 0 /\
  of_bits 11 52 4727794450145738752 = f64 119537721 0 /\
  of_bits 11 52 0 = B754_zero false.
Proof.
  split; [|split; [|split]].
  - destruct ft;
    accepted_at 6 (collects_binary 11 52 _ _ 4769865076612595712 4727794450145738752 0
                     (collects_Mul 11 52))
      (honest 17 ++ [Some (2 + 2 ^ 64)]).
  - apply B2SF_inj. vm_compute. reflexivity.
  - apply B2SF_inj. vm_compute. reflexivity.
  - apply B2SF_inj. vm_compute. reflexivity.
Qed.
Print Assumptions C22_mul64_auto_refuted.

(** A quotient of 8 times the least subnormal, accepted as 0. *)
Theorem C22_div32_auto_refuted ft :
  accepts 0 ft (binary_circuit 8 23 (Div 8 23) 905973760 0x7F000000 0) tt /\
  ieee_div 8 23 (of_bits 8 23 905973760) (of_bits 8 23 0x7F000000) = f32 8 (-149) /\
  of_bits 8 23 0 = B754_zero false.
Proof.
  split; [|split].
  - destruct ft;
    accepted_at 5 (collects_binary 8 23 _ _ 905973760 0x7F000000 0 (collects_Div 8 23))
      (honest 18 ++ [Some (2 ^ 21 + 2 ^ 32)]).
  - apply B2SF_inj. vm_compute. reflexivity.
  - apply B2SF_inj. vm_compute. reflexivity.
Qed.
Print Assumptions C22_div32_auto_refuted.

Theorem C22_div64_auto_refuted ft :
  accepts 0 ft (binary_circuit 11 52 (Div 11 52) 2139209823000985601 6791428238074707968 0) tt /\
  ieee_div 11 52 (of_bits 11 52 2139209823000985601) (of_bits 11 52 6791428238074707968)
    = f64 (2 ^ 41) (-1074) /\
  of_bits 11 52 0 = B754_zero false.
Proof.
  split; [|split].
  - destruct ft;
    accepted_at 6 (collects_binary 11 52 _ _ 2139209823000985601 6791428238074707968 0
                     (collects_Div 11 52))
      (honest 18 ++ [Some (2 ^ 12 + 2 ^ 64)]).
  - apply B2SF_inj. vm_compute. reflexivity.
  - apply B2SF_inj. vm_compute. reflexivity.
Qed.
Print Assumptions C22_div64_auto_refuted.

(** Floor(2 + 2^-11) = 0. *)
Theorem C22_floor64_auto_refuted ft :
  accepts 0 ft (unary_circuit 11 52 (Floor 11 52) 4611687117939015680 0) tt /\
  of_bits 11 52 4611687117939015680 = f64 4097 (-11) /\
  ieee_floor 11 52 (f64 4097 (-11)) = f64 2 0.
Proof.
  split; [|split].
  - destruct ft.
    + accepted_at 5 (collects_unary 11 52 _ _ 4611687117939015680 0 (collects_Floor 11 52))
        (honest 12 ++ [Some (2 ^ 52 + 2 ^ 64)]).
    + accepted_at 6 (collects_unary 11 52 _ _ 4611687117939015680 0 (collects_Floor 11 52))
        (honest 12 ++ [Some (2 ^ 52 + 2 ^ 64)]).
  - apply B2SF_inj. vm_compute. reflexivity.
  - apply B2SF_inj. vm_compute. reflexivity.
Qed.
Print Assumptions C22_floor64_auto_refuted.

(** The integer of 1.0 is 2 + 2^64 with PLONK. *)
Theorem C22_toint64_auto_refuted :
  accepts 0 SCS (conversion_circuit 11 52 (Trunc 11 52) 0x3FF0000000000000 (2 + 2 ^ 64)) tt /\
  of_bits 11 52 0x3FF0000000000000 = f64 1 0.
Proof.
  split.
  - accepted_at 5 (collects_conversion 11 52 _ 0x3FF0000000000000 (2 + 2 ^ 64)
                     (collects_Trunc 11 52))
      (honest 11 ++ [Some (2 + 2 ^ 64)]).
  - apply B2SF_inj. vm_compute. reflexivity.
Qed.
Print Assumptions C22_toint64_auto_refuted.
