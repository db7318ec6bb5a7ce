(** Properties C01-C09 and C30-C32: components of bit patterns, float
    allocation, range checks, integer gadgets and their cost. *)
From Coq Require Import ZArith Reals Bool List Lia.
From Flocq Require Import Core BinarySingleNaN.
From Verif Require Import Field FieldFacts Circuit Hints RangeCheck Gadget Util FloatModel
  CircuitFacts RangeFacts GadgetFacts Deferred Shapes Counters RoundFacts Spec CompFacts NewFacts
  GadgetExtra Witness.
Import ListNotations.
Local Open Scope Z_scope.

#[local] Existing Instance bn254 | 1000.
#[local] Notation new32 := (NewFloat (MOD:=bn254) 8 23).
#[local] Notation new64 := (NewFloat (MOD:=bn254) 11 52).

(** ** C01, C02: bit patterns and components *)

Theorem C01_components {E M : Z} {HF : Format E M} v : 0 <= v < 2 ^ (E + M + 1) ->
  let c := ComponentsOf v E M in
  (co_s c = 0 \/ co_s c = 1) /\ (co_a c = 0 \/ co_a c = 1) /\
  zrep E M (mkZ (co_s c =? 1) (co_e c) (co_m c) (co_a c =? 1)) (of_bits E M v).
Proof. exact (components_rep v). Qed.
Print Assumptions C01_components.

Theorem C01_value {E M : Z} {HF : Format E M} v : 0 <= v < 2 ^ (E + M + 1) ->
  let c := ComponentsOf v E M in
  let f := of_bits E M v in
  (is_finite f = true <-> co_a c = 0) /\
  (is_finite f = true ->
     B2R f = ((if co_s c =? 1 then -1 else 1) * IZR (co_m c) * bpow radix2 (co_e c - M))%R /\
     (co_m c = 0 \/ 2 ^ M <= co_m c < 2 ^ (M + 1))) /\
  (is_nan f = true <-> co_a c = 1 /\ co_m c = 0) /\
  (is_nan f = false -> Bsign f = (co_s c =? 1)).
Proof. exact (components_value v). Qed.
Print Assumptions C01_value.

(** -1.5, the least subnormal, infinity, a signalling NaN; in binary64, -0. *)
Example C01_ex :
  ComponentsOf 3217031168 8 23 = mkComp 1 0 12582912 0 /\
  ComponentsOf 1 8 23 = mkComp 0 (-149) 8388608 0 /\
  ComponentsOf 2139095040 8 23 = mkComp 0 128 8388608 1 /\
  ComponentsOf 2139095041 8 23 = mkComp 0 128 0 1 /\
  ComponentsOf (2 ^ 63) 11 52 = mkComp 1 (-1075) 0 0 /\
  B2SF (of_bits 8 23 3217031168) = B2SF (f32 (-3) (-1)).
Proof. repeat split; vm_compute; reflexivity. Qed.

Theorem C02_valueof {E M : Z} {HF : Format E M} v : 0 <= v < 2 ^ (E + M + 1) ->
  exists w, ValueOf (ComponentsOf v E M) E M = Some w /\ 0 <= w < 2 ^ (E + M + 1) /\
    of_bits E M w = of_bits E M v /\ (is_nan (of_bits E M v) = false -> w = v).
Proof. exact (valueof_spec v). Qed.
Print Assumptions C02_valueof.

Theorem C02_injective {E M : Z} {HF : Format E M} v w :
  0 <= v < 2 ^ (E + M + 1) -> 0 <= w < 2 ^ (E + M + 1) ->
  is_nan (of_bits E M v) = false -> ComponentsOf v E M = ComponentsOf w E M -> v = w.
Proof. exact (components_inj v w). Qed.
Print Assumptions C02_injective.

Example C02_ex :
  ValueOf (ComponentsOf 3217031168 8 23) 8 23 = Some 3217031168 /\
  ValueOf (ComponentsOf 5 11 52) 11 52 = Some 5 /\
  ValueOf (ComponentsOf 4290772992 8 23) 8 23 = Some 4286578689 /\
  ComponentsOf 4290772992 8 23 = ComponentsOf 4286578689 8 23.
Proof. repeat split; vm_compute; reflexivity. Qed.

(** ** C03, C04: NewFloat *)

Theorem C03_newfloat_sound {MOD : Modulus} {E M b : Z} {HP : Params E M b} {HF : Format E M}
  v r : 0 <= v < modulus ->
  (sat b (NewFloat E M v) r <-> 0 <= v < 2 ^ (E + M + 1) /\ r = NewConstant E M v).
Proof. exact (newfloat_sound v r). Qed.
Print Assumptions C03_newfloat_sound.

(** The constant has the wires of the datum of the pattern. *)
Theorem C03_newconstant {MOD : Modulus} {E M : Z} {HF : Format E M} v :
  0 <= v < 2 ^ (E + M + 1) -> represents (NewConstant E M v) (of_bits E M v).
Proof. exact (newconst_spec v). Qed.
Print Assumptions C03_newconstant.

Theorem C04_newfloat_complete {MOD : Modulus} {E M b : Z} {HP : Params E M b} {HF : Format E M}
  v : 0 <= v < 2 ^ (E + M + 1) ->
  exec b (NewFloat E M v) = Some (NewConstant E M v) /\
  represents (NewConstant E M v) (of_bits E M v).
Proof. exact (newfloat_complete v). Qed.
Print Assumptions C04_newfloat_complete.

Theorem C04_newfloat_rejects {MOD : Modulus} {E M b : Z} {HP : Params E M b} {HF : Format E M}
  v : 2 ^ (E + M + 1) <= v < modulus ->
  exec b (NewFloat E M v) = None /\ forall r, ~ sat b (NewFloat E M v) r.
Proof. exact (newfloat_rejects v). Qed.
Print Assumptions C04_newfloat_rejects.

Example C03_ex :
  run 5 (new32 3217031168) = Some (w32 (f32 (-3) (-1))) /\
  run 11 (new32 1) = Some (w32 (f32 1 (-149))) /\
  run 17 (new64 (2 ^ 63)) = Some (w64 (B754_zero true)) /\
  run 8 (new32 (2 ^ 32)) = None.
Proof. repeat split; vm_compute; reflexivity. Qed.

(** ** C05, C06: range checks *)

(** [b * ((bits + b - 1) / b)] is the least multiple of [b] not below [bits]. *)
Theorem C05_modes {MOD : Modulus} {b K : Z} {HW : Width b K} v bits :
  1 <= bits -> bits + b <= K -> 0 <= v < modulus ->
  (range_ok b v bits Loose <-> v < 2 ^ (b * ((bits + b - 1) / b))) /\
  (range_ok b v bits TightForUnknownRange <-> v < 2 ^ bits) /\
  (range_ok b v bits TightForSmallAbs <->
     (v * 2 ^ (b * ((bits + b - 1) / b) - bits)) mod modulus < 2 ^ (b * ((bits + b - 1) / b))).
Proof. exact (range_modes v bits). Qed.
Print Assumptions C05_modes.

Theorem C05_small_abs {MOD : Modulus} {b K : Z} {HW : Width b K} z bits :
  1 <= bits -> bits + b <= K -> - 2 ^ (K - b) <= z <= 2 ^ (K - b) ->
  (range_ok b (emb z) bits TightForSmallAbs <-> 0 <= z < 2 ^ bits).
Proof. intros H1 H2. exact (check_small z bits H1 H2). Qed.
Print Assumptions C05_small_abs.

(** Ten bits with base width 4: Loose lets 4095 through.  For unrestricted
    values the small-absolute-value mode accepts the inverse of 4. *)
Example C05_ex :
  accepted 4 (AssertBitLength 4095 10 Loose) tt /\
  ~ accepted 4 (AssertBitLength 4096 10 Loose) tt /\
  ~ accepted 4 (AssertBitLength 1024 10 TightForSmallAbs) tt /\
  ~ accepted 4 (AssertBitLength 1024 10 TightForUnknownRange) tt /\
  accepted 4 (AssertBitLength (inv_mod bn254_r 4) 10 TightForSmallAbs) tt.
Proof.
  assert (HW : @Width bn254 4 200) by (constructor; vm_compute; intuition congruence).
  pose proof (fun v H => C05_modes (MOD:=bn254) (b:=4) (K:=200) v 10 ltac:(Lia.lia) ltac:(Lia.lia) H) as H.
  unfold accepted, sat, AssertBitLength, check, satG.
  pose proof (H 4095 ltac:(vm_compute; intuition congruence)) as (H1 & _ & _).
  pose proof (H 4096 ltac:(vm_compute; intuition congruence)) as (H2 & _ & _).
  pose proof (H 1024 ltac:(vm_compute; intuition congruence)) as (_ & H3 & H4).
  pose proof (H (inv_mod bn254_r 4) ltac:(vm_compute; intuition congruence)) as (_ & _ & H5).
  rewrite H1, H2, H3, H4, H5. repeat split; vm_compute; intuition congruence.
Qed.

Theorem C06_digits {MOD : Modulus} {b K : Z} {HW : Width b K} v bits scale : 1 <= bits ->
  0 <= v * scale < 2 ^ (b * ((bits + b - 1) / b)) ->
  let ds := DecomposeHint bits b v scale in
  length ds = Z.to_nat ((bits + b - 1) / b) /\
  Forall (fun d => 0 <= d < 2 ^ b) ds /\
  fold_right (fun d acc => d + 2 ^ b * acc) 0 ds = v * scale.
Proof. exact (honest_digits v bits scale). Qed.
Print Assumptions C06_digits.

Theorem C06_complete {MOD : Modulus} {b K : Z} {HW : Width b K} v bits m :
  1 <= bits -> bits + b <= K -> 0 <= v < 2 ^ bits ->
  exec b (AssertBitLength (emb v) bits m) = Some tt.
Proof. intros H1 H2. exact (exec_abl v bits H1 H2 m). Qed.
Print Assumptions C06_complete.

Example C06_ex :
  DecomposeHint 10 4 999 1 = [7; 14; 3] /\ DecomposeHint 10 4 999 4 = [12; 9; 15] /\
  run 4 (AssertBitLength 999 10 TightForSmallAbs) = Some tt.
Proof. repeat split; vm_compute; reflexivity. Qed.

(** ** C07: powers of two *)

Theorem C07_tight {MOD : Modulus} {b K : Z} {HW : Width b K} size z :
  1 <= size <= 2 ^ 15 -> size + 18 + b <= K ->
  - 2 ^ (K - 3 - size) <= z <= 2 ^ (K - 3 - size) -> size mod b = 0 -> forall r,
  sat b (QueryPowerOf2 size (emb z)) r <-> 0 <= z < size /\ r = emb (2 ^ z).
Proof. exact (sat_QueryPowerOf2_tight size z). Qed.
Print Assumptions C07_tight.

Theorem C07_loose {MOD : Modulus} {b K : Z} {HW : Width b K} size z :
  1 <= size <= 2 ^ 15 -> size + 18 + b <= K ->
  - 2 ^ (K - 3 - size) <= z <= 2 ^ (K - 3 - size) -> forall r,
  sat b (QueryPowerOf2 size (emb z)) r
  <-> exists i k, 0 <= i < size /\ 0 <= k /\ z = i - k /\
        r = emb (2 ^ i + k * 2 ^ size) /\
        2 ^ i + k * 2 ^ size < 2 ^ (b * ((size + b - 1) / b)).
Proof.
  intros H1 H2 H3 r. rewrite <- (capacity_eq (b:=b)). exact (sat_QueryPowerOf2 size z H1 H2 H3 r).
Qed.
Print Assumptions C07_loose.

Theorem C07_complete {MOD : Modulus} {b K : Z} {HW : Width b K} size z :
  1 <= size <= 2 ^ 15 -> size + 18 + b <= K -> 0 <= z < size ->
  exec b (QueryPowerOf2 size (emb z)) = Some (emb (2 ^ z)).
Proof. exact (exec_QueryPowerOf2 size z). Qed.
Print Assumptions C07_complete.

(** For an exponent that is any field element the result is still unique ... *)
Theorem C07_determined {MOD : Modulus} {b K : Z} {HW : Width b K} size e r1 r2 :
  1 <= size <= 2 ^ 15 -> size + 18 + b <= K -> size mod b = 0 -> 0 <= e < modulus ->
  sat b (QueryPowerOf2 size e) r1 -> sat b (QueryPowerOf2 size e) r2 -> r1 = r2.
Proof. exact (pow2_determined size e r1 r2). Qed.
Print Assumptions C07_determined.

(** ... but the exponent need not be below the table size: 2 is accepted for
    minus the inverse of [2^32]. *)
Theorem C07_unbounded_refuted : exists e, 32 <= e < bn254_r /\
  accepted 8 (QueryPowerOf2 (MOD:=bn254) 32 e) 2.
Proof.
  exists (bn254_r - inv_mod bn254_r (2 ^ 32)).
  split; [vm_compute; intuition congruence|].
  apply (accepted_forge 8 _ [Some 2]). vm_compute. reflexivity.
Qed.
Print Assumptions C07_unbounded_refuted.

Example C07_ex :
  run 8 (QueryPowerOf2 (MOD:=bn254) 32 17) = Some (2 ^ 17) /\
  accepted 12 (QueryPowerOf2 (MOD:=bn254) 32 17) (2 ^ 20 + 3 * 2 ^ 32).
Proof.
  split; [vm_compute; reflexivity|].
  apply (accepted_forge 12 _ [Some (2 ^ 20 + 3 * 2 ^ 32)]). vm_compute. reflexivity.
Qed.

(** ** C08: deferred checking *)

(** [accepts] collects the checks and discharges them at the end;
    [sat] checks on the spot. *)
Theorem C08_explicit_width {MOD : Modulus} size ft {A} (c : circ A) r : 0 < size ->
  (accepts size ft c r <-> sat size c r).
Proof. exact (accepts_explicit size ft c r). Qed.
Print Assumptions C08_explicit_width.

Theorem C08_automatic_width {MOD : Modulus} size ft {A} (c : circ A) shape r :
  collects c shape ->
  (accepts size ft c r <-> sat (baseLength size ft (items_of shape)) c r).
Proof. exact (accepts_static size ft c shape r). Qed.
Print Assumptions C08_automatic_width.

(** Every operation registers the same checks whatever the values. *)
Theorem C08_static {MOD : Modulus} E M x y v t k : exists s1 s2 s3 s4 s5 s6 s7 s8,
  collects (NewFloat E M v) s1 /\
  collects (Add E M x y) s2 /\ collects (Sub E M x y) s2 /\
  collects (Mul E M x y) s3 /\ collects (Div E M x y) s4 /\ collects (Sqrt E M x) s5 /\
  collects (IsLt E M x y) s6 /\ collects (IsLe E M x y) s6 /\
  collects (IsGt E M x y) s6 /\ collects (IsGe E M x y) s6 /\
  collects (Trunc E M x) s7 /\ collects (Floor E M x) s7 /\ collects (Ceil E M x) s7 /\
  collects (ToInt E M x) s8 /\ collects (FSelect k x y) [] /\
  collects (AssertIsEqual x y) [] /\ collects (AssertIsEqualOrULP M x y) [] /\
  collects (AssertIsEqualOrCustomULP E M x y t) (s2 ++ s6).
Proof.
  exists (newfloat_shape E M), (add_shape E M), (mul_shape E M), (div_shape E M),
    (sqrt_shape E M), (cmp_shape E M), (trunc_shape E M), [(pow2_size E M, Loose)].
  split; [apply collects_NewFloat|].
  split; [apply collects_Add|].
  split; [apply collects_Sub|].
  split; [apply collects_Mul|].
  split; [apply collects_Div|].
  split; [apply collects_Sqrt|].
  split; [apply collects_IsLt|].
  split; [apply collects_IsLe|].
  split; [apply collects_IsGt|].
  split; [apply collects_IsGe|].
  split; [apply collects_Trunc|].
  split; [apply collects_Floor|].
  split; [apply collects_Ceil|].
  split; [apply collects_ToInt|].
  split; [apply collects_FSelect|].
  split; [apply collects_AssertIsEqual|].
  split; [apply collects_AssertIsEqualOrULP|].
  apply collects_CustomULP.
Qed.
Print Assumptions C08_static.

(** Mul alone, R1CS: the optimiser picks 4; SCS and binary64: 4 as well. *)
Example C08_ex :
  baseLength 0 R1CS (items_of (mul_shape 8 23)) = 4 /\
  baseLength 0 SCS (items_of (mul_shape 11 52)) = 4 /\
  accepts (MOD:=bn254) 0 R1CS (Mul (MOD:=bn254) 8 23 (w32 (f32 3 0)) (w32 (f32 7 (-2))))
    (w32 (f32 21 (-2))).
Proof.
  split; [vm_compute; reflexivity|]. split; [vm_compute; reflexivity|].
  eapply C08_automatic_width; [apply collects_Mul|]. apply accepted_run. vm_compute. reflexivity.
Qed.

(** ** C09: Abs, IsPositive, Max, Min *)

Theorem C09_abs_sound {MOD : Modulus} {b K : Z} {HW : Width b K} z n :
  1 <= n -> n + b <= K -> - 2 ^ (K - 1) <= z <= 2 ^ (K - 1) -> forall r,
  sat b (GAbs (emb z) n) r
  <-> exists c, r = (emb (Z.abs z), emb (Z.b2z c)) /\
        (0 < z -> c = true) /\ (z < 0 -> c = false) /\
        Z.abs z < 2 ^ (b * ((n + b - 1) / b)).
Proof.
  intros H1 H2 H3 r. rewrite <- (capacity_eq (b:=b)). exact (sat_GAbs z n H1 H2 H3 r).
Qed.
Print Assumptions C09_abs_sound.

Theorem C09_abs_complete {MOD : Modulus} {b K : Z} {HW : Width b K} z n :
  1 <= n -> n + b <= K -> - 2 ^ n < z < 2 ^ n ->
  exec b (GAbs (emb z) n) = Some (emb (Z.abs z), emb (Z.b2z (0 <=? z))).
Proof. exact (exec_GAbs z n). Qed.
Print Assumptions C09_abs_complete.

Theorem C09_is_positive {MOD : Modulus} {b K : Z} {HW : Width b K} z n :
  1 <= n -> n + b <= K -> - 2 ^ (K - 1) <= z <= 2 ^ (K - 1) -> forall r,
  sat b (IsPositive (emb z) n) r
  <-> exists c, r = emb (Z.b2z c) /\ (0 < z -> c = true) /\ (z < 0 -> c = false) /\
        Z.abs z < 2 ^ (b * ((n + b - 1) / b)).
Proof.
  intros H1 H2 H3 r. rewrite <- (capacity_eq (b:=b)). exact (sat_IsPositive z n H1 H2 H3 r).
Qed.
Print Assumptions C09_is_positive.

Theorem C09_max {MOD : Modulus} {b K : Z} {HW : Width b K} x y n :
  1 <= n -> n + b <= K -> - 2 ^ (K - 1) <= x - y <= 2 ^ (K - 1) -> forall r,
  sat b (GMax (emb x) (emb y) n) r
  <-> r = emb (Z.max x y) /\ Z.abs (x - y) < 2 ^ (b * ((n + b - 1) / b)).
Proof.
  intros H1 H2 H3 r. rewrite <- (capacity_eq (b:=b)). exact (sat_GMax x y n H1 H2 H3 r).
Qed.
Print Assumptions C09_max.

Theorem C09_min {MOD : Modulus} {b K : Z} {HW : Width b K} x y n :
  1 <= n -> n + b <= K -> - 2 ^ (K - 1) <= x - y <= 2 ^ (K - 1) -> forall r,
  sat b (GMin (emb x) (emb y) n) r
  <-> r = emb (Z.min x y) /\ Z.abs (x - y) < 2 ^ (b * ((n + b - 1) / b)).
Proof.
  intros H1 H2 H3 r. rewrite <- (capacity_eq (b:=b)). exact (sat_GMin x y n H1 H2 H3 r).
Qed.
Print Assumptions C09_min.

Theorem C09_max_min_complete {MOD : Modulus} {b K : Z} {HW : Width b K} x y n :
  1 <= n -> n + b <= K -> - 2 ^ n < x - y < 2 ^ n ->
  exec b (GMax (emb x) (emb y) n) = Some (emb (Z.max x y)) /\
  exec b (GMin (emb x) (emb y) n) = Some (emb (Z.min x y)).
Proof. intros H1 H2 H3. split; [exact (exec_GMax x y n H1 H2 H3)|exact (exec_GMin x y n H1 H2 H3)]. Qed.
Print Assumptions C09_max_min_complete.

(** Is zero positive?  Both answers are accepted; honestly it is. *)
Theorem C09_zero_refuted :
  accepted 8 (IsPositive (MOD:=bn254) 0 9) 0 /\ accepted 8 (IsPositive (MOD:=bn254) 0 9) 1 /\
  run 8 (IsPositive (MOD:=bn254) 0 9) = Some 1.
Proof.
  split; [apply (accepted_forge 8 _ [Some 0]); vm_compute; reflexivity|].
  split; [apply accepted_run|]; vm_compute; reflexivity.
Qed.
Print Assumptions C09_zero_refuted.

Example C09_ex :
  run 8 (GAbs (MOD:=bn254) (emb (-77)) 9) = Some (77, 0) /\
  run 8 (GMax (MOD:=bn254) (emb (-77)) (emb (-78)) 9) = Some (emb (-77)) /\
  run 8 (GMin (MOD:=bn254) 5 (emb (-78)) 9) = Some (emb (-78)) /\
  run 8 (GAbs (MOD:=bn254) (2 ^ 16) 9) = None.
Proof. repeat split; vm_compute; reflexivity. Qed.

(** ** C30: the optimiser *)

(** The costs are Go [int]s; one below the largest is needed. *)
Theorem C30_optimal_width f cs : (exists j, 2 <= j <= 17 /\ f j cs < 2 ^ 63 - 1) ->
  let w := optimalWidth f cs in
  2 <= w <= 17 /\
  (forall j, 2 <= j <= 17 -> f w cs <= f j cs) /\
  (forall j, 2 <= j < w -> f w cs < f j cs).
Proof. exact (optimalWidth_spec f cs). Qed.
Print Assumptions C30_optimal_width.

Example C30_ex :
  nbR1CSConstraints 4 (items_of (mul_shape 8 23)) = 76 /\
  optimalWidth nbR1CSConstraints (items_of (mul_shape 8 23)) = 4 /\
  optimalWidth (fun j _ => (j - 9) * (j - 9) * (j - 5) * (j - 5)) [] = 5 /\
  optimalWidth (fun _ _ => 2 ^ 63 - 1) [] = 0.
Proof. repeat split; vm_compute; reflexivity. Qed.

(** ** C31, C32: counters and estimates *)

(** [tape] are the hint values of the definition, [tape'] those of the commit;
    [n] is the number of equalities and [ds] the wires looked up there. *)
Theorem C31_counters {MOD : Modulus} b {A} (c : circ A) tape r cs qs rest st ds n rest' tape' :
  1 <= b -> trace c tape = Some (r, cs, qs, rest) ->
  Forall (fun i => 1 <= ck_bits i) cs ->
  counting b c tape (mkCounters 0 0 0) = Some (st, rest) ->
  equalities (commit_items b cs) tape' = Some (ds, n, rest') ->
  LookupQueryConstraints st = n + Z.of_nat (length ds) + Z.of_nat (length qs).
Proof.
  intros H1 H2 H3 H4 H5. exact (counters_exact b c tape r cs qs rest st ds n rest' H1 H2 H3 H4 tape' H5).
Qed.
Print Assumptions C31_counters.

(** With an automatically chosen width only the queries are counted. *)
Theorem C31_counters_auto {MOD : Modulus} {A} (c : circ A) tape r cs qs rest st :
  trace c tape = Some (r, cs, qs, rest) ->
  counting 0 c tape (mkCounters 0 0 0) = Some (st, rest) ->
  LookupQueryConstraints st = Z.of_nat (length qs).
Proof. exact (counters_auto c tape r cs qs rest st). Qed.
Print Assumptions C31_counters_auto.

(** Allocating 1.0 (hints 0, 127, 23): with base width 8, 1 + 3 + 1 + 4 + 3 limbs,
    one extra for the 23 bits and three decompositions, one query. *)
Example C31_ex : exists r cs qs ds st,
  trace (new32 1065353216) [0; 127; 23; 2 ^ 23] = Some (r, cs, qs, []) /\
  Forall (fun i => 1 <= ck_bits i) cs /\
  counting 8 (new32 1065353216) [0; 127; 23; 2 ^ 23] (mkCounters 0 0 0)
    = Some (st, []) /\
  equalities (commit_items (MOD:=bn254) 8 cs) (repeat 0 10) = Some (ds, 3, []) /\
  length ds = 13%nat /\ length qs = 1%nat /\ LookupQueryConstraints st = 17.
Proof.
  do 5 eexists. split; [vm_compute; reflexivity|].
  split; [repeat constructor; cbn; Lia.lia|].
  repeat split; vm_compute; reflexivity.
Qed.

(** The estimated number of limbs exceeds the number looked up by one for every
    check, other than those for an unknown range, whose bit length is not a
    multiple of the base width. *)
Theorem C32_estimate {MOD : Modulus} b cs tape ds n rest :
  1 <= b -> Forall (fun c => 1 <= ck_bits c) cs ->
  equalities (commit_items b cs) tape = Some (ds, n, rest) ->
  nbDecomposed b cs =
  Z.of_nat (length ds) +
  Z.of_nat (length (filter (fun c => match ck_mode c with
                                     | TightForUnknownRange => false
                                     | _ => negb (ck_bits c mod b =? 0)
                                     end) cs)).
Proof. exact (estimate_modes b cs tape ds n rest). Qed.
Print Assumptions C32_estimate.

Theorem C32_cost {MOD : Modulus} b cs tape ds n rest :
  1 <= b -> Forall (fun c => 1 <= ck_bits c) cs ->
  equalities (commit_items b cs) tape = Some (ds, n, rest) ->
  2 ^ b + Z.of_nat (length ds) + n + 1 <= nbR1CSConstraints b cs.
Proof. exact (cost_bound b cs tape ds n rest). Qed.
Print Assumptions C32_cost.

(** Both counts are defined for every list of checks. *)
Theorem C32_defined {MOD : Modulus} b cs : exists tape ds n,
  equalities (commit_items b cs) tape = Some (ds, n, []).
Proof. exact (commit_items_defined b cs). Qed.
Print Assumptions C32_defined.

Example C32_ex :
  let cs := items_of (newfloat_shape 8 23) in
  nbDecomposed 8 cs = 15 /\
  exists ds, equalities (commit_items (MOD:=bn254) 8 cs) (repeat 0 10) = Some (ds, 3, []) /\
    length ds = 13%nat /\
    length (filter (fun c => match ck_mode c with
                             | TightForUnknownRange => false
                             | _ => negb (ck_bits c mod 8 =? 0)
                             end) cs) = 2%nat.
Proof.
  cbv zeta. split; [vm_compute; reflexivity|]. eexists.
  repeat split; vm_compute; reflexivity.
Qed.
