(** C62: for how many challenges a false claim can pass, circuit by circuit. *)
From Coq Require Import ZArith Znumtheory List Bool Lia Reals.
From Flocq Require Import Core IEEE754.BinarySingleNaN.
From Verif Require Import Field Circuit RangeCheck Gadget Util Hints FloatModel RoundFacts Spec
  RepFacts Outcomes ForgeSpec ForgeFacts MathSpec Deferred
  Counters Shapes Circuits CircuitSpec CircuitShapes Math MathUlp Loc2Index LocConst LocShapes Witness Prime LogDeriv Frugal
  PropertiesCircuits PropertiesWidth PropertiesProducts PropertiesLookup PropertiesAuto.
Import ListNotations.
Local Open Scope Z_scope.

#[local] Existing Instance bn254 | 1000.
#[local] Notation bits E M v := (0 <= v < 2 ^ (E + M + 1)).

(** Whatever a prover commits to (the wires of the circuit and of the range checks,
    the multiplicities of both tables), fewer than [n] of the [bn254_r] challenges
    let it pass. *)
Definition caught {A} (size : Z) (ft : frontend_type) (c : circ A) (r : A) (n : Z) : Prop :=
  forall tape limbs rmults pmults xs,
  NoDup xs -> Forall (fun x => 0 <= x < bn254_r) xs ->
  Forall (LogDeriv.passes (MOD:=bn254) size ft c r tape limbs rmults pmults) xs ->
  Z.of_nat (length xs) < n.

(** ** From shapes to numbers *)
Definition lookups (b : Z) (s : list (Z * mode)) : Z := total (item_lookups b) (items_of s).
Definition error_bound (size : Z) (ft : frontend_type) (s : list (Z * mode)) (entries : Z) : Z :=
  let b := baseLength size ft (items_of s) in
  Z.max (2 ^ b + lookups b s) (entries + Z.of_nat (length s)).

Lemma total_shape f cs cs' : (forall c c', ck_bits c = ck_bits c' -> ck_mode c = ck_mode c' -> f c = f c') ->
  map (fun i => (ck_bits i, ck_mode i)) cs = map (fun i => (ck_bits i, ck_mode i)) cs' ->
  total f cs = total f cs'.
Proof.
  intros Hf. revert cs'. induction cs as [|c t IH]; intros [|c' t'] H; try discriminate; [reflexivity|].
  cbn [map] in H. injection H as H1 H2 H3. cbn [total fold_right].
  rewrite (Hf c c' H1 H2). f_equal. exact (IH t' H3).
Qed.

Lemma items_shape s : map (fun i => (ck_bits i, ck_mode i)) (items_of s) = s.
Proof. unfold items_of. rewrite map_map. erewrite map_ext; [apply map_id|]. intros [? ?]; reflexivity. Qed.

Lemma trace_equalities {MOD : Modulus} {A} (c : circ A) : forall tape r cs qs rest,
  trace c tape = Some (r, cs, qs, rest) -> exists n, equalities c tape = Some (r, n, rest).
Proof.
  induction c as [a|h k IH|p k IH|v n m k IH|z v k IH]; intros tape r cs qs rest; simpl.
  - intros H. injection H as <- _ _ <-. eauto.
  - destruct tape as [|w t]; [discriminate|].
    destruct ((0 <=? w) && (w <? modulus)); [|discriminate]. apply IH.
  - destruct p; [|discriminate]. intros H. destruct (IH _ _ _ _ _ H) as [n ->]. eauto.
  - destruct (trace k tape) as [[[[r' cs'] qs'] rest']|] eqn:He; [|discriminate].
    intros H. injection H as <- _ _ <-. eauto.
  - destruct (trace k tape) as [[[[r' cs'] qs'] rest']|] eqn:He; [|discriminate].
    intros H. injection H as <- _ _ <-. eauto.
Qed.

Definition fine (size : Z) (ft : frontend_type) (s : list (Z * mode)) (n : Z) : bool :=
  let b := baseLength size ft (items_of s) in
  forallb (fun p => 1 <=? fst p) s && (1 <=? b) && (b <=? 253) && (lookups b s <? bn254_r) &&
  (Z.of_nat (length s) <? bn254_r) && (error_bound size ft s n <? bn254_r).

Lemma caught_shape size ft {A} (c : circ A) r s entries : collects c s ->
  frugal (MOD:=bn254) entries c -> 0 <= entries -> fine size ft s entries = true ->
  ~ accepts (MOD:=bn254) size ft c r -> caught size ft c r (error_bound size ft s entries).
Proof.
  intros HC HF He Hf Hno tape limbs rm pm xs Hd Hx Hp. unfold fine in Hf.
  rewrite !andb_true_iff in Hf. destruct Hf as [[[[[Hf1 Hf2] Hf3] Hf4] Hf5] _].
  apply Z.leb_le in Hf2, Hf3. apply Z.ltb_lt in Hf4, Hf5.
  set (b := baseLength size ft (items_of s)) in *.
  destruct xs as [|x0 xs'].
  { unfold error_bound. fold b. cbn [length]. pose proof (Z.pow_pos_nonneg 2 b ltac:(lia) ltac:(lia)).
    assert (0 <= lookups b s); [|lia].
    clearbody b. unfold lookups, total, items_of. clear - Hf1 Hf2.
    induction s as [|[n m] t IH]; [reflexivity|].
    cbn [forallb fst] in Hf1. apply andb_true_iff in Hf1 as [H1 H2]. specialize (IH H2). apply Z.leb_le in H1.
    cbn [map fold_right fst snd]. unfold item_lookups at 1. cbn [ck_bits ck_mode].
    destruct (decomp_bounds b n Hf2 H1) as [Hl _].
    destruct (mode_eqb m TightForUnknownRange && negb (decompSize n b * b - n =? 0)); nia. }
  set (xs := x0 :: xs') in *.
  assert (Hx0 : LogDeriv.passes (MOD:=bn254) size ft c r tape limbs rm pm x0).
  { inversion Hp; assumption. }
  destruct Hx0 as (cs & qs & ds & Ht & Hl & _).
  pose proof (collects_trace c s tape r cs qs [] HC Ht) as HS.
  assert (HS' : map (fun i => (ck_bits i, ck_mode i)) cs = map (fun i => (ck_bits i, ck_mode i)) (items_of s))
    by (rewrite items_shape; exact HS).
  assert (Hb : baseLength size ft cs = b) by (apply baseLength_shape; exact HS').
  destruct (HF _ _ _ _ _ Ht) as [Hq Hqs].
  assert (Hlen : length cs = length s) by (rewrite <- HS, map_length; reflexivity).
  assert (Hds : Z.of_nat (length ds) = lookups b s).
  { rewrite Hb in Hl. destruct (trace_equalities _ _ _ _ _ _ Hl) as [n Hn].
    refine (eq_trans (proj2 (commit_items_count (MOD:=bn254) b cs limbs ds n [] Hf2 _ Hn)) _).
    - clear - HS Hf1. rewrite forallb_forall in Hf1. apply Forall_forall. intros i Hi.
      assert (In (ck_bits i, ck_mode i) s) as H.
      { rewrite <- HS. exact (in_map (fun i => (ck_bits i, ck_mode i)) cs i Hi). }
      specialize (Hf1 _ H). cbn in Hf1. apply Z.leb_le. exact Hf1.
    - unfold lookups. apply total_shape; [|exact HS'].
      intros i i' H1 H2. unfold item_lookups. rewrite H1, H2. reflexivity. }
  assert (HqZ : Z.of_nat (length qs) <= Z.of_nat (length s)) by lia.
  pose proof (C53_circuit_sound size ft A c r tape limbs rm pm cs qs ds entries xs Ht Hl) as HX.
  rewrite Hb in HX. specialize (HX (conj (Z.le_trans _ _ _ Z.le_0_1 Hf2) Hf3) He).
  assert (Hqs' : Forall (fun q => fst q <= entries) qs).
  { eapply Forall_impl; [|exact Hqs]. intros q Hq'. cbv beta in Hq'. rewrite Hq'. apply Z.le_refl. }
  specialize (HX Hqs' ltac:(rewrite Hds; exact Hf4) ltac:(apply Z.le_lt_trans with (2 := Hf5); exact HqZ) Hno Hd Hx Hp).
  eapply Z.lt_le_trans; [exact HX|]. unfold error_bound. fold b. rewrite Hds.
  apply Z.max_le_compat; lia.
Qed.

Lemma caught_le size ft {A} (c : circ A) r n n' : n <= n' -> caught size ft c r n -> caught size ft c r n'.
Proof. intros Hn H tape limbs rm pm xs H1 H2 H3. specialize (H tape limbs rm pm xs H1 H2 H3). lia. Qed.

Lemma lookups_nonneg b s : 1 <= b -> forallb (fun p : Z * mode => 1 <=? fst p) s = true -> 0 <= lookups b s.
Proof.
  intros Hb. unfold lookups, total, items_of. induction s as [|[n m] t IH]; [reflexivity|].
  cbn [forallb fst]. intros Hf. apply andb_true_iff in Hf as [H1 H2]. specialize (IH H2). apply Z.leb_le in H1.
  cbn [map fold_right fst snd]. unfold item_lookups at 1. cbn [ck_bits ck_mode].
  destruct (decomp_bounds b n Hb H1) as [Hl _].
  destruct (mode_eqb m TightForUnknownRange && negb (decompSize n b * b - n =? 0)); nia.
Qed.

(** The same with the width of the automatic configuration worked out. *)
Definition small (w : Z) (s : list (Z * mode)) (entries n : Z) : bool :=
  forallb (fun p => 1 <=? fst p) s && (1 <=? w) && (w <=? 253) &&
  (2 ^ w + lookups w s <=? n) && (entries + Z.of_nat (length s) <=? n).

Lemma caught_width ft {A} (c : circ A) r s w entries n : collects c s ->
  frugal (MOD:=bn254) entries c -> auto_width ft s = w -> 0 <= entries -> n < bn254_r ->
  small w s entries n = true ->
  ~ accepts (MOD:=bn254) 0 ft c r -> caught 0 ft c r n.
Proof.
  intros HC HF Hw He Hn Hs Hno. unfold small in Hs. rewrite !andb_true_iff in Hs.
  destruct Hs as [[[[H1 H2] H3] H4] H5]. apply Z.leb_le in H4, H5. unfold auto_width in Hw.
  pose proof (lookups_nonneg w s (proj1 (Z.leb_le _ _) H2) H1) as H0.
  pose proof (Z.pow_nonneg 2 w ltac:(lia)) as Hp.
  eapply caught_le; [|apply (caught_shape 0 ft c r s entries HC HF He); [|exact Hno]].
  - unfold error_bound. rewrite Hw. apply Z.max_lub; lia.
  - unfold fine, error_bound. rewrite Hw, H1, H2, H3. cbn [andb].
    rewrite !andb_true_iff. rewrite !Z.ltb_lt. rewrite Z.max_lub_lt_iff. lia.
Qed.

(** ** The circuits of the repository *)

Definition per (ft : frontend_type) (r s : Z) : Z := match ft with R1CS => r | SCS => s end.

Ltac counted ft C F :=
  eapply (caught_width ft _ _ _ _ _ _ C F eq_refl); [lia|
    destruct ft; vm_compute; reflexivity|destruct ft; vm_compute; reflexivity].

(** The test circuits of float/, the operations of binary32 and binary64. *)
Theorem C62_float32 ft X Y Z :
  Forall (fun p : circ unit * BinNums.Z => ~ accepts 0 ft (fst p) tt -> caught 0 ft (fst p) tt (snd p))
  [(binary_circuit 8 23 (Add 8 23) X Y Z, per ft 151 148);
   (binary_circuit 8 23 (Sub 8 23) X Y Z, per ft 151 148);
   (binary_circuit 8 23 (Mul 8 23) X Y Z, per ft 138 136);
   (binary_circuit 8 23 (Div 8 23) X Y Z, 137);
   (unary_circuit 8 23 (Sqrt 8 23) X Y, 97);
   (unary_circuit 8 23 (Trunc 8 23) X Y, 90);
   (unary_circuit 8 23 (Floor 8 23) X Y, 90);
   (unary_circuit 8 23 (Ceil 8 23) X Y, 90);
   (comparison_circuit 8 23 (IsLt 8 23) X Y Z, 75);
   (comparison_circuit 8 23 (IsLe 8 23) X Y Z, 75);
   (comparison_circuit 8 23 (IsGt 8 23) X Y Z, 75);
   (comparison_circuit 8 23 (IsGe 8 23) X Y Z, 75);
   (allocation_circuit 8 23 X Z, 41);
   (conversion_circuit 8 23 (Trunc 8 23) X Z, 73);
   (conversion_circuit 8 23 (Floor 8 23) X Z, 73);
   (conversion_circuit 8 23 (Ceil 8 23) X Z, 73)].
Proof.
  repeat apply Forall_cons; cbn [fst snd].
  - counted ft (collects_binary 8 23 _ _ X Y Z (collects_Add 8 23)) (frugal_binary (MOD:=bn254) 32 8 23 eq_refl _ X Y Z (frugal_Add 32 8 23 eq_refl)).
  - counted ft (collects_binary 8 23 _ _ X Y Z (collects_Sub 8 23)) (frugal_binary (MOD:=bn254) 32 8 23 eq_refl _ X Y Z (frugal_Sub 32 8 23 eq_refl)).
  - counted ft (collects_binary 8 23 _ _ X Y Z (collects_Mul 8 23)) (frugal_binary (MOD:=bn254) 32 8 23 eq_refl _ X Y Z (frugal_Mul 32 8 23 eq_refl)).
  - counted ft (collects_binary 8 23 _ _ X Y Z (collects_Div 8 23)) (frugal_binary (MOD:=bn254) 32 8 23 eq_refl _ X Y Z (frugal_Div 32 8 23 eq_refl)).
  - counted ft (collects_unary 8 23 _ _ X Y (collects_Sqrt 8 23)) (frugal_unary (MOD:=bn254) 32 8 23 eq_refl _ X Y (frugal_Sqrt 32 8 23 eq_refl)).
  - counted ft (collects_unary 8 23 _ _ X Y (collects_Trunc 8 23)) (frugal_unary (MOD:=bn254) 32 8 23 eq_refl _ X Y (frugal_Trunc 32 8 23 eq_refl)).
  - counted ft (collects_unary 8 23 _ _ X Y (collects_Floor 8 23)) (frugal_unary (MOD:=bn254) 32 8 23 eq_refl _ X Y (frugal_Floor 32 8 23 eq_refl)).
  - counted ft (collects_unary 8 23 _ _ X Y (collects_Ceil 8 23)) (frugal_unary (MOD:=bn254) 32 8 23 eq_refl _ X Y (frugal_Ceil 32 8 23 eq_refl)).
  - counted ft (collects_comparison 8 23 _ _ X Y Z (collects_IsLt 8 23)) (frugal_comparison (MOD:=bn254) 32 8 23 eq_refl _ X Y Z (frugal_IsLt 32 8 23)).
  - counted ft (collects_comparison 8 23 _ _ X Y Z (collects_IsLe 8 23)) (frugal_comparison (MOD:=bn254) 32 8 23 eq_refl _ X Y Z (frugal_IsLe 32 8 23)).
  - counted ft (collects_comparison 8 23 _ _ X Y Z (collects_IsGt 8 23)) (frugal_comparison (MOD:=bn254) 32 8 23 eq_refl _ X Y Z (frugal_IsGt 32 8 23)).
  - counted ft (collects_comparison 8 23 _ _ X Y Z (collects_IsGe 8 23)) (frugal_comparison (MOD:=bn254) 32 8 23 eq_refl _ X Y Z (frugal_IsGe 32 8 23)).
  - counted ft (collects_allocation 8 23 X Z) (frugal_allocation (MOD:=bn254) 32 8 23 eq_refl X Z).
  - counted ft (collects_conversion 8 23 _ X Z (collects_Trunc 8 23)) (frugal_conversion (MOD:=bn254) 32 8 23 eq_refl _ X Z (frugal_Trunc 32 8 23 eq_refl)).
  - counted ft (collects_conversion 8 23 _ X Z (collects_Floor 8 23)) (frugal_conversion (MOD:=bn254) 32 8 23 eq_refl _ X Z (frugal_Floor 32 8 23 eq_refl)).
  - counted ft (collects_conversion 8 23 _ X Z (collects_Ceil 8 23)) (frugal_conversion (MOD:=bn254) 32 8 23 eq_refl _ X Z (frugal_Ceil 32 8 23 eq_refl)).
  - apply Forall_nil.
Qed.
Print Assumptions C62_float32.

Theorem C62_float64 ft X Y Z :
  Forall (fun p : circ unit * BinNums.Z => ~ accepts 0 ft (fst p) tt -> caught 0 ft (fst p) tt (snd p))
  [(binary_circuit 11 52 (Add 11 52) X Y Z, 244);
   (binary_circuit 11 52 (Sub 11 52) X Y Z, 244);
   (binary_circuit 11 52 (Mul 11 52) X Y Z, 228);
   (binary_circuit 11 52 (Div 11 52) X Y Z, 229);
   (unary_circuit 11 52 (Sqrt 11 52) X Y, per ft 167 175);
   (unary_circuit 11 52 (Trunc 11 52) X Y, per ft 157 165);
   (unary_circuit 11 52 (Floor 11 52) X Y, per ft 157 165);
   (unary_circuit 11 52 (Ceil 11 52) X Y, per ft 157 165);
   (comparison_circuit 11 52 (IsLt 11 52) X Y Z, 129);
   (comparison_circuit 11 52 (IsLe 11 52) X Y Z, 129);
   (comparison_circuit 11 52 (IsGt 11 52) X Y Z, 129);
   (comparison_circuit 11 52 (IsGe 11 52) X Y Z, 129);
   (allocation_circuit 11 52 X Z, 69);
   (conversion_circuit 11 52 (Trunc 11 52) X Z, per ft 130 128);
   (conversion_circuit 11 52 (Floor 11 52) X Z, per ft 130 128);
   (conversion_circuit 11 52 (Ceil 11 52) X Z, per ft 130 128)].
Proof.
  repeat apply Forall_cons; cbn [fst snd].
  - counted ft (collects_binary 11 52 _ _ X Y Z (collects_Add 11 52)) (frugal_binary (MOD:=bn254) 64 11 52 eq_refl _ X Y Z (frugal_Add 64 11 52 eq_refl)).
  - counted ft (collects_binary 11 52 _ _ X Y Z (collects_Sub 11 52)) (frugal_binary (MOD:=bn254) 64 11 52 eq_refl _ X Y Z (frugal_Sub 64 11 52 eq_refl)).
  - counted ft (collects_binary 11 52 _ _ X Y Z (collects_Mul 11 52)) (frugal_binary (MOD:=bn254) 64 11 52 eq_refl _ X Y Z (frugal_Mul 64 11 52 eq_refl)).
  - counted ft (collects_binary 11 52 _ _ X Y Z (collects_Div 11 52)) (frugal_binary (MOD:=bn254) 64 11 52 eq_refl _ X Y Z (frugal_Div 64 11 52 eq_refl)).
  - counted ft (collects_unary 11 52 _ _ X Y (collects_Sqrt 11 52)) (frugal_unary (MOD:=bn254) 64 11 52 eq_refl _ X Y (frugal_Sqrt 64 11 52 eq_refl)).
  - counted ft (collects_unary 11 52 _ _ X Y (collects_Trunc 11 52)) (frugal_unary (MOD:=bn254) 64 11 52 eq_refl _ X Y (frugal_Trunc 64 11 52 eq_refl)).
  - counted ft (collects_unary 11 52 _ _ X Y (collects_Floor 11 52)) (frugal_unary (MOD:=bn254) 64 11 52 eq_refl _ X Y (frugal_Floor 64 11 52 eq_refl)).
  - counted ft (collects_unary 11 52 _ _ X Y (collects_Ceil 11 52)) (frugal_unary (MOD:=bn254) 64 11 52 eq_refl _ X Y (frugal_Ceil 64 11 52 eq_refl)).
  - counted ft (collects_comparison 11 52 _ _ X Y Z (collects_IsLt 11 52)) (frugal_comparison (MOD:=bn254) 64 11 52 eq_refl _ X Y Z (frugal_IsLt 64 11 52)).
  - counted ft (collects_comparison 11 52 _ _ X Y Z (collects_IsLe 11 52)) (frugal_comparison (MOD:=bn254) 64 11 52 eq_refl _ X Y Z (frugal_IsLe 64 11 52)).
  - counted ft (collects_comparison 11 52 _ _ X Y Z (collects_IsGt 11 52)) (frugal_comparison (MOD:=bn254) 64 11 52 eq_refl _ X Y Z (frugal_IsGt 64 11 52)).
  - counted ft (collects_comparison 11 52 _ _ X Y Z (collects_IsGe 11 52)) (frugal_comparison (MOD:=bn254) 64 11 52 eq_refl _ X Y Z (frugal_IsGe 64 11 52)).
  - counted ft (collects_allocation 11 52 X Z) (frugal_allocation (MOD:=bn254) 64 11 52 eq_refl X Z).
  - counted ft (collects_conversion 11 52 _ X Z (collects_Trunc 11 52)) (frugal_conversion (MOD:=bn254) 64 11 52 eq_refl _ X Z (frugal_Trunc 64 11 52 eq_refl)).
  - counted ft (collects_conversion 11 52 _ X Z (collects_Floor 11 52)) (frugal_conversion (MOD:=bn254) 64 11 52 eq_refl _ X Z (frugal_Floor 64 11 52 eq_refl)).
  - counted ft (collects_conversion 11 52 _ X Z (collects_Ceil 11 52)) (frugal_conversion (MOD:=bn254) 64 11 52 eq_refl _ X Z (frugal_Ceil 64 11 52 eq_refl)).
  - apply Forall_nil.
Qed.
Print Assumptions C62_float64.

Lemma frugal_ulp size E M (Hs : pow2_size E M = size) op X Z Zl Zu : (forall x, frugal (MOD:=bn254) size (op x)) ->
  frugal (MOD:=bn254) size (ulp_circuit E M op X Z Zl Zu).
Proof.
  intros H. unfold ulp_circuit.
  do 4 (apply frugal_bind; [exact (frugal_NewFloat size E M Hs _)|intros ?]).
  apply frugal_bind; [apply H|intros r].
  apply frugal_bind; [apply frugal_assert_eq|intros u].
  apply frugal_bind; [apply frugal_assert|intros v]. apply frugal_assert.
Qed.

(** The circuits of math/ and the three location circuits. *)
Theorem C62_math ft X Z Zl Zu :
  Forall (fun p : circ unit * BinNums.Z => ~ accepts 0 ft (fst p) tt -> caught 0 ft (fst p) tt (snd p))
  [(SinCircuit X Z, 2797); (CircuitATanRemez64 X Z, 3128);
   (PolynomialEvalCircuit X Z, per ft 692 686); (PolynomialEvalCircuitDegTen X Z, 1498);
   (CircuitATanRemez32ULP X Z Zl Zu, 1000); (CircuitATanRemez64ULP X Z Zl Zu, 3182);
   (CircuitSin64ULP X Z Zl Zu, 2851)].
Proof.
  repeat apply Forall_cons; cbn [fst snd].
  - counted ft (collects_SinCircuit X Z) (frugal_SinCircuit (MOD:=bn254) X Z).
  - counted ft (collects_ATanCircuit X Z) (frugal_ATanCircuit (MOD:=bn254) X Z).
  - counted ft (collects_PolynomialEval X Z) (frugal_PolynomialEval (MOD:=bn254) X Z).
  - counted ft (collects_PolynomialDegTen X Z) (frugal_PolynomialDegTen (MOD:=bn254) X Z).
  - counted ft (collects_ulp 8 23 _ _ X Z Zl Zu (collects_AtanRemez 8 23 half_pi_32 one_32 atan_coeffs_32))
      (frugal_ulp 32 8 23 eq_refl _ X Z Zl Zu (frugal_AtanRemez 32 8 23 eq_refl half_pi_32 one_32 atan_coeffs_32)).
  - counted ft (collects_ulp 11 52 _ _ X Z Zl Zu (collects_AtanRemez 11 52 half_pi_64 one_64 atan_coeffs_64))
      (frugal_ulp 64 11 52 eq_refl _ X Z Zl Zu (frugal_AtanRemez 64 11 52 eq_refl half_pi_64 one_64 atan_coeffs_64)).
  - counted ft (collects_ulp 11 52 _ _ X Z Zl Zu (collects_SinTaylor 11 52 pi_64 half_pi_64))
      (frugal_ulp 64 11 52 eq_refl _ X Z Zl Zu (frugal_SinTaylor 64 11 52 eq_refl pi_64 half_pi_64)).
  - apply Forall_nil.
Qed.
Print Assumptions C62_math.

Theorem C62_location ft trig Lat Lng res I J K :
  Forall (fun p : circ unit * BinNums.Z => ~ accepts 0 ft (fst p) tt -> caught 0 ft (fst p) tt (snd p))
  [(loc2Index32CircuitWrapper constants32 faces32 Lat Lng res I J K, 10690);
   (loc2Index32Circuit constants32 faces32 trig Lat Lng res I J K, 6730);
   (loc2Index64Circuit constants64 faces64 trig Lat Lng res I J K, 12036)].
Proof.
  repeat apply Forall_cons; cbn [fst snd].
  - counted ft (collects_wrapper constants32 faces32 eq_refl Lat Lng res I J K)
      (frugal_wrapper (MOD:=bn254) constants32 faces32 Lat Lng res I J K).
  - counted ft (collects_loc32 constants32 faces32 eq_refl trig Lat Lng res I J K)
      (frugal_loc32 (MOD:=bn254) constants32 faces32 trig Lat Lng res I J K).
  - counted ft (collects_loc64 constants64 faces64 eq_refl trig Lat Lng res I J K)
      (frugal_loc64 (MOD:=bn254) constants64 faces64 trig Lat Lng res I J K).
  - apply Forall_nil.
Qed.
Print Assumptions C62_location.

(** A bound below [2 ^ k] is a chance of less than [2 ^ (k - 253)] with a uniform challenge. *)
Theorem C62_chance size ft A (c : circ A) r n k : 0 <= k <= 253 -> n <= 2 ^ k -> caught size ft c r n ->
  forall tape limbs rmults pmults xs,
  NoDup xs -> Forall (fun x => 0 <= x < bn254_r) xs ->
  Forall (LogDeriv.passes (MOD:=bn254) size ft c r tape limbs rmults pmults) xs ->
  Z.of_nat (length xs) * 2 ^ (253 - k) < bn254_r.
Proof.
  intros Hk Hn H tape limbs rm pm xs H1 H2 H3. specialize (H tape limbs rm pm xs H1 H2 H3).
  apply Z.lt_le_trans with (2 ^ k * 2 ^ (253 - k)).
  - apply Z.mul_lt_mono_pos_r; [apply Z.pow_pos_nonneg; lia|lia].
  - rewrite <- Z.pow_add_r by lia. replace (k + (253 - k)) with 253 by lia. vm_compute. discriminate.
Qed.
Print Assumptions C62_chance.

(** ** What is not the outcome of IEEE 754 is caught *)
Theorem C62_claims32 ft X Y Z :
  0 <= X < modulus -> 0 <= Y < modulus -> 0 <= Z < modulus ->
  (~ (bits 8 23 X /\ bits 8 23 Y /\ bits 8 23 Z /\ sum_outcome (of_bits 8 23 X) (of_bits 8 23 Y) (of_bits 8 23 Z)) ->
   caught 0 ft (binary_circuit 8 23 (Add 8 23) X Y Z) tt (per ft 151 148)) /\
  (~ (bits 8 23 X /\ bits 8 23 Y /\ bits 8 23 Z /\ diff_outcome (of_bits 8 23 X) (of_bits 8 23 Y) (of_bits 8 23 Z)) ->
   caught 0 ft (binary_circuit 8 23 (Sub 8 23) X Y Z) tt (per ft 151 148)) /\
  (~ (bits 8 23 X /\ bits 8 23 Y /\ bits 8 23 Z /\ product_outcome (mul_width32 ft) (of_bits 8 23 X) (of_bits 8 23 Y) (of_bits 8 23 Z)) ->
   caught 0 ft (binary_circuit 8 23 (Mul 8 23) X Y Z) tt (per ft 138 136)) /\
  (~ (bits 8 23 X /\ bits 8 23 Y /\ bits 8 23 Z /\ quotient_outcome 5 (of_bits 8 23 X) (of_bits 8 23 Y) (of_bits 8 23 Z)) ->
   caught 0 ft (binary_circuit 8 23 (Div 8 23) X Y Z) tt (137)) /\
  (~ (bits 8 23 X /\ bits 8 23 Y /\ of_bits 8 23 Y = ieee_sqrt 8 23 (of_bits 8 23 X)) ->
   caught 0 ft (unary_circuit 8 23 (Sqrt 8 23) X Y) tt (97)).
Proof.
  intros HX HY HZ. destruct (C47_auto32 ft X Y Z HX HY HZ) as (H1 & H2 & H5).
  destruct (C52_auto32 ft X Y Z HX HY HZ) as (H3 & H4).
  pose proof (C62_float32 ft X Y Z) as HF. cbn [fst snd] in HF.
  inversion_clear HF as [|? ? G1 F1]. inversion_clear F1 as [|? ? G2 F2]. inversion_clear F2 as [|? ? G3 F3].
  inversion_clear F3 as [|? ? G4 F4]. inversion_clear F4 as [|? ? G5 _]. cbn [fst snd] in *.
  rewrite <- H1, <- H2, <- H3, <- H4, <- H5. auto.
Qed.
Print Assumptions C62_claims32.

Theorem C62_claims64 ft X Y Z :
  0 <= X < modulus -> 0 <= Y < modulus -> 0 <= Z < modulus ->
  (~ (bits 11 52 X /\ bits 11 52 Y /\ bits 11 52 Z /\ sum_outcome (of_bits 11 52 X) (of_bits 11 52 Y) (of_bits 11 52 Z)) ->
   caught 0 ft (binary_circuit 11 52 (Add 11 52) X Y Z) tt (244)) /\
  (~ (bits 11 52 X /\ bits 11 52 Y /\ bits 11 52 Z /\ diff_outcome (of_bits 11 52 X) (of_bits 11 52 Y) (of_bits 11 52 Z)) ->
   caught 0 ft (binary_circuit 11 52 (Sub 11 52) X Y Z) tt (244)) /\
  (~ (bits 11 52 X /\ bits 11 52 Y /\ bits 11 52 Z /\ product_outcome 6 (of_bits 11 52 X) (of_bits 11 52 Y) (of_bits 11 52 Z)) ->
   caught 0 ft (binary_circuit 11 52 (Mul 11 52) X Y Z) tt (228)) /\
  (~ (bits 11 52 X /\ bits 11 52 Y /\ bits 11 52 Z /\ quotient_outcome 6 (of_bits 11 52 X) (of_bits 11 52 Y) (of_bits 11 52 Z)) ->
   caught 0 ft (binary_circuit 11 52 (Div 11 52) X Y Z) tt (229)) /\
  (~ (bits 11 52 X /\ bits 11 52 Y /\ of_bits 11 52 Y = ieee_sqrt 11 52 (of_bits 11 52 X)) ->
   caught 0 ft (unary_circuit 11 52 (Sqrt 11 52) X Y) tt (per ft 167 175)).
Proof.
  intros HX HY HZ. destruct (C47_auto64 ft X Y Z HX HY HZ) as (H1 & H2 & H5).
  destruct (C52_auto64 ft X Y Z HX HY HZ) as (H3 & H4).
  pose proof (C62_float64 ft X Y Z) as HF. cbn [fst snd] in HF.
  inversion_clear HF as [|? ? G1 F1]. inversion_clear F1 as [|? ? G2 F2]. inversion_clear F2 as [|? ? G3 F3].
  inversion_clear F3 as [|? ? G4 F4]. inversion_clear F4 as [|? ? G5 _]. cbn [fst snd] in *.
  rewrite <- H1, <- H2, <- H3, <- H4, <- H5. auto.
Qed.
Print Assumptions C62_claims64.

(** Comparisons: a prover who claims the wrong answer is caught. *)
Theorem C62_comparisons ft X Y Z : 0 <= X < modulus -> 0 <= Y < modulus ->
  Forall (fun p : (FloatVar -> FloatVar -> circ BinNums.Z) * (fmt 8 23 -> fmt 8 23 -> bool) =>
    ~ (bits 8 23 X /\ bits 8 23 Y /\ Z = Z.b2z (snd p (of_bits 8 23 X) (of_bits 8 23 Y))) ->
    caught 0 ft (comparison_circuit 8 23 (fst p) X Y Z) tt 75)
  [(IsLt 8 23, ieee_lt 8 23); (IsLe 8 23, ieee_le 8 23);
   (IsGt 8 23, fun x y => ieee_lt 8 23 y x); (IsGe 8 23, fun x y => ieee_le 8 23 y x)] /\
  Forall (fun p : (FloatVar -> FloatVar -> circ BinNums.Z) * (fmt 11 52 -> fmt 11 52 -> bool) =>
    ~ (bits 11 52 X /\ bits 11 52 Y /\ Z = Z.b2z (snd p (of_bits 11 52 X) (of_bits 11 52 Y))) ->
    caught 0 ft (comparison_circuit 11 52 (fst p) X Y Z) tt 129)
  [(IsLt 11 52, ieee_lt 11 52); (IsLe 11 52, ieee_le 11 52);
   (IsGt 11 52, fun x y => ieee_lt 11 52 y x); (IsGe 11 52, fun x y => ieee_le 11 52 y x)].
Proof.
  intros HX HY. destruct (C39_comparisons_auto ft X Y Z HX HY) as [H1 H2].
  pose proof (C62_float32 ft X Y Z) as F1. pose proof (C62_float64 ft X Y Z) as F2.
  do 8 (apply Forall_inv_tail in F1; apply Forall_inv_tail in F2).
  split.
  - do 4 (apply Forall_cons; [cbn [fst snd]; intros Hno; apply (Forall_inv F1); cbn [fst]; intros Ha;
      apply Hno; exact (proj1 (Forall_inv H1) Ha)|apply Forall_inv_tail in H1; apply Forall_inv_tail in F1]).
    apply Forall_nil.
  - do 4 (apply Forall_cons; [cbn [fst snd]; intros Hno; apply (Forall_inv F2); cbn [fst]; intros Ha;
      apply Hno; exact (proj1 (Forall_inv H2) Ha)|apply Forall_inv_tail in H2; apply Forall_inv_tail in F2]).
    apply Forall_nil.
Qed.
Print Assumptions C62_comparisons.

(** The sine and the arctangent: a finite argument and an expected value further from the
    function's than the accuracy of the circuit. *)
Theorem C62_functions ft X Z : 0 <= X < 2 ^ 64 -> is_finite (of_bits 11 52 X) = true -> 0 <= Z < modulus ->
  ((- PI <= B2R (of_bits 11 52 X) <= B2R (of_bits 11 52 pi_64))%R ->
   ~ (Rabs (Rabs (B2R (of_bits 11 52 Z)) - Rabs (sin (B2R (of_bits 11 52 X)))) <= 23 / 1000000000000000)%R ->
   caught 0 ft (SinCircuit X Z) tt 2797) /\
  (~ (Rabs (Rabs (B2R (of_bits 11 52 Z)) - Rabs (atan (B2R (of_bits 11 52 X)))) <= / 10000000000000)%R ->
   caught 0 ft (CircuitATanRemez64 X Z) tt 3128).
Proof.
  intros HX FX HZ. pose proof (C62_math ft X Z 0 0) as HM. split.
  - intros Hr Hno. apply (Forall_inv HM). cbn [fst]. intros Ha. apply Hno.
    exact (proj2 (proj2 (proj2 (C48_sine ft X HX FX Hr) Z HZ Ha))).
  - intros Hno. apply (Forall_inv (Forall_inv_tail HM)). cbn [fst]. intros Ha. apply Hno.
    exact (proj2 (proj2 (proj2 (C48_arctangent ft X HX FX) Z HZ Ha))).
Qed.
Print Assumptions C62_functions.

(** 1.5 + 2.25 = 3.7500002 passes at most 150 challenges, 1.5 + 2.25 = 3.75 is accepted
    (and then passes all but the queried values, C53_circuit_complete); 1.5 > 2.25. *)
Example C62_ex :
  caught 0 R1CS (binary_circuit 8 23 (Add 8 23) 0x3FC00000 0x40100000 0x40700001) tt 151 /\
  accepts 0 R1CS (binary_circuit 8 23 (Add 8 23) 0x3FC00000 0x40100000 0x40700000) tt /\
  caught 0 SCS (comparison_circuit 8 23 (IsGt 8 23) 0x3FC00000 0x40100000 1) tt 75.
Proof.
  assert (HR : forall v, 0 <= v < 2 ^ 32 -> 0 <= v < @modulus bn254).
  { intros v Hv. split; [lia|]. eapply Z.lt_trans; [exact (proj2 Hv)|reflexivity]. }
  split; [|split].
  - apply (proj1 (C62_claims32 R1CS 0x3FC00000 0x40100000 0x40700001
      ltac:(apply HR; lia) ltac:(apply HR; lia) ltac:(apply HR; lia))).
    intros (_ & _ & _ & [H|[(_ & _ & H & _) _]]).
    + apply (f_equal B2SF) in H. vm_compute in H. discriminate H.
    + apply H. vm_compute. reflexivity.
  - apply (proj1 (C47_auto32 R1CS 0x3FC00000 0x40100000 0x40700000
      ltac:(apply HR; lia) ltac:(apply HR; lia) ltac:(apply HR; lia))).
    repeat split; try lia. left. apply B2SF_inj. vm_compute. reflexivity.
  - pose proof (proj1 (C62_comparisons SCS 0x3FC00000 0x40100000 1 ltac:(apply HR; lia) ltac:(apply HR; lia))) as H.
    do 2 apply Forall_inv_tail in H. apply (Forall_inv H). cbn [snd]. intros (_ & _ & H'). vm_compute in H'. discriminate H'.
Qed.
