(** Every lookup of a power of two comes with a range check of its own, in all
    circuits: the number of queries is at most the number of checks, which is
    known (LocShapes.v). *)
From Coq Require Import ZArith List Bool Lia.
From Verif Require Import Field Circuit RangeCheck Gadget Util FloatModel Circuits Math Loc2Index.
Import ListNotations.
Local Open Scope Z_scope.

Section Frugal.
Context {MOD : Modulus}.
Variable s : Z.

Definition frugal {A} (c : circ A) : Prop := forall tape r cs qs rest,
  trace c tape = Some (r, cs, qs, rest) ->
  (length qs <= length cs)%nat /\ Forall (fun q => fst q = s) qs.

Lemma trace_bind {A B} (c : circ A) (f : A -> circ B) : forall tape r cs qs rest,
  trace (bind c f) tape = Some (r, cs, qs, rest) ->
  exists a cs1 qs1 rest1 cs2 qs2,
    trace c tape = Some (a, cs1, qs1, rest1) /\ trace (f a) rest1 = Some (r, cs2, qs2, rest) /\
    cs = cs1 ++ cs2 /\ qs = qs1 ++ qs2.
Proof.
  induction c as [a|h k IH|p k IH|v n m k IH|z v k IH]; intros tape r cs qs rest; simpl.
  - intros H. exists a, [], [], tape, cs, qs. auto.
  - destruct tape as [|w t]; [discriminate|].
    destruct ((0 <=? w) && (w <? modulus)); [|discriminate]. apply IH.
  - destruct p; [|discriminate]. apply IH.
  - destruct (trace (bind k f) tape) as [[[[r' cs'] qs'] rest']|] eqn:He; [|discriminate].
    intros H. injection H as <- <- <- <-.
    destruct (IH _ _ _ _ _ He) as (a & cs1 & qs1 & rest1 & cs2 & qs2 & -> & H2 & -> & ->).
    exists a, (mkCheck v n m :: cs1), qs1, rest1, cs2, qs2. auto.
  - destruct (trace (bind k f) tape) as [[[[r' cs'] qs'] rest']|] eqn:He; [|discriminate].
    intros H. injection H as <- <- <- <-.
    destruct (IH _ _ _ _ _ He) as (a & cs1 & qs1 & rest1 & cs2 & qs2 & -> & H2 & -> & ->).
    exists a, cs1, ((z, v) :: qs1), rest1, cs2, qs2. auto.
Qed.

Lemma frugal_bind {A B} (c : circ A) (f : A -> circ B) :
  frugal c -> (forall a, frugal (f a)) -> frugal (bind c f).
Proof.
  intros H Hf tape r cs qs rest Ht.
  destruct (trace_bind c f _ _ _ _ _ Ht) as (a & cs1 & qs1 & rest1 & cs2 & qs2 & H1 & H2 & -> & ->).
  destruct (H _ _ _ _ _ H1) as [L1 F1]. destruct (Hf a _ _ _ _ _ H2) as [L2 F2].
  rewrite !app_length. split; [lia|]. apply Forall_app. auto.
Qed.

(** Without queries. *)
Fixpoint quiet {A} (c : circ A) : Prop :=
  match c with
  | Ret _ => True
  | Hint _ k => forall w, quiet (k w)
  | Assert _ k => quiet k
  | Check _ _ _ k => quiet k
  | Query _ _ _ => False
  end.
Lemma quiet_frugal {A} (c : circ A) : quiet c -> frugal c.
Proof.
  intros H tape r cs qs rest Ht. assert (qs = []) as ->.
  { revert tape r cs qs rest H Ht.
    induction c as [a|h k IH|p k IH|v n m k IH|z v k IH]; intros tape r cs qs rest; simpl.
    - intros _ H. injection H as _ _ <- _. reflexivity.
    - intros H. destruct tape as [|w t]; [discriminate|].
      destruct ((0 <=? w) && (w <? modulus)); [|discriminate]. intros Ht. exact (IH w _ _ _ _ _ (H w) Ht).
    - destruct p; [|discriminate]. apply IH.
    - intros H. destruct (trace k tape) as [[[[r' cs'] qs'] rest']|] eqn:He; [|discriminate].
      intros Ht. injection Ht as _ _ <- _. exact (IH _ _ _ _ _ H He).
    - intros []. }
  simpl. split; [lia|constructor].
Qed.

Lemma frugal_ret {A} (a : A) : frugal (Ret a). Proof. apply quiet_frugal. exact I. Qed.
Lemma frugal_hint1 h : frugal (hint1 h). Proof. apply quiet_frugal. intros w. exact I. Qed.
Lemma frugal_assert c : frugal (assert c). Proof. apply quiet_frugal. exact I. Qed.
Lemma frugal_assert_bool a : frugal (assert_bool a). Proof. apply quiet_frugal. exact I. Qed.
Lemma frugal_assert_eq a b : frugal (assert_eq a b). Proof. apply quiet_frugal. exact I. Qed.
Lemma frugal_select c a b : frugal (select c a b). Proof. apply quiet_frugal. exact I. Qed.
Lemma frugal_and a b : frugal (and_ a b). Proof. apply quiet_frugal. exact I. Qed.
Lemma frugal_or a b : frugal (or_ a b). Proof. apply quiet_frugal. exact I. Qed.
Lemma frugal_xor a b : frugal (xor_ a b). Proof. apply quiet_frugal. exact I. Qed.
Lemma frugal_inverse a : frugal (inverse a). Proof. apply quiet_frugal. intros w. exact I. Qed.
Lemma frugal_abl v n m : frugal (AssertBitLength v n m). Proof. apply quiet_frugal. exact I. Qed.
Lemma frugal_le_const a n : frugal (assert_le_const a n). Proof. apply quiet_frugal. exact I. Qed.

(** gadget/gadget.go:122-137: the one place that queries. *)
Lemma frugal_query e : frugal (QueryPowerOf2 s e).
Proof.
  intros tape r cs qs rest. unfold QueryPowerOf2. cbn.
  destruct tape as [|w t]; [discriminate|].
  destruct ((0 <=? w) && (w <? modulus)); [|discriminate].
  intros H. injection H as _ <- <- _. cbn. split; [lia|]. repeat constructor.
Qed.

Ltac base :=
  lazymatch goal with
  | |- frugal (Ret _) => apply frugal_ret
  | |- frugal (hint1 _) => apply frugal_hint1
  | |- frugal (assert _) => apply frugal_assert
  | |- frugal (assert_bool _) => apply frugal_assert_bool
  | |- frugal (assert_eq _ _) => apply frugal_assert_eq
  | |- frugal (select _ _ _) => apply frugal_select
  | |- frugal (and_ _ _) => apply frugal_and
  | |- frugal (or_ _ _) => apply frugal_or
  | |- frugal (xor_ _ _) => apply frugal_xor
  | |- frugal (inverse _) => apply frugal_inverse
  | |- frugal (AssertBitLength _ _ _) => apply frugal_abl
  | |- frugal (assert_le_const _ _) => apply frugal_le_const
  | |- frugal (QueryPowerOf2 _ _) => apply frugal_query
  | _ => auto with frugal
  end.
Ltac thrift :=
  lazymatch goal with
  | |- frugal (bind _ _) => apply frugal_bind; [thrift|intros ?; thrift]
  | |- frugal (let '(_, _) := ?p in _) => destruct p; thrift
  | |- frugal (match ?p with pair _ _ => _ end) => destruct p; thrift
  | |- frugal (let _ := _ in _) => cbv zeta; thrift
  | |- frugal (if ?c then _ else _) => destruct c; thrift
  | _ => base
  end.

Create HintDb frugal.
Lemma frugal_GAbs v n : frugal (GAbs v n). Proof. unfold GAbs. thrift. Qed.
#[local] Hint Resolve frugal_GAbs : frugal.
Lemma frugal_IsPositive v n : frugal (IsPositive v n). Proof. unfold IsPositive. thrift. Qed.
#[local] Hint Resolve frugal_IsPositive : frugal.
Lemma frugal_GMax a b n : frugal (GMax a b n). Proof. unfold GMax. thrift. Qed.
Lemma frugal_GMin a b n : frugal (GMin a b n). Proof. unfold GMin. thrift. Qed.
#[local] Hint Resolve frugal_GMax frugal_GMin : frugal.

Variables (E M : Z).
Hypothesis Hs : pow2_size E M = s.

Lemma frugal_QueryPow2 e : frugal (QueryPow2 E M e).
Proof. unfold QueryPow2. rewrite Hs. apply frugal_query. Qed.
#[local] Hint Resolve frugal_QueryPow2 : frugal.
Lemma frugal_NewFloat v : frugal (NewFloat E M v). Proof. unfold NewFloat. thrift. Qed.
Lemma frugal_round m n z k h : frugal (round E M m n z k h). Proof. unfold round. thrift. Qed.
Lemma frugal_fixOverflow m z e a : frugal (fixOverflow E M m z e a).
Proof. unfold fixOverflow. thrift. Qed.
Lemma frugal_nan x y : frugal (is_nan_either x y). Proof. unfold is_nan_either. thrift. Qed.
Lemma frugal_sign n x y : frugal (assert_sign_equal n x y).
Proof. unfold assert_sign_equal. thrift. Qed.
Lemma frugal_cond c x y : frugal (assert_cond_or_equal c x y).
Proof. unfold assert_cond_or_equal. thrift. Qed.
#[local] Hint Resolve frugal_NewFloat frugal_round frugal_fixOverflow frugal_nan frugal_sign
  frugal_cond : frugal.
Lemma frugal_AssertIsEqual x y : frugal (AssertIsEqual x y). Proof. unfold AssertIsEqual. thrift. Qed.
Lemma frugal_OrULP x y : frugal (AssertIsEqualOrULP M x y).
Proof. unfold AssertIsEqualOrULP. thrift. Qed.
Lemma frugal_Add x y : frugal (Add E M x y). Proof. unfold Add. thrift. Qed.
Lemma frugal_Sub x y : frugal (Sub E M x y). Proof. exact (frugal_Add x (Neg y)). Qed.
Lemma frugal_subshift e z : frugal (subnormal_shift E e z). Proof. unfold subnormal_shift. thrift. Qed.
#[local] Hint Resolve frugal_AssertIsEqual frugal_OrULP frugal_Add frugal_Sub frugal_subshift : frugal.
Lemma frugal_Mul x y : frugal (Mul E M x y). Proof. unfold Mul. thrift. Qed.
Lemma frugal_Div x y : frugal (Div E M x y). Proof. unfold Div. thrift. Qed.
Lemma frugal_Sqrt x : frugal (Sqrt E M x). Proof. unfold Sqrt. thrift. Qed.
Lemma frugal_less x y a : frugal (less E M x y a). Proof. unfold less. thrift. Qed.
#[local] Hint Resolve frugal_Mul frugal_Div frugal_Sqrt frugal_less : frugal.
Lemma frugal_IsLt x y : frugal (IsLt E M x y). Proof. unfold IsLt. thrift. Qed.
Lemma frugal_IsLe x y : frugal (IsLe E M x y). Proof. unfold IsLe. thrift. Qed.
Lemma frugal_IsGt x y : frugal (IsGt E M x y). Proof. unfold IsGt. thrift. Qed.
Lemma frugal_IsGe x y : frugal (IsGe E M x y). Proof. unfold IsGe. thrift. Qed.
#[local] Hint Resolve frugal_IsLt frugal_IsLe frugal_IsGt frugal_IsGe : frugal.
Lemma frugal_CustomULP x y t : frugal (AssertIsEqualOrCustomULP E M x y t).
Proof. unfold AssertIsEqualOrCustomULP. thrift. Qed.
Lemma frugal_Trunc x : frugal (Trunc E M x). Proof. unfold Trunc. thrift. Qed.
Lemma frugal_Floor x : frugal (Floor E M x). Proof. unfold Floor. thrift. Qed.
#[local] Hint Resolve frugal_CustomULP frugal_Trunc frugal_Floor : frugal.
Lemma frugal_Ceil x : frugal (Ceil E M x). Proof. unfold Ceil. thrift. Qed.
Lemma frugal_ToInt x : frugal (ToInt E M x). Proof. unfold ToInt. thrift. Qed.
Lemma frugal_FSelect c x y : frugal (FSelect c x y). Proof. unfold FSelect. thrift. Qed.


Ltac operation :=
  lazymatch goal with
  | |- frugal (QueryPow2 _ _ _) => apply frugal_QueryPow2
  | |- frugal (NewFloat _ _ _) => apply frugal_NewFloat
  | |- frugal (AssertIsEqual _ _) => apply frugal_AssertIsEqual
  | |- frugal (AssertIsEqualOrULP _ _ _) => apply frugal_OrULP
  | |- frugal (Add _ _ _ _) => apply frugal_Add
  | |- frugal (Sub _ _ _ _) => apply frugal_Sub
  | |- frugal (Mul _ _ _ _) => apply frugal_Mul
  | |- frugal (Div _ _ _ _) => apply frugal_Div
  | |- frugal (Sqrt _ _ _) => apply frugal_Sqrt
  | |- frugal (IsLt _ _ _ _) => apply frugal_IsLt
  | |- frugal (IsLe _ _ _ _) => apply frugal_IsLe
  | |- frugal (IsGt _ _ _ _) => apply frugal_IsGt
  | |- frugal (IsGe _ _ _ _) => apply frugal_IsGe
  | |- frugal (AssertIsEqualOrCustomULP _ _ _ _ _) => apply frugal_CustomULP
  | |- frugal (Trunc _ _ _) => apply frugal_Trunc
  | |- frugal (Floor _ _ _) => apply frugal_Floor
  | |- frugal (Ceil _ _ _) => apply frugal_Ceil
  | |- frugal (ToInt _ _ _) => apply frugal_ToInt
  | |- frugal (FSelect _ _ _) => apply frugal_FSelect
  | |- frugal (GAbs _ _) => apply frugal_GAbs
  | |- frugal (IsPositive _ _) => apply frugal_IsPositive
  | |- frugal (GMax _ _ _) => apply frugal_GMax
  | |- frugal (GMin _ _ _) => apply frugal_GMin
  | |- frugal (Ret _) => apply frugal_ret
  | |- frugal (hint1 _) => apply frugal_hint1
  | |- frugal (assert _) => apply frugal_assert
  | |- frugal (assert_bool _) => apply frugal_assert_bool
  | |- frugal (assert_eq _ _) => apply frugal_assert_eq
  | |- frugal (select _ _ _) => apply frugal_select
  | |- frugal (and_ _ _) => apply frugal_and
  | |- frugal (or_ _ _) => apply frugal_or
  | |- frugal (xor_ _ _) => apply frugal_xor
  | |- frugal (assert_le_const _ _) => apply frugal_le_const
  | _ => auto 2
  end.
Ltac saves :=
  lazymatch goal with
  | |- frugal (bind _ _) => apply frugal_bind; [saves|intros ?; saves]
  | |- frugal (let '(_, _) := ?p in _) => destruct p; saves
  | |- frugal (match ?p with pair _ _ => _ end) => destruct p; saves
  | |- frugal (let _ := _ in _) => cbv zeta; saves
  | |- frugal (if ?c then _ else _) => destruct c; saves
  | _ => operation
  end.

(** ** float_test.go *)
Lemma frugal_unary op X Y : (forall x, frugal (op x)) -> frugal (unary_circuit E M op X Y).
Proof. intros H. unfold unary_circuit. saves. Qed.
Lemma frugal_binary op X Y Z : (forall x y, frugal (op x y)) -> frugal (binary_circuit E M op X Y Z).
Proof. intros H. unfold binary_circuit. saves. Qed.
Lemma frugal_comparison op X Y Z : (forall x y, frugal (op x y)) ->
  frugal (comparison_circuit E M op X Y Z).
Proof. intros H. unfold comparison_circuit. saves. Qed.
Lemma frugal_allocation X y : frugal (allocation_circuit E M X y).
Proof. unfold allocation_circuit. saves. Qed.
Lemma frugal_conversion op X Y : (forall x, frugal (op x)) -> frugal (conversion_circuit E M op X Y).
Proof. intros H. unfold conversion_circuit. saves. Qed.

(** ** math.go *)
Lemma frugal_Eval p x : frugal (Eval E M p x).
Proof. induction p as [|c p IH]; cbn [Eval]; saves. Qed.
Lemma frugal_evalk_rest x l : forall p, frugal (evalk_rest E M x p l).
Proof. induction l as [|c l IH]; intros p; cbn [evalk_rest]; saves. Qed.
Lemma frugal_evalk_step x c l : frugal (evalk_step E M x c l).
Proof.  pose proof frugal_evalk_rest. destruct l; cbn [evalk_step]; saves. Qed.
Lemma frugal_evalk_loop x p : forall l, frugal (evalk_loop E M x p l).
Proof.  pose proof frugal_evalk_step. induction p as [|c p IH]; intros l; cbn [evalk_loop]; saves. Qed.
Lemma frugal_add_all l : forall r, frugal (add_all E M r l).
Proof. induction l as [|q l IH]; intros r; cbn [add_all]; saves. Qed.
Lemma frugal_EvalK p x k : frugal (EvalK E M p x k).
Proof.
  unfold EvalK. apply frugal_bind; [apply frugal_evalk_loop|intros [|q l]; [saves|apply frugal_add_all]].
Qed.
Lemma frugal_AtanRemez hp o cs x : frugal (AtanRemez E M hp o cs x).
Proof.  pose proof frugal_EvalK. unfold AtanRemez. saves. Qed.
Lemma frugal_taylor x2 n : forall i r t, frugal (taylor_loop E M x2 n i r t).
Proof. induction n as [|n IH]; intros i r t; cbn [taylor_loop]; saves. Qed.
Lemma frugal_SinTaylor pi hp x : frugal (SinTaylor E M pi hp x).
Proof.  pose proof frugal_taylor. unfold SinTaylor. saves. Qed.

(** ** loc2index32.go, loc2index64.go *)
Lemma frugal_bit_hints a n : forall i, frugal (bit_hints a i n).
Proof. induction n as [|n IH]; intros i; cbn [bit_hints]; saves. Qed.
Lemma frugal_to_binary a n : frugal (to_binary a n). Proof.  pose proof frugal_bit_hints. unfold to_binary. saves. Qed.
Lemma frugal_scale_loop bits : forall ps m, frugal (scale_loop E M bits ps m).
Proof. induction bits as [|b bits IH]; intros [|p ps] m; cbn [scale_loop]; saves. Qed.
Lemma frugal_scaleR K r res : frugal (scaleR E M K r res). Proof.  pose proof frugal_to_binary. pose proof frugal_scale_loop. unfold scaleR. saves. Qed.
Lemma frugal_calculateR K d res : frugal (calculateR E M K d res).
Proof.  pose proof frugal_scaleR. unfold calculateR. saves. Qed.
Lemma frugal_face_distance f x y z : frugal (face_distance E M f x y z).
Proof. unfold face_distance. saves. Qed.
Lemma frugal_face_loop fs x y z : forall c, frugal (face_loop E M fs x y z c).
Proof.  pose proof frugal_face_distance. induction fs as [|f fs IH]; intros c; cbn [face_loop]; saves. Qed.
Lemma frugal_calculateHex2d a b c d ch r res : frugal (calculateHex2d E M a b c d ch r res).
Proof.  pose proof frugal_to_binary. unfold calculateHex2d. saves. Qed.
Lemma frugal_Normalize a b c d e f : frugal (NormalizeIJK a b c d e f).
Proof. unfold NormalizeIJK. saves. Qed.
Lemma frugal_hex2dToCoordIJK K x y : frugal (hex2dToCoordIJK E M K x y).
Proof.  pose proof frugal_Normalize. unfold hex2dToCoordIJK. saves. Qed.
Lemma frugal_locate K fs lng cl cg z sg res I J K_ :
  frugal (locate E M K fs lng cl cg z sg res I J K_).
Proof.  pose proof frugal_face_loop. pose proof frugal_calculateR. pose proof frugal_calculateHex2d. pose proof frugal_hex2dToCoordIJK. unfold locate, closestFaceCalculations. saves. Qed.
Lemma frugal_bounds pi hp lat lng res : frugal (bounds E M pi hp lat lng res).
Proof. unfold bounds. saves. Qed.
Lemma frugal_hint_float h i : frugal (hint_float h i). Proof. unfold hint_float. saves. Qed.
Lemma frugal_precompute h : frugal (precompute E M h). Proof.  pose proof frugal_hint_float. unfold precompute. saves. Qed.
Lemma frugal_trig c1 c2 c3 al be ga de :
  (forall x y, frugal (c1 x y)) -> (forall x y, frugal (c2 x y)) -> (forall x y, frugal (c3 x y)) ->
  frugal (trig_checks E M c1 c2 c3 al be ga de).
Proof. intros H1 H2 H3. unfold trig_checks. saves. Qed.
Lemma frugal_hint_circuit K faces c1 c2 c3 d1 d2 d3 h1 h2 lng res I J K_ :
  (forall x y, frugal (c1 x y)) -> (forall x y, frugal (c2 x y)) -> (forall x y, frugal (c3 x y)) ->
  (forall x y, frugal (d1 x y)) -> (forall x y, frugal (d2 x y)) -> (forall x y, frugal (d3 x y)) ->
  frugal (hint_circuit E M K faces [c1; c2; c3] [d1; d2; d3] h1 h2 lng res I J K_).
Proof.
  intros H1 H2 H3 H4 H5 H6. pose proof frugal_precompute. pose proof frugal_locate.
  pose proof (fun a b c d => frugal_trig c1 c2 c3 a b c d H1 H2 H3).
  pose proof (fun a b c d => frugal_trig d1 d2 d3 a b c d H4 H5 H6).
  unfold hint_circuit. cbn [nth]. saves.
Qed.

End Frugal.

(** ** The test circuits *)
Section Tests.
Context {MOD : Modulus}.
Let e32 : pow2_size 8 23 = 32 := eq_refl.
Let e64 : pow2_size 11 52 = 64 := eq_refl.

Ltac step := apply frugal_bind; [|intros ?].

Lemma frugal_function op X Z : (forall x, frugal 64 (op x)) -> frugal 64 (function_circuit op X Z).
Proof.
  intros H. unfold function_circuit.
  step; [exact (frugal_NewFloat 64 11 52 e64 X)|].
  step; [exact (frugal_NewFloat 64 11 52 e64 Z)|].
  step; [apply H|]. step; apply frugal_assert_eq.
Qed.
Lemma frugal_polynomial eval cs X P : (forall p x, frugal 64 (eval p x)) ->
  frugal 64 (polynomial_circuit eval cs X P).
Proof.
  intros H. unfold polynomial_circuit.
  step; [exact (frugal_NewFloat 64 11 52 e64 X)|].
  step; [exact (frugal_NewFloat 64 11 52 e64 P)|].
  step; [apply H|]. step; apply frugal_assert_eq.
Qed.
Lemma frugal_PolynomialEval X P : frugal 64 (PolynomialEvalCircuit X P).
Proof. exact (frugal_polynomial (Eval 11 52) [5; 1; 2; 3] X P (frugal_Eval 64 11 52 e64)). Qed.
Lemma frugal_PolynomialDegTen X P : frugal 64 (PolynomialEvalCircuitDegTen X P).
Proof.
  exact (frugal_polynomial (fun p x => EvalK 11 52 p x 1) [1; 9; 8; 7; 6; 5; 4; 3; 2; 1; 1] X P
    (fun p x => frugal_EvalK 64 11 52 e64 p x 1)).
Qed.
Lemma frugal_ATanCircuit X Z : frugal 64 (CircuitATanRemez64 X Z).
Proof.
  exact (frugal_function AtanRemez64 X Z
    (frugal_AtanRemez 64 11 52 e64 half_pi_64 one_64 atan_coeffs_64)).
Qed.
Lemma frugal_SinCircuit X Z : frugal 64 (SinCircuit X Z).
Proof. exact (frugal_function SinTaylor64 X Z (frugal_SinTaylor 64 11 52 e64 pi_64 half_pi_64)). Qed.

Variables (K : constants) (faces : list face).

Lemma frugal_loc32 trig Lat Lng res I J K_ :
  frugal 32 (loc2Index32Circuit K faces trig Lat Lng res I J K_).
Proof.
  unfold loc2Index32Circuit.
  step; [exact (frugal_NewFloat 32 8 23 e32 Lat)|].
  step; [exact (frugal_NewFloat 32 8 23 e32 Lng)|].
  step; [apply (frugal_bounds 32 8 23)|].
  cbv zeta. apply (frugal_hint_circuit 32 8 23 e32); intros x y; exact (frugal_CustomULP 32 8 23 e32 x y one_32).
Qed.

Lemma frugal_leftover lat lng : frugal 64 (leftover_64 lat lng).
Proof.
  unfold leftover_64.
  step; [apply (frugal_Add 64 11 52 e64)|]. step; [apply (frugal_Add 64 11 52 e64)|].
  step; [apply (frugal_IsGt 64 11 52)|]. step; [apply (frugal_Sub 64 11 52 e64)|].
  repeat (step; [apply frugal_select|]). apply frugal_ret.
Qed.

Lemma frugal_loc64 trig Lat Lng res I J K_ :
  frugal 64 (loc2Index64Circuit K faces trig Lat Lng res I J K_).
Proof.
  unfold loc2Index64Circuit.
  step; [exact (frugal_NewFloat 64 11 52 e64 Lat)|].
  step; [exact (frugal_NewFloat 64 11 52 e64 Lng)|].
  step; [apply (frugal_bounds 64 11 52)|].
  step; [apply frugal_leftover|].
  cbv zeta. pose proof (fun x y => frugal_CustomULP 64 11 52 e64 x y two_64) as HC.
  pose proof (frugal_OrULP 64 52) as HU.
  apply (frugal_hint_circuit 64 11 52 e64); first [exact HC|exact HU].
Qed.

Lemma frugal_Sin32 x : frugal 32 (SinTaylor32 x).
Proof. exact (frugal_SinTaylor 32 8 23 e32 pi_32 half_pi_32 x). Qed.

Lemma frugal_wrapper Lat Lng res I J K_ :
  frugal 32 (loc2Index32CircuitWrapper K faces Lat Lng res I J K_).
Proof.
  unfold loc2Index32CircuitWrapper.
  step; [exact (frugal_NewFloat 32 8 23 e32 Lat)|].
  step; [exact (frugal_NewFloat 32 8 23 e32 Lng)|].
  step; [apply (frugal_bounds 32 8 23)|].
  cbv zeta.
  step; [apply (frugal_Add 32 8 23 e32)|]. step; [apply frugal_Sin32|].
  step; [apply (frugal_Add 32 8 23 e32)|]. step; [apply (frugal_IsGt 32 8 23)|].
  step; [apply (frugal_Sub 32 8 23 e32)|].
  do 3 (step; [apply frugal_select|]).
  do 3 (step; [apply frugal_Sin32|]).
  apply (frugal_locate 32 8 23 e32).
Qed.
End Tests.
