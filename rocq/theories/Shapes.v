(** The range checks each operation of float/float.go registers: bit lengths
    and modes, in order.  They do not depend on the values on the wires, so the
    base width chosen by gadget/rangecheck.go:153-206 is a constant of the
    circuit. *)
From Coq Require Import ZArith List Bool.
From Verif Require Import Field Circuit Hints RangeCheck Gadget Util FloatModel Deferred.
Import ListNotations.
Local Open Scope Z_scope.

Section Shapes.
Context {MOD : Modulus}.

Lemma collects_bind {A B} (c : circ A) (f : A -> circ B) s1 s2 s :
  collects c s1 -> (forall a, collects (f a) s2) -> s = s1 ++ s2 -> collects (bind c f) s.
Proof.
  intros H Hf ->. revert s1 H.
  induction c as [a|h k IH|p k IH|v n m k IH|z v k IH]; intros s1; simpl.
  - intros ->. apply Hf.
  - intros H w. apply IH, H.
  - intros H Hp. apply IH, H, Hp.
  - intros [t [-> H]]. exists (t ++ s2). split; [reflexivity|]. apply IH, H.
  - intros H. apply IH, H.
Qed.

Lemma collects_ret {A} (a : A) : collects (Ret a) []. Proof. reflexivity. Qed.
Lemma collects_hint1 h : collects (hint1 h) []. Proof. intros w. reflexivity. Qed.
Lemma collects_assert c : collects (assert c) []. Proof. intros _. reflexivity. Qed.
Lemma collects_assert_bool a : collects (assert_bool a) []. Proof. apply collects_assert. Qed.
Lemma collects_assert_eq a b : collects (assert_eq a b) []. Proof. apply collects_assert. Qed.
Lemma collects_select c a b : collects (select c a b) []. Proof. intros _. reflexivity. Qed.
Lemma collects_and a b : collects (and_ a b) []. Proof. intros _ _. reflexivity. Qed.
Lemma collects_or a b : collects (or_ a b) []. Proof. intros _ _. reflexivity. Qed.
Lemma collects_xor a b : collects (xor_ a b) []. Proof. intros _ _. reflexivity. Qed.
Lemma collects_inverse a : collects (inverse a) []. Proof. intros w _. reflexivity. Qed.
Lemma collects_abl v n m : collects (AssertBitLength v n m) [(n, m)].
Proof. exists []. split; reflexivity. Qed.
Lemma collects_query s v : collects (query s v) []. Proof. reflexivity. Qed.

Create HintDb shapes.
#[local] Hint Resolve collects_ret collects_hint1 collects_assert collects_assert_bool
  collects_assert_eq collects_select collects_and collects_or collects_xor
  collects_inverse collects_abl collects_query : shapes.

Ltac shape :=
  lazymatch goal with
  | |- collects (bind _ _) _ =>
      eapply collects_bind;
      [ shape | intros ?; shape | cbn [app]; reflexivity ]
  | |- collects (let '(_, _) := ?p in _) _ => destruct p; shape
  | |- collects (let _ := _ in _) _ => cbv zeta; shape
  | |- collects (match ?p with pair _ _ => _ end) _ => destruct p; shape
  | _ => solve [ eauto with shapes ]
  end.

Lemma collects_GAbs v n : collects (GAbs v n) [(n, Loose)].
Proof. unfold GAbs. shape. Qed.
#[local] Hint Resolve collects_GAbs : shapes.
Lemma collects_IsPositive v n : collects (IsPositive v n) [(n, Loose)].
Proof. unfold IsPositive. shape. Qed.
#[local] Hint Resolve collects_IsPositive : shapes.
Lemma collects_GMax a b n : collects (GMax a b n) [(n, Loose)].
Proof. unfold GMax. shape. Qed.
Lemma collects_GMin a b n : collects (GMin a b n) [(n, Loose)].
Proof. unfold GMin. shape. Qed.
#[local] Hint Resolve collects_GMax collects_GMin : shapes.

Variables (E M : Z).

Lemma collects_QueryPow2 e : collects (QueryPow2 E M e) [(pow2_size E M, Loose)].
Proof. unfold QueryPow2, QueryPowerOf2. shape. Qed.
#[local] Hint Resolve collects_QueryPow2 : shapes.

Definition newfloat_shape : list (Z * mode) :=
  [(E, TightForUnknownRange); (M, TightForUnknownRange); (BitLen M, Loose);
   (pow2_size E M, Loose); (M - 1, TightForSmallAbs)].
Lemma collects_NewFloat v : collects (NewFloat E M v) newfloat_shape.
Proof. unfold NewFloat. shape. Qed.

Definition round_shape (mantissa_bit_length shift_max : Z) : list (Z * mode) :=
  [(pow2_size E M, Loose); (M, Loose);
   (shift_max + mantissa_bit_length - M - 2, TightForSmallAbs)].
Lemma collects_round m n s k h : collects (round E M m n s k h) (round_shape n k).
Proof.
  unfold round. eapply collects_bind; [apply collects_QueryPow2|intros two|reflexivity].
  cbv zeta.
  destruct (DecomposeMantissaForRoundingHint _ _ _ _ _ _) as [[[hp hq] hr] hs]. shape.
Qed.
Lemma collects_fixOverflow m z e a : collects (fixOverflow E M m z e a) [(E + 1, Loose)].
Proof. unfold fixOverflow. shape. Qed.
Lemma collects_nan x y : collects (is_nan_either x y) [].
Proof. unfold is_nan_either. shape. Qed.
Lemma collects_sign n x y : collects (assert_sign_equal n x y) [].
Proof. unfold assert_sign_equal. shape. Qed.
Lemma collects_cond c x y : collects (assert_cond_or_equal c x y) [].
Proof. unfold assert_cond_or_equal. shape. Qed.
#[local] Hint Resolve collects_NewFloat collects_round collects_fixOverflow collects_nan
  collects_sign collects_cond : shapes.

Lemma collects_AssertIsEqual x y : collects (AssertIsEqual x y) [].
Proof. unfold AssertIsEqual. shape. Qed.
Lemma collects_AssertIsEqualOrULP x y : collects (AssertIsEqualOrULP M x y) [].
Proof. unfold AssertIsEqualOrULP. shape. Qed.

Definition add_shape : list (Z * mode) :=
  [(E + 1, Loose); (E, Loose); (pow2_size E M, Loose);
   (BitLen (M + 3 + (M + 1) + 1), Loose); (pow2_size E M, Loose);
   (M + 3 + (M + 1) + 1 - 1, TightForSmallAbs)]
  ++ round_shape (M + 3 + (M + 1) + 1) 0 ++ [(E + 1, Loose)].
Lemma collects_Add x y : collects (Add E M x y) add_shape.
Proof. unfold Add. shape. Qed.
Lemma collects_Sub x y : collects (Sub E M x y) add_shape.
Proof. exact (collects_Add x (Neg y)). Qed.
#[local] Hint Resolve collects_Add collects_Sub : shapes.

Lemma collects_subshift e s : collects (subnormal_shift E e s) [(E + 1, Loose); (E + 1, Loose)].
Proof. unfold subnormal_shift. shape. Qed.
#[local] Hint Resolve collects_subshift : shapes.

Definition mul_shape : list (Z * mode) :=
  [((M + 1) * 2 - 1, TightForSmallAbs); (E + 1, Loose); (E + 1, Loose)]
  ++ round_shape ((M + 1) * 2) (M + 2) ++ [(E + 1, Loose)].
Lemma collects_Mul x y : collects (Mul E M x y) mul_shape.
Proof. unfold Mul. shape. Qed.

Definition div_shape : list (Z * mode) :=
  [(M + 1, Loose); (M + 1, Loose); (M + 2 + 1 - 1, TightForUnknownRange);
   (E + 1, Loose); (E + 1, Loose)]
  ++ round_shape (M + 2 + 1) (M + 2) ++ [(E + 1, Loose)].
Lemma collects_Div x y : collects (Div E M x y) div_shape.
Proof. unfold Div. shape. Qed.

Definition sqrt_shape : list (Z * mode) :=
  [(E - 1, Loose); (M + 3 + 1, Loose); (M + 3 + 1, Loose)] ++ round_shape (M + 3) 0.
Lemma collects_Sqrt x : collects (Sqrt E M x) sqrt_shape.
Proof. unfold Sqrt. shape. Qed.

Definition cmp_shape : list (Z * mode) := [(E + 1, Loose); (M + 1, Loose)].
Lemma collects_less x y a : collects (less E M x y a) cmp_shape.
Proof. unfold less. shape. Qed.
#[local] Hint Resolve collects_less : shapes.
Lemma collects_IsLt x y : collects (IsLt E M x y) cmp_shape. Proof. unfold IsLt. shape. Qed.
Lemma collects_IsLe x y : collects (IsLe E M x y) cmp_shape. Proof. unfold IsLe. shape. Qed.
Lemma collects_IsGt x y : collects (IsGt E M x y) cmp_shape. Proof. unfold IsGt. shape. Qed.
Lemma collects_IsGe x y : collects (IsGe E M x y) cmp_shape. Proof. unfold IsGe. shape. Qed.
#[local] Hint Resolve collects_IsLe : shapes.

Lemma collects_CustomULP x y t : collects (AssertIsEqualOrCustomULP E M x y t)
  (add_shape ++ cmp_shape).
Proof. unfold AssertIsEqualOrCustomULP. shape. Qed.

Definition trunc_shape : list (Z * mode) :=
  [(E, Loose); (E, Loose); (pow2_size E M, Loose); (M + 1, Loose); (M + 1, TightForSmallAbs)].
Lemma collects_Trunc x : collects (Trunc E M x) trunc_shape.
Proof. unfold Trunc. shape. Qed.
Lemma collects_Floor x : collects (Floor E M x) trunc_shape.
Proof. unfold Floor. shape. Qed.
#[local] Hint Resolve collects_Floor : shapes.
Lemma collects_Ceil x : collects (Ceil E M x) trunc_shape.
Proof. unfold Ceil. shape. Qed.
Lemma collects_ToInt x : collects (ToInt E M x) [(pow2_size E M, Loose)].
Proof. unfold ToInt. shape. Qed.
Lemma collects_FSelect c x y : collects (FSelect c x y) [].
Proof. unfold FSelect. shape. Qed.

End Shapes.
