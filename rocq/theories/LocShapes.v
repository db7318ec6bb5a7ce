(** The range checks registered by the functions of math/math.go,
    loc2index32.go and loc2index64.go and by the circuits of their test files. *)
From Coq Require Import ZArith List Bool.
From Verif Require Import Field Circuit RangeCheck Gadget Util FloatModel Deferred Shapes Math Loc2Index.
Import ListNotations.
Local Open Scope Z_scope.

Fixpoint times (n : nat) (s : list (Z * mode)) : list (Z * mode) :=
  match n with O => [] | S n => s ++ times n s end.

Lemma collects_eq {A} (c : circ A) s s' : collects c s -> s = s' -> collects c s'.
Proof. intros H <-. exact H. Qed.

Ltac leaf :=
  lazymatch goal with
  | |- collects (Ret _) _ => apply collects_ret
  | |- collects (hint1 _) _ => apply collects_hint1
  | |- collects (assert _) _ => apply collects_assert
  | |- collects (assert_bool _) _ => apply collects_assert_bool
  | |- collects (assert_eq _ _) _ => apply collects_assert_eq
  | |- collects (select _ _ _) _ => apply collects_select
  | |- collects (and_ _ _) _ => apply collects_and
  | |- collects (or_ _ _) _ => apply collects_or
  | |- collects (xor_ _ _) _ => apply collects_xor
  | |- collects (inverse _) _ => apply collects_inverse
  | |- collects (AssertBitLength _ _ _) _ => apply collects_abl
  | |- collects (query _ _) _ => apply collects_query
  | |- collects (GAbs _ _) _ => apply collects_GAbs
  | |- collects (IsPositive _ _) _ => apply collects_IsPositive
  | |- collects (GMax _ _ _) _ => apply collects_GMax
  | |- collects (GMin _ _ _) _ => apply collects_GMin
  | |- collects (QueryPow2 _ _ _) _ => apply collects_QueryPow2
  | |- collects (NewFloat _ _ _) _ => apply collects_NewFloat
  | |- collects (AssertIsEqual _ _) _ => apply collects_AssertIsEqual
  | |- collects (AssertIsEqualOrULP _ _ _) _ => apply collects_AssertIsEqualOrULP
  | |- collects (Add _ _ _ _) _ => apply collects_Add
  | |- collects (Sub _ _ _ _) _ => apply collects_Sub
  | |- collects (Mul _ _ _ _) _ => apply collects_Mul
  | |- collects (Div _ _ _ _) _ => apply collects_Div
  | |- collects (Sqrt _ _ _) _ => apply collects_Sqrt
  | |- collects (IsLt _ _ _ _) _ => apply collects_IsLt
  | |- collects (IsLe _ _ _ _) _ => apply collects_IsLe
  | |- collects (IsGt _ _ _ _) _ => apply collects_IsGt
  | |- collects (IsGe _ _ _ _) _ => apply collects_IsGe
  | |- collects (AssertIsEqualOrCustomULP _ _ _ _ _) _ => apply collects_CustomULP
  | |- collects (Trunc _ _ _) _ => apply collects_Trunc
  | |- collects (Floor _ _ _) _ => apply collects_Floor
  | |- collects (Ceil _ _ _) _ => apply collects_Ceil
  | |- collects (ToInt _ _ _) _ => apply collects_ToInt
  | |- collects (FSelect _ _ _) _ => apply collects_FSelect
  | _ => eauto 2
  end.
Ltac shape :=
  lazymatch goal with
  | |- collects (bind _ _) _ =>
      eapply collects_bind; [ shape | intros ?; shape | reflexivity ]
  | |- collects (let '(_, _) := ?p in _) _ => destruct p; shape
  | |- collects (let _ := _ in _) _ => cbv zeta; shape
  | |- collects (match ?p with pair _ _ => _ end) _ => destruct p; shape
  | _ => leaf
  end.

Section LocShapes.
Context {MOD : Modulus}.
Variables (E M : Z).
Notation shp := (list (Z * mode)).

(** ** math.go *)

Lemma times_snoc n s : times n s ++ s = s ++ times n s.
Proof. induction n as [|n IH]; simpl; [symmetry; apply app_nil_r|]. rewrite <- app_assoc, IH. reflexivity. Qed.

Definition step_shape : shp := mul_shape E M ++ add_shape E M.

Lemma collects_Eval p x : collects (Eval E M p x) (times (length p) step_shape).
Proof.
  induction p as [|c p IH]; cbn [Eval length times]; [apply collects_ret|].
  rewrite <- times_snoc.
  eapply collects_bind; [exact IH|intros r|reflexivity].
  eapply collects_bind; [apply collects_Mul|intros r'; apply collects_Add|reflexivity].
Qed.

(** Sequencing is associative; needed where the length of a list matters. *)
Lemma collects_assoc {A B C} (c : circ A) (f : A -> circ B) (g : B -> circ C) s :
  collects (bind c (fun a => bind (f a) g)) s -> collects (bind (bind c f) g) s.
Proof.
  revert s. induction c as [a|h k IH|p k IH|v n m k IH|z v k IH]; intros s; simpl.
  - exact (fun H => H).
  - intros H w. apply IH, H.
  - intros H Hp. apply IH, H, Hp.
  - intros [t [-> H]]. exists t. split; [reflexivity|]. apply IH, H.
  - intros H. apply IH, H.
Qed.

(** [EvalK] with one part. *)
Lemma collects_evalk_loop p x : forall q,
  collects (bind (evalk_loop E M x p [q])
             (fun r => match r with
                       | [] => bind (assert false) (fun _ => Ret (NewConstant E M 0))
                       | q :: rest => add_all E M q rest
                       end))
           (times (length p) step_shape).
Proof.
  induction p as [|c p IH]; intros q; cbn [evalk_loop length times].
  - apply collects_ret.
  - unfold evalk_step. cbn [evalk_rest]. apply collects_assoc, collects_assoc.
    unfold step_shape at 1. rewrite <- app_assoc.
    eapply collects_bind; [apply collects_Mul|intros t|reflexivity].
    apply collects_assoc.
    eapply collects_bind; [apply collects_Add|intros u; cbn [bind]; apply IH|reflexivity].
Qed.

Lemma collects_EvalK1 p x : collects (EvalK E M p x 1) (times (length p) step_shape).
Proof. unfold EvalK. apply collects_evalk_loop. Qed.

Definition atan_shape (n : nat) : shp :=
  cmp_shape E M ++ div_shape E M ++ times n step_shape ++ add_shape E M.
Lemma collects_AtanRemez hp o cs x : collects (AtanRemez E M hp o cs x) (atan_shape (length cs)).
Proof.
  unfold AtanRemez, atan_shape. cbv zeta. rewrite <- (map_length (NewConstant E M) cs).
  eapply collects_bind; [apply collects_IsGt|intros g|reflexivity].
  eapply collects_bind; [apply collects_Div|intros d|reflexivity].
  eapply collects_bind; [apply collects_select|intros xe|reflexivity].
  eapply collects_bind; [apply collects_select|intros xm|reflexivity].
  eapply collects_bind; [apply collects_EvalK1|intros r|reflexivity].
  eapply collects_bind; [apply collects_Sub|intros t|symmetry; apply app_nil_r].
  shape.
Qed.

Definition taylor_shape (n : nat) : shp := times n (add_shape E M ++ mul_shape E M ++ div_shape E M).
Lemma collects_taylor x2 n : forall i r t, collects (taylor_loop E M x2 n i r t) (taylor_shape n).
Proof.
  unfold taylor_shape. induction n as [|n IH]; intros i r t; cbn [taylor_loop times]; [apply collects_ret|].
  rewrite <- !app_assoc.
  eapply collects_bind; [destruct (Z.even i); [apply collects_Sub|apply collects_Add]|intros r'|reflexivity].
  eapply collects_bind; [apply collects_Mul|intros n'; cbv zeta|reflexivity].
  eapply collects_bind; [apply collects_Div|intros t'; apply IH|reflexivity].
Qed.

Definition sin_shape : shp := cmp_shape E M ++ add_shape E M ++ mul_shape E M ++ taylor_shape 15.
Lemma collects_SinTaylor pi hp x : collects (SinTaylor E M pi hp x) sin_shape.
Proof.
  unfold SinTaylor, sin_shape. cbv zeta.
  eapply collects_bind; [apply collects_IsGt|intros g|reflexivity].
  eapply collects_bind; [apply collects_Sub|intros f|reflexivity].
  eapply collects_bind; [apply collects_select|intros te|reflexivity].
  eapply collects_bind; [apply collects_select|intros tm|reflexivity].
  eapply collects_bind; [apply collects_Mul|intros x2|reflexivity].
  eapply collects_bind; [apply collects_taylor|intros r; apply collects_ret|].
  symmetry. apply app_nil_r.
Qed.

(** ** loc2index32.go, loc2index64.go *)

Definition scale_shape : shp := times 5 (mul_shape E M).
Definition r_shape : shp :=
  add_shape E M ++ mul_shape E M ++ add_shape E M ++ sqrt_shape E M ++ div_shape E M ++
  div_shape E M ++ scale_shape.
Definition distance_shape : shp :=
  add_shape E M ++ mul_shape E M ++ add_shape E M ++ mul_shape E M ++ add_shape E M ++
  mul_shape E M ++ add_shape E M ++ add_shape E M.
Definition hex2d_shape : shp :=
  mul_shape E M ++ mul_shape E M ++ add_shape E M ++ times 5 (mul_shape E M) ++ add_shape E M ++
  mul_shape E M ++ add_shape E M ++ mul_shape E M ++ mul_shape E M ++ add_shape E M ++
  sqrt_shape E M ++ div_shape E M ++ div_shape E M ++ mul_shape E M ++ mul_shape E M ++
  add_shape E M ++ mul_shape E M ++ mul_shape E M ++ add_shape E M ++ mul_shape E M ++ mul_shape E M.
Definition ijk_shape : shp :=
  div_shape E M ++ div_shape E M ++ add_shape E M ++ trunc_shape E M ++ trunc_shape E M ++
  [(pow2_size E M, Loose)] ++ [(pow2_size E M, Loose)] ++ add_shape E M ++ add_shape E M ++
  add_shape E M ++ times 3 (cmp_shape E M) ++ add_shape E M ++ times 2 (cmp_shape E M) ++
  add_shape E M ++ times 2 (cmp_shape E M) ++ add_shape E M ++ div_shape E M ++ div_shape E M ++
  times 3 (cmp_shape E M) ++ times 6 [(32, Loose)].
Definition trig_shape (s1 s2 s3 : shp) : shp :=
  mul_shape E M ++ mul_shape E M ++ add_shape E M ++ s1 ++ mul_shape E M ++ s2 ++
  mul_shape E M ++ mul_shape E M ++ s3 ++ mul_shape E M ++ mul_shape E M ++ add_shape E M.

(** Both shapes as plain lists. *)
Ltac flat :=
  cbv beta iota zeta delta [app times add_shape mul_shape div_shape sqrt_shape cmp_shape trunc_shape
    round_shape newfloat_shape scale_shape r_shape distance_shape hex2d_shape ijk_shape trig_shape];
  reflexivity.
Ltac shaped := eapply collects_eq; [shape|flat].

Lemma collects_bit_hints a n : forall i, collects (bit_hints a i n) [].
Proof. induction n as [|n IH]; intros i; cbn [bit_hints]; shape. Qed.
Lemma collects_to_binary a n : collects (to_binary a n) [].
Proof. unfold to_binary. eapply collects_bind; [apply collects_bit_hints|intros w; shape|reflexivity]. Qed.
Lemma collects_le_const a n : collects (assert_le_const a n) [].
Proof. apply collects_assert. Qed.

Section Pipeline.
Variable K : constants.

Lemma collects_scale_loop bits ps : length bits = length ps -> forall m,
  collects (scale_loop E M bits ps m) (times (length ps) (mul_shape E M)).
Proof.
  revert ps. induction bits as [|b bits IH]; intros [|p ps] H m; try discriminate;
    cbn [scale_loop length times]; [apply collects_ret|].
  injection H as H.
  eapply collects_bind; [apply collects_Mul|intros t|reflexivity].
  eapply collects_bind; [apply collects_select|intros e|reflexivity].
  eapply collects_bind; [apply collects_select|intros n; apply IH, H|reflexivity].
Qed.

Lemma collects_bits {A} a n (f : list Z -> circ A) s :
  (forall ws, length ws = n -> collects (f ws) s) -> collects (bind (to_binary a n) f) s.
Proof.
  intros H. unfold to_binary. apply collects_assoc.
  assert (G : forall g : list Z -> circ A, (forall ws, length ws = n -> collects (g ws) s) ->
    forall i, collects (bind (bit_hints a i n) g) s).
  { clear. induction n as [|n IH]; intros g H i; cbn [bit_hints]; [apply H; reflexivity|].
    cbn. intros w _. apply collects_assoc. apply IH. intros ws Hl. apply H. cbn. rewrite Hl. reflexivity. }
  apply G. intros ws Hl. cbn. intros _. apply H, Hl.
Qed.

Lemma collects_scaleR r res : length (k_powers K) = 4%nat -> collects (scaleR E M K r res) scale_shape.
Proof.
  intros Hl. unfold scaleR. apply collects_bits. intros ws Hw.
  eapply collects_bind; [apply collects_scale_loop; rewrite Hl; exact Hw|intros m; apply collects_Mul|].
  rewrite Hl, times_snoc. reflexivity.
Qed.

Lemma collects_calculateR d res : length (k_powers K) = 4%nat ->
  collects (calculateR E M K d res) r_shape.
Proof.
  intros Hl. pose proof (fun r => collects_scaleR r res Hl) as HR. unfold calculateR. shaped.
Qed.

Lemma collects_face_distance f x y z : collects (face_distance E M f x y z) distance_shape.
Proof. unfold face_distance. shaped. Qed.

Lemma collects_face_loop fs x y z : forall c,
  collects (face_loop E M fs x y z c) (times (length fs) (distance_shape ++ cmp_shape E M)).
Proof.
  induction fs as [|f fs IH]; intros c; cbn [face_loop length times]; [apply collects_ret|].
  rewrite <- app_assoc.
  eapply collects_bind; [apply collects_face_distance|intros d|reflexivity].
  eapply collects_bind; [apply collects_IsGt|intros g|reflexivity].
  do 9 (eapply collects_bind; [apply collects_FSelect|intros ?|reflexivity]). apply IH.
Qed.

Lemma collects_calculateHex2d a b c d ch r res :
  collects (calculateHex2d E M a b c d ch r res) hex2d_shape.
Proof. pose proof collects_to_binary as HB. unfold calculateHex2d. shaped. Qed.

Lemma collects_Normalize a b c d e f :
  collects (NormalizeIJK a b c d e f) (times 5 [(32, Loose)]).
Proof. unfold NormalizeIJK. shaped. Qed.

Lemma collects_hex2dToCoordIJK x y : collects (hex2dToCoordIJK E M K x y) ijk_shape.
Proof. pose proof collects_Normalize as HN. unfold hex2dToCoordIJK. shaped. Qed.

Definition locate_shape (n : nat) : shp :=
  mul_shape E M ++ mul_shape E M ++ times n (distance_shape ++ cmp_shape E M) ++ r_shape ++
  hex2d_shape ++ ijk_shape.
Lemma collects_locate fs lng cl cg z sg res I J K_ : length (k_powers K) = 4%nat ->
  collects (locate E M K fs lng cl cg z sg res I J K_) (locate_shape (length fs)).
Proof.
  intros Hl. unfold locate, locate_shape, closestFaceCalculations.
  eapply collects_bind; [apply collects_Mul|intros x|reflexivity].
  eapply collects_bind; [apply collects_Mul|intros y|reflexivity].
  eapply collects_bind; [apply collects_face_loop|intros c|reflexivity].
  eapply collects_bind; [apply collects_calculateR, Hl|intros r|reflexivity].
  eapply collects_bind; [apply collects_calculateHex2d|intros [hx hy]|reflexivity].
  eapply collects_bind; [apply collects_hex2dToCoordIJK|intros [[i j] k]|symmetry; apply app_nil_r].
  shape.
Qed.

Lemma collects_bounds pi hp lat lng res :
  collects (bounds E M pi hp lat lng res) (cmp_shape E M ++ cmp_shape E M).
Proof. pose proof collects_le_const as HL. unfold bounds. shaped. Qed.

Lemma collects_hint_float h i : collects (hint_float h i) [].
Proof. unfold hint_float. shape. Qed.
Lemma collects_precompute h : collects (precompute E M h) (times 4 (newfloat_shape E M)).
Proof. pose proof collects_hint_float as HH. unfold precompute. shaped. Qed.

Lemma collects_trig c1 c2 c3 s1 s2 s3 al be ga de :
  (forall x y, collects (c1 x y) s1) -> (forall x y, collects (c2 x y) s2) ->
  (forall x y, collects (c3 x y) s3) ->
  collects (trig_checks E M c1 c2 c3 al be ga de) (trig_shape s1 s2 s3).
Proof. intros H1 H2 H3. unfold trig_checks. shaped. Qed.

End Pipeline.
End LocShapes.

(** ** The test circuits *)

Section TestCircuits.
Context {MOD : Modulus}.

Definition function_shape (s : list (Z * mode)) : list (Z * mode) :=
  newfloat_shape 11 52 ++ newfloat_shape 11 52 ++ s.
Lemma collects_function op s X Z : (forall x, collects (op x) s) ->
  collects (function_circuit op X Z) (function_shape s).
Proof.
  intros H. unfold function_circuit.
  eapply collects_bind; [apply collects_NewFloat|intros x|reflexivity].
  eapply collects_bind; [apply collects_NewFloat|intros z|reflexivity].
  eapply collects_bind; [apply H|intros r|symmetry; apply app_nil_r]. shape.
Qed.

Lemma collects_polynomial eval n cs X P :
  (forall p x, collects (eval p x) (times (length p) (step_shape 11 52))) -> length cs = n ->
  collects (polynomial_circuit eval cs X P) (function_shape (times n (step_shape 11 52))).
Proof.
  intros H <-. unfold polynomial_circuit.
  eapply collects_bind; [apply collects_NewFloat|intros x|reflexivity].
  eapply collects_bind; [apply collects_NewFloat|intros z|reflexivity].
  rewrite <- (map_length (fun n => NewConstant 11 52 (int_bits 11 52 n)) cs).
  eapply collects_bind; [apply H|intros r|symmetry; apply app_nil_r]. shape.
Qed.

Lemma collects_PolynomialEval X P :
  collects (PolynomialEvalCircuit X P) (function_shape (times 4 (step_shape 11 52))).
Proof. exact (collects_polynomial (Eval 11 52) 4 [5; 1; 2; 3] X P (collects_Eval 11 52) eq_refl). Qed.

Lemma collects_PolynomialDegTen X P :
  collects (PolynomialEvalCircuitDegTen X P) (function_shape (times 11 (step_shape 11 52))).
Proof. exact (collects_polynomial (fun p x => EvalK 11 52 p x 1) 11
    [1; 9; 8; 7; 6; 5; 4; 3; 2; 1; 1] X P (collects_EvalK1 11 52) eq_refl). Qed.

Lemma collects_ATanCircuit X Z :
  collects (CircuitATanRemez64 X Z) (function_shape (atan_shape 11 52 25)).
Proof.
  exact (collects_function AtanRemez64 _ X Z
    (collects_AtanRemez 11 52 half_pi_64 one_64 atan_coeffs_64)).
Qed.

Lemma collects_SinCircuit X Z : collects (SinCircuit X Z) (function_shape (sin_shape 11 52)).
Proof. exact (collects_function SinTaylor64 _ X Z (collects_SinTaylor 11 52 pi_64 half_pi_64)). Qed.

Section Locations.
Variables (K : constants) (faces : list face).
Hypothesis HK : length (k_powers K) = 4%nat.

Definition hint_shape (E M : Z) (s1 s2 s3 t1 t2 t3 : list (Z * mode)) : list (Z * mode) :=
  times 4 (newfloat_shape E M) ++ times 4 (newfloat_shape E M) ++
  trig_shape E M s1 s2 s3 ++ trig_shape E M t1 t2 t3 ++ locate_shape E M (length faces).
Lemma collects_hint_circuit E M c1 c2 c3 d1 d2 d3 s1 s2 s3 t1 t2 t3 h1 h2 lng res I J K_ :
  (forall x y, collects (c1 x y) s1) -> (forall x y, collects (c2 x y) s2) ->
  (forall x y, collects (c3 x y) s3) -> (forall x y, collects (d1 x y) t1) ->
  (forall x y, collects (d2 x y) t2) -> (forall x y, collects (d3 x y) t3) ->
  collects (hint_circuit E M K faces [c1; c2; c3] [d1; d2; d3] h1 h2 lng res I J K_)
    (hint_shape E M s1 s2 s3 t1 t2 t3).
Proof.
  intros H1 H2 H3 H4 H5 H6. unfold hint_circuit, hint_shape.
  eapply collects_bind; [apply collects_precompute|intros [[[a b] c] d]|reflexivity].
  eapply collects_bind; [apply collects_precompute|intros [[[a' b'] c'] d']|reflexivity].
  cbv zeta. cbn [nth].
  eapply collects_bind; [apply collects_trig; eassumption|intros cl|reflexivity].
  eapply collects_bind; [apply collects_trig; eassumption|intros cg|reflexivity].
  apply collects_locate, HK.
Qed.

Definition custom_shape (E M : Z) : list (Z * mode) := add_shape E M ++ cmp_shape E M.

Definition loc32_shape : list (Z * mode) :=
  newfloat_shape 8 23 ++ newfloat_shape 8 23 ++ (cmp_shape 8 23 ++ cmp_shape 8 23) ++
  hint_shape 8 23 (custom_shape 8 23) (custom_shape 8 23) (custom_shape 8 23)
    (custom_shape 8 23) (custom_shape 8 23) (custom_shape 8 23).
Lemma collects_loc32 trig Lat Lng res I J K_ :
  collects (loc2Index32Circuit K faces trig Lat Lng res I J K_) loc32_shape.
Proof.
  unfold loc2Index32Circuit, loc32_shape.
  eapply collects_bind; [apply collects_NewFloat|intros lat|reflexivity].
  eapply collects_bind; [apply collects_NewFloat|intros lng|reflexivity].
  eapply collects_bind; [apply collects_bounds|intros _|reflexivity].
  cbv zeta. apply collects_hint_circuit; intros x y; apply collects_CustomULP.
Qed.

Definition leftover_shape : list (Z * mode) :=
  add_shape 11 52 ++ add_shape 11 52 ++ cmp_shape 11 52 ++ add_shape 11 52.
Lemma collects_leftover lat lng : collects (leftover_64 lat lng) leftover_shape.
Proof.
  unfold leftover_64, leftover_shape.
  eapply collects_bind; [apply collects_Add|intros t|reflexivity].
  eapply collects_bind; [apply collects_Add|intros u|reflexivity].
  eapply collects_bind; [apply collects_IsGt|intros g|reflexivity].
  eapply collects_bind; [apply collects_Sub|intros h|symmetry; apply app_nil_r]. shape.
Qed.

Definition loc64_shape : list (Z * mode) :=
  newfloat_shape 11 52 ++ newfloat_shape 11 52 ++ (cmp_shape 11 52 ++ cmp_shape 11 52) ++
  leftover_shape ++
  hint_shape 11 52 (custom_shape 11 52) (custom_shape 11 52) [] (custom_shape 11 52) [] [].
Lemma collects_loc64 trig Lat Lng res I J K_ :
  collects (loc2Index64Circuit K faces trig Lat Lng res I J K_) loc64_shape.
Proof.
  unfold loc2Index64Circuit, loc64_shape.
  eapply collects_bind; [apply collects_NewFloat|intros lat|reflexivity].
  eapply collects_bind; [apply collects_NewFloat|intros lng|reflexivity].
  eapply collects_bind; [apply collects_bounds|intros _|reflexivity].
  eapply collects_bind; [apply collects_leftover|intros _|reflexivity].
  cbv zeta. pose proof (fun x y => collects_CustomULP 11 52 x y two_64) as HC.
  exact (collects_hint_circuit 11 52 _ _ _ _ _ _ _ _ _ _ _ _ _ _ lng res I J K_
    HC HC (collects_AssertIsEqualOrULP 52) HC (collects_AssertIsEqualOrULP 52)
    (collects_AssertIsEqualOrULP 52)).
Qed.

Lemma collects_Sin32 x : collects (SinTaylor32 x) (sin_shape 8 23).
Proof. exact (collects_SinTaylor 8 23 pi_32 half_pi_32 x). Qed.

Definition wrapper_shape : list (Z * mode) :=
  newfloat_shape 8 23 ++ newfloat_shape 8 23 ++ (cmp_shape 8 23 ++ cmp_shape 8 23) ++
  add_shape 8 23 ++ sin_shape 8 23 ++ add_shape 8 23 ++ cmp_shape 8 23 ++ add_shape 8 23 ++
  sin_shape 8 23 ++ sin_shape 8 23 ++ sin_shape 8 23 ++ locate_shape 8 23 (length faces).
Lemma collects_wrapper Lat Lng res I J K_ :
  collects (loc2Index32CircuitWrapper K faces Lat Lng res I J K_) wrapper_shape.
Proof.
  unfold loc2Index32CircuitWrapper, wrapper_shape.
  eapply collects_bind; [apply collects_NewFloat|intros lat|reflexivity].
  eapply collects_bind; [apply collects_NewFloat|intros lng|reflexivity].
  eapply collects_bind; [apply collects_bounds|intros _|reflexivity].
  cbv zeta.
  eapply collects_bind; [apply collects_Add|intros term|reflexivity].
  eapply collects_bind; [apply collects_Sin32|intros cl|reflexivity].
  eapply collects_bind; [apply collects_Add|intros tmp|reflexivity].
  eapply collects_bind; [apply collects_IsGt|intros g|reflexivity].
  eapply collects_bind; [apply collects_Sub|intros sh|reflexivity].
  do 3 (eapply collects_bind; [apply collects_select|intros ?|reflexivity]).
  eapply collects_bind; [apply collects_Sin32|intros cg|reflexivity].
  eapply collects_bind; [apply collects_Sin32|intros sg|reflexivity].
  eapply collects_bind; [apply collects_Sin32|intros z|reflexivity].
  apply collects_locate, HK.
Qed.

End Locations.
End TestCircuits.
