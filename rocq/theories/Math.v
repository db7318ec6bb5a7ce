(** math/math.go: polynomials, arctangent and sine.  Go's floating-point
    constants are given by their bit patterns, beside the decimal literals of the
    source. *)
From Coq Require Import ZArith List Bool.
From Verif Require Import Field Circuit Gadget Util FloatModel.
Import ListNotations.
Local Open Scope Z_scope.

(** [math.Float64bits(float64(n))] and [math.Float32bits(float32(n))] for an
    integer [n >= 0] of at most [M + 1] bits. *)
Definition int_bits (E M n : Z) : Z :=
  if n =? 0 then 0
  else let k := Z.log2 n in (k + (2 ^ (E - 1) - 1)) * 2 ^ M + (n * 2 ^ (M - k) - 2 ^ M).

Section Math.
Context {MOD : Modulus}.
Variables (E M : Z).

(** math/math.go:13-26.  [NewF64Constant(0)] is the bit pattern 0; the loop runs
    from the last coefficient to the first. *)
Fixpoint Eval (p : list FloatVar) (at_ : FloatVar) : circ FloatVar :=
  match p with
  | [] => Ret (NewConstant E M 0)
  | c :: p' =>
      result <- Eval p' at_ ;;
      result <- Mul E M result at_ ;;
      Add E M result c
  end.

(** math/math.go:40-47, [j > 0]; [prev] is the updated [parts[j-1]]. *)
Fixpoint evalk_rest (at_ prev : FloatVar) (parts : list FloatVar) : circ (list FloatVar) :=
  match parts with
  | [] => Ret []
  | q :: rest =>
      t <- Mul E M q at_ ;;
      u <- Mul E M prev at_ ;;
      q <- Add E M t u ;;
      rest <- evalk_rest at_ q rest ;;
      Ret (q :: rest)
  end.

(** math/math.go:40-47, [j = 0] and the others. *)
Definition evalk_step (at_ coeff : FloatVar) (parts : list FloatVar) : circ (list FloatVar) :=
  match parts with
  | [] => Ret []
  | q :: rest =>
      t <- Mul E M q at_ ;;
      q <- Add E M t coeff ;;
      rest <- evalk_rest at_ q rest ;;
      Ret (q :: rest)
  end.

(** math/math.go:39-48 *)
Fixpoint evalk_loop (at_ : FloatVar) (p : list FloatVar) (parts : list FloatVar)
  : circ (list FloatVar) :=
  match p with
  | [] => Ret parts
  | coeff :: p' => parts <- evalk_step at_ coeff parts ;; evalk_loop at_ p' parts
  end.

(** math/math.go:52-54 *)
Fixpoint add_all (result : FloatVar) (parts : list FloatVar) : circ FloatVar :=
  match parts with
  | [] => Ret result
  | q :: rest => result <- Add E M result q ;; add_all result rest
  end.

(** math/math.go:31-57.  [k = 0] panics in Go ([parts[0]]): here an
    unsatisfiable circuit. *)
Definition EvalK (p : list FloatVar) (at_ : FloatVar) (k : nat) : circ FloatVar :=
  parts <- evalk_loop at_ p (repeat (NewConstant E M 0) k) ;;
  match parts with
  | [] => assert false ;;; Ret (NewConstant E M 0)
  | q :: rest => add_all q rest
  end.

(** math/math.go:92-157 and 161-211, which differ in the constants.  [x] is a
    Go value parameter: assigning its fields changes a copy, whose [IsAbnormal]
    stays that of the argument. *)
Definition AtanRemez (halfPi one : Z) (coefficient : list Z) (x : FloatVar) : circ FloatVar :=
  let halfPi := NewConstant E M halfPi in
  let p := map (NewConstant E M) coefficient in
  let oneConst := NewConstant E M one in
  let sign := Sign x in
  let x := mkF (emb 0) (Exponent x) (Mantissa x) (IsAbnormal x) in
  greaterOne <- IsGt E M x oneConst ;;
  reciprocal <- Div E M oneConst x ;;
  xe <- select greaterOne (Exponent reciprocal) (Exponent x) ;;
  xm <- select greaterOne (Mantissa reciprocal) (Mantissa x) ;;
  let x := mkF (Sign x) xe xm (IsAbnormal x) in
  result <- EvalK p x 1 ;;
  sub <- Sub E M halfPi result ;;
  resultE <- select greaterOne (Exponent sub) (Exponent result) ;;
  resultM <- select greaterOne (Mantissa sub) (Mantissa result) ;;
  Ret (mkF sign resultE resultM (emb 0)).

(** math/math.go:61-90 (there with the 64-bit constants). *)
Definition Atan2 (pi halfPi one : Z) (coefficient : list Z) (y x : FloatVar) : circ FloatVar :=
  let pi := NewConstant E M pi in
  quotient <- Div E M y x ;;
  result <- AtanRemez halfPi one coefficient quotient ;;
  addPi <- Add E M result pi ;;
  subPi <- Sub E M result pi ;;
  s <- select (Sign y) (Sign subPi) (Sign addPi) ;;
  atan2S <- select (Sign x) s (Sign result) ;;
  e <- select (Sign y) (Exponent subPi) (Exponent addPi) ;;
  atan2E <- select (Sign x) e (Exponent result) ;;
  m <- select (Sign y) (Mantissa subPi) (Mantissa addPi) ;;
  atan2M <- select (Sign x) m (Mantissa result) ;;
  Ret (mkF atan2S atan2E atan2M (emb 0)).

(** math/math.go:236-250 and 278-292: iterations [i], ..., [i + n - 1]. *)
Fixpoint taylor_loop (xSquare : FloatVar) (n : nat) (i : Z) (ret term : FloatVar)
  : circ FloatVar :=
  match n with
  | O => Ret ret
  | S n' =>
      ret <- (if Z.even i then Sub E M ret term else Add E M ret term) ;;
      nominator <- Mul E M term xSquare ;;
      let denominator := NewConstant E M (int_bits E M (2 * i * (2 * i + 1))) in
      term <- Div E M nominator denominator ;;
      taylor_loop xSquare n' (i + 1) ret term
  end.

(** math/math.go:213-253 and 255-295, which differ in the constants. *)
Definition SinTaylor (pi halfPi : Z) (x : FloatVar) : circ FloatVar :=
  let ret := NewConstant E M 0 in
  let pi := NewConstant E M pi in
  let halfPi := NewConstant E M halfPi in
  greaterHalfPi <- IsGt E M x halfPi ;;
  folding <- Sub E M pi x ;;
  te <- select greaterHalfPi (Exponent folding) (Exponent x) ;;
  tm <- select greaterHalfPi (Mantissa folding) (Mantissa x) ;;
  let term := mkF (emb 0) te tm (emb 0) in
  xSquare <- Mul E M term term ;;
  ret <- taylor_loop xSquare 15 1 ret term ;;
  Ret (mkF (Sign x) (Exponent ret) (Mantissa ret) (IsAbnormal ret)).

End Math.

(** The constants: [math.Pi], [math.Pi / 2] and 1 ... *)
Definition pi_64 : Z := 4614256656552045848.
Definition half_pi_64 : Z := 4609753056924675352.
Definition one_64 : Z := 4607182418800017408.
Definition pi_32 : Z := 1078530011.
Definition half_pi_32 : Z := 1070141403.
Definition one_32 : Z := 1065353216.

(** ... math/math.go:99-125 *)
Definition atan_coeffs_64 : list Z :=
[
  13785207844041404335 (* -0.000942885517390737 *) ;
  4578550364759098305 (* 0.012831303689781028 *) ;
  13813883500150826128 (* -0.08114401696242823 *) ;
  4599350106278660633 (* 0.31521931513648976 *) ;
  13829083363796390294 (* -0.8366759947462465 *) ;
  4609858147211163513 (* 1.5941310579396186 *) ;
  13835566106815058620 (* -2.225620203806413 *) ;
  4612323370542928140 (* 2.283041197386529 *) ;
  13833780289550475255 (* -1.716279012920493 *) ;
  4607015425753489760 (* 0.9814600474792705 *) ;
  13826172724008731343 (* -0.5135300638813421 *) ;
  4598716874032740171 (* 0.28006786416868995 *) ;
  13812716827428381149 (* -0.0649531804791716 *) ;
  13813381517543971346 (* -0.07417760886128402 *) ;
  13793466819007053295 (* -0.0034470515096669467 *) ;
  4592711282399163356 (* 0.11167263969100766 *) ;
  13768251567291589753 (* -7.11657573061619e-05 *) ;
  13817686780862213294 (* -0.14285027929722588 *) ;
  13736092697584598483 (* -4.888898128412832e-07 *) ;
  4596373780583687139 (* 0.2000000246846688 *) ;
  13694500890750693709 (* -8.33552299173139e-10 *) ;
  13823048456275531693 (* -0.3333333333160862 *) ;
  13639880827259394295 (* -1.8894178462249048e-13 *) ;
  4607182418800017412 (* 1.0000000000000009 *) ;
  13555530914139947272 (* -4.1904552294565837e-19 *) ].

(** math/math.go:167-179 *)
Definition atan_coeffs_32 : list Z :=
[
  1018456556 (* 0.022023164 *) ;
  3188257922 (* -0.13374522 *) ;
  1051242454 (* 0.32946652 *) ;
  3200390164 (* -0.37905943 *) ;
  1037544900 (* 0.1053119 *) ;
  1043195257 (* 0.16982068 *) ;
  1001616580 (* 0.005476566 *) ;
  3198875886 (* -0.33393043 *) ;
  940845520 (* 0.000035324891 *) ;
  1065353200 (* 0.99999905 *) ;
  838529803 (* 0.0000000073035884 *) ].

Section Instances.
Context {MOD : Modulus}.

Definition AtanRemez64 : FloatVar -> circ FloatVar :=
  AtanRemez 11 52 half_pi_64 one_64 atan_coeffs_64.
Definition AtanRemez32 : FloatVar -> circ FloatVar :=
  AtanRemez 8 23 half_pi_32 one_32 atan_coeffs_32.
Definition Atan2_64 : FloatVar -> FloatVar -> circ FloatVar :=
  Atan2 11 52 pi_64 half_pi_64 one_64 atan_coeffs_64.
Definition SinTaylor64 : FloatVar -> circ FloatVar := SinTaylor 11 52 pi_64 half_pi_64.
Definition SinTaylor32 : FloatVar -> circ FloatVar := SinTaylor 8 23 pi_32 half_pi_32.

(** math/math_test.go:25-50 and 93-131: a circuit evaluating a polynomial with
    constant coefficients; the sign and the abnormal flag of the result are not
    compared. *)
Definition polynomial_circuit (eval : list FloatVar -> FloatVar -> circ FloatVar)
    (coeffs : list Z) (X P : Z) : circ unit :=
  x <- NewFloat 11 52 X ;;
  expected <- NewFloat 11 52 P ;;
  result <- eval (map (fun n => NewConstant 11 52 (int_bits 11 52 n)) coeffs) x ;;
  assert_eq (Exponent result) (Exponent expected) ;;;
  assert_eq (Mantissa result) (Mantissa expected).
Definition PolynomialEvalCircuit : Z -> Z -> circ unit :=
  polynomial_circuit (Eval 11 52) [5; 1; 2; 3].
Definition PolynomialEvalCircuitDegTen : Z -> Z -> circ unit :=
  polynomial_circuit (fun p x => EvalK 11 52 p x 1) [1; 9; 8; 7; 6; 5; 4; 3; 2; 1; 1].

(** math/math_test.go:178-192, 251-263: a function compared with an expected
    value, again without sign and abnormal flag. *)
Definition function_circuit (op : FloatVar -> circ FloatVar) (X Z : Z) : circ unit :=
  x <- NewFloat 11 52 X ;;
  z <- NewFloat 11 52 Z ;;
  result <- op x ;;
  assert_eq (Exponent result) (Exponent z) ;;;
  assert_eq (Mantissa result) (Mantissa z).
Definition CircuitATanRemez64 : Z -> Z -> circ unit := function_circuit AtanRemez64.
Definition SinCircuit : Z -> Z -> circ unit := function_circuit SinTaylor64.

End Instances.
