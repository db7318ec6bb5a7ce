(** float/float.go: IEEE-754 arithmetic in a circuit, function by function. *)
From Coq Require Import ZArith List Bool.
From Verif Require Import Field Circuit Hints Gadget Util.
Import ListNotations.
Local Open Scope Z_scope.

(** float/float.go:28-48 *)
Record FloatVar := mkF { Sign : Z; Exponent : Z; Mantissa : Z; IsAbnormal : Z }.

(** [big.NewInt(int64(n)).BitLen()] for [n > 0]. *)
Definition BitLen (n : Z) : Z := Z.log2 n + 1.

Section FloatModel.
Context {MOD : Modulus}.
(** The fields [E] and [M] of [Context] (float/float.go:14-22). *)
Variables (E M : Z).

(** float/float.go:50-63 *)
Definition E_MAX : Z := 2 ^ (E - 1).
Definition E_NORMAL_MIN : Z := 2 - E_MAX.
Definition E_MIN : Z := E_NORMAL_MIN - (M + 1).
Definition pow2_size : Z := M + E + 1.

Definition QueryPow2 (e : Z) : circ Z := QueryPowerOf2 pow2_size e.

(** float/float.go:68-166 *)
Definition NewFloat (v : Z) : circ FloatVar :=
  s <- hint1 (fst (DecodeFloatHint v E M)) ;;
  e <- hint1 (snd (DecodeFloatHint v E M)) ;;
  let m := fsub v (fadd (fmul s (emb (2 ^ (E + M)))) (fmul e (emb (2 ^ M)))) in
  assert_bool s ;;;
  AssertBitLength e E TightForUnknownRange ;;;
  AssertBitLength m M TightForUnknownRange ;;;
  let exponent_min := E_NORMAL_MIN - 1 in
  let exponent_max := E_MAX in
  let exponent := fadd e (emb exponent_min) in
  let mantissa_is_zero := isZero m in
  let mantissa_is_not_zero := fsub (emb 1) mantissa_is_zero in
  let exponent_is_min := IsEq exponent (emb exponent_min) in
  let exponent_is_max := IsEq exponent (emb exponent_max) in
  shift <- hint1 (NormalizeHint m M) ;;
  AssertBitLength shift (BitLen M) Loose ;;;
  two_to_shift <- QueryPow2 shift ;;
  let shifted_mantissa := fmul m two_to_shift in
  AssertBitLength
    (fsub shifted_mantissa (fmul mantissa_is_not_zero (emb (2 ^ (M - 1)))))
    (M - 1) TightForSmallAbs ;;;
  sub_exponent <- select mantissa_is_zero
                    (fsub (emb exponent_min) (emb M)) (fsub exponent shift) ;;
  exponent' <- select exponent_is_min sub_exponent exponent ;;
  is_nan <- and_ exponent_is_max mantissa_is_not_zero ;;
  nm <- select is_nan (emb 0) (fadd m (emb (2 ^ M))) ;;
  mantissa <- select exponent_is_min (fadd shifted_mantissa shifted_mantissa) nm ;;
  Ret (mkF s exponent' mantissa exponent_is_max).

(** float/float.go:169-178 *)
Definition NewConstant (v : Z) : FloatVar :=
  let c := ComponentsOf v E M in
  mkF (emb (co_s c)) (emb (co_e c)) (emb (co_m c)) (emb (co_a c)).

(** float/float.go:200-267 *)
Definition round (mantissa mantissa_bit_length shift shift_max half_flag : Z) : circ Z :=
  two_to_shift <- QueryPow2 shift ;;
  let r_idx := shift_max + mantissa_bit_length - M - 2 in
  let q_idx := r_idx + 1 in
  let p_idx := q_idx + 1 in
  let p_len := M in
  let s_len := r_idx in
  let '(hp, hq, hr, hs) :=
    DecomposeMantissaForRoundingHint mantissa two_to_shift shift_max p_idx q_idx r_idx in
  p <- hint1 hp ;;
  q <- hint1 hq ;;
  r <- hint1 hr ;;
  s <- hint1 hs ;;
  assert_bool q ;;;
  assert_bool r ;;;
  AssertBitLength p p_len Loose ;;;
  AssertBitLength s s_len TightForSmallAbs ;;;
  let pq := fadd (fadd p p) q in
  let rs := fadd (fmul r (emb (2 ^ r_idx))) s in
  let pqrs := fadd (fmul pq (emb (2 ^ q_idx))) rs in
  assert_eq (fmul pqrs two_to_shift) (fmul mantissa (emb (2 ^ shift_max))) ;;;
  is_half <- and_ (IsEq rs (emb (2 ^ r_idx))) half_flag ;;
  carry <- select is_half q r ;;
  Ret (fmul (fadd pq carry) two_to_shift).

(** float/float.go:270-307 *)
Definition fixOverflow (mantissa mantissa_is_zero exponent input_is_abnormal : Z)
  : circ (Z * Z * Z) :=
  let mantissa_overflow := IsEq mantissa (emb (2 ^ (M + 1))) in
  let exponent := fadd exponent mantissa_overflow in
  pos <- IsPositive (fsub exponent (emb E_MAX)) (E + 1) ;;
  is_abnormal <- or_ pos input_is_abnormal ;;
  ov <- or_ mantissa_overflow is_abnormal ;;
  m' <- select ov (emb (2 ^ M)) mantissa ;;
  e0 <- select mantissa_is_zero (emb E_MIN) exponent ;;
  e' <- select is_abnormal (emb E_MAX) e0 ;;
  Ret (m', e', is_abnormal).

(** The expression [is_nan] of float/float.go:311-314, 331-334, 387-390,
    418-421. *)
Definition is_nan_either (x y : FloatVar) : circ Z :=
  a <- and_ (IsAbnormal x) (isZero (Mantissa x)) ;;
  b <- and_ (IsAbnormal y) (isZero (Mantissa y)) ;;
  or_ a b.

(** float/float.go:315-323 (shared by the four equality assertions). *)
Definition assert_sign_equal (is_nan : Z) (x y : FloatVar) : circ unit :=
  a <- select is_nan (emb 0) (Sign x) ;;
  b <- select is_nan (emb 0) (Sign y) ;;
  assert_eq a b.

(** float/float.go:310-327 *)
Definition AssertIsEqual (x y : FloatVar) : circ unit :=
  is_nan <- is_nan_either x y ;;
  assert_sign_equal is_nan x y ;;;
  assert_eq (fsub (Exponent x) (Exponent y)) (emb 0) ;;;
  assert_eq (Mantissa x) (Mantissa y) ;;;
  assert_eq (IsAbnormal x) (IsAbnormal y).

(** float/float.go:376-382, 407-413, 438-444: accept if [condOne] or the
    components other than the sign are equal. *)
Definition assert_cond_or_equal (condOne : Z) (x y : FloatVar) : circ unit :=
  let equalityOne := IsEq (fsub (Exponent x) (Exponent y)) (emb 0) in
  let equalityTwo := IsEq (Mantissa x) (Mantissa y) in
  let equalityThree := IsEq (IsAbnormal x) (IsAbnormal y) in
  t <- and_ equalityTwo equalityThree ;;
  condTwo <- and_ equalityOne t ;;
  r <- or_ condOne condTwo ;;
  assert_eq r (emb 1).

(** float/float.go:330-383 *)
Definition AssertIsEqualOrULP (x y : FloatVar) : circ unit :=
  is_nan <- is_nan_either x y ;;
  assert_sign_equal is_nan x y ;;;
  o1 <- or_ (IsEq (Mantissa x) (fadd (Mantissa y) (emb 1)))
            (IsEq (Mantissa y) (fadd (Mantissa x) (emb 1))) ;;
  cmpOne <- and_ (IsEq (Exponent x) (Exponent y)) o1 ;;
  a2 <- and_ (IsEq (Mantissa x) (emb (2 ^ M)))
             (IsEq (Mantissa y) (fsub (emb (2 ^ (M + 1))) (emb 1))) ;;
  cmpTwo <- and_ (IsEq (Exponent x) (fadd (Exponent y) (emb 1))) a2 ;;
  a3 <- and_ (IsEq (Mantissa y) (emb (2 ^ M)))
             (IsEq (Mantissa x) (fsub (emb (2 ^ (M + 1))) (emb 1))) ;;
  cmpThree <- and_ (IsEq (Exponent y) (fadd (Exponent x) (emb 1))) a3 ;;
  o2 <- or_ cmpTwo cmpThree ;;
  cmp <- or_ cmpOne o2 ;;
  let condOne := IsEq cmp (emb 1) in
  assert_cond_or_equal condOne x y.

(** float/float.go:448-642 *)
Definition Add (x y : FloatVar) : circ FloatVar :=
  '(delta, ex_le_ey) <- GAbs (fsub (Exponent y) (Exponent x)) (E + 1) ;;
  emax <- select ex_le_ey (Exponent y) (Exponent x) ;;
  let exponent := fadd emax (emb 1) in
  delta <- GMax (fsub (emb (M + 3)) delta) (emb 0) E ;;
  two_to_delta <- QueryPow2 delta ;;
  xx <- select (Sign x) (fneg (Mantissa x)) (Mantissa x) ;;
  yy <- select (Sign y) (fneg (Mantissa y)) (Mantissa y) ;;
  zz <- select ex_le_ey xx yy ;;
  let ww := fsub (fadd xx yy) zz in
  let s := fadd (fmul zz two_to_delta) (fmul ww (emb (2 ^ (M + 3)))) in
  let mantissa_bit_length := (M + 3) + (M + 1) + 1 in
  mantissa_ge_0 <- hint1 (fst (AbsHint s)) ;;
  mantissa_abs <- hint1 (snd (AbsHint s)) ;;
  assert_bool mantissa_ge_0 ;;;
  let mantissa_lt_0 := fsub (emb 1) mantissa_ge_0 in
  shift <- hint1 (NormalizeHint mantissa_abs mantissa_bit_length) ;;
  AssertBitLength shift (BitLen mantissa_bit_length) Loose ;;;
  two_to_shift <- QueryPow2 shift ;;
  sabs <- select mantissa_ge_0 s (fneg s) ;;
  let mantissa := fmul sabs two_to_shift in
  let mantissa_is_zero := isZero mantissa in
  let mantissa_is_not_zero := fsub (emb 1) mantissa_is_zero in
  AssertBitLength
    (fsub mantissa (fmul mantissa_is_not_zero (emb (2 ^ (mantissa_bit_length - 1)))))
    (mantissa_bit_length - 1) TightForSmallAbs ;;;
  let exponent := fsub exponent shift in
  sign <- select (IsEq (Sign x) (Sign y)) (Sign x) mantissa_lt_0 ;;
  mantissa <- round mantissa mantissa_bit_length (emb 0) 0 (emb 1) ;;
  input_is_abnormal <- or_ (IsAbnormal x) (IsAbnormal y) ;;
  '(mantissa, exponent, is_abnormal) <-
     fixOverflow mantissa mantissa_is_zero exponent input_is_abnormal ;;
  let y_is_not_abnormal := fsub (emb 1) (IsAbnormal y) in
  keep_x <- or_ y_is_not_abnormal (IsEq xx yy) ;;
  mx <- select keep_x (Mantissa x) (emb 0) ;;
  my <- select (IsAbnormal y) (Mantissa y) mantissa ;;
  mantissa <- select (IsAbnormal x) mx my ;;
  Ret (mkF sign exponent mantissa is_abnormal).

(** float/float.go:645-652 *)
Definition FAbs (x : FloatVar) : FloatVar :=
  mkF (emb 0) (Exponent x) (Mantissa x) (IsAbnormal x).

(** float/float.go:655-664 *)
Definition Neg (x : FloatVar) : FloatVar :=
  mkF (fsub (emb 1) (Sign x)) (Exponent x) (Mantissa x) (IsAbnormal x).

(** float/float.go:668-670 *)
Definition Sub (x y : FloatVar) : circ FloatVar := Add x (Neg y).

(** The shift argument of [round] in Mul and Div (float/float.go:720-728,
    820-828). *)
Definition subnormal_shift (exponent shift_max : Z) : circ Z :=
  mn <- GMin (fsub (emb E_NORMAL_MIN) exponent) (emb shift_max) (E + 1) ;;
  GMax mn (emb 0) (E + 1).

(** float/float.go:673-754 *)
Definition Mul (x y : FloatVar) : circ FloatVar :=
  sign <- xor_ (Sign x) (Sign y) ;;
  let mantissa := fmul (Mantissa x) (Mantissa y) in
  let mantissa_bit_length := (M + 1) * 2 in
  mantissa_msb <- hint1 (NthBitHint mantissa (mantissa_bit_length - 1)) ;;
  assert_bool mantissa_msb ;;;
  AssertBitLength
    (fsub mantissa (fmul mantissa_msb (emb (2 ^ (mantissa_bit_length - 1)))))
    (mantissa_bit_length - 1) TightForSmallAbs ;;;
  dbl <- select mantissa_msb (emb 0) mantissa ;;
  let mantissa := fadd mantissa dbl in
  let exponent := fadd (fadd (Exponent x) (Exponent y)) mantissa_msb in
  let shift_max := M + 2 in
  shift <- subnormal_shift exponent shift_max ;;
  mantissa <- round mantissa mantissa_bit_length shift shift_max (emb 1) ;;
  let mantissa_is_zero := isZero mantissa in
  input_is_abnormal <- or_ (IsAbnormal x) (IsAbnormal y) ;;
  '(mantissa, exponent, is_abnormal) <-
     fixOverflow mantissa mantissa_is_zero exponent input_is_abnormal ;;
  m <- select mantissa_is_zero (emb 0) mantissa ;;
  Ret (mkF sign exponent m is_abnormal).

(** float/float.go:757-858 *)
Definition Div (x y : FloatVar) : circ FloatVar :=
  sign <- xor_ (Sign x) (Sign y) ;;
  let y_is_zero := isZero (Mantissa y) in
  y_mantissa <- select y_is_zero (emb (2 ^ M)) (Mantissa y) ;;
  let mantissa_bit_length := (M + 2) + 1 in
  mantissa <- hint1 (DivHint (Mantissa x) y_mantissa (M + 2)) ;;
  mantissa_msb <- hint1 (NthBitHint mantissa (M + 2)) ;;
  assert_bool mantissa_msb ;;;
  let flipped_mantissa_msb := fsub (emb 1) mantissa_msb in
  let remainder := fsub (fmul (Mantissa x) (emb (2 ^ (M + 2)))) (fmul mantissa y_mantissa) in
  AssertBitLength remainder (M + 1) Loose ;;;
  AssertBitLength (fsub y_mantissa (fadd remainder (emb 1))) (M + 1) Loose ;;;
  AssertBitLength
    (fsub mantissa (fmul mantissa_msb (emb (2 ^ (mantissa_bit_length - 1)))))
    (mantissa_bit_length - 1) TightForUnknownRange ;;;
  dbl <- select mantissa_msb (emb 0) mantissa ;;
  let mantissa := fadd mantissa dbl in
  let exponent := fsub (fsub (Exponent x) (Exponent y)) flipped_mantissa_msb in
  let shift_max := M + 2 in
  shift <- subnormal_shift exponent shift_max ;;
  mantissa <- round mantissa mantissa_bit_length shift shift_max (isZero remainder) ;;
  mantissa_is_zero <- or_ (isZero mantissa) (IsAbnormal y) ;;
  input_is_abnormal <- or_ (IsAbnormal x) y_is_zero ;;
  '(mantissa, exponent, is_abnormal) <-
     fixOverflow mantissa mantissa_is_zero exponent input_is_abnormal ;;
  m <- select mantissa_is_zero (emb 0) mantissa ;;
  Ret (mkF sign exponent m is_abnormal).

(** float/float.go:860-958 *)
Definition Sqrt (x : FloatVar) : circ FloatVar :=
  let delta := if Z.testbit E_MIN 0 then E_MIN - 1 else E_MIN in
  e_lsb <- hint1 (NthBitHint (fsub (Exponent x) (emb delta)) 0) ;;
  assert_bool e_lsb ;;;
  inv2 <- inverse (emb 2) ;;
  let exponent := fmul (fsub (Exponent x) e_lsb) inv2 in
  '(_, _) <- GAbs exponent (E - 1) ;;
  let mantissa_bit_length := M + 3 in
  let m := fmul (Mantissa x) (emb (2 ^ (mantissa_bit_length * 2 - (M + 2)))) in
  m <- select e_lsb (fadd m m) m ;;
  n <- hint1 (SqrtHint m) ;;
  let r := fsub m (fmul n n) in
  AssertBitLength r (mantissa_bit_length + 1) Loose ;;;
  AssertBitLength (fsub (fadd n n) r) (mantissa_bit_length + 1) Loose ;;;
  let n_is_zero := isZero n in
  let n_is_not_zero := fsub (emb 1) n_is_zero in
  mantissa <- round n mantissa_bit_length (emb 0) 0 (isZero r) ;;
  neg <- and_ (Sign x) n_is_not_zero ;;
  is_abnormal <- or_ neg (IsAbnormal x) ;;
  e0 <- select n_is_zero (emb E_MIN) exponent ;;
  e' <- select is_abnormal (emb E_MAX) e0 ;;
  m' <- select (Sign x) (emb 0) mantissa ;;
  Ret (mkF (Sign x) e' m' is_abnormal).

(** float/float.go:960-1029 *)
Definition less (x y : FloatVar) (allow_eq : Z) : circ Z :=
  xe_ge_ye <- IsPositive (fsub (Exponent x) (Exponent y)) (E + 1) ;;
  xm_ge_ym <- IsPositive (fsub (Mantissa x) (Mantissa y)) (M + 1) ;;
  nan <- is_nan_either x y ;;
  by_m <- select (Sign x) xm_ge_ym (fsub (emb 1) xm_ge_ym) ;;
  same_e <- select (IsEq (Mantissa x) (Mantissa y)) (emb allow_eq) by_m ;;
  by_e <- select (Sign x) xe_ge_ye (fsub (emb 1) xe_ge_ye) ;;
  same_s <- select (IsEq (Exponent x) (Exponent y)) same_e by_e ;;
  diff_s <- select (isZero (fadd (Mantissa x) (Mantissa y))) (emb allow_eq) (Sign x) ;;
  v <- select (IsEq (Sign x) (Sign y)) same_s diff_s ;;
  select nan (emb 0) v.

(** float/float.go:1031-1045 *)
Definition IsLt (x y : FloatVar) : circ Z := less x y 0.
Definition IsLe (x y : FloatVar) : circ Z := less x y 1.
Definition IsGt (x y : FloatVar) : circ Z := less y x 0.
Definition IsGe (x y : FloatVar) : circ Z := less y x 1.

(** float/float.go:386-414, 417-445 (the two differ only in the width of the
    tolerance, given here by its bit pattern). *)
Definition AssertIsEqualOrCustomULP (x y : FloatVar) (ulp_bits : Z) : circ unit :=
  is_nan <- is_nan_either x y ;;
  assert_sign_equal is_nan x y ;;;
  let ulpFloat := NewConstant ulp_bits in
  d <- Sub x y ;;
  cmp <- IsLe (FAbs d) ulpFloat ;;
  let condOne := IsEq cmp (emb 1) in
  assert_cond_or_equal condOne x y.

(** float/float.go:1047-1079 *)
Definition Trunc (x : FloatVar) : circ FloatVar :=
  e_ge_0 <- IsPositive (Exponent x) E ;;
  e <- select e_ge_0 (Exponent x) (emb (-1)) ;;
  sh <- GMax (fsub (emb M) e) (emb 0) E ;;
  two_to_e <- QueryPow2 sh ;;
  inv <- inverse two_to_e ;;
  let m := fmul (fmul (Mantissa x) (emb (2 ^ (M + 1)))) inv in
  q <- hint1 (TruncHint m (M + 1)) ;;
  let r := fsub m (fmul q (emb (2 ^ (M + 1)))) in
  AssertBitLength q (M + 1) Loose ;;;
  AssertBitLength r (M + 1) TightForSmallAbs ;;;
  exponent <- select e_ge_0 (Exponent x) (emb E_MIN) ;;
  Ret (mkF (Sign x) exponent (fmul q two_to_e) (IsAbnormal x)).

(** float/float.go:1081-1132 *)
Definition Floor (x : FloatVar) : circ FloatVar :=
  e_ge_0 <- IsPositive (Exponent x) E ;;
  e <- select e_ge_0 (Exponent x) (emb (-1)) ;;
  sh <- GMax (fsub (emb M) e) (emb 0) E ;;
  two_to_e <- QueryPow2 sh ;;
  inv <- inverse two_to_e ;;
  let m := fmul (fmul (Mantissa x) (emb (2 ^ (M + 1)))) inv in
  q <- hint1 (FloorHint m (M + 1) (Sign x)) ;;
  let r := fsub m (fmul q (emb (2 ^ (M + 1)))) in
  AssertBitLength q (M + 1) Loose ;;;
  rabs <- select (Sign x) (fneg r) r ;;
  AssertBitLength rabs (M + 1) TightForSmallAbs ;;;
  let mantissa := fmul q two_to_e in
  let mantissa_overflow := IsEq mantissa (emb (2 ^ (M + 1))) in
  mantissa <- select mantissa_overflow (emb (2 ^ M)) mantissa ;;
  let e := fadd e mantissa_overflow in
  z <- and_ (isZero mantissa) (fsub (emb 1) (IsAbnormal x)) ;;
  exponent <- select z (emb E_MIN) e ;;
  Ret (mkF (Sign x) exponent mantissa (IsAbnormal x)).

(** float/float.go:1134-1136 *)
Definition Ceil (x : FloatVar) : circ FloatVar :=
  r <- Floor (Neg x) ;; Ret (Neg r).

(** float/float.go:1142-1155 *)
Definition ToInt (x : FloatVar) : circ Z :=
  let exponent_is_min := IsEq (Exponent x) (emb E_MIN) in
  e <- select exponent_is_min (emb 0) (Exponent x) ;;
  two_to_e <- QueryPow2 e ;;
  inv <- inverse (emb (2 ^ M)) ;;
  let v := fmul (fmul (Mantissa x) two_to_e) inv in
  select (Sign x) (fneg v) v.

(** float/float.go:1157-1164 *)
Definition FSelect (c : Z) (x y : FloatVar) : circ FloatVar :=
  s <- select c (Sign x) (Sign y) ;;
  e <- select c (Exponent x) (Exponent y) ;;
  m <- select c (Mantissa x) (Mantissa y) ;;
  a <- select c (IsAbnormal x) (IsAbnormal y) ;;
  Ret (mkF s e m a).

End FloatModel.
