(** Conversions on the host, before the H3 tools are called: util/util.go:285, 378-387, and the
    decimal text of the arguments, util/util.go:414-415 and proximity/proximity.go:83, 105.
    Go's [float64] is binary64 with rounding to nearest, ties to even. *)
From Coq Require Import ZArith Bool String.
From Flocq Require Import Core BinarySingleNaN.
From Verif Require Import Spec Text.
Local Open Scope Z_scope.

Notation float64 := (fmt 11 52).

(** util/util.go:384-387.  [180.0 / math.Pi] is a constant expression: Go computes it exactly from
    the literal of [math.Pi] and rounds once. *)
Definition degrees_per_radian : float64 := of_bits 11 52 0x404CA5DC1A63C1F8.
Definition RadiansToDegrees (rad : float64) : float64 := ieee_mul 11 52 rad degrees_per_radian.

(** util/util.go:285, 378-381.  An [int] becomes a float by rounding. *)
Definition ScaleFactor : float64 := of_bits 11 52 0x41CDCD6500000000.
Definition float64_of_int (n : Z) : float64 :=
  binary_normalize _ _ (fmt_prec_gt_0 11 52) (fmt_prec_lt_emax 11 52) mode_NE n 0 false.
Definition ScaledIntToFloat64 (scaledInt : Z) : float64 :=
  ieee_div 11 52 (float64_of_int scaledInt) ScaleFactor.

(** [fmt.Sprintf("%.30f", x)], restated from Go's [strconv]: the exact value, rounded to the last
    decimal with ties to the even digit. *)
Definition half_even (n d : Z) : Z :=
  let q := n / d in
  let r := n mod d in
  if 2 * r <? d then q else if d <? 2 * r then q + 1 else q + q mod 2.

(** Exactly [k] decimal digits. *)
Fixpoint pad (k : nat) (v : Z) (acc : string) : string :=
  match k with
  | O => acc
  | S k' => pad k' (v / 10) (String (digit (v mod 10)) acc)
  end.

Definition fixed (p : nat) (s : bool) (n : Z) : string :=
  ((if s then "-" else "") ++ format 10 310 (n / 10 ^ Z.of_nat p) "" ++ "." ++
   pad p (n mod 10 ^ Z.of_nat p) "")%string.

Definition Sprintf30f (x : float64) : string :=
  match x with
  | B754_nan => "NaN"
  | B754_infinity s => if s then "-Inf" else "+Inf"
  | B754_zero s => fixed 30 s 0
  | B754_finite s m e _ =>
      fixed 30 s (if 0 <=? e then Z.pos m * 2 ^ e * 10 ^ 30
                  else half_even (Z.pos m * 10 ^ 30) (2 ^ (- e)))
  end.
