(** Specification of the functions of math/math.go: the same computations on
    IEEE data, and on real numbers rounded after every operation. *)
From Coq Require Import ZArith Reals Bool List.
From Flocq Require Import Core BinarySingleNaN.
From Verif Require Import Spec.
Import ListNotations.
Local Open Scope Z_scope.

Section MathSpec.
Variables E M : Z.
Context {HF : Format E M}.
Notation fmt := (fmt E M).

(** Horner's rule, [p] from the constant coefficient upwards. *)
Definition ieee_horner (p : list fmt) (x : fmt) : fmt :=
  fold_right (fun c acc => ieee_add E M (ieee_mul E M acc x) c) (B754_zero false) p.

(** The sum of [p_i x^i]. *)
Fixpoint poly (p : list R) (x : R) : R :=
  match p with [] => 0%R | c :: p' => (c + x * poly p' x)%R end.

(** Horner's rule, rounding each product and each sum. *)
Definition rounded_horner (p : list R) (x : R) : R :=
  fold_right (fun c acc => rne E M (rne E M (acc * x) + c)) 0%R p.

(** No product or sum leaves the range of finite data, and no product reaches
    the topmost binade. *)
Fixpoint horner_fits (p : list R) (x : R) : Prop :=
  match p with
  | [] => True
  | c :: p' =>
      let t := rne E M (rounded_horner p' x * x) in
      horner_fits p' x /\ (Rabs t < bpow radix2 (emax E - 1))%R /\
      (Rabs (rne E M (t + c)) < bpow radix2 (emax E))%R
  end.

(** Opposite values of the topmost binade never meet. *)
Fixpoint horner_no_max_cancel (p : list fmt) (x : fmt) : Prop :=
  match p with
  | [] => True
  | c :: p' => horner_no_max_cancel p' x /\
               ~ max_cancel E M (ieee_mul E M (ieee_horner p' x) x) c
  end.

(** Unit roundoff, and half the smallest subnormal. *)
Definition unit_ro : R := bpow radix2 (- prec M).
Definition half_min : R := bpow radix2 (emin E M - 1).

(** A priori bound on the error of Horner's rule. *)
Definition horner_error (p : list R) (x : R) : R :=
  let n := length p in
  (((1 + unit_ro) ^ (2 * n) - 1) * poly (map Rabs p) (Rabs x)
   + half_min * (1 + unit_ro) ^ (2 * n) * poly (repeat 1 n) (Rabs x))%R.

(** The Taylor loop of the sine, rounding each operation: [n] iterations from
    number [i], [q] the square of the point. *)
Fixpoint rounded_taylor (q : R) (n : nat) (i : Z) (ret term : R) : R :=
  match n with
  | O => ret
  | S n' =>
      rounded_taylor q n' (i + 1)
        (rne E M (if Z.even i then ret - term else ret + term))
        (rne E M (rne E M (term * q) / IZR (2 * i * (2 * i + 1))))
  end.

(** Fold to the left of [halfPi], 15 terms, sign of the argument. *)
Definition rounded_sin (pi halfPi v : R) : R :=
  let t := if Rlt_bool halfPi v then Rabs (rne E M (pi - v)) else Rabs v in
  rounded_taylor (rne E M (t * t)) 15 1 0 t.

(** A datum with another sign. *)
Definition with_sign (s : bool) (f : fmt) : fmt :=
  match f with
  | B754_zero _ => B754_zero s
  | B754_infinity _ => B754_infinity s
  | B754_nan => B754_nan
  | B754_finite _ m e H => B754_finite s m e H
  end.

End MathSpec.
