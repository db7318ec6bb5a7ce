(** Specification of the results an arbitrary prover can obtain from a product
    or quotient when the base width [b] of the range check need not divide the
    size of the table of powers of two.  Only [Spec] is used. *)
From Coq Require Import ZArith Reals Bool.
From Flocq Require Import Core BinarySingleNaN.
From Verif Require Import Spec.
Local Open Scope Z_scope.

Section ForgeSpec.
Context {E M : Z} {HF : Format E M}.

(** The least multiple of [b] from [n] on. *)
Definition fill (b n : Z) : Z := (n + b - 1) / b * b.

(** A wrong answer to the query for [2^shift]. *)
Definition wrong_power (b shift T : Z) : Prop :=
  exists k, 1 <= k /\ shift + k <= M + E /\ T = 2 ^ (shift + k) + k * 2 ^ (M + E + 1) /\
    T < 2 ^ fill b (M + E + 1).

(** How far a result of exponent [e] is shifted to the right before rounding. *)
Definition denormal_shift (e : Z) : Z := Z.max 0 (Z.min (2 - emax E - e) (M + 2)).

(** A significand of [L] bits that a wrong power of two divides, after padding
    to whole limbs. *)
Definition divided (b shift n L : Z) : Prop :=
  exists T, wrong_power b shift T /\ (T | n * 2 ^ (M + 2 + (fill b L - L))).

(** The product has exponent [e] and its exact significand can be divided away. *)
Definition product_escapes (b : Z) (x y : fmt E M) (e : Z) : Prop :=
  exists n, 2 ^ (2 * M + 1) <= n < 2 ^ (2 * M + 2) /\
    (magv E M x * magv E M y)%R = (IZR n * bpow radix2 (e - (2 * M + 1)))%R /\
    divided b (denormal_shift e) n (2 * M + 2).

(** The exponent of a magnitude. *)
Definition expo (v : R) : Z := mag radix2 v - 1.

(** Division by zero is computed as division by half the least magnitude. *)
Definition divisor (y : fmt E M) : R :=
  match y with B754_zero _ => bpow radix2 (emin E M - 1) | _ => magv E M y end.

(** Likewise for the quotient, whose significand is cut off after [M + 3] bits,
    or after [M + 2] if the significand of [x] is less than that of [y]. *)
Definition quotient_escapes (b : Z) (x y : fmt E M) (e : Z) : Prop :=
  is_nan y = false /\ magv E M x <> 0%R /\
  exists c, e = expo (magv E M x) - expo (divisor y) - c /\ 0 <= c <= 1 /\
    let q := Zfloor (magv E M x / divisor y * bpow radix2 (M + 2 - c - e)) in
    2 ^ (M + 2 - c) <= q < 2 ^ (M + 3 - c) /\
    divided b (denormal_shift e) (q * 2 ^ c) (M + 3).

(** What is left: a zero, or NaN if the result is abnormal. *)
Definition collapsed (regular s : bool) (e : Z) (f : fmt E M) : Prop :=
  (regular = true /\ e <= emax E /\ f = B754_zero s) \/
  ((regular = false \/ emax E <= e) /\ f = B754_nan).

Definition is_zero (x : fmt E M) : bool := match x with B754_zero _ => true | _ => false end.

Definition product_outcome (b : Z) (x y f : fmt E M) : Prop :=
  f = ieee_mul E M x y \/
  exists e, product_escapes b x y e /\
    collapsed (is_finite x && is_finite y) (xorb (Bsign x) (Bsign y)) e f.

Definition quotient_outcome (b : Z) (x y f : fmt E M) : Prop :=
  f = ieee_div E M x y \/
  exists e, quotient_escapes b x y e /\
    collapsed (is_finite x && negb (is_zero y)) (xorb (Bsign x) (Bsign y)) e f.

End ForgeSpec.
