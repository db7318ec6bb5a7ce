(** Specification of the results an arbitrary prover can obtain from the
    operations, as relations between IEEE data.  Only [Spec] is used. *)
From Coq Require Import ZArith Reals Bool.
From Flocq Require Import Core BinarySingleNaN.
From Verif Require Import Spec.
Local Open Scope Z_scope.

Section Outcomes.
Context {E M : Z} {HF : Format E M}.

(** Finite operands of opposite signs whose sum is zero. *)
Definition cancels (x y : fmt E M) : Prop :=
  is_finite x = true /\ is_finite y = true /\ Bsign x <> Bsign y /\ B2R x = (- B2R y)%R.

(** The IEEE sum; when the operands cancel, a zero of either sign, and in the
    topmost binade also an infinity of either sign. *)
Definition sum_outcome (x y f : fmt E M) : Prop :=
  f = ieee_add E M x y \/
  (cancels x y /\
   ((exists s, f = B754_zero s) \/
    ((bpow radix2 (emax E - 1) <= Rabs (B2R x))%R /\ exists s, f = B754_infinity s))).

Definition diff_outcome (x y f : fmt E M) : Prop :=
  f = ieee_sub E M x y \/
  (cancels x (ieee_neg E M y) /\
   ((exists s, f = B754_zero s) \/
    ((bpow radix2 (emax E - 1) <= Rabs (B2R x))%R /\ exists s, f = B754_infinity s))).

(** The result of the repository's prover: the IEEE sum, except that opposite
    values of the topmost binade give an infinity. *)
Definition max_cancelb (x y : fmt E M) : bool :=
  is_finite x && is_finite y && Req_bool (B2R x) (- B2R y)
  && Rle_bool (bpow radix2 (emax E - 1)) (Rabs (B2R x)).
Definition honest_sum (x y : fmt E M) : fmt E M :=
  if max_cancelb x y then B754_infinity false else ieee_add E M x y.
Definition honest_diff (x y : fmt E M) : fmt E M :=
  if max_cancelb x (ieee_neg E M y) then B754_infinity false else ieee_sub E M x y.

(** Rounding to an integral value; from [1,2) also as if from [0,1). *)
Definition trunc_outcome (x f : fmt E M) : Prop :=
  f = ieee_trunc E M x \/ (in_1_2 E M x /\ f = B754_zero (Bsign x)).
Definition floor_outcome (x f : fmt E M) : Prop :=
  f = ieee_floor E M x \/
  (in_1_2 E M x /\ f = if Bsign x then ieee_neg E M (ieee_one E M) else B754_zero false).
Definition ceil_outcome (x f : fmt E M) : Prop :=
  f = ieee_ceil E M x \/
  (in_1_2 E M x /\ f = if Bsign x then B754_zero true else ieee_one E M).

(** Likewise for the integers. *)
Definition trunc_int (x : fmt E M) (n : Z) : Prop :=
  n = Ztrunc (B2R x) \/ (in_1_2 E M x /\ n = 0).
Definition floor_int (x : fmt E M) (n : Z) : Prop :=
  n = Zfloor (B2R x) \/ (in_1_2 E M x /\ n = if Bsign x then -1 else 0).
Definition ceil_int (x : fmt E M) (n : Z) : Prop :=
  n = Zceil (B2R x) \/ (in_1_2 E M x /\ n = if Bsign x then 0 else 1).

End Outcomes.
