(** The specification: IEEE-754 data and arithmetic as formalised by Flocq
    ([Flocq.IEEE754.BinarySingleNaN]), and what it means for the four wires of
    a circuit float to stand for an IEEE datum.  Nothing here refers to the
    modelled operations. *)
From Coq Require Import ZArith Reals Bool Lia.
From Flocq Require Import Core BinarySingleNaN.
From Flocq Require Binary Bits.
From Verif Require Import Field FloatModel.
Local Open Scope Z_scope.

(** The formats covered: [E] exponent bits and [M] fraction bits. *)
Class Format (E M : Z) : Prop := mkFormat {
  f_E : 4 <= E;
  f_EM : E < M;
  f_2M : 2 * M <= 2 ^ (E - 1);
  f_64 : E + M + 1 <= 64 }.

#[global] Instance format32 : Format 8 23.
Proof. constructor; vm_compute; congruence. Qed.
#[global] Instance format64 : Format 11 52.
Proof. constructor; vm_compute; congruence. Qed.

Section Spec.
Variables E M : Z.

Definition prec : Z := M + 1.
Definition emax : Z := 2 ^ (E - 1).
(** Exponent of the least significant bit of the subnormals. *)
Definition emin : Z := 3 - emax - prec.

(** The IEEE data of the format, with a single NaN. *)
Definition fmt : Type := binary_float prec emax.

Context {HF : Format E M}.

#[global] Instance fmt_prec_gt_0 : Prec_gt_0 prec.
Proof. destruct HF. unfold Prec_gt_0, prec. lia. Qed.
#[global] Instance fmt_prec_lt_emax : Prec_lt_emax prec emax.
Proof. destruct HF. unfold Prec_lt_emax, prec, emax. lia. Qed.

(** The datum with a given bit pattern, all NaNs being identified. *)
Lemma fmt_mw : 0 < M. Proof. destruct HF. lia. Qed.
Lemma fmt_ew : 0 < E. Proof. destruct HF. lia. Qed.
Definition of_bits (v : Z) : fmt :=
  Binary.B2BSN prec emax
    (Bits.binary_float_of_bits M E fmt_mw fmt_ew fmt_prec_lt_emax v).

(** Rounding a real number to nearest, ties to even, with unbounded exponents
    upwards. *)
Definition rne (v : R) : R :=
  Generic_fmt.round radix2 (FLT_exp emin prec) ZnearestE v.

(** IEEE operations: rounding to nearest, ties to even. *)
Definition ieee_add (x y : fmt) : fmt := Bplus mode_NE x y.
Definition ieee_sub (x y : fmt) : fmt := Bminus mode_NE x y.
Definition ieee_mul (x y : fmt) : fmt := Bmult mode_NE x y.
Definition ieee_div (x y : fmt) : fmt := Bdiv mode_NE x y.
Definition ieee_sqrt (x : fmt) : fmt := Bsqrt mode_NE x.
Definition ieee_trunc (x : fmt) : fmt := Bnearbyint mode_ZR x.
Definition ieee_floor (x : fmt) : fmt := Bnearbyint mode_DN x.
Definition ieee_ceil (x : fmt) : fmt := Bnearbyint mode_UP x.
Definition ieee_one : fmt := Bone.
Definition ieee_neg (x : fmt) : fmt := Bopp x.
Definition ieee_abs (x : fmt) : fmt := Babs x.
Definition ieee_lt (x y : fmt) : bool := Bltb x y.
Definition ieee_le (x y : fmt) : bool := Bleb x y.

(** Finite, of magnitude in [1,2). *)
Definition in_1_2 (x : fmt) : Prop := is_finite x = true /\ (1 <= Rabs (B2R x) < 2)%R.

(** Magnitude, an infinity counting as the first power of two out of range. *)
Definition magv (x : fmt) : R :=
  match x with B754_infinity _ => bpow radix2 emax | _ => Rabs (B2R x) end.

(** [y] is the next datum after [x] away from zero, [x] being normal. *)
Definition ulp_above (x y : fmt) : Prop :=
  is_nan x = false /\ is_nan y = false /\ Bsign x = Bsign y /\
  (bpow radix2 (2 - emax) <= magv x)%R /\
  magv y = (magv x + ulp radix2 (FLT_exp emin prec) (magv x))%R.

(** Equal, or of the same sign and at a distance of at most the datum with bit
    pattern [t], after rounding. *)
Definition ieee_within (x y : fmt) (t : Z) : Prop :=
  x = y \/ (Bsign x = Bsign y /\ ieee_le (ieee_abs (ieee_sub x y)) (of_bits t) = true).

(** Opposite finite values in the topmost binade. *)
Definition max_cancel (x y : fmt) : Prop :=
  is_finite x = true /\ is_finite y = true /\ B2R x = (- B2R y)%R /\
  (bpow radix2 (emax - 1) <= Rabs (B2R x))%R.

(** Sign, exponent, mantissa and abnormal flag as integers. *)
Record zf := mkZ { zs : bool; ze : Z; zm : Z; za : bool }.

(** The components of a datum.  The mantissa of a non-zero finite datum is
    scaled to have exactly [M + 1] bits, the exponent being that of its leading
    bit.  The sign of a NaN is arbitrary. *)
Definition zrep (z : zf) (f : fmt) : Prop :=
  match f with
  | B754_zero s => z = mkZ s (emin - 1) 0 false
  | B754_infinity s => z = mkZ s emax (2 ^ M) true
  | B754_nan => exists s, z = mkZ s emax 0 true
  | B754_finite s m e _ =>
      let d := Zpos (digits2_pos m) in
      z = mkZ s (e + d - 1) (Zpos m * 2 ^ (prec - d)) false
  end.

End Spec.

Section Wires.
Context {MOD : Modulus}.

(** The wires holding given components. *)
Definition embF (z : zf) : FloatVar :=
  mkF (emb (Z.b2z (zs z))) (emb (ze z)) (emb (zm z)) (emb (Z.b2z (za z))).

(** [x] is a circuit float standing for the IEEE datum [f]. *)
Definition represents {E M : Z} (x : FloatVar) (f : fmt E M) : Prop :=
  exists z, x = embF z /\ zrep E M z f.

(** Wires carrying the magnitude of [v] rounded, with the exponent reserved for
    infinities and NaN but without the abnormal flag: no datum at all. *)
Definition overflow_wires (E M : Z) (s : bool) (v : R) (r : FloatVar) : Prop :=
  exists m, 2 ^ M <= m < 2 ^ (M + 1) /\
    Rabs (rne E M v) = (IZR m * bpow radix2 (emax E - M))%R /\
    r = embF (mkZ s (emax E) m false).

End Wires.
