(** What the interval circuits of math/ compare. *)
From Coq Require Import ZArith Reals Lra Lia Bool List.
From Flocq Require Import Core BinarySingleNaN.
From Verif Require Import Field FieldFacts Circuit CircuitFacts RangeCheck RangeFacts Gadget
  GadgetFacts FloatModel RoundFacts Spec RepFacts Forge CompFacts NewFacts EqFacts CircuitSpec Math
  MathUlp.
Import ListNotations.
Local Open Scope Z_scope.

(** ** In terms of numbers *)
(** The same power of two below both magnitudes, or both zero. *)
Definition same_binade (x y : R) : Prop :=
  (x = 0 /\ y = 0)%R \/ (x <> 0%R /\ y <> 0%R /\ (mag radix2 x : Z) = mag radix2 y).

(** The magnitude divided by the power of two below it: in [1, 2), or 0. *)
Definition significand (x : R) : R := (Rabs x * bpow radix2 (1 - mag radix2 x))%R.

(** What stands in the mantissa, as a number. *)
Definition leading {E M : Z} (f : fmt E M) : R :=
  match f with
  | B754_nan => 0
  | B754_infinity _ => 1
  | _ => significand (B2R f)
  end.

Section Facts.
Context {MOD : Modulus} {E M b : Z} {HP : Params E M b} {HF : Format E M}.
#[local] Instance Wu : Width b (4 * M + 44) := params_width E M b HP.
#[local] Instance Bu : BigMod := width_big b _ _.
Notation fmt := (Spec.fmt E M).

Lemma zfin_mag (z : zf) : zfin (E:=E) (M:=M) z -> mag radix2 (zmag (M:=M) z) = ze z + 1 :> Z.
Proof.
  intros (_ & H & _). destruct (fmt_M (E:=E) (M:=M)) as [HM [HM1 HM2]]. unfold zmag.
  apply mag_unique. rewrite Rabs_pos_eq.
  - split.
    + replace (ze z + 1 - 1) with (M + (ze z - M)) by lia. rewrite bpow_plus.
      apply Rmult_le_compat_r; [apply bpow_ge_0|]. rewrite <- IZR_Zpower by lia. apply IZR_le. apply H.
    + replace (ze z + 1) with (M + 1 + (ze z - M)) by lia. rewrite bpow_plus.
      apply Rmult_lt_compat_r; [apply bpow_gt_0|]. rewrite <- IZR_Zpower by lia. apply IZR_lt. apply H.
  - apply Rmult_le_pos; [apply IZR_le; lia|apply bpow_ge_0].
Qed.

Lemma abs_sgn s x : Rabs (sgn s * x) = Rabs x.
Proof. destruct s; cbn [sgn]; [rewrite <- (Rabs_Ropp x)|]; f_equal; lra. Qed.

Lemma zfin_pos (z : zf) : zfin (E:=E) (M:=M) z -> (0 < zmag (M:=M) z)%R.
Proof.
  intros (_ & H & _). destruct (fmt_M (E:=E) (M:=M)) as [HM [HM1 HM2]].
  apply Rmult_lt_0_compat; [apply IZR_lt; lia|apply bpow_gt_0].
Qed.

Lemma leading_mantissa z (f : fmt) : zrep E M z f -> (leading f * bpow radix2 M = IZR (zm z))%R.
Proof.
  intros Hz. destruct (fmt_M (E:=E) (M:=M)) as [HM [HM1 HM2]].
  assert (Hf : is_finite f = true -> (significand (B2R f) * bpow radix2 M = IZR (zm z))%R).
  { intros Ff. destruct (zrep_B2R z f Hz Ff) as (V & _ & _ & [H|[H _]]); unfold significand.
    - rewrite V, abs_sgn. pose proof (zfin_pos z H) as Hp.
      assert (Hm : mag radix2 (sgn (zs z) * zmag (M:=M) z) = ze z + 1 :> Z).
      { rewrite <- mag_abs, abs_sgn, mag_abs. apply zfin_mag, H. }
      rewrite Hm, Rabs_pos_eq by lra. unfold zmag. rewrite !Rmult_assoc, <- !bpow_plus.
      replace (ze z - M + (1 - (ze z + 1) + M)) with 0 by lia. cbn [bpow]. lra.
    - rewrite V. unfold zmag. rewrite H. rewrite Rmult_0_l, Rmult_0_r, Rabs_R0. lra. }
  destruct f as [s|s| |s m e H]; try exact (Hf eq_refl); cbn [leading zrep] in *.
  - subst z. cbn [zm]. rewrite Rmult_1_l, <- IZR_Zpower by lia. reflexivity.
  - destruct Hz as [s ->]. cbn [zm]. lra.
Qed.

Lemma mantissa_range z (f : fmt) : zrep E M z f -> 0 <= zm z < 2 ^ (M + 1).
Proof.
  intros Hz. destruct (fmt_M (E:=E) (M:=M)) as [HM [HM1 HM2]].
  destruct (zrep_zwf _ _ Hz) as [_ [[H _]|[H _]]]; lia.
Qed.

(** Comparing two mantissas is comparing the leading numbers. *)
Lemma mantissa_le x y (f g : fmt) : represents x f -> represents y g ->
  (Mantissa x <= Mantissa y <-> (leading f <= leading g)%R).
Proof.
  intros (u & -> & Hu) (w & -> & Hw). cbn [embF Mantissa].
  pose proof (mantissa_range u f Hu) as Ru. pose proof (mantissa_range w g Hw) as Rw.
  destruct (small_pow (E:=E) (M:=M) (b:=b)) as (Hs & _).
  rewrite !emb_small by lia.
  pose proof (leading_mantissa u f Hu) as Lu. pose proof (leading_mantissa w g Hw) as Lw.
  pose proof (bpow_gt_0 radix2 M) as Hp. split; intros H.
  - apply Rmult_le_reg_r with (bpow radix2 M); [exact Hp|]. rewrite Lu, Lw. apply IZR_le, H.
  - apply le_IZR. rewrite <- Lu, <- Lw. apply Rmult_le_compat_r; [lra|exact H].
Qed.

(** Comparing the exponents is comparing the binades. *)
Lemma exponent_eq r z (f g : fmt) : represents r f -> represents z g -> is_finite f = true ->
  (Exponent r = Exponent z <-> is_finite g = true /\ same_binade (B2R f) (B2R g)).
Proof.
  intros (u & -> & Hu) (w & -> & Hw) Ff. cbn [embF Exponent]. exps E M.
  destruct (fmt_M (E:=E) (M:=M)) as [HM [HM1 HM2]].
  destruct (small_pow (E:=E) (M:=M) (b:=b)) as (Hs1 & _ & _ & _ & _ & _ & Hs7 & _).
  pose proof (zrep_zwf _ _ Hu) as [Wu' _]. pose proof (zrep_zwf _ _ Hw) as [Ww' _].
  assert (HE : emb (ze u) = emb (ze w) <-> ze u = ze w).
  { split; [intros H; apply emb_inj; [exact H|lia]|intros ->; reflexivity]. }
  rewrite HE. clear HE.
  assert (Mg : forall (z : zf) (h : fmt), zrep E M z h -> is_finite h = true ->
    (B2R h = 0%R /\ ze z = emin E M - 1) \/
    (B2R h <> 0%R /\ (mag radix2 (B2R h) : Z) = ze z + 1 /\ emin E M <= ze z < emax E)).
  { intros z h Hz Fh. destruct (zrep_B2R z h Hz Fh) as (V & _ & _ & [H|[H1 H2]]).
    - right. pose proof (zfin_pos z H) as Hp. split; [|split].
      + rewrite V. destruct (zs z); cbn [sgn]; lra.
      + rewrite V, <- mag_abs, abs_sgn, mag_abs. apply zfin_mag, H.
      + apply H.
    - left. split; [|exact H2]. rewrite V. unfold zmag. rewrite H1. rewrite Rmult_0_l. apply Rmult_0_r. }
  destruct (Mg u f Hu Ff) as [[F0 Fe]|(F0 & Fm & Fe)].
  - split.
    + intros He. assert (Fg : is_finite g = true).
      { destruct g as [s|s| |s m e H]; try reflexivity; cbn [zrep] in Hw.
        - subst w. cbn in He. lia.
        - destruct Hw as [s ->]. cbn in He. lia. }
      split; [exact Fg|]. destruct (Mg w g Hw Fg) as [[G0 Ge]|(G0 & Gm & Ge)]; [left; auto|lia].
    + intros [Fg [[_ G]|[G _]]]; [|contradiction].
      destruct (Mg w g Hw Fg) as [[G0 Ge]|(G0 & Gm & Ge)]; [lia|contradiction].
  - split.
    + intros He. assert (Fg : is_finite g = true).
      { destruct g as [s|s| |s m e H]; try reflexivity; cbn [zrep] in Hw.
        - subst w. cbn in He. lia.
        - destruct Hw as [s ->]. cbn in He. lia. }
      split; [exact Fg|]. destruct (Mg w g Hw Fg) as [[G0 Ge]|(G0 & Gm & Ge)]; [lia|].
      right. split; [exact F0|]. split; [exact G0|]. lia.
    + intros [Fg [[G _]|(_ & G & Hm)]]; [contradiction|].
      destruct (Mg w g Hw Fg) as [[G0 Ge]|(G0 & Gm & Ge)]; [contradiction|lia].
Qed.

(** ** The circuits *)
#[local] Notation bits v := (0 <= v < 2 ^ (E + M + 1)).

Lemma ulp_sat op X Z Zl Zu : 0 <= X < modulus -> 0 <= Z < modulus -> 0 <= Zl < modulus -> 0 <= Zu < modulus ->
  (sat b (ulp_circuit E M op X Z Zl Zu) tt <->
   bits X /\ bits Z /\ bits Zl /\ bits Zu /\
   exists r, sat b (op (NewConstant E M X)) r /\
     Exponent r = Exponent (NewConstant E M Z) /\
     Mantissa (NewConstant E M Zl) <= Mantissa r <= Mantissa (NewConstant E M Zu)).
Proof.
  intros HX HZ HL HU. unfold ulp_circuit.
  rewrite (new_step _ _ _ HX), (new_step _ _ _ HZ), (new_step _ _ _ HL), (new_step _ _ _ HU), sat_bind.
  split; intros (H1 & H2 & H3 & H4 & r & Hr & H5); repeat (split; [assumption|]); exists r; (split; [exact Hr|]).
  - apply sat_bind in H5. destruct H5 as (u & H5 & H6). apply sat_bind in H6. destruct H6 as (v & H6 & H7).
    apply sat_assert_eq in H5. apply sat_assert, Z.leb_le in H6. apply sat_assert, Z.leb_le in H7. auto.
  - destruct H5 as (H5 & H6 & H7). apply sat_bind. exists tt. split; [apply sat_assert_eq, H5|].
    apply sat_bind. exists tt. split; apply sat_assert, Z.leb_le; assumption.
Qed.

(** The condition in terms of numbers, for a finite result. *)
Definition within (f z zl zu : fmt) : Prop :=
  is_finite z = true /\ same_binade (B2R f) (B2R z) /\ (leading zl <= leading f <= leading zu)%R.

Lemma within_wires r (f : fmt) Z Zl Zu : represents r f -> is_finite f = true -> bits Z -> bits Zl -> bits Zu ->
  (Exponent r = Exponent (NewConstant E M Z) /\
   Mantissa (NewConstant E M Zl) <= Mantissa r <= Mantissa (NewConstant E M Zu) <->
   within f (of_bits E M Z) (of_bits E M Zl) (of_bits E M Zu)).
Proof.
  intros Hr Ff BZ BL BU. unfold within.
  rewrite (exponent_eq r _ f _ Hr (newconst_spec Z BZ) Ff).
  rewrite (mantissa_le _ r _ f (newconst_spec Zl BL) Hr).
  rewrite (mantissa_le r _ f _ Hr (newconst_spec Zu BU)). tauto.
Qed.

(** Bounds whose leading numbers are in the wrong order exclude everything. *)
Lemma ulp_empty op X Z Zl Zu : 0 <= X < modulus -> 0 <= Z < modulus -> 0 <= Zl < modulus -> 0 <= Zu < modulus ->
  (leading (of_bits E M Zu) < leading (of_bits E M Zl))%R ->
  ~ sat b (ulp_circuit E M op X Z Zl Zu) tt.
Proof.
  intros HX HZ HL HU Hlt Hs. apply (ulp_sat op X Z Zl Zu HX HZ HL HU) in Hs.
  destruct Hs as (_ & _ & BL & BU & r & _ & _ & H1 & H2).
  assert (H : Mantissa (NewConstant E M Zl) <= Mantissa (NewConstant E M Zu)) by lia.
  apply (mantissa_le _ _ _ _ (newconst_spec Zl BL) (newconst_spec Zu BU)) in H. lra.
Qed.
End Facts.

(** Within one binade the significands of negative numbers are ordered the other way round. *)
Lemma negative_leading {E M} (f g : fmt E M) : is_finite f = true -> is_finite g = true ->
  same_binade (B2R f) (B2R g) -> (B2R f < B2R g < 0)%R -> (leading g < leading f)%R.
Proof.
  intros Ff Fg Hb Hlt.
  assert (H : forall h : fmt E M, is_finite h = true -> leading h = significand (B2R h))
    by (intros h; destruct h; try discriminate; reflexivity).
  rewrite !H by assumption. unfold significand. destruct Hb as [[Hb _]|(_ & _ & ->)]; [lra|].
  apply Rmult_lt_compat_r; [apply bpow_gt_0|]. rewrite !Rabs_left by lra. lra.
Qed.

(** Within one binade they are ordered as the magnitudes. *)
Lemma leading_abs {E M} (f g : fmt E M) : is_finite f = true -> is_finite g = true ->
  same_binade (B2R f) (B2R g) -> (leading f <= leading g)%R -> (Rabs (B2R f) <= Rabs (B2R g))%R.
Proof.
  intros Ff Fg Hb Hle.
  assert (H : forall h : fmt E M, is_finite h = true -> leading h = significand (B2R h))
    by (intros h; destruct h; try discriminate; reflexivity).
  rewrite !H in Hle by assumption. unfold significand in Hle.
  destruct Hb as [[-> ->]|(_ & _ & Hm)]; [lra|]. rewrite Hm in Hle.
  eapply Rmult_le_reg_r; [|exact Hle]. apply bpow_gt_0.
Qed.

Lemma same_binade_sym x y : same_binade x y -> same_binade y x.
Proof. intros [[H1 H2]|(H1 & H2 & H3)]; [left|right]; auto. Qed.
Lemma same_binade_trans x y z : same_binade x y -> same_binade y z -> same_binade x z.
Proof.
  intros [[H1 H2]|(H1 & H2 & H3)] [[G1 G2]|(G1 & G2 & G3)]; try contradiction; [left|right]; auto.
  repeat split; auto. lia.
Qed.
