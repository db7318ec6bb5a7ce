(** The arctangent: what accepted results are. *)
From Coq Require Import ZArith Reals Lra Lia Bool List.
From Flocq Require Import Core BinarySingleNaN.
From Verif Require Import Field FieldFacts Circuit CircuitFacts RangeCheck RangeFacts Gadget
  GadgetFacts Util FloatModel Tactics RoundFacts Spec RoundCore RepFacts MulFacts DivFacts
  AddFacts AddSpec Forge CompFacts NewFacts CmpFacts EqFacts Outcomes CircuitSpec Expr ExprFacts
  ValueFacts Math MathSpec MathFacts ErrorFacts SinFacts SinAccuracy AtanPoly.
Import ListNotations.
Local Open Scope Z_scope.

(** Rounded evaluation: reciprocal above one, Horner's rule, complement to
    [hp]. *)
Definition rounded_atan (E M : Z) {HF : Format E M} (hp : R) (p : list R) (v : R) : R :=
  if Rlt_bool 1 (Rabs v)
  then rne E M (hp - rounded_horner E M p (rne E M (1 / Rabs v)))
  else rounded_horner E M p (Rabs v).

Section AtanFacts.
Context {MOD : Modulus} {E M b : Z} {HP : Params E M b} {HF : Format E M}.
#[local] Instance Wn : Width b (4 * M + 44) := params_width E M b HP.
#[local] Instance Bn : BigMod := width_big b _ _.
Notation fmt := (Spec.fmt E M).
Notation emax := (Spec.emax E).
Notation rne := (Spec.rne E M).
Notation valued := (valued (E:=E) (M:=M)).
Notation value_of := (value_of (E:=E) (M:=M) (b:=b)).

Hypothesis HE8 : 8 <= E.
Hypothesis HM23 : 23 <= M.

Lemma horner_small p x : Forall (fun c => Rabs c <= bpow radix2 2)%R p -> (Rabs x <= 1)%R ->
  Z.of_nat (length p) <= 100 ->
  (Rabs (rounded_horner E M p x) <= bpow radix2 (2 + Z.of_nat (length p)))%R /\ horner_fits E M p x.
Proof.
  intros Hp Hx. pose proof (emax_128 HE8) as He. pose proof (emin_neg HE8 HM23) as Hm.
  induction Hp as [|c p Hc Hp IH]; intros Hl.
  - split; [|exact I]. unfold rounded_horner. cbn [fold_right]. rewrite Rabs_R0. apply bpow_ge_0.
  - cbn [length] in Hl. destruct IH as [IH1 IH2]; [lia|].
    assert (H1 : (Rabs (rne (rounded_horner E M p x * x)) <= bpow radix2 (2 + Z.of_nat (length p)))%R).
    { apply rne_bound; [|lia]. rewrite Rabs_mult. pose proof (Rabs_pos (rounded_horner E M p x)).
      pose proof (Rabs_pos x). nra. }
    assert (H2 : (Rabs (rne (rne (rounded_horner E M p x * x) + c)) <= bpow radix2 (2 + Z.of_nat (length (c :: p))))%R).
    { apply rne_bound; [|lia]. replace (2 + Z.of_nat (length (c :: p))) with (2 + Z.of_nat (length p) + 1)
        by (cbn [length]; lia).
      apply bnd_add; [exact H1|]. eapply bnd_weaken; [exact Hc|lia]. }
    split; [exact H2|]. cbn [horner_fits]. cbv zeta. split; [exact IH2|]. split.
    + eapply Rle_lt_trans; [exact H1|]. apply bpow_lt. lia.
    + eapply Rle_lt_trans; [exact H2|]. apply bpow_lt. cbn [length]. lia.
Qed.

Section Atan.
Variables halfPi one : Z.
Variable coefficient : list Z.
Hypothesis Hhp : 0 <= halfPi < 2 ^ (E + M + 1).
Hypothesis Hone : 0 <= one < 2 ^ (E + M + 1).
Hypothesis Hco : Forall (fun c => 0 <= c < 2 ^ (E + M + 1)) coefficient.
Notation fhp := (of_bits E M halfPi).
Notation fone := (of_bits E M one).
Hypothesis Fhp : is_finite fhp = true.
Hypothesis Fone : is_finite fone = true.
Hypothesis Vone : B2R fone = 1%R.
Hypothesis Fco : Forall (fun c => is_finite (of_bits E M c) = true /\
  Rabs (B2R (of_bits E M c)) <= bpow radix2 2)%R coefficient.
Hypothesis Bhp : (Rabs (B2R fhp) <= bpow radix2 2)%R.
Hypothesis Hlen : Z.of_nat (length coefficient) <= 60.
Hypothesis Dd : pow2_size E M mod b = 0.

(** The coefficients, constant first. *)
Notation pR := (map (fun c => B2R (of_bits E M c)) (rev coefficient)).

Lemma evalk_atan x v : valued x v -> (Rabs v <= 1)%R ->
  value_of (EvalK E M (map (NewConstant E M) coefficient) x 1) (rounded_horner E M pR v) /\
  (Rabs (rounded_horner E M pR v) <= bpow radix2 62)%R.
Proof.
  intros Hx Hv. destruct (horner_small pR v) as [B1 B2].
  { apply Forall_map, Forall_rev. eapply Forall_impl; [|exact Fco]. intros c [_ H]. exact H. }
  { exact Hv. }
  { rewrite map_length, rev_length. lia. }
  rewrite map_length, rev_length in B1. split; [|eapply bnd_weaken; [exact B1|lia]].
  assert (HV : value_of (Eval E M (rev (map (NewConstant E M) coefficient)) x) (rounded_horner E M pR v)).
  { apply eval_value; try assumption. rewrite <- map_rev. clear Hlen B1 B2.
    apply Forall_rev in Hco. apply Forall_rev in Fco. induction (rev coefficient) as [|c l IH]; cbn [map]; [constructor|].
    inversion Hco; inversion Fco; subst. constructor.
    - apply represents_valued; [apply newconst_spec; assumption|tauto].
    - apply IH; assumption. }
  destruct HV as [[r Hr] HV]. destruct (evalk_one (E:=E) (M:=M) (b:=b) (map (NewConstant E M) coefficient) x) as [E1 E2].
  split; [exists r; rewrite E2; exact Hr|]. intros s Hs. apply HV, (proj1 (E1 s)), Hs.
Qed.

Lemma recip_bound v : (1 < v)%R -> (Rabs (rne (1 / v)) <= 1)%R.
Proof.
  intros Hv. change 1%R with (bpow radix2 0) at 2. apply rne_bound; [|apply (emin_neg HE8 HM23)].
  cbn [bpow]. unfold Rdiv. rewrite Rmult_1_l.
  assert (0 < / v)%R by (apply Rinv_0_lt_compat; lra).
  rewrite Rabs_pos_eq by lra. rewrite <- Rinv_1. apply Rinv_le; lra.
Qed.

Theorem atan_sound x (fx : fmt) : represents x fx -> is_finite fx = true ->
  (exists r, exec b (AtanRemez E M halfPi one coefficient x) = Some r) /\
  forall r, sat b (AtanRemez E M halfPi one coefficient x) r ->
  exists f : fmt, represents r f /\ is_finite f = true /\ Bsign f = Bsign fx /\
    Rabs (B2R f) = Rabs (rounded_atan E M (B2R fhp) pR (B2R fx)).
Proof.
  intros Hx Fx. pose proof (emax_128 HE8) as He. pose proof (emin_neg HE8 HM23) as Hm.
  pose proof (newconst_spec halfPi Hhp) as Chp. pose proof (newconst_spec one Hone) as Cone.
  pose proof (sign_wire x fx Hx ltac:(destruct fx; try discriminate; reflexivity)) as Hsx.
  pose proof (finite_not_abnormal x fx Hx Fx) as Hax.
  set (xa := mkF (emb 0) (Exponent x) (Mantissa x) (IsAbnormal x)).
  assert (Ha : represents xa (ieee_abs E M fx)) by (exact (abs_spec x fx Hx)).
  assert (Fa : is_finite (ieee_abs E M fx) = true) by (unfold ieee_abs; rewrite is_finite_Babs; exact Fx).
  assert (Va : B2R (ieee_abs E M fx) = Rabs (B2R fx)) by (unfold ieee_abs; apply B2R_Babs).
  destruct (compare_circ_spec (b:=b) OpGt xa _ (ieee_abs E M fx) fone Ha Cone) as [G1 G2].
  cbn [compare_circ ieee_compare] in G1, G2.
  assert (Hlt : ieee_lt E M fone (ieee_abs E M fx) = Rlt_bool 1 (Rabs (B2R fx))).
  { unfold ieee_lt. rewrite <- Vone, <- Va. apply Bltb_correct; assumption. }
  set (c := ieee_lt E M fone (ieee_abs E M fx)) in *.
  (* the point *)
  set (t := if c then rne (1 / Rabs (B2R fx)) else Rabs (B2R fx)).
  assert (Bt : (Rabs t <= 1)%R).
  { unfold t. rewrite Hlt. case Rlt_bool_spec; intros C; [apply recip_bound, C|].
    rewrite Rabs_Rabsolu. exact C. }
  assert (Pt : (0 <= t)%R).
  { unfold t. destruct c; [|apply Rabs_pos]. unfold Spec.rne. pose proof (fmt_prec_gt_0 E M).
    apply round_ge_generic; auto with typeclass_instances; [apply generic_format_0|].
    destruct (Req_dec (Rabs (B2R fx)) 0) as [Z|Z]; [rewrite Z; unfold Rdiv; rewrite Rinv_0; lra|].
    apply Rlt_le, Rdiv_lt_0_compat; [lra|]. pose proof (Rabs_pos (B2R fx)). lra. }
  assert (HT : forall rc, sat b (Div E M (NewConstant E M one) xa) rc ->
    valued (mkF (emb 0) (if c then Exponent rc else Exponent xa)
              (if c then Mantissa rc else Mantissa xa) (IsAbnormal xa)) t).
  { intros rc Hrc. unfold t. destruct c.
    - symmetry in Hlt. assert (C : (1 < Rabs (B2R fx))%R).
      { revert Hlt. case Rlt_bool_spec; [auto|discriminate]. }
      assert (VD : value_of (Div E M (NewConstant E M one) xa) (rne (1 / Rabs (B2R fx)))).
      { apply div_value; try assumption.
        - rewrite <- Vone. apply represents_valued; assumption.
        - rewrite <- Va. apply represents_valued; assumption.
        - lra.
        - apply (fits_bpow _ 0); [|lia]. cbn [bpow]. apply recip_bound, C. }
      destruct (proj2 VD rc Hrc) as (fr & Hr & Fr & Vr).
      exists (ieee_abs E M fr). cbn [xa IsAbnormal]. rewrite Hax.
      split; [|unfold ieee_abs; rewrite is_finite_Babs, B2R_Babs, Vr, Rabs_pos_eq; auto].
      rewrite <- (finite_not_abnormal rc fr Hr Fr) at 2. exact (abs_spec rc fr Hr).
    - exists (ieee_abs E M fx). split; [exact Ha|]. auto. }
  set (q := rounded_horner E M pR t).
  assert (VE : forall y, valued y t -> value_of (EvalK E M (map (NewConstant E M) coefficient) y 1) q /\
    (Rabs q <= bpow radix2 62)%R) by (intros y Hy; apply evalk_atan; assumption).
  set (w := if c then rne (B2R fhp - q) else q).
  assert (VS : forall y, valued y q -> (Rabs q <= bpow radix2 62)%R ->
    value_of (Sub E M (NewConstant E M halfPi) y) (rne (B2R fhp - q))).
  { intros y Hy Hq. apply sub_value; try assumption.
    - apply represents_valued; assumption.
    - apply (fits_bpow _ 63); [|lia]. apply rne_bound; [|lia]. apply (bnd_sub _ _ 62); [|exact Hq].
      eapply bnd_weaken; [exact Bhp|lia].
    - eapply Rle_lt_trans; [exact Bhp|]. apply bpow_lt. lia. }
  assert (HW : rounded_atan E M (B2R fhp) pR (B2R fx) = w).
  { unfold rounded_atan, w, q, t. rewrite <- Hlt. destruct c; reflexivity. }
  rewrite HW.
  assert (HR : forall sb rs, valued sb (rne (B2R fhp - q)) -> valued rs q ->
    exists f : fmt, represents (mkF (Sign x) (if c then Exponent sb else Exponent rs)
      (if c then Mantissa sb else Mantissa rs) (emb 0)) f /\ is_finite f = true /\
      Bsign f = Bsign fx /\ Rabs (B2R f) = Rabs w).
  { intros sb rs (fs & Hs & Fs & Vs) (fr & Hr & Fr & Vr).
    set (z := if c then sb else rs). set (fz := if c then fs else fr).
    assert (Hz : represents z fz) by (unfold z, fz; destruct c; assumption).
    assert (Fz : is_finite fz = true) by (unfold fz; destruct c; assumption).
    exists (with_sign E M (Bsign fx) fz). destruct (with_sign_B2R (Bsign fx) fz Fz) as (W1 & W2 & W3).
    split; [|split; [exact W1|split; [exact W2|]]].
    - replace (if c then Exponent sb else Exponent rs) with (Exponent z) by (unfold z; destruct c; reflexivity).
      replace (if c then Mantissa sb else Mantissa rs) with (Mantissa z) by (unfold z; destruct c; reflexivity).
      rewrite Hsx, <- (finite_not_abnormal z fz Hz Fz). apply with_sign_spec, Hz.
    - rewrite W3, sgn_abs, Rabs_Rabsolu. unfold w, fz. destruct c; congruence. }
  unfold AtanRemez. cbv zeta. fold xa. split.
  - rewrite (exec_bind_eq _ _ _ _ G1).
    destruct (div_complete (E:=E) (M:=M) (b:=b) _ xa fone (ieee_abs E M fx) Cone Ha) as (rc & Hrc & _).
    rewrite (exec_bind_eq _ _ _ _ Hrc), (exec_bind_eq _ _ _ _ (exec_select _ _ _ _)),
      (exec_bind_eq _ _ _ _ (exec_select _ _ _ _)).
    destruct (VE _ (HT rc (exec_sat _ _ _ Hrc))) as [V1 V2].
    apply (value_bind_exec _ _ _ V1). intros rs Hrs.
    apply (value_bind_exec _ _ _ (VS rs Hrs V2)). intros sb Hsb.
    rewrite (exec_bind_eq _ _ _ _ (exec_select _ _ _ _)), (exec_bind_eq _ _ _ _ (exec_select _ _ _ _)).
    eexists. reflexivity.
  - intros r Hr. apply sat_bind in Hr. destruct Hr as [g [Hg Hr]]. apply G2 in Hg. subst g.
    apply sat_bind in Hr. destruct Hr as [rc [Hrc Hr]].
    apply sat_bind in Hr. destruct Hr as [te [Hte Hr]]. apply sat_select_known in Hte.
    apply sat_bind in Hr. destruct Hr as [tm [Htm Hr]]. apply sat_select_known in Htm.
    subst te tm. destruct (VE _ (HT rc Hrc)) as [V1 V2].
    destruct (value_bind _ _ _ _ V1 Hr) as (rs & Hrs & Hr2). clear Hr.
    destruct (value_bind _ _ _ _ (VS rs Hrs V2) Hr2) as (sb & Hsb & Hr). clear Hr2.
    apply sat_bind in Hr. destruct Hr as [te [Hte Hr]]. apply sat_select_known in Hte.
    apply sat_bind in Hr. destruct Hr as [tm [Htm Hr]]. apply sat_select_known in Htm.
    subst te tm. apply sat_ret_inv in Hr. subst r. apply HR; assumption.
Qed.
End Atan.

End AtanFacts.
