(** The sine: what accepted results are, and how far from the sine. *)
From Coq Require Import ZArith Reals Lra Lia Bool List.
From Flocq Require Import Core BinarySingleNaN.
From Verif Require Import Field FieldFacts Circuit CircuitFacts RangeCheck RangeFacts Gadget
  GadgetFacts Util FloatModel Tactics RoundFacts Spec RoundCore RepFacts MulFacts DivFacts
  AddFacts AddSpec Forge CompFacts NewFacts CmpFacts EqFacts Outcomes CircuitSpec Expr ExprFacts
  ValueFacts Math MathSpec MathFacts ErrorFacts.
Import ListNotations.
Local Open Scope Z_scope.

Section SinFacts.
Context {MOD : Modulus} {E M b : Z} {HP : Params E M b} {HF : Format E M}.
#[local] Instance Wn : Width b (4 * M + 44) := params_width E M b HP.
#[local] Instance Bn : BigMod := width_big b _ _.
Notation fmt := (Spec.fmt E M).
Notation emax := (Spec.emax E).
Notation rne := (Spec.rne E M).
Notation valued := (valued (E:=E) (M:=M)).
Notation value_of := (value_of (E:=E) (M:=M) (b:=b)).

Lemma int_bits_range n : 0 < n < 2 ^ (M + 1) -> M < 2 ^ (E - 1) ->
  0 <= int_bits E M n < 2 ^ (E + M + 1) /\
  bsgn E M (int_bits E M n) = false /\
  bexp E M (int_bits E M n) = Z.log2 n + (2 ^ (E - 1) - 1) /\
  bman M (int_bits E M n) = n * 2 ^ (M - Z.log2 n) - 2 ^ M.
Proof.
  intros Hn HME. destruct (fmt_M (E:=E) (M:=M)) as [HM [HM1 HM2]]. pose proof (fmt_ew E M) as HE.
  pose proof (Z.log2_spec n ltac:(lia)) as [L1 L2]. pose proof (Z.log2_nonneg n) as L0.
  assert (LM : Z.log2 n <= M) by (apply Z.lt_succ_r; apply Z.log2_lt_pow2; unfold Z.succ; lia).
  assert (HE1 : 2 ^ E = 2 * 2 ^ (E - 1)) by (rewrite <- Z.pow_succ_r by lia; f_equal; lia).
  assert (HEM : 2 ^ (E + M) = 2 ^ E * 2 ^ M) by (apply Z.pow_add_r; lia).
  assert (HEM1 : 2 ^ (E + M + 1) = 2 * 2 ^ (E + M)) by (rewrite Z.pow_add_r by lia; lia).
  unfold int_bits. rewrite (proj2 (Z.eqb_neq n 0)) by lia. cbv zeta. set (k := Z.log2 n) in *.
  assert (Hp : 0 < 2 ^ (M - k)) by (apply Z.pow_pos_nonneg; lia).
  assert (Hk : 2 ^ M = 2 ^ k * 2 ^ (M - k)) by (rewrite <- Z.pow_add_r by lia; f_equal; lia).
  assert (Hk2 : 2 ^ Z.succ k = 2 * 2 ^ k) by (apply Z.pow_succ_r; lia).
  assert (Hm : 0 <= n * 2 ^ (M - k) - 2 ^ M < 2 ^ M) by nia.
  set (m := n * 2 ^ (M - k) - 2 ^ M) in *. set (e := k + (2 ^ (E - 1) - 1)).
  assert (He : 0 < e < 2 ^ E - 1) by (unfold e; lia).
  assert (Hv : 0 <= e * 2 ^ M + m < 2 ^ (E + M)) by nia.
  split; [lia|]. unfold bsgn, bexp, bman. split; [apply Z.leb_gt; lia|].
  rewrite Z.add_comm, Z.mod_add, Z.div_add, (Z.div_small m), (Z.mod_small m) by lia.
  rewrite Z.add_0_l, Z.mod_small by lia. auto.
Qed.

Lemma int_bits_valued n : 0 < n < 2 ^ (M + 1) -> M < 2 ^ (E - 1) ->
  valued (NewConstant E M (int_bits E M n)) (IZR n).
Proof.
  intros Hn HME. destruct (int_bits_range n Hn HME) as (Hr & Hs & He & Hm).
  destruct (fmt_M (E:=E) (M:=M)) as [HM [HM1 HM2]].
  pose proof (Z.log2_spec n ltac:(lia)) as [L1 L2]. pose proof (Z.log2_nonneg n) as L0.
  assert (LM : Z.log2 n <= M) by (apply Z.lt_succ_r; apply Z.log2_lt_pow2; unfold Z.succ; lia).
  pose proof (zcomps_spec (int_bits E M n) Hr) as Hz. pose proof (newconst_spec _ Hr) as Hc.
  assert (HE1 : 2 ^ E = 2 * 2 ^ (E - 1))
    by (pose proof (fmt_ew E M); rewrite <- Z.pow_succ_r by lia; f_equal; lia).
  assert (Hz' : zcomps E M (int_bits E M n) = mkZ false (Z.log2 n) (n * 2 ^ (M - Z.log2 n)) false).
  { unfold zcomps. cbv zeta. rewrite Hs, He, Hm.
    rewrite (proj2 (Z.eqb_neq _ _)) by lia. rewrite (proj2 (Z.eqb_neq _ _)) by lia.
    unfold Spec.emax. f_equal; lia. }
  rewrite Hz' in Hz. set (f := of_bits E M (int_bits E M n)) in *.
  assert (Hp : 0 < 2 ^ (M - Z.log2 n)) by (apply Z.pow_pos_nonneg; lia).
  assert (Ff : is_finite f = true).
  { destruct f as [s|s| |s m e H]; try reflexivity; cbn in Hz; [discriminate|].
    destruct Hz as [s Hz]; discriminate. }
  destruct (zrep_B2R _ f Hz Ff) as (Hv & _).
  exists f. split; [exact Hc|]. split; [exact Ff|]. rewrite Hv. unfold zmag. cbn [zs zm ze sgn].
  rewrite mult_IZR, IZR_pow2 by lia. rewrite Rmult_1_l, Rmult_assoc, <- bpow_plus.
  replace (M - Z.log2 n + (Z.log2 n - M)) with 0 by lia. cbn [bpow]. ring.
Qed.

(** ** The loop *)

Hypothesis HE8 : 8 <= E.
Hypothesis HM23 : 23 <= M.

Lemma emax_128 : 128 <= emax.
Proof. unfold Spec.emax. change 128 with (2 ^ 7). apply Z.pow_le_mono_r; lia. Qed.
Lemma M_lt_emax : M < 2 ^ (E - 1).
Proof. pose proof (f_2M (E:=E) (M:=M)). lia. Qed.
Lemma emin_neg : emin E M <= 0.
Proof. pose proof emax_128. unfold emin, prec. lia. Qed.

Lemma bnd_mul u v i j : (Rabs u <= bpow radix2 i)%R -> (Rabs v <= bpow radix2 j)%R ->
  (Rabs (u * v) <= bpow radix2 (i + j))%R.
Proof.
  intros H1 H2. rewrite Rabs_mult, bpow_plus. apply Rmult_le_compat; try apply Rabs_pos; assumption.
Qed.

Lemma bnd_add u v i : (Rabs u <= bpow radix2 i)%R -> (Rabs v <= bpow radix2 i)%R ->
  (Rabs (u + v) <= bpow radix2 (i + 1))%R.
Proof.
  intros H1 H2. rewrite bpow_plus. change (bpow radix2 1) with 2%R.
  eapply Rle_trans; [apply Rabs_triang|]. lra.
Qed.

Lemma bnd_sub u v i : (Rabs u <= bpow radix2 i)%R -> (Rabs v <= bpow radix2 i)%R ->
  (Rabs (u - v) <= bpow radix2 (i + 1))%R.
Proof. intros H1 H2. apply bnd_add; [exact H1|rewrite Rabs_Ropp; exact H2]. Qed.

Lemma bnd_div u n i : (Rabs u <= bpow radix2 (i + 2))%R -> 4 <= n ->
  (Rabs (u / IZR n) <= bpow radix2 i)%R.
Proof.
  intros H Hn. assert (Hn' : (4 <= IZR n)%R) by (apply IZR_le; exact Hn).
  unfold Rdiv. rewrite Rabs_mult, (Rabs_pos_eq (/ IZR n)) by (apply Rlt_le, Rinv_0_lt_compat; lra).
  apply Rmult_le_reg_r with (IZR n); [lra|]. rewrite Rmult_assoc, Rinv_l, Rmult_1_r by lra.
  eapply Rle_trans; [exact H|]. rewrite bpow_plus. change (bpow radix2 2) with 4%R.
  apply Rmult_le_compat_l; [apply bpow_ge_0|exact Hn'].
Qed.

Lemma bnd_weaken u i j : (Rabs u <= bpow radix2 i)%R -> i <= j -> (Rabs u <= bpow radix2 j)%R.
Proof. intros H Hij. eapply Rle_trans; [exact H|]. apply bpow_le. exact Hij. Qed.

Lemma taylor_value : pow2_size E M mod b = 0 -> forall xs q, valued xs q ->
  (Rabs q <= bpow radix2 4)%R ->
  forall n i ret term vr vt, 1 <= i -> i + Z.of_nat n <= 31 ->
  valued ret vr -> valued term vt ->
  (Rabs vr <= bpow radix2 (2 * i))%R -> (Rabs vt <= bpow radix2 (2 * i))%R ->
  value_of (taylor_loop E M xs n i ret term) (rounded_taylor E M q n i vr vt).
Proof.
  intros Hd xs q Hxs Hq. pose proof emax_128 as He. pose proof emin_neg as Hm.
  induction n as [|n IH]; intros i ret term vr vt Hi Hin Hr Ht Br Bt;
    cbn [taylor_loop rounded_taylor]; [apply value_of_ret, Hr|].
  set (D := 2 * i * (2 * i + 1)). assert (HD : 4 <= D < 4096) by (unfold D; nia).
  assert (BR : (Rabs (rne (if Z.even i then vr - vt else vr + vt)) <= bpow radix2 (2 * i + 1))%R).
  { apply rne_bound; [|lia]. destruct (Z.even i); [apply bnd_sub|apply bnd_add]; assumption. }
  assert (BN : (Rabs (rne (vt * q)) <= bpow radix2 (2 * i + 4))%R).
  { apply rne_bound; [|lia]. apply bnd_mul; assumption. }
  assert (BT : (Rabs (rne (rne (vt * q) / IZR D)) <= bpow radix2 (2 * i + 2))%R).
  { apply rne_bound; [|lia]. apply bnd_div; [|lia]. replace (2 * i + 2 + 2) with (2 * i + 4) by lia.
    exact BN. }
  assert (Hvr : (Rabs vr < bpow radix2 (emax - 1))%R).
  { eapply Rle_lt_trans; [exact Br|]. apply bpow_lt. lia. }
  apply (value_of_bind _ (rne (if Z.even i then vr - vt else vr + vt))).
  { assert (HF1 : fits (E:=E) (rne (if Z.even i then vr - vt else vr + vt)))
      by (eapply fits_bpow; [exact BR|lia]).
    destruct (Z.even i); [apply sub_value|apply add_value]; assumption. }
  intros ret' Hr'. apply (value_of_bind _ (rne (vt * q))).
  { apply mul_value; try assumption. eapply fits_bpow; [exact BN|lia]. }
  intros nom Hnom. apply (value_of_bind _ (rne (rne (vt * q) / IZR D))).
  { apply div_value; try assumption.
    - apply int_bits_valued; [|apply M_lt_emax]. fold D. split; [lia|].
      apply Z.lt_le_trans with (2 ^ 12); [lia|]. apply Z.pow_le_mono_r; lia.
    - apply IZR_neq. lia.
    - eapply fits_bpow; [exact BT|lia]. }
  intros term' Ht'. apply IH; try assumption; try lia.
  - eapply bnd_weaken; [exact BR|lia].
  - eapply bnd_weaken; [exact BT|lia].
Qed.

(** ** The function *)

Lemma finite_not_abnormal x (f : fmt) : represents x f -> is_finite f = true ->
  IsAbnormal x = emb 0.
Proof.
  intros [z [-> Hz]] Hf. destruct (zrep_B2R z f Hz Hf) as (_ & _ & Ha & _).
  cbn [embF IsAbnormal]. rewrite Ha. reflexivity.
Qed.

Lemma with_sign_spec s x (f : fmt) : represents x f ->
  represents (mkF (emb (Z.b2z s)) (Exponent x) (Mantissa x) (IsAbnormal x)) (with_sign E M s f).
Proof.
  intros [z [-> Hz]]. exists (mkZ s (ze z) (zm z) (za z)). split; [reflexivity|].
  destruct f as [t|t| |t m e H]; cbn [with_sign zrep] in *; try (subst z; reflexivity).
  destruct Hz as [t ->]. exists s. reflexivity.
Qed.

Lemma with_sign_B2R s (f : fmt) : is_finite f = true ->
  is_finite (with_sign E M s f) = true /\ Bsign (with_sign E M s f) = s /\
  B2R (with_sign E M s f) = (sgn s * Rabs (B2R f))%R.
Proof.
  destruct f as [t|t| |t m e H]; try discriminate; intros _; cbn [with_sign is_finite Bsign B2R].
  - rewrite Rabs_R0. repeat split. ring.
  - repeat split. unfold F2R. cbn [Fnum Fexp]. rewrite !sgn_IZR, !Rmult_assoc, sgn_abs.
    rewrite Rabs_pos_eq; [reflexivity|]. apply Rmult_le_pos; [apply IZR_le; lia|apply bpow_ge_0].
Qed.

Lemma sign_wire x (f : fmt) : represents x f -> is_nan f = false ->
  Sign x = emb (Z.b2z (Bsign f)).
Proof.
  intros [z [-> Hz]] Hn. destruct f as [t|t| |t m e H]; try discriminate; cbn [zrep] in Hz;
    subst z; reflexivity.
Qed.

Lemma sat_select_known (c : bool) x y r : sat b (select (emb (Z.b2z c)) x y) r ->
  r = if c then x else y.
Proof.
  intros H. apply sat_select in H. destruct H as (c' & Hc & ->). rewrite !emb_b2z in Hc.
  destruct c, c'; try discriminate; reflexivity.
Qed.

(** The wires of an absolute value selected between two finite data. *)
Lemma select_abs (c : bool) y x (fy fx : fmt) : represents y fy -> is_finite fy = true ->
  represents x fx -> is_finite fx = true ->
  represents (mkF (emb 0) (if c then Exponent y else Exponent x)
    (if c then Mantissa y else Mantissa x) (emb 0)) (ieee_abs E M (if c then fy else fx)).
Proof.
  intros Hy Fy Hx Fx. destruct c.
  - rewrite <- (finite_not_abnormal y fy Hy Fy) at 2. exact (abs_spec y fy Hy).
  - rewrite <- (finite_not_abnormal x fx Hx Fx) at 2. exact (abs_spec x fx Hx).
Qed.

Section Sin.
Variables pi halfPi : Z.
Hypothesis Hpi : 0 <= pi < 2 ^ (E + M + 1).
Hypothesis Hhp : 0 <= halfPi < 2 ^ (E + M + 1).
Notation fpi := (of_bits E M pi).
Notation fhp := (of_bits E M halfPi).
Hypothesis Fpi : is_finite fpi = true.
Hypothesis Fhp : is_finite fhp = true.
Hypothesis Bpi : (Rabs (B2R fpi) <= bpow radix2 2)%R.
Hypothesis Ppi : (0 <= B2R fpi)%R.
Hypothesis Php : (0 <= B2R fhp)%R.
Hypothesis Dd : pow2_size E M mod b = 0.

Theorem sin_sound x (fx : fmt) : represents x fx -> is_finite fx = true ->
  (Rabs (B2R fx) <= bpow radix2 2)%R ->
  (exists r, exec b (SinTaylor E M pi halfPi x) = Some r) /\
  forall r, sat b (SinTaylor E M pi halfPi x) r ->
  exists f : fmt, represents r f /\ is_finite f = true /\ Bsign f = Bsign fx /\
    Rabs (B2R f) = Rabs (rounded_sin E M (B2R fpi) (B2R fhp) (B2R fx)).
Proof.
  intros Hx Fx Bx. pose proof emax_128 as He. pose proof emin_neg as Hm.
  pose proof (newconst_spec pi Hpi) as Cpi. pose proof (newconst_spec halfPi Hhp) as Chp.
  destruct (compare_circ_spec (b:=b) OpGt x _ fx fhp Hx Chp) as [G1 G2].
  cbn [compare_circ ieee_compare] in G1, G2.
  assert (Hlt : ieee_lt E M fhp fx = Rlt_bool (B2R fhp) (B2R fx)).
  { unfold ieee_lt. apply Bltb_correct; assumption. }
  set (c := ieee_lt E M fhp fx) in *.
  assert (BS : (Rabs (rne (B2R fpi - B2R fx)) <= bpow radix2 3)%R)
    by (apply rne_bound; [apply (bnd_sub _ _ 2); assumption|lia]).
  assert (VS : value_of (Sub E M (NewConstant E M pi) x) (rne (B2R fpi - B2R fx))).
  { apply sub_value; try assumption; try (apply represents_valued; assumption).
    - eapply fits_bpow; [exact BS|lia].
    - eapply Rle_lt_trans; [exact Bpi|]. apply bpow_lt. lia. }
  set (t := (if Rlt_bool (B2R fhp) (B2R fx) then Rabs (rne (B2R fpi - B2R fx)) else Rabs (B2R fx))%R).
  assert (HT : forall y, valued y (rne (B2R fpi - B2R fx)) ->
    valued (mkF (emb 0) (if c then Exponent y else Exponent x)
              (if c then Mantissa y else Mantissa x) (emb 0)) t).
  { intros y (fy & Hy & Fy & Vy). pose proof (select_abs c y x fy fx Hy Fy Hx Fx) as HS.
    eexists. split; [exact HS|]. unfold ieee_abs. rewrite is_finite_Babs, B2R_Babs.
    unfold t. rewrite <- Hlt. destruct c; [rewrite Vy|]; auto. }
  assert (BT : (Rabs t <= bpow radix2 2)%R).
  { unfold t. case Rlt_bool_spec; intros Hc; rewrite Rabs_Rabsolu; [|exact Bx].
    apply rne_bound; [|lia]. apply Rabs_le. apply Rabs_le_inv in Bpi. apply Rabs_le_inv in Bx. lra. }
  assert (BQ : (Rabs (rne (t * t)) <= bpow radix2 4)%R)
    by (apply rne_bound; [apply (bnd_mul _ _ 2 2); assumption|lia]).
  assert (VL : forall term, valued term t ->
    value_of (xSquare <- Mul E M term term ;;
              taylor_loop E M xSquare 15 1 (NewConstant E M 0) term)
             (rounded_taylor E M (rne (t * t)) 15 1 0 t)).
  { intros term Ht. apply (value_of_bind _ (rne (t * t))).
    - apply mul_value; try assumption. eapply fits_bpow; [exact BQ|lia].
    - intros q Hq. apply taylor_value; try assumption; try lia; [apply zero_valued|].
      rewrite Rabs_R0. apply bpow_ge_0. }
  pose proof (sign_wire x fx Hx ltac:(destruct fx; try discriminate; reflexivity)) as Hsx.
  unfold SinTaylor, rounded_sin. fold t. cbv zeta. split.
  - rewrite (exec_bind_eq _ _ _ _ G1). apply (value_bind_exec _ _ _ VS). intros y Hy.
    rewrite (exec_bind_eq _ _ _ _ (exec_select _ _ _ _)), (exec_bind_eq _ _ _ _ (exec_select _ _ _ _)).
    destruct (proj1 (VL _ (HT y Hy))) as [r Hr]. apply exec_bind_inv in Hr.
    destruct Hr as (q & Hq & Hr). rewrite (exec_bind_eq _ _ _ _ Hq), (exec_bind_eq _ _ _ _ Hr).
    eexists. reflexivity.
  - intros r Hr. apply sat_bind in Hr. destruct Hr as [g [Hg Hr]]. apply G2 in Hg. subst g.
    destruct (value_bind _ _ _ _ VS Hr) as (y & Hy & Hr2). clear Hr.
    apply sat_bind in Hr2. destruct Hr2 as [te [Hte Hr]]. apply sat_select_known in Hte.
    apply sat_bind in Hr. destruct Hr as [tm [Htm Hr]]. apply sat_select_known in Htm.
    subst te tm.
    apply sat_bind in Hr. destruct Hr as [q [Hq Hr]].
    apply sat_bind in Hr. destruct Hr as [l [Hl Hr]]. apply sat_ret_inv in Hr. subst r.
    destruct (proj2 (VL _ (HT y Hy)) l) as (f & Hf & Ff & Vf).
    { apply sat_bind. exists q. auto. }
    exists (with_sign E M (Bsign fx) f). rewrite Hsx.
    destruct (with_sign_B2R (Bsign fx) f Ff) as (W1 & W2 & W3).
    split; [apply with_sign_spec, Hf|]. split; [exact W1|]. split; [exact W2|].
    rewrite W3, sgn_abs, Rabs_Rabsolu, Vf. reflexivity.
Qed.
End Sin.

End SinFacts.
