(** Comparisons (float/float.go:960-1045). *)
From Coq Require Import ZArith Reals Bool List Lia Lra ZifyBool.
From Flocq Require Import Core BinarySingleNaN.
From Verif Require Import Field FieldFacts Circuit Hints RangeCheck Gadget FloatModel
  CircuitFacts RangeFacts GadgetFacts RoundFacts Spec RoundCore RepFacts Tactics.
Local Open Scope Z_scope.

Definition znan (z : zf) : bool := za z && (zm z =? 0).

(** The result of [less] on components. *)
Definition zless (x y : zf) (ae : bool) : bool :=
  if znan x || znan y then false
  else if Bool.eqb (zs x) (zs y) then
    if ze x =? ze y then
      if zm x =? zm y then ae
      else if zs x then zm y <? zm x else zm x <? zm y
    else if zs x then ze y <? ze x else ze x <? ze y
  else if zm x + zm y =? 0 then ae else zs x.

Section Cmp.
Context {MOD : Modulus} {E M b : Z} {HP : Params E M b} {HF : Format E M}.
#[local] Instance cmp_width : Width b (4 * M + 44) := params_width E M b HP.
#[local] Instance cmp_big : BigMod := width_big b _ cmp_width.

Notation emax := (Spec.emax E).
Notation emin := (Spec.emin E M).

Section Ops.
Variables x y : zf.
Hypothesis Hx : zwf (E:=E) (M:=M) x.
Hypothesis Hy : zwf (E:=E) (M:=M) y.

Lemma cmp_bounds :
  emin - 1 <= ze x <= emax /\ emin - 1 <= ze y <= emax /\
  0 <= zm x < 2 ^ (M + 1) /\ 0 <= zm y < 2 ^ (M + 1) /\
  2 ^ (M + 1) <= 2 ^ (4 * M + 43) /\ 4 * emax <= 2 ^ (4 * M + 43) /\
  2 * 2 ^ (4 * M + 43) <= modulus.
Proof.
  params. exps E M. destruct (fmt_M (E:=E) (M:=M)) as [HM [HM1 HM2]].
  destruct Hx as [X1 X2], Hy as [Y1 Y2].
  repeat split; try lia.
  - apply pow2_mono; lia.
  - rewrite <- Hex6. apply pow2_mono; lia.
  - rewrite <- Z.pow_succ_r by lia. replace (Z.succ (4 * M + 43)) with (4 * M + 44) by ring. exact Hpmod.
Qed.

Lemma sub_eqb c d : emb (Z.b2z (c =? d)) = emb (Z.b2z (c - d =? 0)).
Proof. do 2 f_equal. destruct (Z.eqb_spec c d), (Z.eqb_spec (c - d) 0); (reflexivity || lia). Qed.

Lemma emb_not c : fsub (emb 1) (emb (Z.b2z c)) = emb (Z.b2z (negb c)).
Proof. rewrite fsub_emb. destruct c; reflexivity. Qed.

Lemma IsEq_b c d : IsEq (emb (Z.b2z c)) (emb (Z.b2z d)) = emb (Z.b2z (Bool.eqb c d)).
Proof.
  rewrite IsEq_emb; [destruct c, d; reflexivity|].
  pose proof hp. destruct c, d; cbn [Z.b2z]; lia.
Qed.

Lemma exec_nan_either :
  exec b (is_nan_either (embF x) (embF y)) = Some (emb (Z.b2z (znan x || znan y))).
Proof.
  destruct cmp_bounds as (B1 & B2 & B3 & B4 & B5 & B6 & B7).
  unfold is_nan_either, embF. cbn [Sign Exponent Mantissa IsAbnormal].
  rewrite !isZero_emb by lia. repeat xstep. apply exec_or.
Qed.

Lemma sat_nan_either r : sat b (is_nan_either (embF x) (embF y)) r ->
  r = emb (Z.b2z (znan x || znan y)).
Proof.
  destruct cmp_bounds as (B1 & B2 & B3 & B4 & B5 & B6 & B7). intros H.
  unfold is_nan_either, embF in H. cbn [Sign Exponent Mantissa IsAbnormal] in H.
  rewrite !isZero_emb in H by lia. repeat sstep H. apply sat_or_emb in H. exact H.
Qed.

Definition zless_c (ce cm ae : bool) : bool :=
  if znan x || znan y then false
  else if Bool.eqb (zs x) (zs y) then
    if ze x =? ze y then
      if zm x =? zm y then ae else if zs x then cm else negb cm
    else if zs x then ce else negb ce
  else if zm x + zm y =? 0 then ae else zs x.

Lemma zless_c_eq ce cm ae :
  (0 < ze x - ze y -> ce = true) -> (ze x - ze y < 0 -> ce = false) ->
  (0 < zm x - zm y -> cm = true) -> (zm x - zm y < 0 -> cm = false) ->
  zless_c ce cm ae = zless x y ae.
Proof.
  intros H1 H2 H3 H4. unfold zless_c, zless.
  destruct (znan x || znan y); [reflexivity|].
  destruct (Bool.eqb (zs x) (zs y)); [|reflexivity].
  destruct (Z.eqb_spec (ze x) (ze y)) as [He|He].
  - destruct (Z.eqb_spec (zm x) (zm y)) as [Hm|Hm]; [reflexivity|].
    destruct (Z.ltb_spec (zm y) (zm x)), (Z.ltb_spec (zm x) (zm y)); try lia.
    + rewrite H3 by lia. destruct (zs x); reflexivity.
    + rewrite H4 by lia. destruct (zs x); reflexivity.
  - destruct (Z.ltb_spec (ze y) (ze x)), (Z.ltb_spec (ze x) (ze y)); try lia.
    + rewrite H1 by lia. destruct (zs x); reflexivity.
    + rewrite H2 by lia. destruct (zs x); reflexivity.
Qed.

Lemma exec_less ae :
  exec b (less E M (embF x) (embF y) (Z.b2z ae)) = Some (emb (Z.b2z (zless x y ae))).
Proof.
  params. exps E M. destruct (fmt_M (E:=E) (M:=M)) as [HM [HM1 HM2]].
  destruct cmp_bounds as (B1 & B2 & B3 & B4 & B5 & B6 & B7).
  unfold less. cbn [embF Sign Exponent Mantissa IsAbnormal]. femb.
  xs (exec_IsPositive (b:=b) (K:=4*M+44) (ze x - ze y) (E + 1) ltac:(lia) ltac:(lia) ltac:(lia)).
  xs (exec_IsPositive (b:=b) (K:=4*M+44) (zm x - zm y) (M + 1) ltac:(lia) ltac:(lia) ltac:(lia)).
  xs exec_nan_either.
  rewrite !isZero_emb by lia. rewrite !IsEq_b. rewrite !IsEq_emb by lia. rewrite !emb_not.
  repeat xstep. rewrite exec_select_emb.
  assert (Hb : forall c d e : bool, (if c then Z.b2z d else Z.b2z e) = Z.b2z (if c then d else e))
    by (intros [] d e; reflexivity).
  assert (Hb0 : forall c e : bool, (if c then 0 else Z.b2z e) = Z.b2z (if c then false else e))
    by (intros [] e; reflexivity).
  rewrite !Hb, !Hb0. do 3 f_equal.
  rewrite <- (zless_c_eq (0 <=? ze x - ze y) (0 <=? zm x - zm y)) by lia.
  reflexivity.
Qed.

Lemma sat_less ae r :
  sat b (less E M (embF x) (embF y) (Z.b2z ae)) r -> r = emb (Z.b2z (zless x y ae)).
Proof.
  intros H. params. exps E M. destruct (fmt_M (E:=E) (M:=M)) as [HM [HM1 HM2]].
  destruct cmp_bounds as (B1 & B2 & B3 & B4 & B5 & B6 & B7).
  unfold less in H. cbn [embF Sign Exponent Mantissa IsAbnormal] in H. femb_in H.
  replace (4 * M + 43) with (4 * M + 44 - 1) in * by ring.
  apply sat_bind in H. destruct H as [ce' [Hce H]].
  apply (sat_IsPositive (b:=b) (K:=4*M+44) (ze x - ze y) (E + 1) ltac:(lia) ltac:(lia) ltac:(lia)) in Hce.
  destruct Hce as (ce & -> & C1 & C2 & _).
  apply sat_bind in H. destruct H as [cm' [Hcm H]].
  apply (sat_IsPositive (b:=b) (K:=4*M+44) (zm x - zm y) (M + 1) ltac:(lia) ltac:(lia) ltac:(lia)) in Hcm.
  destruct Hcm as (cm & -> & C3 & C4 & _).
  rewrite !isZero_emb in H by lia. rewrite !IsEq_b in H. rewrite !IsEq_emb in H by lia.
  rewrite !emb_not in H.
  apply sat_bind in H. destruct H as [nn [Hn H]]. apply sat_nan_either in Hn. subst nn.
  repeat sstep H. apply sat_select_emb in H. subst r.
  rewrite <- (zless_c_eq ce cm) by assumption. unfold zless_c, znan.
  destruct (za x && (zm x =? 0) || za y && (zm y =? 0)); [reflexivity|].
  destruct (Bool.eqb (zs x) (zs y)), (ze x =? ze y), (zm x =? zm y), (zs x), (zm x + zm y =? 0);
    reflexivity.
Qed.

End Ops.

(** ** Agreement with the IEEE comparison *)

Lemma zmag_lt x y : za x = false -> za y = false -> zwf (E:=E) (M:=M) x -> zwf (E:=E) (M:=M) y ->
  (zmag (M:=M) x < zmag (M:=M) y)%R <-> ze x < ze y \/ (ze x = ze y /\ zm x < zm y).
Proof.
  destruct (fmt_M (E:=E) (M:=M)) as [HM [HM1 HM2]].
  assert (Hgo : forall u v, za u = false -> za v = false -> zwf (E:=E) (M:=M) u -> zwf (E:=E) (M:=M) v ->
    ze u < ze v -> (zmag (M:=M) u < zmag (M:=M) v)%R).
  { intros u v Au Av [U1 U2] [V1 V2] Hlt. rewrite Au in U2. rewrite Av in V2.
    destruct V2 as [[V2 V3]|[V2 V3]]; [lia|].
    apply Rlt_le_trans with (bpow radix2 (ze v)).
    - apply Rlt_le_trans with (bpow radix2 (ze u + 1)); [|apply bpow_le; lia].
      unfold zmag. replace (ze u + 1) with (M + 1 + (ze u - M)) by ring.
      rewrite (bpow_plus radix2 (M + 1)), <- (IZR_pow2 (M + 1)) by lia.
      apply Rmult_lt_compat_r; [apply bpow_gt_0|apply IZR_lt; lia].
    - unfold zmag. replace (ze v) with (M + (ze v - M)) at 1 by ring.
      rewrite bpow_plus, <- (IZR_pow2 M) by lia.
      apply Rmult_le_compat_r; [apply bpow_ge_0|apply IZR_le; lia]. }
  assert (Heq : forall u v, ze u = ze v -> zm u <= zm v -> (zmag (M:=M) u <= zmag (M:=M) v)%R).
  { intros u v He Hm. unfold zmag. rewrite He.
    apply Rmult_le_compat_r; [apply bpow_ge_0|apply IZR_le; exact Hm]. }
  intros Ax Ay Wx Wy. split.
  - intros H. destruct (Z.lt_trichotomy (ze x) (ze y)) as [H1|[H1|H1]]; [left; exact H1| |].
    + right. split; [exact H1|]. apply Z.nle_gt. intros H2.
      pose proof (Heq y x (eq_sym H1) H2). lra.
    + pose proof (Hgo y x Ay Ax Wy Wx H1). lra.
  - intros [H|[H1 H2]]; [apply Hgo; assumption|].
    unfold zmag. rewrite H1. apply Rmult_lt_compat_r; [apply bpow_gt_0|apply IZR_lt; exact H2].
Qed.

Lemma zless_spec x y (fx fy : fmt E M) : zrep E M x fx -> zrep E M y fy ->
  zless x y false = ieee_lt E M fx fy /\ zless x y true = ieee_le E M fx fy.
Proof.
  intros Hx Hy. exps E M. destruct (fmt_M (E:=E) (M:=M)) as [HM [HM1 HM2]].
  pose proof (zrep_zwf _ _ Hx) as Wx. pose proof (zrep_zwf _ _ Hy) as Wy.
  unfold ieee_lt, ieee_le.
  destruct (is_finite fx) eqn:Fx; [destruct (is_finite fy) eqn:Fy|].
  - (* both finite *)
    rewrite Bltb_correct, Bleb_correct by assumption.
    destruct (zrep_B2R x fx Hx Fx) as (Vx & Sx & Ax & Cx).
    destruct (zrep_B2R y fy Hy Fy) as (Vy & Sy & Ay & Cy).
    rewrite Vx, Vy.
    pose proof (zmag_lt x y Ax Ay Wx Wy) as L1. pose proof (zmag_lt y x Ay Ax Wy Wx) as L2.
    unfold zless, znan. rewrite Ax, Ay. cbn [andb orb].
    assert (Hz : forall z, zfin (E:=E) (M:=M) z \/ zm z = 0 /\ ze z = emin - 1 ->
      (0 <= zmag (M:=M) z)%R /\ ((0 < zmag (M:=M) z)%R \/ zm z = 0) /\ (zm z = 0 -> zmag (M:=M) z = 0%R) /\
      0 <= zm z).
    { intros z [Hz|[Hz _]].
      - destruct Hz as (_ & Hz & _). pose proof (zmag_pos (E:=E) (M:=M) z ltac:(lia)). split; [lra|].
        split; [left; exact H|]. split; [|lia]. intros. lia.
      - unfold zmag. rewrite Hz, Rmult_0_l. split; [lra|]. split; [right; reflexivity|].
        split; [auto|lia]. }
    destruct (Hz x Cx) as (X1 & X2 & X3 & X4). destruct (Hz y Cy) as (Y1 & Y2 & Y3 & Y4).
    assert (Hcmp : forall u v, (u < v -> Rlt_bool u v = true /\ Rle_bool u v = true)%R /\
      (v < u -> Rlt_bool u v = false /\ Rle_bool u v = false)%R /\
      (u = v -> Rlt_bool u v = false /\ Rle_bool u v = true)%R).
    { intros u v. split; [|split]; intros Hc.
      - rewrite Rlt_bool_true, Rle_bool_true by lra. auto.
      - rewrite Rlt_bool_false, Rle_bool_false by lra. auto.
      - rewrite Rlt_bool_false, Rle_bool_true by lra. auto. }
    destruct (Hcmp (sgn (zs x) * zmag (M:=M) x)%R (sgn (zs y) * zmag (M:=M) y)%R) as (C1 & C2 & C3).
    destruct (Bool.eqb (zs x) (zs y)) eqn:Hs.
    + apply Bool.eqb_prop in Hs. rewrite <- Hs in C1, C2, C3 |- *.
      assert (Hc : ze x < ze y \/ ze x = ze y /\ zm x < zm y \/
        ze y < ze x \/ ze x = ze y /\ zm y < zm x \/ ze x = ze y /\ zm x = zm y) by lia.
      destruct Hc as [Hc|[Hc|[Hc|[Hc|Hc]]]].
      * pose proof (proj2 L1 (or_introl Hc)) as Hr.
        assert (T0 : (ze x =? ze y) = false) by (clear - Hc; lia).
        assert (T1 : (ze y <? ze x) = false) by (clear - Hc; lia).
        assert (T2 : (ze x <? ze y) = true) by (clear - Hc; lia).
        rewrite T0, T1, T2.
        destruct (zs x); cbn [sgn] in *.
        -- destruct C2 as [-> ->]; [lra|auto].
        -- destruct C1 as [-> ->]; [lra|auto].
      * assert (Hc' : ze x = ze y /\ zm x < zm y) by (clear - Hc; lia).
        pose proof (proj2 L1 (or_intror Hc')) as Hr.
        assert (T0 : (ze x =? ze y) = true) by (clear - Hc; lia).
        assert (T1 : (zm y <? zm x) = false) by (clear - Hc; lia).
        assert (T2 : (zm x <? zm y) = true) by (clear - Hc; lia).
        assert (T3 : (zm x =? zm y) = false) by (clear - Hc; lia).
        rewrite T0, T1, T2, T3.
        destruct (zs x); cbn [sgn] in *.
        -- destruct C2 as [-> ->]; [lra|auto].
        -- destruct C1 as [-> ->]; [lra|auto].
      * pose proof (proj2 L2 (or_introl Hc)) as Hr.
        assert (T0 : (ze x =? ze y) = false) by (clear - Hc; lia).
        assert (T1 : (ze y <? ze x) = true) by (clear - Hc; lia).
        assert (T2 : (ze x <? ze y) = false) by (clear - Hc; lia).
        rewrite T0, T1, T2.
        destruct (zs x); cbn [sgn] in *.
        -- destruct C1 as [-> ->]; [lra|auto].
        -- destruct C2 as [-> ->]; [lra|auto].
      * assert (Hc' : ze y = ze x /\ zm y < zm x) by (clear - Hc; lia).
        pose proof (proj2 L2 (or_intror Hc')) as Hr.
        assert (T0 : (ze x =? ze y) = true) by (clear - Hc; lia).
        assert (T1 : (zm y <? zm x) = true) by (clear - Hc; lia).
        assert (T2 : (zm x <? zm y) = false) by (clear - Hc; lia).
        assert (T3 : (zm x =? zm y) = false) by (clear - Hc; lia).
        rewrite T0, T1, T2, T3.
        destruct (zs x); cbn [sgn] in *.
        -- destruct C1 as [-> ->]; [lra|auto].
        -- destruct C2 as [-> ->]; [lra|auto].
      * destruct Hc as [Hc1 Hc2]. rewrite Hc1, Hc2, !Z.eqb_refl.
        destruct C3 as [-> ->]; [|auto]. unfold zmag. rewrite Hc1, Hc2. reflexivity.
    + assert (Hn : zs y = negb (zs x)) by (destruct (zs x), (zs y); try discriminate Hs; reflexivity).
      rewrite Hn in C1, C2, C3 |- *.
      destruct (Z.eqb_spec (zm x + zm y) 0) as [H0|H0].
      * assert (zm x = 0) as Zx by lia. assert (zm y = 0) as Zy by lia.
        rewrite (X3 Zx), (Y3 Zy) in C3 |- *. rewrite !Rmult_0_r in *.
        destruct C3 as [-> ->]; auto.
      * assert (Hp : (0 < zmag (M:=M) x + zmag (M:=M) y)%R).
        { destruct X2 as [X2|X2]; [lra|]. destruct Y2 as [Y2|Y2]; [lra|lia]. }
        destruct (zs x); cbn [sgn negb] in *.
        -- destruct C1 as [-> ->]; [lra|auto].
        -- destruct C2 as [-> ->]; [lra|auto].
  - (* y abnormal *)
    destruct (zrep_B2R x fx Hx Fx) as (Vx & Sx & Ax & Cx).
    assert (Hex : ze x < emax).
    { destruct Wx as [W1 W2]. rewrite Ax in W2. lia. }
    unfold zless, znan. rewrite Ax. cbn [andb orb].
    destruct fy as [s|s| |s m e H]; try discriminate Fy.
    + cbn in Hy. subst y. cbn [za zm zs ze].
      destruct (Z.eqb_spec (2 ^ M) 0); [lia|]. cbn [andb].
      destruct (Z.eqb_spec (ze x) emax); [lia|].
      destruct (Z.ltb_spec emax (ze x)); [lia|]. destruct (Z.ltb_spec (ze x) emax); [|lia].
      destruct (Z.eqb_spec (zm x + 2 ^ M) 0) as [H9|H9].
      { exfalso. destruct Wx as [_ W2]. lia. }
      rewrite <- Sx.
      destruct fx as [s'|s'| |s' m' e' H']; try discriminate Fx;
        destruct s, s'; cbn; auto.
    + cbn in Hy. destruct Hy as [s ->]. cbn [za zm]. cbn.
      destruct fx as [s'|s'| |s' m' e' H']; try discriminate Fx; auto.
  - (* x abnormal *)
    unfold zless, znan.
    destruct fx as [s|s| |s m e H]; try discriminate Fx.
    2:{ cbn in Hx. destruct Hx as [s ->]. cbn. auto. }
    cbn in Hx. subst x. cbn [za zm zs ze].
    destruct (Z.eqb_spec (2 ^ M) 0); [lia|]. cbn [andb orb].
    destruct (is_finite fy) eqn:Fy.
    + destruct (zrep_B2R y fy Hy Fy) as (Vy & Sy & Ay & Cy).
      assert (Hey : ze y < emax).
      { destruct Wy as [W1 W2]. rewrite Ay in W2. lia. }
      rewrite Ay. cbn [andb orb].
      destruct (Z.eqb_spec emax (ze y)); [lia|].
      destruct (Z.ltb_spec emax (ze y)); [lia|]. destruct (Z.ltb_spec (ze y) emax); [|lia].
      destruct (Z.eqb_spec (2 ^ M + zm y) 0) as [H9|H9].
      { exfalso. destruct Wy as [_ W2]. lia. }
      rewrite <- Sy.
      destruct fy as [s'|s'| |s' m' e' H']; try discriminate Fy;
        destruct s, s'; cbn; auto.
    + destruct fy as [s'|s'| |s' m' e' H']; try discriminate Fy.
      * cbn in Hy. subst y. cbn [za zm zs ze].
        destruct (Z.eqb_spec (2 ^ M) 0); [lia|]. cbn [andb orb].
        rewrite !Z.eqb_refl. destruct (Z.eqb_spec (2 ^ M + 2 ^ M) 0); [lia|].
        destruct s, s'; cbn; auto.
      * cbn in Hy. destruct Hy as [s' ->]. cbn. auto.
Qed.

Lemma less_complete x y (fx fy : fmt E M) ae : represents x fx -> represents y fy ->
  exec b (less E M x y (Z.b2z ae))
  = Some (emb (Z.b2z (if ae then ieee_le E M fx fy else ieee_lt E M fx fy))).
Proof.
  intros [zx [-> Hx]] [zy [-> Hy]].
  rewrite (exec_less zx zy (zrep_zwf _ _ Hx) (zrep_zwf _ _ Hy)).
  destruct (zless_spec zx zy fx fy Hx Hy) as [H1 H2].
  destruct ae; [rewrite H2|rewrite H1]; reflexivity.
Qed.

Lemma less_sound x y (fx fy : fmt E M) ae r : represents x fx -> represents y fy ->
  sat b (less E M x y (Z.b2z ae)) r ->
  r = emb (Z.b2z (if ae then ieee_le E M fx fy else ieee_lt E M fx fy)).
Proof.
  intros [zx [-> Hx]] [zy [-> Hy]] H.
  rewrite (sat_less zx zy (zrep_zwf _ _ Hx) (zrep_zwf _ _ Hy) _ _ H).
  destruct (zless_spec zx zy fx fy Hx Hy) as [H1 H2].
  destruct ae; [rewrite H2|rewrite H1]; reflexivity.
Qed.

Theorem cmp_complete x y (fx fy : fmt E M) : represents x fx -> represents y fy ->
  exec b (IsLt E M x y) = Some (emb (Z.b2z (ieee_lt E M fx fy))) /\
  exec b (IsLe E M x y) = Some (emb (Z.b2z (ieee_le E M fx fy))) /\
  exec b (IsGt E M x y) = Some (emb (Z.b2z (ieee_lt E M fy fx))) /\
  exec b (IsGe E M x y) = Some (emb (Z.b2z (ieee_le E M fy fx))).
Proof.
  intros Hx Hy. unfold IsLt, IsLe, IsGt, IsGe.
  repeat split.
  - exact (less_complete x y fx fy false Hx Hy).
  - exact (less_complete x y fx fy true Hx Hy).
  - exact (less_complete y x fy fx false Hy Hx).
  - exact (less_complete y x fy fx true Hy Hx).
Qed.

Theorem cmp_sound x y (fx fy : fmt E M) r : represents x fx -> represents y fy ->
  (sat b (IsLt E M x y) r -> r = emb (Z.b2z (ieee_lt E M fx fy))) /\
  (sat b (IsLe E M x y) r -> r = emb (Z.b2z (ieee_le E M fx fy))) /\
  (sat b (IsGt E M x y) r -> r = emb (Z.b2z (ieee_lt E M fy fx))) /\
  (sat b (IsGe E M x y) r -> r = emb (Z.b2z (ieee_le E M fy fx))).
Proof.
  intros Hx Hy. unfold IsLt, IsLe, IsGt, IsGe.
  repeat split; intros H.
  - exact (less_sound x y fx fy false r Hx Hy H).
  - exact (less_sound x y fx fy true r Hx Hy H).
  - exact (less_sound y x fy fx false r Hy Hx H).
  - exact (less_sound y x fy fx true r Hy Hx H).
Qed.

End Cmp.
