(** Products and quotients at every base width of the range check: which data a
    prover can obtain. *)
From Coq Require Import ZArith Reals Lra Lia Bool List ZifyBool.
From Flocq Require Import Core BinarySingleNaN.
From Verif Require Import Field FieldFacts Circuit CircuitFacts RangeCheck RangeFacts Gadget
  GadgetFacts Hints FloatModel Tactics RoundFacts Spec RoundCore RepFacts MulFacts DivFacts
  SqrtFacts AddFacts AddSpec Forge EqFacts Circuits CircuitSpec AnyWidth ForgeSpec AnyWidthMul
  AnyWidthOps.
Local Open Scope Z_scope.

Section AnyWidthData.
Context {MOD : Modulus} {E M b : Z} {HP : Params E M b} {HF : Format E M}.
#[local] Instance Wn : Width b (4 * M + 44) := params_width E M b HP.
#[local] Instance Bn : BigMod := width_big b _ Wn.

Notation emax := (Spec.emax E).
Notation emin := (Spec.emin E M).

(** The magnitude and sign of wires that stand for a datum. *)
Lemma magv_zmag z (f : fmt E M) : zrep E M z f -> magv E M f = zmag (M:=M) z.
Proof.
  intros H. destruct (fmt_M (E:=E) (M:=M)) as [HM [HM1 HM2]].
  destruct f as [s|s| |s m e Hb].
  - cbn in H. subst z. unfold zmag. cbn. rewrite Rabs_R0. ring.
  - cbn in H. subst z. unfold zmag. cbn [magv zm ze].
    rewrite IZR_pow2 by lia. rewrite <- bpow_plus. f_equal. ring.
  - cbn in H. destruct H as [s ->]. unfold zmag. cbn. rewrite Rabs_R0. ring.
  - destruct (zrep_B2R z _ H eq_refl) as (V & _ & _ & _).
    destruct (zrep_finite _ _ _ _ _ H) as (_ & (_ & Hm & _) & _).
    change (magv E M (B754_finite s m e Hb)) with (Rabs (B2R (B754_finite s m e Hb : fmt E M))).
    rewrite V, sgn_abs. apply Rabs_pos_eq. apply Rlt_le, (zmag_pos (E:=E) (M:=M)). lia.
Qed.

Lemma rep_sign z (f : fmt E M) : zrep E M z f -> is_nan f = false -> Bsign f = zs z.
Proof.
  intros H Hn. destruct f as [s|s| |s m e Hb]; try discriminate.
  - cbn in H. subst z. reflexivity.
  - cbn in H. subst z. reflexivity.
  - destruct (zrep_finite _ _ _ _ _ H) as (<- & _). reflexivity.
Qed.

Lemma rep_finite z (f : fmt E M) : zrep E M z f -> is_finite f = negb (za z).
Proof.
  intros H. destruct f as [s|s| |s m e Hb]; cbn in H; try (subst z; reflexivity).
  destruct H as [s ->]. reflexivity.
Qed.

Lemma rep_is_zero z (f : fmt E M) : zrep E M z f -> is_nan f = false ->
  is_zero (E:=E) (M:=M) f = (zm z =? 0).
Proof.
  intros H Hn. destruct (fmt_M (E:=E) (M:=M)) as [HM [HM1 HM2]].
  destruct f as [s|s| |s m e Hb]; try discriminate.
  - cbn in H. subst z. reflexivity.
  - cbn in H. subst z. cbn. symmetry. apply Z.eqb_neq. lia.
  - destruct (zrep_finite _ _ _ _ _ H) as (_ & (_ & Hm & _) & _). cbn [is_zero].
    symmetry. apply Z.eqb_neq. lia.
Qed.

Lemma zmag_nonzero z : zwf (E:=E) (M:=M) z -> (zmag (M:=M) z <> 0%R <-> zm z <> 0).
Proof.
  intros W. unfold zmag. pose proof (bpow_gt_0 radix2 (ze z - M)). split.
  - intros H1 H0. apply H1. rewrite H0. ring.
  - intros H1 H0. apply Rmult_integral in H0. destruct H0 as [H0|H0]; [|lra].
    apply H1. apply eq_IZR. exact H0.
Qed.

Lemma zwf_norm z : zwf (E:=E) (M:=M) z -> zm z <> 0 -> 2 ^ M <= zm z < 2 ^ (M + 1).
Proof. intros [_ [[H _]|[H _]]] H0; [lia|exact H]. Qed.

Lemma rep_nan z (f : fmt E M) : zrep E M z f -> zm z <> 0 -> is_nan f = false.
Proof. intros H H0. destruct f; try reflexivity. destruct H as [s ->]. cbn in H0. lia. Qed.

(** Normalised significands are unique. *)
Lemma norm_unique k n n' e e' : 0 <= k -> 2 ^ k <= n < 2 ^ (k + 1) -> 2 ^ k <= n' < 2 ^ (k + 1) ->
  (IZR n * bpow radix2 e = IZR n' * bpow radix2 e')%R -> n = n' /\ e = e'.
Proof.
  intros Hk Hn Hn' H.
  assert (Hm : forall a c, 2 ^ k <= a < 2 ^ (k + 1) ->
    mag radix2 (IZR a * bpow radix2 c) = (k + 1 + c) :> Z).
  { intros a c Ha. apply mag_unique_pos. split.
    - replace (k + 1 + c - 1) with (k + c) by ring. rewrite bpow_plus, <- (IZR_pow2 k) by lia.
      apply Rmult_le_compat_r; [apply bpow_ge_0|apply IZR_le; lia].
    - rewrite (bpow_plus radix2 (k + 1)), <- (IZR_pow2 (k + 1)) by lia.
      apply Rmult_lt_compat_r; [apply bpow_gt_0|apply IZR_lt; lia]. }
  pose proof (Hm n e Hn) as M1. pose proof (Hm n' e' Hn') as M2. rewrite H, M2 in M1.
  assert (e = e') by lia. subst e'. split; [|reflexivity].
  apply eq_IZR. apply Rmult_eq_reg_r in H; [exact H|]. apply Rgt_not_eq, bpow_gt_0.
Qed.

Lemma shift_zshift e : denormal_shift (E:=E) (M:=M) e = zshift (E:=E) e (M + 2).
Proof. unfold denormal_shift, zshift. exps E M. lia. Qed.

(** What is left of a significand divided away. *)
Lemma fix0_collapsed s e regular pos : fix_pos_ok (E:=E) (M:=M) 0 e pos ->
  exists f : fmt E M, zrep E M (fix_out (E:=E) (M:=M) s 0 e (negb regular) pos) f /\
    collapsed (E:=E) (M:=M) regular s e f.
Proof.
  intros [H1 H2]. exps E M. destruct (fmt_M (E:=E) (M:=M)) as [HM [HM1 HM2]].
  replace (0 =? 2 ^ (M + 1)) with false in * by (symmetry; apply Z.eqb_neq; lia).
  cbn [Z.b2z] in *. rewrite Z.add_0_r in *.
  unfold fix_out, zfix. rewrite Z.eqb_refl. unfold collapsed. rewrite Hex1 in *.
  destruct (pos || negb regular) eqn:Hab.
  - exists B754_nan. split; [cbn; eauto|]. right. split; [|reflexivity].
    destruct regular; [right|left; reflexivity]. destruct pos; [|discriminate].
    destruct (Z_lt_le_dec e emax); [|lia]. discriminate (H2 ltac:(lia)).
  - apply orb_false_iff in Hab. destruct Hab as [-> Hr]. exists (B754_zero s).
    split; [cbn; rewrite Hex3; reflexivity|]. left.
    destruct regular; [|discriminate]. split; [reflexivity|]. split; [|reflexivity].
    destruct (Z_lt_le_dec emax e); [|lia]. discriminate (H1 ltac:(lia)).
Qed.

Lemma collapsed_fix0 s e regular (f : fmt E M) : collapsed (E:=E) (M:=M) regular s e f ->
  exists pos, fix_pos_ok (E:=E) (M:=M) 0 e pos /\
    zrep E M (fix_out (E:=E) (M:=M) s 0 e (negb regular) pos) f.
Proof.
  intros H. exps E M. destruct (fmt_M (E:=E) (M:=M)) as [HM [HM1 HM2]].
  unfold fix_pos_ok, fix_out, zfix.
  replace (0 =? 2 ^ (M + 1)) with false by (symmetry; apply Z.eqb_neq; lia).
  cbn [Z.b2z]. rewrite Z.add_0_r, Z.eqb_refl. rewrite Hex1.
  destruct H as [(-> & He & ->)|[He ->]].
  - exists false. split; [cbv zeta; split; lia|]. cbn. rewrite Hex3. reflexivity.
  - exists (emax <=? e). split.
    + cbv zeta. split; intros; [apply Z.leb_le|apply Z.leb_gt]; lia.
    + replace ((emax <=? e) || negb regular) with true; [cbn; eauto|].
      symmetry. apply orb_true_iff. destruct He as [->|He]; [right; reflexivity|left; apply Z.leb_le; lia].
Qed.

(** ** Multiplication *)

Lemma mul_exact_value x y : zwf (E:=E) (M:=M) x -> zwf (E:=E) (M:=M) y ->
  (zmag (M:=M) x * zmag (M:=M) y
   = IZR (mul_n M x y) * bpow radix2 (mul_e M x y - (2 * M + 1)))%R.
Proof.
  intros Wx Wy. destruct (fmt_M (E:=E) (M:=M)) as [HM [HM1 HM2]].
  unfold zmag, mul_n, mul_e. cbv zeta.
  replace (IZR (zm x) * bpow radix2 (ze x - M) * (IZR (zm y) * bpow radix2 (ze y - M)))%R
    with (IZR (zm x * zm y) * (bpow radix2 (ze x - M) * bpow radix2 (ze y - M)))%R
    by (rewrite mult_IZR; ring).
  rewrite <- bpow_plus.
  destruct (2 ^ (2 * M + 1) <=? zm x * zm y); cbn [Z.b2z].
  - do 2 f_equal. ring.
  - rewrite (mult_IZR 2).
    replace (ze x - M + (ze y - M)) with (1 + (ze x + ze y + 0 - (2 * M + 1))) by ring.
    rewrite bpow_plus. change (bpow radix2 1) with 2%R. ring.
Qed.

Lemma product_escapes_iff x y (fx fy : fmt E M) e : zrep E M x fx -> zrep E M y fy ->
  (product_escapes (E:=E) (M:=M) b fx fy e <->
   mul_n M x y <> 0 /\ e = mul_e M x y /\
   divided (E:=E) (M:=M) b (zshift (E:=E) (mul_e M x y) (M + 2)) (mul_n M x y) (2 * M + 2)).
Proof.
  intros Hx Hy. pose proof (zrep_zwf _ _ Hx) as Wx. pose proof (zrep_zwf _ _ Hy) as Wy.
  destruct (fmt_M (E:=E) (M:=M)) as [HM [HM1 HM2]].
  pose proof (mul_exact_value x y Wx Wy) as Hv.
  destruct (mul_bounds (b:=b) x y Wx Wy) as (_ & Hn & _).
  unfold product_escapes. rewrite (magv_zmag x fx Hx), (magv_zmag y fy Hy), Hv. split.
  - intros (n & Hn' & Hval & Hdv). pose proof (pow_pos (2 * M + 1) ltac:(lia)) as Hp.
    destruct Hn as [H0|Hn].
    { exfalso. rewrite H0, Rmult_0_l in Hval. symmetry in Hval. apply Rmult_integral in Hval.
      destruct Hval as [Hval|Hval]; [apply eq_IZR in Hval; lia|].
      pose proof (bpow_gt_0 radix2 (e - (2 * M + 1))). lra. }
    destruct (norm_unique (2 * M + 1) (mul_n M x y) n (mul_e M x y - (2 * M + 1)) (e - (2 * M + 1)))
      as [Hnn He]; [lia| | |exact Hval|].
    + replace (2 * M + 1 + 1) with (2 * M + 2) by ring. exact Hn.
    + replace (2 * M + 1 + 1) with (2 * M + 2) by ring. exact Hn'.
    + assert (e = mul_e M x y) by lia. subst n e. split; [lia|]. split; [reflexivity|].
      rewrite <- shift_zshift. exact Hdv.
  - intros (H0 & -> & Hdv). exists (mul_n M x y). split; [destruct Hn; [contradiction|assumption]|].
    split; [reflexivity|]. rewrite shift_zshift. exact Hdv.
Qed.

Lemma mul_n_parts x y : mul_n M x y <> 0 -> zm x <> 0 /\ zm y <> 0.
Proof.
  unfold mul_n. cbv zeta. intros H.
  destruct (_ <=? _) in H; split; intros H0; apply H; rewrite H0; ring.
Qed.

(** ** Division *)

Definition divisor_spec (y : zf) : R := (IZR (div_y M y) * bpow radix2 (ze y - M))%R.

Lemma divisor_rep y (fy : fmt E M) : zrep E M y fy -> is_nan fy = false ->
  divisor (E:=E) (M:=M) fy = divisor_spec y.
Proof.
  intros Hy Hn. destruct (fmt_M (E:=E) (M:=M)) as [HM [HM1 HM2]].
  pose proof (magv_zmag y fy Hy) as Hm. pose proof (rep_is_zero y fy Hy Hn) as Hz.
  unfold divisor_spec, div_y. rewrite <- Hz.
  destruct fy as [s|s| |s m e Hb]; try discriminate; cbn [is_zero divisor].
  - cbn in Hy. subst y. cbn [ze]. rewrite IZR_pow2 by lia. rewrite <- bpow_plus. f_equal. ring.
  - exact Hm.
  - exact Hm.
Qed.

Lemma expo_norm m e : 2 ^ M <= m < 2 ^ (M + 1) -> expo (IZR m * bpow radix2 (e - M)) = e.
Proof.
  intros H. unfold expo.
  pose proof (zmag_mag (E:=E) (M:=M) (mkZ false e m false) H) as Hm. unfold zmag in Hm.
  cbn [zm ze] in Hm. rewrite Hm. ring.
Qed.

Lemma div_floor x y : zwf (E:=E) (M:=M) x -> zwf (E:=E) (M:=M) y ->
  Zfloor (zmag (M:=M) x / divisor_spec y * bpow radix2 (M + 2 - (ze x - ze y))) = div_q M x y.
Proof.
  intros Wx Wy. destruct (fmt_M (E:=E) (M:=M)) as [HM [HM1 HM2]].
  destruct (div_bounds (b:=b) x y Wx Wy) as (_ & _ & B3 & _).
  unfold zmag, divisor_spec, div_q.
  replace (IZR (zm x) * bpow radix2 (ze x - M) / (IZR (div_y M y) * bpow radix2 (ze y - M))
             * bpow radix2 (M + 2 - (ze x - ze y)))%R
    with (IZR (zm x * 2 ^ (M + 2)) / IZR (div_y M y))%R; [apply Zfloor_div; lia|].
  rewrite mult_IZR, IZR_pow2 by lia.
  replace (M + 2 - (ze x - ze y)) with (M + 2 + (ze y - M) - (ze x - M)) by ring.
  unfold Z.sub at 3. rewrite !bpow_plus, bpow_opp.
  pose proof (bpow_gt_0 radix2 (ze x - M)). pose proof (bpow_gt_0 radix2 (ze y - M)).
  assert (IZR (div_y M y) <> 0%R) by (apply not_0_IZR; lia).
  unfold Z.sub. rewrite !bpow_plus. unfold Z.sub in *. rewrite !bpow_plus in *.
  field. repeat split; try assumption; apply Rgt_not_eq, bpow_gt_0.
Qed.

Lemma quotient_escapes_iff x y (fx fy : fmt E M) e : zrep E M x fx -> zrep E M y fy ->
  (quotient_escapes (E:=E) (M:=M) b fx fy e <->
   is_nan fy = false /\ zm x <> 0 /\ e = div_e M x y /\
   divided (E:=E) (M:=M) b (zshift (E:=E) (div_e M x y) (M + 2)) (div_n M x y) (M + 3)).
Proof.
  intros Hx Hy. pose proof (zrep_zwf _ _ Hx) as Wx. pose proof (zrep_zwf _ _ Hy) as Wy.
  destruct (fmt_M (E:=E) (M:=M)) as [HM [HM1 HM2]].
  destruct (div_bounds (b:=b) x y Wx Wy) as (B1 & B2 & B3 & B4 & B5 & B6 & B7 & B8 & B9 & B10 & _).
  unfold quotient_escapes. rewrite (magv_zmag x fx Hx), (zmag_nonzero x Wx).
  assert (Hgo : is_nan fy = false -> zm x <> 0 -> forall c,
    e = expo (zmag (M:=M) x) - expo (divisor (E:=E) (M:=M) fy) - c ->
    Zfloor (zmag (M:=M) x / divisor (E:=E) (M:=M) fy * bpow radix2 (M + 2 - c - e)) = div_q M x y /\
    e = ze x - ze y - c).
  { intros Hn H0 c He. rewrite (divisor_rep y fy Hy Hn) in *.
    unfold divisor_spec, zmag in He. rewrite !expo_norm in He by (assumption || lia || apply (zwf_norm x Wx H0)).
    split; [|exact He]. rewrite <- (div_floor x y Wx Wy). do 3 f_equal. lia. }
  split.
  - intros (Hn & H0 & c & He & Hc & Hq). split; [exact Hn|]. split; [exact H0|].
    destruct (Hgo Hn H0 c He) as [Hfl He']. cbv zeta in Hq. rewrite Hfl in Hq.
    destruct Hq as [Hq Hdv]. rewrite shift_zshift in Hdv.
    assert (c = 1 - Z.b2z (div_msb M x y)).
    { assert (c = 0 \/ c = 1) as [->| ->] by lia; unfold div_msb.
      - rewrite Z.sub_0_r in Hq. destruct (Z.leb_spec (2 ^ (M + 2)) (div_q M x y)); cbn [Z.b2z]; lia.
      - replace (M + 3 - 1) with (M + 2) in Hq by ring.
        destruct (Z.leb_spec (2 ^ (M + 2)) (div_q M x y)); cbn [Z.b2z]; lia. }
    assert (Hee : e = div_e M x y) by (unfold div_e; lia). split; [exact Hee|].
    rewrite <- Hee. replace (div_n M x y) with (div_q M x y * 2 ^ c); [exact Hdv|].
    rewrite H. unfold div_n. destruct (div_msb M x y); cbn [Z.b2z].
    + change (2 ^ (1 - 1)) with 1. ring.
    + change (2 ^ (1 - 0)) with 2. ring.
  - intros (Hn & H0 & He & Hdv). split; [exact Hn|]. split; [exact H0|].
    exists (1 - Z.b2z (div_msb M x y)).
    assert (Hex : e = expo (zmag (M:=M) x) - expo (divisor (E:=E) (M:=M) fy) - (1 - Z.b2z (div_msb M x y))).
    { rewrite (divisor_rep y fy Hy Hn). unfold divisor_spec, zmag.
      rewrite !expo_norm by (assumption || lia || apply (zwf_norm x Wx H0)). exact He. }
    split; [exact Hex|]. split; [destruct (div_msb M x y); cbn [Z.b2z]; lia|].
    destruct (Hgo Hn H0 _ Hex) as [Hfl _]. cbv zeta. rewrite Hfl. specialize (B8 H0). split.
    + unfold div_msb. destruct (Z.leb_spec (2 ^ (M + 2)) (div_q M x y)); cbn [Z.b2z].
      * replace (M + 2 - (1 - 1)) with (M + 2) by ring. replace (M + 3 - (1 - 1)) with (M + 3) by ring. lia.
      * replace (M + 2 - (1 - 0)) with (M + 1) by ring. replace (M + 3 - (1 - 0)) with (M + 2) by ring. lia.
    + rewrite shift_zshift, He.
      replace (div_q M x y * 2 ^ (1 - Z.b2z (div_msb M x y))) with (div_n M x y); [exact Hdv|].
      unfold div_n. destruct (div_msb M x y); cbn [Z.b2z].
      * change (2 ^ (1 - 1)) with 1. ring.
      * change (2 ^ (1 - 0)) with 2. ring.
Qed.

Hypothesis Hbig : 2 ^ 250 <= modulus.
Hypothesis Hfill : fill b M + fill b (2 * M + 2) + fill b (E + M + 1) + 2 <= 250.

Theorem mul_yields_any x y (fx fy : fmt E M) : represents x fx -> represents y fy ->
  yields (b:=b) (Mul E M x y) (product_outcome (E:=E) (M:=M) b fx fy).
Proof.
  intros [zx [-> Hx]] [zy [-> Hy]].
  pose proof (zrep_zwf _ _ Hx) as Wx. pose proof (zrep_zwf _ _ Hy) as Wy.
  assert (Hfin : negb (is_finite fx && is_finite fy) = za zx || za zy).
  { rewrite (rep_finite _ _ Hx), (rep_finite _ _ Hy). destruct (za zx), (za zy); reflexivity. }
  assert (Hsg : mul_n M zx zy <> 0 -> xorb (Bsign fx) (Bsign fy) = xorb (zs zx) (zs zy)).
  { intros H0. destruct (mul_n_parts _ _ H0) as [Hx0 Hy0].
    rewrite (rep_sign _ _ Hx (rep_nan _ _ Hx Hx0)), (rep_sign _ _ Hy (rep_nan _ _ Hy Hy0)). reflexivity. }
  assert (Hhon : forall pos, fix_pos_ok (E:=E) (M:=M) (mul_zr E M zx zy) (mul_e M zx zy) pos ->
    inert (b:=b) (E:=E) (M:=M) (embF (zmul E M zx zy pos)) \/
    represents (embF (zmul E M zx zy pos)) (ieee_mul E M fx fy)).
  { intros pos Hpos.
    destruct (mul_spec zx zy fx fy _ Hx Hy Hpos) as [H'|(_ & _ & _ & _ & _ & m & Hm & H5)].
    - right. eexists. split; [reflexivity|exact H'].
    - left. intros w g u. apply junk_not_equal. exists (xorb (zs zx) (zs zy)), m.
      split; [exact Hm|]. rewrite H5. reflexivity. }
  split.
  - intros r Hr. apply (sat_Mul_exact Hbig Hfill zx zy Wx Wy) in Hr.
    destruct Hr as [[pos [Hpos ->]]|[Hdv [pos [Hpos ->]]]].
    + destruct (Hhon pos Hpos) as [H|H]; [left; exact H|right].
      eexists. split; [exact H|]. left. reflexivity.
    + destruct (Z.eq_dec (mul_n M zx zy) 0) as [H0|H0].
      * assert (Hz0 : mul_zr E M zx zy = 0).
        { unfold mul_zr. rewrite H0. apply zround_0; [params; lia|]. unfold zshift. params. lia. }
        destruct (Hhon pos) as [H|H]; [rewrite Hz0; exact Hpos|left|right].
        -- unfold zmul in H. rewrite Hz0 in H. exact H.
        -- unfold zmul in H. rewrite Hz0 in H. eexists. split; [exact H|]. left. reflexivity.
      * right. rewrite <- Hfin.
        destruct (fix0_collapsed (xorb (zs zx) (zs zy)) (mul_e M zx zy) (is_finite fx && is_finite fy) pos Hpos)
          as (f & Hf & Hc).
        exists f. split; [eexists; split; [reflexivity|exact Hf]|]. right. exists (mul_e M zx zy).
        split; [|rewrite (Hsg H0); exact Hc].
        apply (product_escapes_iff zx zy fx fy _ Hx Hy). split; [exact H0|]. split; [reflexivity|exact Hdv].
  - intros f [->|(e & Hesc & Hc)].
    + destruct (mul_complete (b:=b) (embF zx) (embF zy) fx fy) as (r & H1 & H2);
        [eexists; split; [reflexivity|exact Hx]|eexists; split; [reflexivity|exact Hy]|].
      exists r. split; [apply exec_sat, H1|exact H2].
    + apply (product_escapes_iff zx zy fx fy _ Hx Hy) in Hesc. destruct Hesc as (H0 & -> & Hdv).
      destruct (collapsed_fix0 _ _ _ f Hc) as (pos & Hpos & Hf). rewrite Hfin, (Hsg H0) in Hf.
      eexists. split; [|eexists; split; [reflexivity|exact Hf]].
      apply (sat_Mul_exact Hbig Hfill zx zy Wx Wy). right. split; [exact Hdv|].
      exists pos. split; [exact Hpos|reflexivity].
Qed.
Theorem div_yields_any x y (fx fy : fmt E M) : represents x fx -> represents y fy ->
  yields (b:=b) (Div E M x y) (quotient_outcome (E:=E) (M:=M) b fx fy).
Proof.
  intros [zx [-> Hx]] [zy [-> Hy]].
  pose proof (zrep_zwf _ _ Hx) as Wx. pose proof (zrep_zwf _ _ Hy) as Wy.
  assert (Hfin : is_nan fy = false ->
    negb (is_finite fx && negb (is_zero (E:=E) (M:=M) fy)) = za zx || (zm zy =? 0)).
  { intros Hn. rewrite (rep_finite _ _ Hx), (rep_is_zero _ _ Hy Hn).
    destruct (za zx), (zm zy =? 0); reflexivity. }
  assert (Hsg : is_nan fy = false -> zm zx <> 0 -> xorb (Bsign fx) (Bsign fy) = xorb (zs zx) (zs zy)).
  { intros Hn H0.
    rewrite (rep_sign _ _ Hx (rep_nan _ _ Hx H0)), (rep_sign _ _ Hy Hn). reflexivity. }
  assert (Hhon : forall pos, fix_pos_ok (E:=E) (M:=M) (div_zr E M zx zy) (div_e M zx zy) pos ->
    inert (b:=b) (E:=E) (M:=M) (embF (zdiv E M zx zy pos)) \/
    represents (embF (zdiv E M zx zy pos)) (ieee_div E M fx fy)).
  { intros pos Hpos.
    destruct (div_spec zx zy fx fy _ Hx Hy Hpos) as [H'|(_ & _ & _ & _ & _ & m & Hm & H5)].
    - right. eexists. split; [reflexivity|exact H'].
    - left. intros w g u. apply junk_not_equal. exists (xorb (zs zx) (zs zy)), m.
      split; [exact Hm|]. rewrite H5. reflexivity. }
  split.
  - intros r Hr. apply (sat_Div_exact Hbig Hfill zx zy Wx Wy) in Hr.
    destruct Hr as [[pos [Hpos ->]]|[Hdv [pos [Hpos ->]]]].
    + destruct (Hhon pos Hpos) as [H|H]; [left; exact H|right].
      eexists. split; [exact H|]. left. reflexivity.
    + destruct (is_nan fy) eqn:Hn.
      { right. exists B754_nan. assert (fy = B754_nan) as -> by (destruct fy; try discriminate; reflexivity).
        destruct Hy as [s ->]. cbn [zm]. rewrite Z.eqb_refl, orb_true_r.
        split; [|left; destruct fx; reflexivity]. eexists. split; [reflexivity|].
        unfold fix_out, zfix. rewrite Z.eqb_refl, !orb_true_r. cbn. exps E M. eauto. }
      destruct (Z.eq_dec (zm zx) 0) as [H0|H0].
      * destruct (div_zr_0 (b:=b) zx zy Wx Wy H0) as [Hz0 _].
        assert (Hzd : zdiv E M zx zy pos
          = fix_out (E:=E) (M:=M) (xorb (zs zx) (zs zy)) 0 (div_e M zx zy) (za zx || (zm zy =? 0)) pos).
        { unfold zdiv, fix_out. rewrite Hz0, Z.eqb_refl. reflexivity. }
        rewrite <- Hzd.
        destruct (Hhon pos) as [H|H]; [rewrite Hz0; exact Hpos|left; exact H|right].
        eexists. split; [exact H|]. left. reflexivity.
      * right. rewrite <- (Hfin eq_refl).
        destruct (fix0_collapsed (xorb (zs zx) (zs zy)) (div_e M zx zy)
          (is_finite fx && negb (is_zero (E:=E) (M:=M) fy)) pos Hpos) as (f & Hf & Hc).
        exists f. split; [eexists; split; [reflexivity|exact Hf]|]. right. exists (div_e M zx zy).
        split; [|rewrite (Hsg eq_refl H0); exact Hc].
        apply (quotient_escapes_iff zx zy fx fy _ Hx Hy). split; [exact Hn|]. split; [exact H0|].
        split; [reflexivity|exact Hdv].
  - intros f [->|(e & Hesc & Hc)].
    + destruct (div_complete (b:=b) (embF zx) (embF zy) fx fy) as (r & H1 & H2);
        [eexists; split; [reflexivity|exact Hx]|eexists; split; [reflexivity|exact Hy]|].
      exists r. split; [apply exec_sat, H1|exact H2].
    + apply (quotient_escapes_iff zx zy fx fy _ Hx Hy) in Hesc. destruct Hesc as (Hn & H0 & -> & Hdv).
      destruct (collapsed_fix0 _ _ _ f Hc) as (pos & Hpos & Hf). rewrite (Hfin Hn), (Hsg Hn H0) in Hf.
      eexists. split; [|eexists; split; [reflexivity|exact Hf]].
      apply (sat_Div_exact Hbig Hfill zx zy Wx Wy). right. split; [exact Hdv|].
      exists pos. split; [exact Hpos|reflexivity].
Qed.
End AnyWidthData.
