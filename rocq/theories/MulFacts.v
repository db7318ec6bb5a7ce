(** Context.Mul (float/float.go:673-754). *)
From Coq Require Import ZArith Reals Bool List Lia Lra ZifyBool.
From Flocq Require Import Core BinarySingleNaN.
From Verif Require Import Field FieldFacts Circuit Hints RangeCheck Gadget FloatModel
  CircuitFacts RangeFacts GadgetFacts RoundFacts Spec RoundCore RepFacts Tactics.
Local Open Scope Z_scope.

Section MulZ.
Variables E M : Z.
Definition mul_n (x y : zf) : Z :=
  let p := zm x * zm y in if 2 ^ (2 * M + 1) <=? p then p else 2 * p.
Definition mul_e (x y : zf) : Z :=
  ze x + ze y + Z.b2z (2 ^ (2 * M + 1) <=? zm x * zm y).
Definition mul_zr (x y : zf) : Z :=
  zround M (mul_n x y) ((M + 1) * 2) (zshift (E:=E) (mul_e x y) (M + 2)) true.
Definition zmul (x y : zf) (pos : bool) : zf :=
  fix_out (E:=E) (M:=M) (xorb (zs x) (zs y)) (mul_zr x y) (mul_e x y) (za x || za y) pos.
Definition honest_pos (zr e : Z) : bool := E_MAX E <=? e + Z.b2z (zr =? 2 ^ (M + 1)).
End MulZ.

Lemma honest_pos_ok E M zr e : fix_pos_ok (E:=E) (M:=M) zr e (honest_pos E M zr e).
Proof. unfold fix_pos_ok, honest_pos. cbv zeta. Lia.lia. Qed.

Section Mul.
Context {MOD : Modulus} {E M b : Z} {HP : Params E M b} {HF : Format E M}.
#[local] Instance mul_width : Width b (4 * M + 44) := params_width E M b HP.
#[local] Instance mul_big : BigMod := width_big b _ mul_width.

Notation emax := (Spec.emax E).
Notation emin := (Spec.emin E M).

Section Ops.
Variables x y : zf.
Hypotheses (Hx : zwf (E:=E) (M:=M) x) (Hy : zwf (E:=E) (M:=M) y).

Lemma mul_bounds :
  0 <= zm x * zm y < 2 ^ (2 * M + 2) /\
  (mul_n M x y = 0 \/ 2 ^ (2 * M + 1) <= mul_n M x y < 2 ^ (2 * M + 2)) /\
  2 * emin - 2 <= mul_e M x y <= 2 * emax + 1 /\
  2 ^ (2 * M + 2) = 2 * 2 ^ (2 * M + 1) /\ 2 ^ (2 * M + 1) = 2 * 2 ^ (2 * M) /\
  2 ^ (2 * M + 2) <= 2 ^ (4 * M + 44 - b) /\ 0 < 2 ^ (2 * M).
Proof.
  params. destruct (fmt_M (E:=E) (M:=M)) as [HM [HM1 HM2]].
  assert (H2 : 2 ^ (2 * M + 2) = 2 * 2 ^ (2 * M + 1)) by (rewrite <- Z.pow_succ_r by lia; f_equal; lia).
  assert (H1 : 2 ^ (2 * M + 1) = 2 * 2 ^ (2 * M)) by (rewrite <- Z.pow_succ_r by lia; f_equal; lia).
  assert (H0 : 2 ^ (2 * M) = 2 ^ M * 2 ^ M) by (rewrite <- Z.pow_add_r by lia; f_equal; lia).
  assert (Hxm : 0 <= zm x < 2 ^ (M + 1)) by (destruct Hx; lia).
  assert (Hym : 0 <= zm y < 2 ^ (M + 1)) by (destruct Hy; lia).
  assert (Hp : 0 <= zm x * zm y < 2 ^ (2 * M + 2)).
  { rewrite HM2 in *. clear - Hxm Hym H2 H1 H0. nia. }
  assert (Hp' : zm x * zm y = 0 \/ 2 ^ (2 * M) <= zm x * zm y).
  { destruct Hx as [_ [[Hx0 _]|[Hx1 _]]]; [left; rewrite Hx0; ring|].
    destruct Hy as [_ [[Hy0 _]|[Hy1 _]]]; [left; rewrite Hy0; ring|].
    right. rewrite H0. clear - Hx1 Hy1 HM1. nia. }
  split; [exact Hp|]. split.
  - unfold mul_n. cbv zeta.
    destruct (Z.leb_spec (2 ^ (2 * M + 1)) (zm x * zm y)); lia.
  - split.
    + unfold mul_e. destruct Hx as [Hx1 _], Hy as [Hy1 _].
      destruct (2 ^ (2 * M + 1) <=? zm x * zm y); cbn [Z.b2z]; lia.
    + split; [exact H2|]. split; [exact H1|]. split; [apply pow2_mono; lia|].
      apply pow_pos; lia.
Qed.

Lemma mul_zr_range : 0 <= mul_zr E M x y <= 2 ^ (M + 1) /\
  (mul_zr E M x y = 0 \/ 2 ^ M <= mul_zr E M x y).
Proof.
  params. destruct (fmt_M (E:=E) (M:=M)) as [HM [HM1 HM2]].
  destruct mul_bounds as (_ & Hn & _). unfold mul_zr.
  set (s := zshift (mul_e M x y) (M + 2)).
  assert (Hs : 0 <= s) by (unfold s, zshift; lia).
  destruct Hn as [->|Hn].
  - rewrite zround_0 by lia. lia.
  - destruct (zround_range (E:=E) (M:=M) (mul_n M x y) ((M + 1) * 2) s true ltac:(lia)) as [[-> _]|Hz];
      [replace ((M + 1) * 2 - 1) with (2 * M + 1) by lia;
       replace ((M + 1) * 2) with (2 * M + 2) by lia; lia|lia|lia|lia].
Qed.

Lemma mul_round_pre s : 0 <= s <= M + 2 ->
  round_pre (E:=E) (M:=M) (mul_n M x y) ((M + 1) * 2) s (M + 2).
Proof.
  intros Hs. params. destruct mul_bounds as (_ & Hn & _ & _ & _ & _ & H0).
  unfold round_pre. replace ((M + 1) * 2) with (2 * M + 2) by lia.
  pose proof (pow_pos (2 * M + 2) ltac:(lia)). repeat split; lia.
Qed.

Lemma zshift_range e smax : 0 <= smax -> 0 <= zshift (E:=E) e smax <= smax.
Proof. intros H. unfold zshift. Lia.lia. Qed.

Lemma exec_Mul :
  exec b (Mul E M (embF x) (embF y))
  = Some (embF (zmul E M x y (honest_pos E M (mul_zr E M x y) (mul_e M x y)))).
Proof.
  params. destruct mul_bounds as (Hp & Hn & He & H2 & H1 & Hk & H0).
  destruct (fmt_M (E:=E) (M:=M)) as [HM [HM1 HM2]].
  exps E M.
  destruct (small_pow (E:=E) (M:=M) (b:=b)) as (Hs1 & Hs2 & Hs3 & Hs4 & Hs5 & Hs6 & Hs7 & Hs8 & Hs9).
  pose proof mul_zr_range as [Hzr _].
  unfold Mul, embF. cbn [Sign Exponent Mantissa IsAbnormal].
  xstep. rewrite fmul_emb. set (p := zm x * zm y) in *.
  assert (Hpm : emb p = p).
  { apply emb_small. assert (2 ^ (4 * M + 44 - b) <= modulus) by (apply (room (b:=b) (K:=4*M+44)); lia). lia. }
  assert (Hbit : NthBitHint (emb p) ((M + 1) * 2 - 1) = Some (Z.b2z (2 ^ (2 * M + 1) <=? p))).
  { unfold NthBitHint. rewrite Hpm. f_equal. replace ((M + 1) * 2 - 1) with (2 * M + 1) by lia.
    apply bit_top; [lia|]. replace (2 * M + 1 + 1) with (2 * M + 2) by lia. exact Hp. }
  rewrite Hbit. set (msb := 2 ^ (2 * M + 1) <=? p) in *.
  repeat xstep.
  replace ((M + 1) * 2 - 1) with (2 * M + 1) by lia.
  rewrite fmul_emb, fsub_emb.
  rewrite exec_bind_eq with (a := tt).
  2:{ apply (exec_abl (K:=4*M+44)); [lia|lia|]. unfold msb.
      destruct (Z.leb_spec (2 ^ (2 * M + 1)) p); cbn [Z.b2z]; lia. }
  cbv zeta. xstep. rewrite !fadd_emb.
  change (ze x + ze y + Z.b2z msb) with (mul_e M x y).
  replace (p + (if msb then 0 else p)) with (mul_n M x y).
  2:{ unfold mul_n. cbv zeta. fold p. fold msb. destruct msb; lia. }
  xs (exec_subnormal_shift (E:=E) (M:=M) (b:=b) (mul_e M x y) (M + 2)
        ltac:(lia) ltac:(lia) ltac:(lia)
        ltac:(lia)).
  change (emb 1) with (emb (Z.b2z true)).
  xs (exec_zround (E:=E) (M:=M) (b:=b) _ _ _ _ true
        (mul_round_pre _ (zshift_range (mul_e M x y) (M + 2) ltac:(lia)))).
  change (zround M (mul_n M x y) ((M + 1) * 2) (zshift (E:=E) (mul_e M x y) (M + 2)) true)
    with (mul_zr E M x y).
  rewrite isZero_emb by lia.
  xstep.
  unfold zmul, fix_out, honest_pos.
  rewrite exec_bind, exec_fixOverflow by (lia).
  destruct (zfix _ _ _ _ _) as [[m' e'] ab].
  xstep. reflexivity.
Qed.

Lemma sat_Mul r : pow2_size E M mod b = 0 ->
  sat b (Mul E M (embF x) (embF y)) r ->
  exists pos, fix_pos_ok (E:=E) (M:=M) (mul_zr E M x y) (mul_e M x y) pos /\
    r = embF (zmul E M x y pos).
Proof.
  intros Hdv H. params. destruct mul_bounds as (Hp & Hn & He & H2 & H1 & Hk & H0).
  destruct (fmt_M (E:=E) (M:=M)) as [HM [HM1 HM2]].
  exps E M.
  destruct (small_pow (E:=E) (M:=M) (b:=b)) as (Hs1 & Hs2 & Hs3 & Hs4 & Hs5 & Hs6 & Hs7 & Hs8 & Hs9).
  pose proof mul_zr_range as [Hzr _].
  unfold Mul, embF in H. cbn [Sign Exponent Mantissa IsAbnormal] in H.
  sstep H. rewrite fmul_emb in H. set (p := zm x * zm y) in *.
  sbool H c. replace ((M + 1) * 2 - 1) with (2 * M + 1) in H by lia.
  rewrite fmul_emb, fsub_emb in H. scheck H Hc.
  apply (check_small (K:=4*M+44)) in Hc; [|lia|lia|destruct c; cbn [Z.b2z]; lia].
  assert (c = (2 ^ (2 * M + 1) <=? p)).
  { destruct (Z.leb_spec (2 ^ (2 * M + 1)) p); destruct c; cbn [Z.b2z] in Hc; try reflexivity; lia. }
  subst c. set (msb := 2 ^ (2 * M + 1) <=? p) in *.
  cbv zeta in H. change (emb 0) with (emb 0) in H. sstep H. rewrite !fadd_emb in H.
  change (ze x + ze y + Z.b2z msb) with (mul_e M x y) in H.
  replace (p + (if msb then 0 else p)) with (mul_n M x y) in H.
  2:{ unfold mul_n. cbv zeta. fold p. fold msb. destruct msb; lia. }
  apply sat_bind in H. destruct H as [sh [Hsh H]].
  apply (sat_subnormal_shift (E:=E) (M:=M)) in Hsh;
    [|lia|lia]. subst sh.
  apply sat_bind in H. destruct H as [zr [Hz H]].
  change (emb 1) with (emb (Z.b2z true)) in Hz.
  apply sat_zround in Hz; [|exact Hdv|apply mul_round_pre, zshift_range; lia].
  subst zr.
  change (zround M (mul_n M x y) ((M + 1) * 2) (zshift (E:=E) (mul_e M x y) (M + 2)) true)
    with (mul_zr E M x y) in H.
  rewrite isZero_emb in H by lia.
  sstep H.
  apply sat_bind in H. destruct H as [t [Ht H]].
  apply sat_fixOverflow in Ht; [|lia|lia].
  destruct Ht as [pos [Hpos ->]]. exists pos. split; [exact Hpos|].
  unfold zmul, fix_out. destruct (zfix _ _ _ _ _) as [[m' e'] ab].
  sstep H. apply sat_ret_inv in H. rewrite <- H. reflexivity.
Qed.

End Ops.

Lemma mul_rounded x y : zwf (E:=E) (M:=M) x -> zwf (E:=E) (M:=M) y ->
  Generic_fmt.round radix2 (FLT_exp (Spec.emin E M) (Spec.prec M)) ZnearestE
    (zmag (M:=M) x * zmag (M:=M) y)
  = (IZR (mul_zr E M x y) * bpow radix2 (mul_e M x y - M))%R.
Proof.
  intros Wx Wy. destruct (fmt_M (E:=E) (M:=M)) as [HM [HM1 HM2]]. exps E M.
  assert (Hz0 : zm x * zm y = 0 -> mul_zr E M x y = 0 /\ mul_e M x y = ze x + ze y).
  { intros Hp. unfold mul_zr, mul_n, mul_e. rewrite Hp. cbv zeta.
    pose proof (pow_pos (2 * M + 1) ltac:(lia)).
    destruct (Z.leb_spec (2 ^ (2 * M + 1)) 0); [lia|]. rewrite Z.mul_0_r.
    rewrite zround_0 by (unfold zshift; lia). cbn [Z.b2z]. lia. }
  destruct (mul_bounds x y Wx Wy) as (Hp & Hn & He & H2 & H1 & Hk & H0).
  assert (Hnz : zm x * zm y <> 0 -> 2 ^ (2 * M + 1) <= mul_n M x y < 2 ^ (2 * M + 2)).
  { intros Hp0. destruct Hn as [Hn|Hn]; [|exact Hn]. exfalso. unfold mul_n in Hn. cbv zeta in Hn.
    destruct (2 ^ (2 * M + 1) <=? zm x * zm y); lia. }
  destruct (Z.eq_dec (zm x * zm y) 0) as [Hp0|Hp0].
      * destruct (Hz0 Hp0) as [-> _]. rewrite Rmult_0_l.
        replace (zmag (M:=M) x * zmag (M:=M) y)%R with 0%R; [apply rnd_0|].
        unfold zmag. apply Z.mul_eq_0 in Hp0. destruct Hp0 as [-> | ->]; lra.
      * unfold mul_zr. set (g := mul_e M x y - (2 * M + 1)).
        replace (mul_e M x y) with (g + (M + 1) * 2 - 1) by (unfold g; ring).
        assert (Hval : (zmag (M:=M) x * zmag (M:=M) y = IZR (mul_n M x y) * bpow radix2 g)%R).
        { unfold zmag, mul_n, g, mul_e. cbv zeta.
          destruct (2 ^ (2 * M + 1) <=? zm x * zm y); cbn [Z.b2z].
          - rewrite mult_IZR.
            replace (ze x + ze y + 1 - (2 * M + 1)) with (ze x - M + (ze y - M)) by ring.
            rewrite bpow_plus. ring.
          - rewrite !mult_IZR.
            replace (bpow radix2 (ze x - M)) with (bpow radix2 (ze x - M - 1) * 2)%R
              by (change 2%R with (bpow radix2 1); rewrite <- bpow_plus; f_equal; ring).
            replace (ze x + ze y + 0 - (2 * M + 1)) with (ze x - M - 1 + (ze y - M)) by ring.
            rewrite (bpow_plus radix2 (ze x - M - 1)). ring. }
        specialize (Hnz Hp0).
        apply round_core; try lia.
        -- replace ((M + 1) * 2 - 1) with (2 * M + 1) by lia.
           replace ((M + 1) * 2) with (2 * M + 2) by lia. exact Hnz.
        -- rewrite Hval. pose proof (bpow_gt_0 radix2 g). rewrite plus_IZR. split; nra.
        -- intros _. exact Hval.
Qed.

Lemma mul_spec x y fx fy pos : zrep E M x fx -> zrep E M y fy ->
  fix_pos_ok (E:=E) (M:=M) (mul_zr E M x y) (mul_e M x y) pos ->
  zrep E M (zmul E M x y pos) (ieee_mul E M fx fy) \/
  (is_finite fx = true /\ is_finite fy = true /\ pos = false /\
   mul_e M x y + Z.b2z (mul_zr E M x y =? 2 ^ (M + 1)) = emax /\
   ieee_mul E M fx fy = B754_infinity (xorb (zs x) (zs y)) /\
   malformed (E:=E) (M:=M) (xorb (zs x) (zs y)) (zmul E M x y pos)).
Proof.
  intros Hx Hy Hpos.
  pose proof (zrep_zwf _ _ Hx) as Wx. pose proof (zrep_zwf _ _ Hy) as Wy.
  destruct (fmt_M (E:=E) (M:=M)) as [HM [HM1 HM2]].
  exps E M.
  assert (Hz0 : zm x * zm y = 0 -> mul_zr E M x y = 0 /\ mul_e M x y = ze x + ze y).
  { intros Hp. unfold mul_zr, mul_n, mul_e. rewrite Hp. cbv zeta.
    pose proof (pow_pos (2 * M + 1) ltac:(lia)).
    destruct (Z.leb_spec (2 ^ (2 * M + 1)) 0); [lia|]. rewrite Z.mul_0_r.
    rewrite zround_0 by (unfold zshift; lia). cbn [Z.b2z]. lia. }
  destruct (mul_bounds x y Wx Wy) as (Hp & Hn & He & H2 & H1 & Hk & H0).
  assert (Hnz : zm x * zm y <> 0 -> 2 ^ (2 * M + 1) <= mul_n M x y < 2 ^ (2 * M + 2)).
  { intros Hp0. destruct Hn as [Hn|Hn]; [|exact Hn]. exfalso. unfold mul_n in Hn. cbv zeta in Hn.
    destruct (2 ^ (2 * M + 1) <=? zm x * zm y); lia. }
  destruct (is_finite fx) eqn:Fx; [destruct (is_finite fy) eqn:Fy|].
  - (* finite operands *)
    pose proof (zrep_B2R x fx Hx Fx) as (Vx & Sx & Ax & Cx).
    pose proof (zrep_B2R y fy Hy Fy) as (Vy & Sy & Ay & Cy).
    assert (Hop : op_result (ieee_mul E M fx fy) (xorb (zs x) (zs y)) (B2R fx * B2R fy)).
    { unfold op_result, ieee_mul.
      pose proof (Bmult_correct (Spec.prec M) (Spec.emax E) _ _ mode_NE fx fy) as HB.
      change (Generic_fmt.round radix2 (SpecFloat.fexp (Spec.prec M) (Spec.emax E)) (round_mode mode_NE)
        (B2R fx * B2R fy)) with
        (Generic_fmt.round radix2 (FLT_exp (Spec.emin E M) (Spec.prec M)) ZnearestE (B2R fx * B2R fy)) in HB.
      destruct (Rlt_bool _ _).
      - destruct HB as (B1 & B2 & B3). rewrite Fx, Fy in B2. split; [exact B1|].
        split; [exact B2|]. rewrite <- Sx, <- Sy. apply B3.
        destruct (Bmult mode_NE fx fy); try reflexivity; discriminate.
      - rewrite <- Sx, <- Sy. exact HB. }
    rewrite Vx, Vy in Hop.
    replace (sgn (zs x) * zmag (M:=M) x * (sgn (zs y) * zmag (M:=M) y))%R
      with (sgn (xorb (zs x) (zs y)) * (zmag (M:=M) x * zmag (M:=M) y))%R in Hop
      by (rewrite sgn_xor; ring).
    unfold zmul. rewrite Ax, Ay. cbn [orb].
    destruct (fix_spec (E:=E) (M:=M) (ieee_mul E M fx fy) (xorb (zs x) (zs y))
                (zmag (M:=M) x * zmag (M:=M) y) (mul_zr E M x y) (mul_e M x y) pos) as [HL|HR];
      [exact Hop| | |exact Hpos|left; exact HL|right].
    + apply mul_rounded; assumption.
    + destruct (Z.eq_dec (zm x * zm y) 0) as [Hp0|Hp0].
      * destruct (Hz0 Hp0) as [-> ->]. left. split; [reflexivity|].
        destruct Cx as [Cx|[Cx1 Cx2]].
        -- destruct Cy as [Cy|[Cy1 Cy2]].
           ++ exfalso. destruct Cx as (_ & Cx & _), Cy as (_ & Cy & _).
              apply Z.mul_eq_0 in Hp0. lia.
           ++ destruct Wx as [Wx _]. lia.
        -- destruct Wy as [Wy _]. lia.
      * clear Wx Wy Cx Cy. unfold mul_zr.
        destruct (zround_range (E:=E) (M:=M) (mul_n M x y) ((M + 1) * 2)
          (zshift (E:=E) (mul_e M x y) (M + 2)) true ltac:(lia)) as [[Hz Hs]|Hz].
        -- replace ((M + 1) * 2 - 1) with (2 * M + 1) by lia.
           replace ((M + 1) * 2) with (2 * M + 2) by lia. exact (Hnz Hp0).
        -- unfold zshift. lia.
        -- left. split; [exact Hz|]. unfold zshift in Hs. 
           lia.
        -- right. exact Hz.
    + destruct HR as (R1 & R2 & R3 & R4). auto 10.
  - (* fy infinite or NaN *)
    left. assert (Ay : za y = true).
    { destruct fy; try discriminate; cbn in Hy; [subst y|destruct Hy as [? ->]]; reflexivity. }
    unfold zmul, fix_out, zfix. rewrite Ay, !orb_true_r.
    destruct (Z.eq_dec (zm x * zm y) 0) as [Hp0|Hp0].
    + destruct (Hz0 Hp0) as [-> _]. simpl (0 =? 0).
      assert (Hnan : ieee_mul E M fx fy = B754_nan).
      { destruct fy as [sy|sy| |sy my ey Hy']; try discriminate.
        - cbn in Hy. subst y. cbn [zm] in Hp0.
          destruct fx as [sx|sx| |sx mx ex Hx']; try discriminate; try reflexivity.
          exfalso. destruct (zrep_finite _ _ _ _ _ Hx) as (_ & (_ & Hx2 & _) & _).
          apply Z.mul_eq_0 in Hp0. lia.
        - destruct fx; reflexivity. }
      rewrite Hnan. cbn. eexists. reflexivity.
    + assert (Hyi : exists sy, fy = B754_infinity sy).
      { destruct fy; try discriminate; [eauto|]. cbn in Hy. destruct Hy as [? ->].
        cbn [zm] in Hp0. lia. }
      destruct Hyi as [sy ->]. cbn in Hy. subst y. cbn [zs ze zm za] in *.
      assert (Hxf : zfin (E:=E) (M:=M) x /\ exists sx mx ex Hx', fx = B754_finite sx mx ex Hx').
      { destruct fx as [sx|sx| |sx mx ex Hx']; try discriminate.
        - cbn in Hx. subst x. cbn in Hp0. lia.
        - split; [apply (zrep_finite _ _ _ _ _ Hx)|eauto 6]. }
      destruct Hxf as [(_ & Hxm & Hxe) (sx & mx & ex & Hx' & ->)].
      destruct (zrep_finite _ _ _ _ _ Hx) as (Sx & _).
      set (y := mkZ sy emax (2 ^ M) true) in *.
      destruct (zround_range (E:=E) (M:=M) (mul_n M x y) ((M + 1) * 2)
          (zshift (E:=E) (mul_e M x y) (M + 2)) true ltac:(lia)) as [[Hz Hs]|Hz].
      * replace ((M + 1) * 2 - 1) with (2 * M + 1) by lia.
        replace ((M + 1) * 2) with (2 * M + 2) by lia. exact (Hnz Hp0).
      * unfold zshift. lia.
      * exfalso. unfold zshift in Hs. 
        unfold mul_e in Hs. cbn [ze y] in Hs.
        destruct (_ <=? _); cbn [Z.b2z] in Hs; lia.
      * fold (mul_zr E M x y) in Hz.
        destruct (Z.eqb_spec (mul_zr E M x y) 0); [lia|].
        cbn. rewrite Sx. reflexivity.
  - (* fx infinite or NaN *)
    left. assert (Ax : za x = true).
    { destruct fx; try discriminate; cbn in Hx; [subst x|destruct Hx as [? ->]]; reflexivity. }
    unfold zmul, fix_out, zfix. rewrite Ax. cbn [orb]. rewrite !orb_true_r.
    destruct (Z.eq_dec (zm x * zm y) 0) as [Hp0|Hp0].
    + destruct (Hz0 Hp0) as [-> _]. simpl (0 =? 0).
      assert (Hnan : ieee_mul E M fx fy = B754_nan).
      { destruct fx as [sx|sx| |sx mx ex Hx']; try discriminate; [|reflexivity].
        cbn in Hx. subst x. cbn [zm] in Hp0.
        destruct fy as [sy|sy| |sy my ey Hy']; try reflexivity.
        - exfalso. cbn in Hy. subst y. cbn [zm] in Hp0. lia.
        - exfalso. destruct (zrep_finite _ _ _ _ _ Hy) as (_ & (_ & Hy2 & _) & _).
          apply Z.mul_eq_0 in Hp0. lia. }
      rewrite Hnan. cbn. eexists. reflexivity.
    + assert (Hxi : exists sx, fx = B754_infinity sx).
      { destruct fx; try discriminate; [eauto|]. cbn in Hx. destruct Hx as [? ->].
        cbn [zm] in Hp0. lia. }
      destruct Hxi as [sx ->]. cbn in Hx. subst x. cbn [zs ze zm za] in *.
      set (x := mkZ sx emax (2 ^ M) true) in *.
      assert (Hye : emin <= ze y).
      { destruct Wy as [_ [[Wy _]|[_ Wy]]]; [rewrite Wy in Hp0; lia|].
        destruct (za y); [|lia]. destruct Wy as [-> _]. lia. }
      assert (Hres : ieee_mul E M (B754_infinity sx) fy = B754_infinity (xorb sx (zs y))).
      { destruct fy as [sy|sy| |sy my ey Hy'].
        - cbn in Hy. subst y. cbn [zm] in Hp0. lia.
        - cbn in Hy. subst y. reflexivity.
        - cbn in Hy. destruct Hy as [? ->]. cbn [zm] in Hp0. lia.
        - destruct (zrep_finite _ _ _ _ _ Hy) as (-> & _). reflexivity. }
      rewrite Hres.
      destruct (zround_range (E:=E) (M:=M) (mul_n M x y) ((M + 1) * 2)
          (zshift (E:=E) (mul_e M x y) (M + 2)) true ltac:(lia)) as [[Hz Hs]|Hz].
      * replace ((M + 1) * 2 - 1) with (2 * M + 1) by lia.
        replace ((M + 1) * 2) with (2 * M + 2) by lia. exact (Hnz Hp0).
      * unfold zshift. lia.
      * exfalso. unfold zshift in Hs. 
        unfold mul_e in Hs. cbn [ze x] in Hs.
        destruct (_ <=? _); cbn [Z.b2z] in Hs; lia.
      * fold (mul_zr E M x y) in Hz.
        destruct (Z.eqb_spec (mul_zr E M x y) 0); [lia|]. reflexivity.
Qed.

Theorem mul_complete x y (fx fy : fmt E M) : represents x fx -> represents y fy ->
  exists r, exec b (Mul E M x y) = Some r /\ represents r (ieee_mul E M fx fy).
Proof.
  intros [zx [-> Hx]] [zy [-> Hy]].
  eexists. split; [exact (exec_Mul zx zy (zrep_zwf _ _ Hx) (zrep_zwf _ _ Hy))|].
  eexists. split; [reflexivity|].
  destruct (mul_spec zx zy fx fy _ Hx Hy (honest_pos_ok _ _ _ _)) as [H|(_ & _ & H & H' & _)];
    [exact H|].
  unfold honest_pos in H. exps E M. rewrite H', Hex1 in H. Lia.lia.
Qed.

End Mul.
