(** Context.Add against IEEE addition. *)
From Coq Require Import ZArith Reals Bool List Lia Lra ZifyBool.
From Flocq Require Import Core Digits BinarySingleNaN.
From Verif Require Import Field FieldFacts Circuit Hints RangeCheck Gadget FloatModel
  CircuitFacts RangeFacts GadgetFacts RoundFacts Spec RoundCore RepFacts MulFacts SqrtFacts AddFacts
  Tactics.
Local Open Scope Z_scope.

Lemma abs_IZR_mult a r : (0 <= r)%R -> Rabs (IZR a * r) = (IZR (Z.abs a) * r)%R.
Proof. intros Hr. rewrite Rabs_mult, <- abs_IZR, (Rabs_pos_eq r) by exact Hr. reflexivity. Qed.

Lemma bpow_split e k : bpow radix2 e = (bpow radix2 (e - k) * bpow radix2 k)%R.
Proof. rewrite <- bpow_plus. f_equal. ring. Qed.

(** Rounding an exact multiple. *)
Lemma zround_exact M n q L : 0 <= q -> M + 2 <= L -> n = q * 2 ^ (L - M - 1) ->
  zround M n L 0 true = q.
Proof.
  intros Hq HL ->. unfold zround. rewrite Z.add_0_r.
  set (k := L - M - 1). pose proof (pow_pos k ltac:(unfold k; lia)) as Hk.
  pose proof (pow_pos (k - 1) ltac:(unfold k; lia)) as Hk1.
  rewrite Z.div_mul, Z.mod_mul by lia. unfold zcarry.
  destruct (Z.eqb_spec 0 (2 ^ (k - 1))); [lia|]. cbn [andb].
  destruct (Z.leb_spec (2 ^ (k - 1)) 0); [lia|]. cbn [Z.b2z]. rewrite Z.pow_0_r. ring.
Qed.

Section AddSpec.
Context {MOD : Modulus} {E M b : Z} {HP : Params E M b} {HF : Format E M}.
#[local] Instance as_width : Width b (4 * M + 44) := params_width E M b HP.
#[local] Instance as_big : BigMod := width_big b _ as_width.

Notation emax := (Spec.emax E).
Notation emin := (Spec.emin E M).
Notation rnd := (Generic_fmt.round radix2 (FLT_exp (Spec.emin E M) (Spec.prec M)) ZnearestE).

Definition val (z : zf) : R := (IZR (sv z) * bpow radix2 (ze z - M))%R.

Lemma val_sgn z : (sgn (zs z) * zmag (M:=M) z = val z)%R.
Proof. unfold val, zmag, sv. destruct (zs z); simpl; rewrite ?opp_IZR; ring. Qed.

(** A normal datum is not moved by adding less than a quarter of its ulp. *)
Lemma stable z d : 2 ^ M <= zm z < 2 ^ (M + 1) -> emin + M + 1 <= ze z ->
  (Rabs d < bpow radix2 (ze z - M - 2))%R -> rnd (zmag (M:=M) z + d) = zmag (M:=M) z.
Proof.
  intros Hm He Hd. destruct (fmt_M (E:=E) (M:=M)) as [HM [HM1 HM2]].
  pose proof (zmag_pos (E:=E) (M:=M) z ltac:(lia)) as Hp.
  pose proof (zmag_mag (E:=E) (M:=M) z Hm) as Hmag.
  set (u := zmag (M:=M) z) in *.
  assert (Hf1 : FLT_exp emin (Spec.prec M) (ze z + 1) = ze z - M).
  { unfold FLT_exp, Spec.prec. lia. }
  assert (Hf2 : FLT_exp emin (Spec.prec M) (ze z + 1 - 1) = ze z - M - 1).
  { unfold FLT_exp, Spec.prec. lia. }
  assert (Hulp : ulp radix2 (FLT_exp emin (Spec.prec M)) u = bpow radix2 (ze z - M)).
  { rewrite ulp_neq_0 by lra. unfold cexp. rewrite Hmag, Hf1. reflexivity. }
  assert (HF' : generic_format radix2 (FLT_exp emin (Spec.prec M)) u).
  { unfold u, zmag. apply generic_format_F2R' with (f := Float radix2 (zm z) (ze z - M)).
    - reflexivity.
    - intros _. unfold cexp. fold (zmag (M:=M) z). fold u. rewrite Hmag, Hf1. simpl. lia. }
  apply Rabs_def2 in Hd. destruct Hd as [Hd1 Hd2].
  assert (Hb1 : bpow radix2 (ze z - M) = (4 * bpow radix2 (ze z - M - 2))%R).
  { rewrite (bpow_split (ze z - M) 2). change (bpow radix2 2) with 4%R. ring. }
  assert (Hb2 : bpow radix2 (ze z - M - 1) = (2 * bpow radix2 (ze z - M - 2))%R).
  { rewrite (bpow_split (ze z - M - 1) 1). change (bpow radix2 1) with 2%R.
    replace (ze z - M - 1 - 1) with (ze z - M - 2) by ring. ring. }
  pose proof (bpow_gt_0 radix2 (ze z - M - 2)) as Hb0.
  apply Rle_antisym.
  - apply round_N_le_midp; [typeclasses eauto|exact HF'|].
    rewrite succ_eq_pos by lra. rewrite Hulp. lra.
  - apply round_N_ge_midp; [typeclasses eauto|exact HF'|].
    rewrite pred_eq_pos by lra. unfold pred_pos. rewrite Hmag, Hf2, Hulp.
    destruct (Req_bool _ _); lra.
Qed.

Section Finite.
Variables (x y : zf) (fx fy : fmt E M).
Hypotheses (Hx : zrep E M x fx) (Hy : zrep E M y fy)
  (Fx : is_finite fx = true) (Fy : is_finite fy = true).

Let top := Z.max (ze x) (ze y).
Let g0 := top - 2 * M - 3.

(** The sum the circuit computes. *)
Definition add_c : R := (IZR (add_s M x y) * bpow radix2 g0)%R.

Lemma add_close : Z.abs (ze y - ze x) <= M + 3 -> (val x + val y = add_c)%R.
Proof.
  intros Hz. destruct (fmt_M (E:=E) (M:=M)) as [HM _].
  unfold add_c, add_s, val. rewrite plus_IZR, !mult_IZR.
  rewrite !IZR_pow2 by (unfold add_D; Lia.lia).
  replace (bpow radix2 (M + 3) * 1)%R with (bpow radix2 (M + 3)) by ring.
  rewrite Rmult_plus_distr_r, !Rmult_assoc, <- !bpow_plus.
  unfold add_lo, add_hi, add_D, g0, top.
  destruct (Z.leb_spec (ze x) (ze y)).
  - replace (Z.max (M + 3 - Z.abs (ze y - ze x)) 0 + (Z.max (ze x) (ze y) - 2 * M - 3)) with (ze x - M) by Lia.lia.
    replace (M + 3 + (Z.max (ze x) (ze y) - 2 * M - 3)) with (ze y - M) by Lia.lia. reflexivity.
  - replace (Z.max (M + 3 - Z.abs (ze y - ze x)) 0 + (Z.max (ze x) (ze y) - 2 * M - 3)) with (ze y - M) by Lia.lia.
    replace (M + 3 + (Z.max (ze x) (ze y) - 2 * M - 3)) with (ze x - M) by Lia.lia. ring.
Qed.

(** Operands too far apart to overlap: both sums round to the larger operand. *)
Lemma far z w (fz fw : fmt E M) d : zrep E M z fz -> zrep E M w fw ->
  is_finite fz = true -> is_finite fw = true ->
  ze w + M + 3 < ze z ->
  (0 <= d <= bpow radix2 (ze z - 2 * M - 3))%R ->
  rnd (val z + IZR (sv w) * d) = val z /\ zfin (E:=E) (M:=M) z /\
  (Rabs (IZR (sv w) * d) < zmag (M:=M) z)%R.
Proof.
  intros Hz Hw Fz Fw Hg Hd. destruct (fmt_M (E:=E) (M:=M)) as [HM [HM1 HM2]].
  pose proof (zrep_zwf _ _ Hz) as Wz. pose proof (zrep_zwf _ _ Hw) as Ww.
  destruct (zrep_B2R z fz Hz Fz) as (_ & _ & Az & Cz).
  assert (Hzf : zfin (E:=E) (M:=M) z).
  { destruct Cz as [Cz|[_ Cz]]; [exact Cz|]. exfalso. destruct Ww as [Ww _]. lia. }
  destruct Hzf as (_ & Hm & He).
  assert (Hlow : emin + M + 1 <= ze z) by (destruct Ww as [Ww _]; lia).
  destruct (sv_range (E:=E) (M:=M) w Ww) as (S1 & _ & S3).
  assert (Hsmall : (Rabs (IZR (sv w) * d) < bpow radix2 (ze z - M - 2))%R).
  { rewrite abs_IZR_mult by lra. rewrite S1.
    rewrite (bpow_split (ze z - M - 2) (M + 1)).
    replace (ze z - M - 2 - (M + 1)) with (ze z - 2 * M - 3) by ring.
    rewrite <- (IZR_pow2 (M + 1)) by lia.
    assert (0 <= IZR (zm w) < IZR (2 ^ (M + 1)))%R by (split; [apply IZR_le|apply IZR_lt]; lia).
    pose proof (bpow_gt_0 radix2 (ze z - 2 * M - 3)).
    apply Rle_lt_trans with (IZR (zm w) * bpow radix2 (ze z - 2 * M - 3))%R.
    - apply Rmult_le_compat_l; lra.
    - rewrite (Rmult_comm (bpow radix2 _)). apply Rmult_lt_compat_r; lra. }
  split; [|split].
  - rewrite <- val_sgn.
    replace (sgn (zs z) * zmag (M:=M) z + IZR (sv w) * d)%R
      with (sgn (zs z) * (zmag (M:=M) z + sgn (zs z) * (IZR (sv w) * d)))%R.
    2:{ rewrite Rmult_plus_distr_l, <- (Rmult_assoc (sgn (zs z)) (sgn (zs z))), sgn_sq. ring. }
    rewrite rnd_sgn. f_equal. apply stable; [exact Hm|exact Hlow|].
    rewrite sgn_abs. exact Hsmall.
  - unfold zfin. auto.
  - apply Rlt_le_trans with (1 := Hsmall). unfold zmag.
    rewrite (bpow_split (ze z - M) (ze z - M - (ze z - M - 2))).
    replace (ze z - M - (ze z - M - (ze z - M - 2))) with (ze z - M - 2) by ring.
    replace (ze z - M - (ze z - M - 2)) with 2 by ring. change (bpow radix2 2) with 4%R.
    pose proof (bpow_gt_0 radix2 (ze z - M - 2)).
    assert (1 <= IZR (zm z))%R by (apply IZR_le; lia). nra.
Qed.

(** In all cases the two sums round alike and have the same sign. *)
Lemma add_round_same :
  rnd (val x + val y) = rnd add_c /\
  ((0 < val x + val y)%R <-> 0 < add_s M x y) /\
  ((val x + val y < 0)%R <-> add_s M x y < 0) /\
  ((val x + val y)%R = add_c \/
   emin + M + 3 <= top /\ 2 ^ (2 * M + 2) <= Z.abs (add_s M x y)).
Proof.
  destruct (fmt_M (E:=E) (M:=M)) as [HM [HM1 HM2]].
  assert (Hsg : forall r g, ((0 < IZR r * bpow radix2 g)%R <-> 0 < r) /\
                            ((IZR r * bpow radix2 g < 0)%R <-> r < 0)).
  { intros r g. pose proof (bpow_gt_0 radix2 g) as Hb.
    split; split; intros H.
    - apply lt_IZR. apply Rmult_lt_reg_r with (1 := Hb). lra.
    - apply Rmult_lt_0_compat; [apply IZR_lt; exact H|exact Hb].
    - apply lt_IZR. apply Rmult_lt_reg_r with (1 := Hb). lra.
    - assert (IZR r < 0)%R by (apply IZR_lt; exact H). nra. }
  destruct (Z_le_gt_dec (Z.abs (ze y - ze x)) (M + 3)) as [Hc|Hc].
  { pose proof (add_close Hc) as Hcl. rewrite Hcl. split; [reflexivity|].
    unfold add_c. split; [apply Hsg|]. split; [apply Hsg|]. left. reflexivity. }
  assert (Hgo : forall z w (fz fw : fmt E M), zrep E M z fz -> zrep E M w fw ->
     is_finite fz = true -> is_finite fw = true -> ze w + M + 3 < ze z ->
     (val x + val y)%R = (val z + IZR (sv w) * bpow radix2 (ze w - M))%R ->
     add_s M x y = sv w + sv z * 2 ^ (M + 3) -> top = ze z ->
     rnd (val x + val y) = rnd add_c /\
     ((0 < val x + val y)%R <-> 0 < add_s M x y) /\
     ((val x + val y < 0)%R <-> add_s M x y < 0) /\
     (emin + M + 3 <= top /\ 2 ^ (2 * M + 2) <= Z.abs (add_s M x y))).
  { intros z w fz fw Hz Hw Fz Fw Hg Hs1 Hs2 Ht.
    assert (Hac : add_c = (val z + IZR (sv w) * bpow radix2 (ze z - 2 * M - 3))%R).
    { unfold add_c, val, g0. rewrite Hs2, Ht, plus_IZR, mult_IZR, IZR_pow2 by lia.
      rewrite Rmult_plus_distr_r, Rmult_assoc, <- bpow_plus.
      replace (M + 3 + (ze z - 2 * M - 3)) with (ze z - M) by ring. ring. }
    destruct (far z w fz fw (bpow radix2 (ze w - M)) Hz Hw Fz Fw Hg) as (R1 & Zf & R2).
    { split; [apply bpow_ge_0|apply bpow_le; lia]. }
    destruct (far z w fz fw (bpow radix2 (ze z - 2 * M - 3)) Hz Hw Fz Fw Hg) as (R3 & _ & R4).
    { split; [apply bpow_ge_0|lra]. }
    split; [rewrite Hs1, Hac, R1, R3; reflexivity|].
    destruct Zf as (_ & Zm & Ze).
    pose proof (zrep_zwf _ _ Hw) as Ww. pose proof (zrep_zwf _ _ Hz) as Wz.
    destruct (sv_range (E:=E) (M:=M) w Ww) as (S1 & _ & S3).
    destruct (sv_range (E:=E) (M:=M) z Wz) as (T1 & _ & T3).
    destruct (add_pows (E:=E) (M:=M) (b:=b)) as (P3 & P23 & P24 & P25 & _ & _).
    pose proof (val_sgn z) as Hvz.
    pose proof (zmag_pos (E:=E) (M:=M) z ltac:(lia)) as Hpz.
    apply Rabs_def2 in R2. destruct R2 as [R2a R2b].
    assert (P22 : 2 ^ (2 * M + 2) = 4 * (2 ^ M * 2 ^ M)).
    { rewrite <- Z.pow_add_r by lia. change 4 with (2 ^ 2). rewrite <- Z.pow_add_r by lia. f_equal. ring. }
    assert (Hsz : (if zs z then sv z = - zm z else sv z = zm z)) by (unfold sv; destruct (zs z); reflexivity).
    rewrite Hs1, Hs2, P22, P3, HM2 in *. clear - Hvz R2a R2b Hpz Hsz S1 S3 T1 T3 Zm HM1 HM Ht Hg Ww.
    set (p := 2 ^ M) in *.
    assert (Hpp : 16 <= p) by (change 16 with (2 ^ 4); apply pow2_mono; lia). clearbody p.
    assert (Hb : zm z * (8 * p) >= 8 * (p * p) /\ zm w <= p * p) by nia.
    assert (Hdec : if zs z then sv w + sv z * (8 * p) < 0 else 0 < sv w + sv z * (8 * p)).
    { destruct (zs z); rewrite Hsz; nia. }
    destruct (zs z); simpl in Hvz.
    - split; [split; [lra|lia]|]. split; [split; [lia|lra]|].
      split; [destruct Ww as [Ww _]; lia|]. rewrite Hsz in *. nia.
    - split; [split; [lia|lra]|]. split; [split; [lra|lia]|].
      split; [destruct Ww as [Ww _]; lia|]. rewrite Hsz in *. nia. }
  assert (HD : add_D M x y = 0) by (unfold add_D; Lia.lia).
  assert (Hlast : (val x + val y)%R = add_c \/
     emin + M + 3 <= top /\ 2 ^ (2 * M + 2) <= Z.abs (add_s M x y) ->
     True) by (intros _; exact I). clear Hlast.
  destruct (Z_le_gt_dec (ze x) (ze y)) as [Hl|Hl].
  - destruct (Hgo y x fy fx Hy Hx Fy Fx) as (G1 & G2 & G3 & G4); [lia| | |unfold top; lia|auto].
    + unfold val. ring.
    + unfold add_s, add_lo, add_hi. destruct (Z.leb_spec (ze x) (ze y)); [|lia]. rewrite HD. ring.
  - destruct (Hgo x y fx fy Hx Hy Fx Fy) as (G1 & G2 & G3 & G4); [lia| | |unfold top; lia|auto].
    + unfold val. ring.
    + unfold add_s, add_lo, add_hi. destruct (Z.leb_spec (ze x) (ze y)); [lia|]. rewrite HD. ring.
Qed.

(** Every finite value is a multiple of the smallest subnormal. *)
Lemma val_multiple z (f : fmt E M) : zrep E M z f -> is_finite f = true ->
  exists j, val z = (IZR j * bpow radix2 emin)%R.
Proof.
  intros Hz Ff. destruct (zrep_B2R z f Hz Ff) as (Hv & _).
  rewrite val_sgn in Hv. rewrite <- Hv. clear Hv Hz.
  destruct f as [s|s| |s m e H]; try discriminate.
  - exists 0. cbn. lra.
  - destruct (bounded_facts m e H) as (_ & He & _).
    exists (cond_Zopp s (Zpos m) * 2 ^ (e - emin)). cbn [B2R].
    unfold F2R. cbn [Fnum Fexp]. rewrite mult_IZR, IZR_pow2 by lia.
    rewrite Rmult_assoc, <- bpow_plus. do 2 f_equal. ring.
Qed.

Lemma add_rounded : add_s M x y <> 0 ->
  rnd (Rabs add_c) = (IZR (add_zr M x y (add_shift M x y))
                      * bpow radix2 (add_e x y (add_shift M x y) - M))%R.
Proof.
  intros Hs0. destruct (fmt_M (E:=E) (M:=M)) as [HM [HM1 HM2]]. exps E M.
  pose proof (zrep_zwf _ _ Hx) as Wx. pose proof (zrep_zwf _ _ Hy) as Wy.
  destruct (add_norm (b:=b) x y Wx Wy Hs0) as [Hn Hsh].
  destruct add_round_same as (_ & _ & _ & Hcase).
  set (sh := add_shift M x y) in *. set (e := add_e x y sh) in *.
  set (n := Z.abs (add_s M x y) * 2 ^ sh) in *.
  set (g := e - (2 * M + 4)).
  assert (Hg : g = g0 - sh) by (unfold g, e, add_e, g0, top; ring).
  assert (Hval : Rabs add_c = (IZR n * bpow radix2 g)%R).
  { unfold add_c. rewrite abs_IZR_mult by apply bpow_ge_0.
    unfold n. rewrite mult_IZR, IZR_pow2, Rmult_assoc, <- bpow_plus by lia.
    do 2 f_equal. lia. }
  unfold add_zr. fold n.
  destruct (Z_le_gt_dec (E_NORMAL_MIN E) e) as [Hnorm|Hsub].
  - replace (zround M n (2 * M + 5) 0 true)
      with (zround M n (2 * M + 5) (zshift (E:=E) (g + (2 * M + 5) - 1) 0) true)
      by (f_equal; unfold zshift; clear; Lia.lia).
    replace (e - M) with (g + (2 * M + 5) - 1 - M) by (unfold g; ring).
    pose proof (pow_pos (2 * M + 4) ltac:(lia)).
    apply round_core.
    + lia.
    + lia.
    + replace (2 * M + 5 - 1) with (2 * M + 4) by ring. exact Hn.
    + rewrite Hval. pose proof (bpow_gt_0 radix2 g). rewrite plus_IZR. split; nra.
    + intros _. exact Hval.
    + discriminate.
    + lia.
    + right. unfold g. lia.
  - (* the sum is exact *)
    assert (Hex : (val x + val y)%R = add_c).
    { destruct Hcase as [Hc|[Hc1 Hc2]]; [exact Hc|]. exfalso.
      assert (2 * M + 2 <= Z.log2 (Z.abs (add_s M x y))).
      { rewrite <- (Z.log2_pow2 (2 * M + 2)) by lia. apply Z.log2_le_mono. exact Hc2. }
      assert (sh <= 2).
      { unfold sh, add_shift. destruct (Z.eqb_spec (add_s M x y) 0); lia. }
      assert (top - 1 <= e) by (unfold e, add_e; fold top; lia).
      lia. }
    destruct (val_multiple x fx Hx Fx) as [jx Hjx].
    destruct (val_multiple y fy Hy Fy) as [jy Hjy].
    set (j := Z.abs (jx + jy)).
    assert (Hj : Rabs add_c = (IZR j * bpow radix2 emin)%R).
    { rewrite <- Hex, Hjx, Hjy, <- Rmult_plus_distr_r, <- plus_IZR.
      apply abs_IZR_mult, bpow_ge_0. }
    assert (Hnj : n = j * 2 ^ (emin - g)).
    { apply eq_IZR. rewrite mult_IZR, IZR_pow2 by (unfold g; lia).
      apply Rmult_eq_reg_r with (bpow radix2 g); [|apply Rgt_not_eq, bpow_gt_0].
      rewrite Rmult_assoc, <- bpow_plus. replace (emin - g + g) with emin by ring.
      rewrite <- Hval. exact Hj. }
    set (q := j * 2 ^ (emin - g - (M + 4))).
    assert (Hq : n = q * 2 ^ (2 * M + 5 - M - 1)).
    { rewrite Hnj. unfold q. rewrite <- Z.mul_assoc, <- Z.pow_add_r by (unfold g; lia).
      do 2 f_equal. ring. }
    assert (Hq0 : 0 <= q) by (unfold q, j; apply Z.mul_nonneg_nonneg; [lia|apply Z.pow_nonneg; lia]).
    rewrite (zround_exact M n q (2 * M + 5) Hq0 ltac:(lia) Hq).
    assert (Hqv : Rabs add_c = (IZR q * bpow radix2 (e - M))%R).
    { rewrite Hval, Hq, mult_IZR, IZR_pow2 by lia. rewrite Rmult_assoc, <- bpow_plus.
      do 2 f_equal. unfold g. ring. }
    rewrite <- Hqv. apply round_generic; [typeclasses eauto|].
    apply generic_format_FLT. exists (Float radix2 j emin).
    + exact Hj.
    + cbn [Fnum]. unfold Spec.prec.
      assert (Hjn : n = j * 2 ^ (emin - g - (M + 4)) * 2 ^ (M + 4)) by (rewrite Hq; do 2 f_equal; ring).
      assert (P : 2 ^ (2 * M + 5) = 2 ^ (M + 1) * 2 ^ (M + 4)) by (rewrite <- Z.pow_add_r by lia; f_equal; ring).
      pose proof (pow_pos (emin - g - (M + 4)) ltac:(unfold g; lia)).
      pose proof (pow_pos (M + 4) ltac:(lia)).
      change (radix2 : Z) with 2. rewrite Z.abs_eq by (unfold j; lia).
      rewrite P, Hjn in Hn. assert (0 <= j) by (unfold j; lia).
      clear - Hn H H0 H1. generalize dependent (2 ^ (M + 4)). intros c Hn Hc.
      generalize dependent (2 ^ (emin - g - (M + 4))). intros d Hn Hd.
      assert (j * d < 2 ^ (M + 1)) by nia. nia.
    + cbn [Fexp]. lia.
Qed.

(** Result of adding finite operands. *)
Lemma add_finite c2 shift pos : add_choice E M x y c2 shift pos ->
  zrep E M (zadd E M x y c2 shift pos) (ieee_add E M fx fy) \/
  (pos = false /\ add_e x y shift + Z.b2z (add_zr M x y shift =? 2 ^ (M + 1)) = emax /\
   exists s, ieee_add E M fx fy = B754_infinity s /\
     malformed (E:=E) (M:=M) s (zadd E M x y c2 shift pos)) \/
  (zs x <> zs y /\ add_s M x y = 0 /\ (B2R fx = - B2R fy)%R /\
   ieee_add E M fx fy = B754_zero false /\
   (pos = false /\ zrep E M (zadd E M x y c2 shift pos) (B754_zero (negb c2)) \/
    pos = true /\ shift = 0 /\ ze x = emax - 1 /\
      zrep E M (zadd E M x y c2 shift pos) (B754_infinity (negb c2)))).
Proof.
  intros Hch. destruct (fmt_M (E:=E) (M:=M)) as [HM [HM1 HM2]]. exps E M.
  pose proof (zrep_zwf _ _ Hx) as Wx. pose proof (zrep_zwf _ _ Hy) as Wy.
  destruct (zrep_B2R x fx Hx Fx) as (Vx & Sx & Ax & Cx).
  destruct (zrep_B2R y fy Hy Fy) as (Vy & Sy & Ay & Cy).
  rewrite val_sgn in Vx, Vy.
  destruct add_round_same as (R1 & R2 & R3 & R4).
  pose proof (Bplus_correct (Spec.prec M) (Spec.emax E) _ _ mode_NE fx fy Fx Fy) as HB.
  change (Generic_fmt.round radix2 (SpecFloat.fexp (Spec.prec M) (Spec.emax E)) (round_mode mode_NE)
    (B2R fx + B2R fy)) with (rnd (B2R fx + B2R fy)) in HB.
  fold (ieee_add E M fx fy) in HB.
  destruct Hch as (Hpin & Hsh & Hpos).
  destruct (Z.eq_dec (add_s M x y) 0) as [Hs0|Hs0].
  - (* exact cancellation *)
    assert (HS0 : (val x + val y)%R = 0%R).
    { destruct (Rtotal_order (val x + val y) 0) as [Hlt|[Heq|Hgt]]; [|exact Heq|].
      - apply R3 in Hlt. lia.
      - apply R2 in Hgt. lia. }
    assert (Hz : ieee_add E M fx fy = B754_zero (Bsign fx && Bsign fy)).
    { rewrite Vx, Vy, HS0, rnd_0, Rabs_R0 in HB.
      rewrite Rlt_bool_true in HB by apply bpow_gt_0.
      rewrite Rcompare_Eq in HB by reflexivity.
      destruct HB as (B1 & B2 & B3). apply zrep_zero_intro; assumption. }
    destruct (add_zr_range (b:=b) x y Wx Wy shift (or_introl Hs0)) as (_ & Hzr & _).
    specialize (Hzr Hs0). rewrite Hzr in Hpos.
    assert (Hmm : zs x <> zs y \/ zs x = zs y /\ ze x = emin - 1 /\ ze y = emin - 1).
    { destruct (Bool.bool_dec (zs x) (zs y)) as [He|He]; [right|left; exact He].
      split; [exact He|].
      assert (zm x = 0 /\ zm y = 0) as [Zx Zy].
      { pose proof (val_sgn x) as Qx. pose proof (val_sgn y) as Qy. rewrite <- He in Qy.
        assert (Nx : (0 <= zmag (M:=M) x)%R).
        { unfold zmag. apply Rmult_le_pos; [apply IZR_le; destruct Wx; lia|apply bpow_ge_0]. }
        assert (Ny : (0 <= zmag (M:=M) y)%R).
        { unfold zmag. apply Rmult_le_pos; [apply IZR_le; destruct Wy; lia|apply bpow_ge_0]. }
        assert (zmag (M:=M) x = 0 /\ zmag (M:=M) y = 0)%R as [Zx Zy]
          by (destruct (zs x); simpl in Qx, Qy; lra).
        split.
        - destruct Cx as [(_ & Cx & _)|[Cx _]]; [|exact Cx].
          pose proof (zmag_pos (E:=E) (M:=M) x ltac:(lia)). lra.
        - destruct Cy as [(_ & Cy & _)|[Cy _]]; [|exact Cy].
          pose proof (zmag_pos (E:=E) (M:=M) y ltac:(lia)). lra. }
      destruct Cx as [(_ & Cx & _)|[_ Cx]]; [lia|].
      destruct Cy as [(_ & Cy & _)|[_ Cy]]; [lia|]. auto. }
    assert (Hov : (0 =? 2 ^ (M + 1)) = false) by (apply Z.eqb_neq; lia).
    assert (Hzz : zadd E M x y c2 shift pos
      = mkZ (if Bool.eqb (zs x) (zs y) then zs x else negb c2)
          (if pos then emax else emin - 1) (if pos then 2 ^ M else 0) pos).
    { unfold zadd, zfix. rewrite Hzr, Ax, Ay, Hov, Hs0, Hex1, Hex3. cbn [orb]. rewrite !orb_false_r.
      change (0 =? 0) with true. reflexivity. }
    unfold fix_pos_ok in Hpos. rewrite Hov in Hpos. cbn [Z.b2z] in Hpos.
    destruct Hmm as [Hne|(Heq & Ex & Ey)].
    + right. right. split; [exact Hne|]. split; [exact Hs0|]. split; [rewrite Vx, Vy; lra|].
      split.
      { rewrite Hz, Sx, Sy. f_equal. destruct (zs x), (zs y); try reflexivity; congruence. }
      rewrite Hzz. replace (Bool.eqb (zs x) (zs y)) with false
        by (symmetry; apply Bool.eqb_false_iff; exact Hne).
      destruct pos; [right|left; split; reflexivity].
      split; [reflexivity|].
      assert (Htop : top <= emax - 1).
      { unfold top. destruct Cx as [(_ & _ & Cx)|[_ Cx]], Cy as [(_ & _ & Cy)|[_ Cy]]; lia. }
      assert (Hpe : E_MAX E <= add_e x y shift).
      { rewrite Z.add_0_r in Hpos. destruct (Z_le_gt_dec (E_MAX E) (add_e x y shift)); [assumption|].
        exfalso. assert (true = false) by (apply Hpos; lia). discriminate. }
      unfold add_e in Hpe. fold top in Hpe. rewrite Hex1 in Hpe.
      assert (Hxy : ze x = ze y).
      { assert (zmag (M:=M) x = zmag (M:=M) y).
        { pose proof (val_sgn x) as Qx. pose proof (val_sgn y) as Qy.
          destruct (zs x), (zs y); simpl in Qx, Qy; try congruence; lra. }
        destruct Cx as [(_ & Cx & _)|[Cx1 Cx2]], Cy as [(_ & Cy & _)|[Cy1 Cy2]].
        - pose proof (zmag_mag (E:=E) (M:=M) x Cx) as M1. pose proof (zmag_mag (E:=E) (M:=M) y Cy) as M2.
          rewrite H in M1. lia.
        - exfalso. pose proof (zmag_pos (E:=E) (M:=M) x ltac:(lia)).
          unfold zmag in H at 2. rewrite Cy1 in H. lra.
        - exfalso. pose proof (zmag_pos (E:=E) (M:=M) y ltac:(lia)).
          unfold zmag in H at 1. rewrite Cx1 in H. lra.
        - lia. }
      split; [lia|]. split; [unfold top in *; lia|]. reflexivity.
    + left. rewrite Hz, Sx, Sy, Hzz, Heq, Bool.eqb_reflx, Bool.andb_diag.
      assert (pos = false) as ->; [|reflexivity].
      apply Hpos. unfold add_e. rewrite Ex, Ey, Hex1. lia.
  - (* a non-zero sum *)
    destruct (Hpin Hs0) as [Hc2 Hshift]. subst shift.
    pose proof (add_rounded Hs0) as Hrd.
    set (sg := add_s M x y <? 0).
    assert (HS : (val x + val y = sgn sg * Rabs (val x + val y))%R /\ (val x + val y <> 0)%R /\
                 (sg = true <-> (val x + val y < 0)%R)).
    { unfold sg. destruct (Z.ltb_spec (add_s M x y) 0) as [Hlt|Hge].
      - apply R3 in Hlt. rewrite Rabs_left by exact Hlt. simpl. split; [lra|]. split; [lra|]. tauto.
      - assert (Hgt : 0 < add_s M x y) by lia. apply R2 in Hgt.
        rewrite Rabs_pos_eq by lra. simpl. split; [lra|]. split; [lra|].
        split; [discriminate|lra]. }
    destruct HS as (HS1 & HS2 & HS3).
    assert (Hsame : zs x = zs y -> zs x = sg).
    { intros He. pose proof (val_sgn x) as Qx. pose proof (val_sgn y) as Qy. rewrite <- He in Qy.
      assert (Nx : (0 <= zmag (M:=M) x)%R).
      { unfold zmag. apply Rmult_le_pos; [apply IZR_le; destruct Wx; lia|apply bpow_ge_0]. }
      assert (Ny : (0 <= zmag (M:=M) y)%R).
      { unfold zmag. apply Rmult_le_pos; [apply IZR_le; destruct Wy; lia|apply bpow_ge_0]. }
      destruct (zs x); simpl in Qx, Qy.
      - symmetry. apply HS3. lra.
      - destruct sg; [|reflexivity]. assert (val x + val y < 0)%R by (apply HS3; reflexivity). lra. }
    assert (Hop : op_result (ieee_add E M fx fy) sg (sgn sg * Rabs (val x + val y))).
    { rewrite <- HS1. unfold op_result. rewrite Vx, Vy in HB.
      destruct (Rlt_bool _ _).
      - destruct HB as (B1 & B2 & B3). split; [exact B1|]. split; [exact B2|].
        rewrite B3. destruct sg.
        + rewrite Rcompare_Lt; [reflexivity|]. apply HS3. reflexivity.
        + rewrite Rcompare_Gt; [reflexivity|].
          destruct (Rtotal_order (val x + val y) 0) as [Hlt|[Heq|Hgt]]; [|contradiction|exact Hgt].
          apply HS3 in Hlt. discriminate.
      - destruct HB as [B1 B2]. rewrite <- (Hsame ltac:(congruence)), <- Sx. exact B1. }
    destruct (add_zr_range (b:=b) x y Wx Wy (add_shift M x y) (or_intror eq_refl)) as (Hzr1 & _ & Hzr2).
    specialize (Hzr2 Hs0).
    assert (Hout : zadd E M x y c2 (add_shift M x y) pos
      = fix_out (E:=E) (M:=M) sg (add_zr M x y (add_shift M x y)) (add_e x y (add_shift M x y)) false pos).
    { unfold zadd, fix_out. rewrite Ax, Ay. cbn [orb].
      replace (add_s M x y =? 0) with false by (symmetry; apply Z.eqb_neq; exact Hs0).
      replace (add_zr M x y (add_shift M x y) =? 0) with false by (symmetry; apply Z.eqb_neq; lia).
      destruct (zfix _ _ _ _ _) as [[m' e'] ab]. f_equal.
      destruct (Bool.eqb (zs x) (zs y)) eqn:Heq.
      - apply Hsame, Bool.eqb_prop, Heq.
      - rewrite Hc2. unfold sg. clear - Hs0. Lia.lia. }
    destruct (fix_spec (E:=E) (M:=M) (ieee_add E M fx fy) sg (Rabs (val x + val y))
       (add_zr M x y (add_shift M x y)) (add_e x y (add_shift M x y)) pos Hop) as [HL|HR].
    + rewrite round_NE_abs by typeclasses eauto. rewrite R1.
      rewrite <- round_NE_abs by typeclasses eauto. exact Hrd.
    + right. lia.
    + exact Hpos.
    + left. rewrite Hout. exact HL.
    + right. left. destruct HR as (Q1 & Q2 & Q3 & Q4). split; [exact Q2|]. split; [exact Q1|].
      exists sg. rewrite Hout. auto.
Qed.

End Finite.
(** An infinite operand dominates a finite one. *)
Lemma add_s_inf_l x y : zwf (E:=E) (M:=M) y -> zm x = 2 ^ M -> ze x = emax -> za y = false ->
  add_s M x y <> 0 /\ (0 <? add_s M x y) = negb (zs x).
Proof.
  intros Wy Hm He Ay. destruct (fmt_M (E:=E) (M:=M)) as [HM [HM1 HM2]]. exps E M.
  destruct (sv_range (E:=E) (M:=M) y Wy) as (S1 & _ & S3).
  assert (Hey : ze y < emax).
  { destruct Wy as [_ Wy]. rewrite Ay in Wy. lia. }
  destruct (add_pows (E:=E) (M:=M) (b:=b)) as (P3 & _).
  unfold add_s, add_lo, add_hi. destruct (Z.leb_spec (ze x) (ze y)); [lia|].
  assert (HD : 0 <= add_D M x y <= M + 2) by (unfold add_D; Lia.lia).
  assert (Hp : 0 < 2 ^ add_D M x y <= 2 ^ (M + 2)) by (split; [apply pow_pos; lia|apply pow2_mono; lia]).
  assert (P2 : 2 ^ (M + 2) = 4 * 2 ^ M) by (rewrite Z.pow_add_r by lia; change (2 ^ 2) with 4; ring).
  rewrite P2, P3, HM2 in *.
  assert (Hsx : sv x = if zs x then - 2 ^ M else 2 ^ M) by (unfold sv; rewrite Hm; reflexivity).
  clear - Hp S1 S3 HM1 Hsx. set (p := 2 ^ M) in *. set (d := 2 ^ add_D M x y) in *. clearbody p d.
  assert (Hb : - (8 * (p * p)) < sv y * d < 8 * (p * p)).
  { assert (- (2 * p) < sv y < 2 * p) by lia. nia. }
  destruct (zs x); rewrite Hsx; cbn [negb].
  - split; [nia|]. apply Z.ltb_ge. nia.
  - split; [nia|]. apply Z.ltb_lt. nia.
Qed.

Lemma add_s_comm x y : add_s M x y = add_s M y x.
Proof.
  unfold add_s, add_lo, add_hi.
  assert (HD : add_D M x y = add_D M y x).
  { unfold add_D. f_equal. replace (ze x - ze y) with (- (ze y - ze x)) by ring. rewrite Z.abs_opp. reflexivity. }
  rewrite HD. destruct (Z.leb_spec (ze x) (ze y)), (Z.leb_spec (ze y) (ze x)); try lia; [|reflexivity..].
  assert (HD3 : add_D M y x = Z.max (M + 3) 0) by (unfold add_D; Lia.lia).
  destruct (fmt_M (E:=E) (M:=M)) as [HM _].
  replace (Z.max (M + 3) 0) with (M + 3) in HD3 by lia. rewrite HD3. ring.
Qed.

Lemma add_spec x y fx fy c2 shift pos : zrep E M x fx -> zrep E M y fy ->
  add_choice E M x y c2 shift pos ->
  zrep E M (zadd E M x y c2 shift pos) (ieee_add E M fx fy) \/
  (is_finite fx = true /\ is_finite fy = true /\ 
   ((pos = false /\ add_e x y shift + Z.b2z (add_zr M x y shift =? 2 ^ (M + 1)) = emax /\
     exists s, ieee_add E M fx fy = B754_infinity s /\
       malformed (E:=E) (M:=M) s (zadd E M x y c2 shift pos)) \/
    (zs x <> zs y /\ add_s M x y = 0 /\ (B2R fx = - B2R fy)%R /\
     ieee_add E M fx fy = B754_zero false /\
     (pos = false /\ zrep E M (zadd E M x y c2 shift pos) (B754_zero (negb c2)) \/
      pos = true /\ shift = 0 /\ ze x = emax - 1 /\
        zrep E M (zadd E M x y c2 shift pos) (B754_infinity (negb c2)))))).
Proof.
  intros Hx Hy Hch. destruct (fmt_M (E:=E) (M:=M)) as [HM [HM1 HM2]]. exps E M.
  pose proof (zrep_zwf _ _ Hx) as Wx. pose proof (zrep_zwf _ _ Hy) as Wy.
  destruct (is_finite fx) eqn:Fx; [destruct (is_finite fy) eqn:Fy|].
  - destruct (add_finite x y fx fy Hx Hy Fx Fy c2 shift pos Hch) as [H|H]; [left; exact H|].
    right. auto.
  - left. destruct Hch as (Hpin & _).
    assert (Ay : za y = true).
    { destruct fy; try discriminate; cbn in Hy; [subst y|destruct Hy as [? ->]]; reflexivity. }
    destruct (zrep_B2R x fx Hx Fx) as (_ & _ & Ax & _).
    unfold zadd, zfix. rewrite Ax, Ay, Hex1. cbn [orb negb]. rewrite !orb_true_r.
    destruct fy as [sy|sy| |sy my ey Hy']; try discriminate.
    + cbn in Hy. subst y. cbn [zs ze zm za] in *.
      destruct (add_s_inf_l (mkZ sy emax (2 ^ M) true) x Wx eq_refl eq_refl Ax) as [N1 N2].
      rewrite add_s_comm in N1, N2. destruct (Hpin N1) as [-> _]. rewrite N2. cbn [zs]. rewrite negb_involutive.
      assert (Hr : ieee_add E M fx (B754_infinity sy) = B754_infinity sy).
      { destruct fx; try discriminate; reflexivity. }
      rewrite Hr. cbn [zrep]. f_equal.
      destruct (Bool.eqb (zs x) sy) eqn:He; [apply Bool.eqb_prop, He|reflexivity].
    + cbn in Hy. destruct Hy as [sy ->]. cbn [zs ze zm za].
      assert (Hr : ieee_add E M fx B754_nan = B754_nan) by (destruct fx; reflexivity).
      rewrite Hr. cbn [zrep]. eexists. reflexivity.
  - left. destruct Hch as (Hpin & _).
    assert (Ax : za x = true).
    { destruct fx; try discriminate; cbn in Hx; [subst x|destruct Hx as [? ->]]; reflexivity. }
    unfold zadd, zfix. rewrite Ax, Hex1. cbn [orb]. rewrite !orb_true_r.
    destruct fx as [sx|sx| |sx mx ex Hx']; try discriminate.
    + cbn in Hx. subst x. cbn [zs ze zm za] in *.
      destruct fy as [sy|sy| |sy my ey Hy'].
      * pose proof Hy as Hy2. cbn in Hy2. assert (Ay : za y = false) by (rewrite Hy2; reflexivity).
        destruct (add_s_inf_l (mkZ sx emax (2 ^ M) true) y Wy eq_refl eq_refl Ay) as [N1 N2].
        destruct (Hpin N1) as [-> _]. rewrite N2, Ay. cbn [zs negb orb]. rewrite negb_involutive.
        cbn [zrep ieee_add Bplus]. f_equal. destruct (Bool.eqb sx (zs y)); reflexivity.
      * cbn in Hy. subst y. cbn [zs ze zm za negb orb]. unfold sv. cbn [zs zm].
        destruct sx, sy; cbn [Bool.eqb ieee_add Bplus xorb zrep].
        -- rewrite Z.eqb_refl. reflexivity.
        -- replace (- 2 ^ M =? 2 ^ M) with false by (symmetry; apply Z.eqb_neq; lia). eexists. reflexivity.
        -- replace (2 ^ M =? - 2 ^ M) with false by (symmetry; apply Z.eqb_neq; lia). eexists. reflexivity.
        -- rewrite Z.eqb_refl. reflexivity.
      * cbn in Hy. destruct Hy as [sy ->]. cbn [zs ze zm za negb orb]. unfold sv. cbn [zs zm].
        replace ((if sx then - 2 ^ M else 2 ^ M) =? (if sy then -0 else 0)) with false
          by (symmetry; apply Z.eqb_neq; destruct sx, sy; lia).
        cbn. eexists. reflexivity.
      * destruct (zrep_finite _ _ _ _ _ Hy) as (_ & (Ay & _) & _).
        destruct (add_s_inf_l (mkZ sx emax (2 ^ M) true) y Wy eq_refl eq_refl Ay) as [N1 N2].
        destruct (Hpin N1) as [-> _]. rewrite N2, Ay. cbn [zs negb orb]. rewrite negb_involutive.
        change (ieee_add E M (B754_infinity sx) (B754_finite sy my ey Hy')) with (@B754_infinity (Spec.prec M) emax sx).
        cbn [zrep]. f_equal. destruct (Bool.eqb sx (zs y)); reflexivity.
    + cbn in Hx. destruct Hx as [sx ->]. cbn [zs ze zm za].
      assert (Hr : ieee_add E M B754_nan fy = B754_nan) by (destruct fy; reflexivity).
      rewrite Hr. cbn [zrep]. eexists. destruct (_ || _); reflexivity.
Qed.

Lemma max_cancel_exp x fx : zrep E M x fx -> is_finite fx = true ->
  (ze x = emax - 1 <-> (bpow radix2 (emax - 1) <= Rabs (B2R fx))%R).
Proof.
  intros Hx Fx. destruct (fmt_M (E:=E) (M:=M)) as [HM [HM1 HM2]]. exps E M.
  destruct (zrep_B2R x fx Hx Fx) as (V & _ & _ & C). rewrite V, sgn_abs.
  destruct C as [(_ & C1 & C2)|[C1 C2]].
  - pose proof (zmag_mag (E:=E) (M:=M) x C1) as Hm.
    pose proof (zmag_pos (E:=E) (M:=M) x ltac:(lia)) as Hp.
    rewrite Rabs_pos_eq by lra. split; intros H.
    + rewrite <- H. replace (ze x) with (mag radix2 (zmag (M:=M) x) - 1) by lia.
      pose proof (bpow_mag_le radix2 (zmag (M:=M) x) ltac:(lra)) as Hb.
      rewrite Rabs_pos_eq in Hb by lra. exact Hb.
    + assert (emax <= mag radix2 (zmag (M:=M) x)).
      { apply mag_ge_bpow. rewrite Rabs_pos_eq by lra. exact H. }
      lia.
  - split; intros H; [lia|]. exfalso. unfold zmag in H. rewrite C1, Rmult_0_l, Rabs_R0 in H.
    pose proof (bpow_gt_0 radix2 (emax - 1)). lra.
Qed.

Theorem add_complete x y (fx fy : fmt E M) : represents x fx -> represents y fy ->
  exists r, exec b (Add E M x y) = Some r /\
    (~ max_cancel E M fx fy -> represents r (ieee_add E M fx fy)) /\
    (max_cancel E M fx fy -> represents (E:=E) (M:=M) r (B754_infinity false)).
Proof.
  intros [x' [-> Hx]] [y' [-> Hy]]. rename x' into x, y' into y.
  pose proof (zrep_zwf _ _ Hx) as Wx. pose proof (zrep_zwf _ _ Hy) as Wy.
  exps E M. destruct (fmt_M (E:=E) (M:=M)) as [HM [HM1 HM2]].
  eexists. split; [exact (exec_Add x y Wx Wy)|].
  set (sh := add_shift M x y). set (c2 := 0 <=? add_s M x y).
  set (pos := honest_pos E M (add_zr M x y sh) (add_e x y sh)).
  assert (Hch : add_choice E M x y c2 sh pos).
  { split; [|split].
    - intros Hs. split; [unfold c2; clear - Hs; Lia.lia|reflexivity].
    - destruct (Z.eq_dec (add_s M x y) 0) as [H0|H0].
      + unfold sh, add_shift. rewrite H0. simpl. lia.
      + destruct (add_norm (b:=b) x y Wx Wy H0). unfold sh. lia.
    - apply honest_pos_ok. }
  assert (Hzero : add_s M x y = 0 -> sh = 0 /\ c2 = true /\ add_zr M x y sh = 0).
  { intros H0. split; [unfold sh, add_shift; rewrite H0; reflexivity|].
    split; [unfold c2; rewrite H0; reflexivity|].
    apply (add_zr_range (b:=b) x y Wx Wy sh (or_introl H0)), H0. }
  destruct (add_spec x y fx fy c2 sh pos Hx Hy Hch)
    as [H|(Fx & Fy & [(H1 & H2 & s & H3 & H4)|(H1 & H2 & H3 & H4 & H5)])].
  - split; [intros _; eexists; split; [reflexivity|exact H]|].
    intros (Fx & Fy & Hv & Hmax). exfalso.
    destruct (zrep_B2R x fx Hx Fx) as (V & S & A & C).
    destruct (zrep_B2R y fy Hy Fy) as (V' & S' & A' & C').
    rewrite (val_sgn x) in V. rewrite (val_sgn y) in V'.
    destruct (add_round_same x y fx fy Hx Hy Fx Fy) as (_ & R2 & R3 & _).
    assert (Hs0 : add_s M x y = 0).
    { rewrite V, V' in Hv. destruct (Z.lt_trichotomy (add_s M x y) 0) as [Hl|[He|Hg]]; [|exact He|].
      - apply R3 in Hl. lra.
      - apply R2 in Hg. lra. }
    destruct (Hzero Hs0) as (Z1 & Z2 & Z3).
    pose proof (proj2 (max_cancel_exp x fx Hx Fx) Hmax) as Ex.
    assert (Ey : ze y = emax - 1).
    { apply (max_cancel_exp y fy Hy Fy). rewrite <- Rabs_Ropp, <- Hv. exact Hmax. }
    assert (Hp : pos = true).
    { unfold pos, honest_pos. rewrite Z3, Z1. unfold add_e. rewrite Ex, Ey, Hex1.
      apply Z.leb_le. destruct (0 =? 2 ^ (M + 1)); cbn [Z.b2z]; lia. }
    assert (Hza : za (zadd E M x y c2 sh pos) = true).
    { unfold zadd, zfix. rewrite Hp. reflexivity. }
    assert (Fz : is_finite (ieee_add E M fx fy) = true).
    { pose proof (Bplus_correct (Spec.prec M) (Spec.emax E) _ _ mode_NE fx fy Fx Fy) as HB.
      change (Generic_fmt.round radix2 (SpecFloat.fexp (Spec.prec M) (Spec.emax E)) (round_mode mode_NE)
        (B2R fx + B2R fy)) with (rnd (B2R fx + B2R fy)) in HB.
      replace (B2R fx + B2R fy)%R with 0%R in HB by lra.
      rewrite rnd_0, Rabs_R0, Rlt_bool_true in HB by apply bpow_gt_0. apply HB. }
    destruct (zrep_B2R _ _ H Fz) as (_ & _ & Hza' & _). congruence.
  - exfalso. unfold pos, honest_pos in H1. rewrite H2, Hex1 in H1. clear - H1. Lia.lia.
  - destruct (Hzero H2) as (Z1 & Z2 & Z3). rewrite Z2 in H5 |- *. cbn [negb] in H5.
    rewrite H4. unfold max_cancel. destruct H5 as [(P & H5)|(P & _ & Ex & H5)].
    + split; [intros _; eexists; split; [reflexivity|exact H5]|].
      intros (_ & _ & _ & Hmax). exfalso.
      pose proof (proj2 (max_cancel_exp x fx Hx Fx) Hmax) as Ex.
      assert (Ey : ze y = emax - 1).
      { apply (max_cancel_exp y fy Hy Fy). rewrite <- Rabs_Ropp, <- H3. exact Hmax. }
      unfold pos, honest_pos in P. rewrite Z3, Z1 in P. unfold add_e in P. rewrite Ex, Ey, Hex1 in P.
      apply Z.leb_gt in P. destruct (0 =? 2 ^ (M + 1)); cbn [Z.b2z] in P; lia.
    + split; [|intros _; eexists; split; [reflexivity|exact H5]].
      intros Hn. exfalso. apply Hn. split; [exact Fx|]. split; [exact Fy|]. split; [exact H3|].
      apply (max_cancel_exp x fx Hx Fx), Ex.
Qed.

(** ** Negation and subtraction *)

Theorem neg_spec y (fy : fmt E M) : represents y fy -> represents (Neg y) (ieee_neg E M fy).
Proof.
  intros [z [-> Hz]].
  exists (mkZ (negb (zs z)) (ze z) (zm z) (za z)). split.
  - unfold Neg, embF. cbn [Sign Exponent Mantissa IsAbnormal zs ze zm za]. f_equal.
    rewrite fsub_emb. f_equal. destruct (zs z); reflexivity.
  - destruct fy as [s|s| |s m e H]; cbn in Hz |- *.
    + subst z. reflexivity.
    + subst z. reflexivity.
    + destruct Hz as [s ->]. cbn. eexists. reflexivity.
    + subst z. reflexivity.
Qed.

Lemma minus_plus_opp (fx fy : fmt E M) : ieee_sub E M fx fy = ieee_add E M fx (ieee_neg E M fy).
Proof.
  unfold ieee_sub, ieee_add, ieee_neg.
  destruct fx as [s|s| |s m e H], fy as [s'|s'| |s' m' e' H']; try reflexivity.
Qed.

End AddSpec.
