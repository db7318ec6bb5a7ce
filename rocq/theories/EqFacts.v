(** The equality assertions (float/float.go:310-445), [Abs] and [Select]. *)
From Coq Require Import ZArith Reals Bool List Lia Lra ZifyBool Classical_Prop.
From Flocq Require Import Core BinarySingleNaN.
From Verif Require Import Field FieldFacts Circuit Hints RangeCheck Gadget Util FloatModel
  CircuitFacts RangeFacts GadgetFacts RoundFacts Spec RoundCore RepFacts SqrtFacts AddFacts
  AddSpec Forge CmpFacts CompFacts NewFacts Tactics.
Local Open Scope Z_scope.

Definition zcore (x y : zf) : bool :=
  (ze x =? ze y) && ((zm x =? zm y) && Bool.eqb (za x) (za y)).

(** [y] follows [x] within a binade or at the start of the next one. *)
Definition zulp (M : Z) (x y : zf) : bool :=
  ((ze y =? ze x) && (zm y =? zm x + 1)) ||
  ((ze y =? ze x + 1) && ((zm y =? 2 ^ M) && (zm x =? 2 ^ (M + 1) - 1))).

Definition zsign_ok (x y : zf) : bool := (znan x || znan y) || Bool.eqb (zs x) (zs y).

Section Eq.
Context {MOD : Modulus} {E M b : Z} {HP : Params E M b} {HF : Format E M}.
Notation emax := (Spec.emax E).
Notation emin := (Spec.emin E M).
#[local] Instance We : Width b (4 * M + 44) := params_width E M b HP.
#[local] Instance Be : BigMod := width_big b _ _.

Lemma exec_assert_eqb u v : exec b (assert_eq u v) = if u =? v then Some tt else None.
Proof. reflexivity. Qed.

Lemma emb_b2z_eqb c d : (emb (Z.b2z c) =? emb (Z.b2z d)) = Bool.eqb c d.
Proof.
  rewrite !emb_b2z. destruct c, d; reflexivity.
Qed.

Section Comps.
Variables x y : zf.
Hypotheses (Hx : zwf (E:=E) (M:=M) x) (Hy : zwf (E:=E) (M:=M) y).

Lemma exec_sign n :
  exec b (assert_sign_equal (emb (Z.b2z n)) (embF x) (embF y))
  = if n || Bool.eqb (zs x) (zs y) then Some tt else None.
Proof.
  unfold assert_sign_equal. cbn [embF Sign]. do 2 xstep. rewrite exec_assert_eqb.
  destruct n; cbn [orb]; [rewrite Z.eqb_refl; reflexivity|].
  rewrite emb_b2z_eqb. reflexivity.
Qed.

Lemma sat_sign n u :
  sat b (assert_sign_equal (emb (Z.b2z n)) (embF x) (embF y)) u ->
  n || Bool.eqb (zs x) (zs y) = true.
Proof.
  unfold assert_sign_equal. cbn [embF Sign]. intros H. do 2 sstep H. apply sat_assert_eq in H.
  destruct n; [reflexivity|]. apply b2z_inj in H. rewrite H. cbn [orb]. apply eqb_reflx.
Qed.

Lemma core_wires :
  IsEq (fsub (Exponent (embF x)) (Exponent (embF y))) (emb 0) = emb (Z.b2z (ze x =? ze y)) /\
  IsEq (Mantissa (embF x)) (Mantissa (embF y)) = emb (Z.b2z (zm x =? zm y)) /\
  IsEq (IsAbnormal (embF x)) (IsAbnormal (embF y)) = emb (Z.b2z (Bool.eqb (za x) (za y))).
Proof.
  destruct (cmp_bounds (b:=b) x y Hx Hy) as (B1 & B2 & B3 & B4 & B5 & B6 & B7). exps E M.
  cbn [embF Exponent Mantissa IsAbnormal]. rewrite IsEq_b, fsub_emb, !IsEq_emb by lia.
  split; [|split; reflexivity]. do 2 f_equal. lia.
Qed.

Lemma exec_cond c :
  exec b (assert_cond_or_equal (emb (Z.b2z c)) (embF x) (embF y))
  = if c || zcore x y then Some tt else None.
Proof.
  destruct core_wires as (C1 & C2 & C3). unfold assert_cond_or_equal.
  rewrite C1, C2, C3. repeat xstep. rewrite exec_assert_eqb.
  change (emb 1) with (emb (Z.b2z true)). rewrite emb_b2z_eqb.
  unfold zcore. destruct (_ || _); reflexivity.
Qed.

Lemma sat_cond c u :
  sat b (assert_cond_or_equal (emb (Z.b2z c)) (embF x) (embF y)) u -> c || zcore x y = true.
Proof.
  destruct core_wires as (C1 & C2 & C3). unfold assert_cond_or_equal.
  rewrite C1, C2, C3. intros H. do 3 sstep H. apply sat_assert_eq in H.
  change (emb 1) with (emb (Z.b2z true)) in H. apply b2z_inj in H. exact H.
Qed.

Lemma exec_AssertIsEqual : exec b (AssertIsEqual (embF x) (embF y))
  = if zsign_ok x y && zcore x y then Some tt else None.
Proof.
  destruct (cmp_bounds (b:=b) x y Hx Hy) as (B1 & B2 & B3 & B4 & B5 & B6 & B7). exps E M.
  unfold AssertIsEqual. xs (exec_nan_either x y Hx Hy).
  rewrite exec_bind, exec_sign. fold (zsign_ok x y). destruct (zsign_ok x y); [|reflexivity].
  cbn [embF Exponent Mantissa IsAbnormal andb]. rewrite fsub_emb.
  rewrite exec_bind, exec_assert_eqb. unfold zcore.
  rewrite emb_eqb by lia. replace (ze x - ze y =? 0) with (ze x =? ze y) by lia.
  destruct (ze x =? ze y); [|reflexivity].
  rewrite exec_bind, exec_assert_eqb. rewrite emb_eqb by lia.
  destruct (zm x =? zm y); [|reflexivity].
  rewrite exec_assert_eqb, emb_b2z_eqb. destruct (Bool.eqb _ _); reflexivity.
Qed.

Lemma sat_AssertIsEqual u : sat b (AssertIsEqual (embF x) (embF y)) u ->
  zsign_ok x y && zcore x y = true.
Proof.
  destruct (cmp_bounds (b:=b) x y Hx Hy) as (B1 & B2 & B3 & B4 & B5 & B6 & B7). exps E M.
  unfold AssertIsEqual. intros H. apply sat_bind in H. destruct H as [n [Hn H]].
  apply (sat_nan_either x y Hx Hy) in Hn. subst n.
  apply sat_bind in H. destruct H as [[] [Hs H]]. apply sat_sign in Hs.
  apply sat_bind in H. destruct H as [[] [He H]]. apply sat_assert_eq in He.
  apply sat_bind in H. destruct H as [[] [Hm H]]. apply sat_assert_eq in Hm.
  apply sat_assert_eq in H. cbn [embF Exponent Mantissa IsAbnormal] in *.
  apply b2z_inj in H. apply emb_inj in Hm; [|lia]. rewrite fsub_emb in He. apply emb_inj in He; [|lia].
  unfold zsign_ok, zcore. rewrite Hs, Hm, H, Z.eqb_refl, eqb_reflx.
  replace (ze x) with (ze y) by lia. rewrite Z.eqb_refl. reflexivity.
Qed.

(** The comparison wires of AssertIsEqualOrULP. *)
Lemma ulp_wires :
  IsEq (Mantissa (embF x)) (fadd (Mantissa (embF y)) (emb 1)) = emb (Z.b2z (zm x =? zm y + 1)) /\
  IsEq (Mantissa (embF y)) (fadd (Mantissa (embF x)) (emb 1)) = emb (Z.b2z (zm y =? zm x + 1)) /\
  IsEq (Exponent (embF x)) (Exponent (embF y)) = emb (Z.b2z (ze x =? ze y)) /\
  IsEq (Mantissa (embF x)) (emb (2 ^ M)) = emb (Z.b2z (zm x =? 2 ^ M)) /\
  IsEq (Mantissa (embF y)) (fsub (emb (2 ^ (M + 1))) (emb 1)) = emb (Z.b2z (zm y =? 2 ^ (M + 1) - 1)) /\
  IsEq (Exponent (embF x)) (fadd (Exponent (embF y)) (emb 1)) = emb (Z.b2z (ze x =? ze y + 1)) /\
  IsEq (Mantissa (embF y)) (emb (2 ^ M)) = emb (Z.b2z (zm y =? 2 ^ M)) /\
  IsEq (Mantissa (embF x)) (fsub (emb (2 ^ (M + 1))) (emb 1)) = emb (Z.b2z (zm x =? 2 ^ (M + 1) - 1)) /\
  IsEq (Exponent (embF y)) (fadd (Exponent (embF x)) (emb 1)) = emb (Z.b2z (ze y =? ze x + 1)).
Proof.
  destruct (cmp_bounds (b:=b) x y Hx Hy) as (B1 & B2 & B3 & B4 & B5 & B6 & B7). exps E M.
  destruct (fmt_M (E:=E) (M:=M)) as [HM [HM1 HM2]].
  cbn [embF Exponent Mantissa IsAbnormal]. femb. rewrite !IsEq_emb by lia. repeat split.
Qed.

Definition zcmp : bool :=
  (((ze x =? ze y) && ((zm x =? zm y + 1) || (zm y =? zm x + 1))) ||
  (((ze x =? ze y + 1) && ((zm x =? 2 ^ M) && (zm y =? 2 ^ (M + 1) - 1))) ||
  ((ze y =? ze x + 1) && ((zm y =? 2 ^ M) && (zm x =? 2 ^ (M + 1) - 1))))).

Lemma zcmp_zulp : zcmp = zulp M x y || zulp M y x.
Proof.
  unfold zcmp, zulp. rewrite (Z.eqb_sym (ze y) (ze x)).
  destruct (ze x =? ze y), (ze x =? ze y + 1), (ze y =? ze x + 1), (zm x =? zm y + 1),
    (zm y =? zm x + 1), (zm x =? 2 ^ M), (zm y =? 2 ^ M), (zm x =? 2 ^ (M + 1) - 1), (zm y =? 2 ^ (M + 1) - 1); reflexivity.
Qed.

Lemma IsEq_true c : IsEq (emb (Z.b2z c)) (emb 1) = emb (Z.b2z c).
Proof. change (emb 1) with (emb (Z.b2z true)). rewrite IsEq_b. destruct c; reflexivity. Qed.

Lemma exec_AssertIsEqualOrULP : exec b (AssertIsEqualOrULP M (embF x) (embF y))
  = if zsign_ok x y && ((zulp M x y || zulp M y x) || zcore x y) then Some tt else None.
Proof.
  destruct ulp_wires as (U1 & U2 & U3 & U4 & U5 & U6 & U7 & U8 & U9).
  unfold AssertIsEqualOrULP. xs (exec_nan_either x y Hx Hy).
  rewrite exec_bind, exec_sign. fold (zsign_ok x y). destruct (zsign_ok x y); [|reflexivity].
  rewrite U1, U2, U3, U4, U5, U6, U7, U8, U9. repeat xstep. cbv zeta.
  rewrite IsEq_true, exec_cond. fold zcmp. rewrite zcmp_zulp. reflexivity.
Qed.

Lemma sat_AssertIsEqualOrULP u : sat b (AssertIsEqualOrULP M (embF x) (embF y)) u ->
  zsign_ok x y && ((zulp M x y || zulp M y x) || zcore x y) = true.
Proof.
  destruct ulp_wires as (U1 & U2 & U3 & U4 & U5 & U6 & U7 & U8 & U9).
  unfold AssertIsEqualOrULP. intros H. apply sat_bind in H. destruct H as [n [Hn H]].
  apply (sat_nan_either x y Hx Hy) in Hn. subst n.
  apply sat_bind in H. destruct H as [[] [Hs H]]. apply sat_sign in Hs.
  rewrite U1, U2, U3, U4, U5, U6, U7, U8, U9 in H. do 8 sstep H. cbv zeta in H.
  rewrite IsEq_true in H. apply sat_cond in H. fold zcmp in H. rewrite zcmp_zulp in H.
  unfold zsign_ok. rewrite Hs, H. reflexivity.
Qed.
End Comps.

Lemma znan_spec z (f : fmt E M) : zrep E M z f -> znan z = is_nan f.
Proof.
  destruct (fmt_M (E:=E) (M:=M)) as [HM [HM1 HM2]].
  destruct f as [s|s| |s m e H]; cbn [zrep]; intros Hz; unfold znan.
  - subst z. reflexivity.
  - subst z. cbn [za zm]. destruct (Z.eqb_spec (2 ^ M) 0); [lia|reflexivity].
  - destruct Hz as [s ->]. reflexivity.
  - subst z. reflexivity.
Qed.

Lemma zrep_fun z w (f : fmt E M) : is_nan f = false -> zrep E M z f -> zrep E M w f -> z = w.
Proof. destruct f; cbn [zrep is_nan]; intros Hn Hz Hw; congruence. Qed.

Lemma zeq_spec x y (fx fy : fmt E M) : zrep E M x fx -> zrep E M y fy ->
  (zsign_ok x y && zcore x y = true <-> fx = fy).
Proof.
  intros Hx Hy. pose proof (znan_spec x fx Hx) as Nx. pose proof (znan_spec y fy Hy) as Ny.
  unfold zsign_ok, zcore. split.
  - intros H. apply andb_true_iff in H. destruct H as [Hs Hc].
    apply andb_true_iff in Hc. destruct Hc as [He Hc]. apply andb_true_iff in Hc. destruct Hc as [Hm Ha].
    apply Z.eqb_eq in He, Hm. apply eqb_prop in Ha.
    assert (Hnn : znan x = znan y) by (unfold znan; rewrite Hm, Ha; reflexivity).
    destruct (znan x) eqn:Zx.
    + rewrite <- Hnn in Ny. destruct fx; try discriminate Nx. destruct fy; try discriminate Ny. reflexivity.
    + rewrite <- Hnn in Hs. cbn [orb] in Hs. apply eqb_prop in Hs.
      assert (Hxy : x = y) by (destruct x, y; cbn in *; congruence). subst y.
      exact (zrep_inj x fx fy Hx Hy).
  - intros <-. destruct (is_nan fx) eqn:Hn.
    + rewrite Nx. destruct fx; try discriminate Hn. cbn [zrep] in Hx, Hy.
      destruct Hx as [s ->], Hy as [t ->]. cbn [ze zm za orb]. rewrite Z.eqb_refl. reflexivity.
    + rewrite (zrep_fun x y fx Hn Hx Hy). rewrite !Z.eqb_refl, !eqb_reflx, orb_true_r. reflexivity.
Qed.

Theorem eq_spec x y (fx fy : fmt E M) : represents x fx -> represents y fy ->
  (sat b (AssertIsEqual x y) tt <-> fx = fy) /\ (exec b (AssertIsEqual x y) = Some tt <-> fx = fy).
Proof.
  intros [zx [-> Hx]] [zy [-> Hy]].
  pose proof (zrep_zwf _ _ Hx) as Wx. pose proof (zrep_zwf _ _ Hy) as Wy.
  rewrite <- (zeq_spec zx zy fx fy Hx Hy). rewrite (exec_AssertIsEqual zx zy Wx Wy).
  split; split.
  - apply (sat_AssertIsEqual zx zy Wx Wy).
  - intros H. apply exec_sat. rewrite (exec_AssertIsEqual zx zy Wx Wy), H. reflexivity.
  - destruct (_ && _); [reflexivity|discriminate].
  - intros ->. reflexivity.
Qed.

Lemma magv_zmag z (f : fmt E M) : zrep E M z f -> is_nan f = false ->
  magv E M f = zmag (M:=M) z /\ Bsign f = zs z.
Proof.
  intros Hz Hn. destruct (fmt_M (E:=E) (M:=M)) as [HM [HM1 HM2]].
  destruct (is_finite f) eqn:Hf.
  - destruct (zrep_B2R z f Hz Hf) as (H1 & H2 & H3 & H4). split; [|exact H2].
    assert (Hm : magv E M f = Rabs (B2R f)) by (destruct f; (discriminate Hf || reflexivity)).
    rewrite Hm, H1, sgn_abs. apply Rabs_pos_eq. unfold zmag.
    apply Rmult_le_pos; [|apply bpow_ge_0]. apply IZR_le.
    destruct H4 as [[_ [H4 _]]|[H4 _]]; lia.
  - destruct f as [s|s| |s m e H]; try discriminate. cbn [zrep] in Hz. subst z.
    cbn [magv Bsign zs zm ze]. split; [|reflexivity]. unfold zmag. cbn [zm ze].
    rewrite (IZR_pow2 M) by lia. rewrite <- bpow_plus. f_equal. lia.
Qed.

Lemma zmag_unique x y : 2 ^ M <= zm x < 2 ^ (M + 1) -> 2 ^ M <= zm y < 2 ^ (M + 1) ->
  zmag (M:=M) x = zmag (M:=M) y -> ze x = ze y /\ zm x = zm y.
Proof.
  intros Hx Hy H. pose proof (zmag_mag (E:=E) (M:=M) x Hx) as Mx. pose proof (zmag_mag (E:=E) (M:=M) y Hy) as My.
  rewrite H in Mx. rewrite Mx in My. assert (He : ze x = ze y) by lia. split; [exact He|].
  unfold zmag in H. rewrite He in H.
  apply Rmult_eq_reg_r in H; [apply eq_IZR; exact H|]. apply Rgt_not_eq, bpow_gt_0.
Qed.

Lemma zmag_ulp x : 2 ^ M <= zm x < 2 ^ (M + 1) -> 2 - emax <= ze x ->
  ulp radix2 (FLT_exp emin (Spec.prec M)) (zmag (M:=M) x) = bpow radix2 (ze x - M).
Proof.
  intros Hx He. exps E M.
  pose proof (zmag_pos (E:=E) (M:=M) x ltac:(lia)) as Hp.
  rewrite ulp_neq_0 by lra. unfold cexp. rewrite zmag_mag by exact Hx. f_equal.
  unfold FLT_exp, Spec.prec. lia.
Qed.

Lemma zmag_normal x : 2 ^ M <= zm x < 2 ^ (M + 1) ->
  (bpow radix2 (2 - emax) <= zmag (M:=M) x)%R <-> 2 - emax <= ze x.
Proof.
  intros Hx. pose proof (zmag_mag (E:=E) (M:=M) x Hx) as Mx.
  pose proof (zmag_pos (E:=E) (M:=M) x ltac:(lia)) as Hp. split.
  - intros H.
    assert (Hm : 2 - emax + 1 <= mag radix2 (zmag (M:=M) x)).
    { apply mag_ge_bpow. rewrite Rabs_pos_eq by lra. replace (2 - emax + 1 - 1) with (2 - emax) by ring. exact H. }
    lia.
  - intros H. rewrite <- (Rabs_pos_eq (zmag (M:=M) x)) by lra.
    apply Rle_trans with (bpow radix2 (mag radix2 (zmag (M:=M) x) - 1)).
    + apply bpow_le. lia.
    + apply bpow_mag_le. lra.
Qed.

Lemma zulp_spec x y (fx fy : fmt E M) : zrep E M x fx -> zrep E M y fy ->
  (zsign_ok x y && zulp M x y = true <-> ulp_above E M fx fy).
Proof.
  intros Hx Hy. destruct (fmt_M (E:=E) (M:=M)) as [HM [HM1 HM2]]. exps E M.
  assert (HM16 : 16 <= 2 ^ M) by (change 16 with (2 ^ 4); apply pow2_mono; lia).
  pose proof (zrep_zwf _ _ Hx) as Wx. pose proof (zrep_zwf _ _ Hy) as Wy.
  pose proof (znan_spec x fx Hx) as Nx. pose proof (znan_spec y fy Hy) as Ny.
  split.
  - intros H. apply andb_true_iff in H. destruct H as [Hs Hu].
    assert (Hx0 : 2 ^ M <= zm x < 2 ^ (M + 1) /\ za x = false /\ emin <= ze x < emax).
    { unfold zulp in Hu. destruct Wx as [Wx1 Wx2], Wy as [Wy1 Wy2].
      destruct (za x), (za y); lia. }
    assert (Hy0 : 2 ^ M <= zm y < 2 ^ (M + 1) /\ (za y = true -> ze y = emax)).
    { unfold zulp in Hu. destruct Wy as [Wy1 Wy2]. destruct (za y); lia. }
    destruct Hx0 as (Hx1 & Hx2 & Hx3). destruct Hy0 as (Hy1 & Hy2).
    assert (Zx : znan x = false) by (unfold znan; rewrite Hx2; reflexivity).
    assert (Zy : znan y = false).
    { unfold znan. destruct (Z.eqb_spec (zm y) 0); [lia|]. apply andb_false_r. }
    unfold zsign_ok in Hs. rewrite Zx, Zy in *. cbn [orb] in Hs. apply eqb_prop in Hs.
    destruct (magv_zmag x fx Hx (eq_sym Nx)) as [Vx Sx]. destruct (magv_zmag y fy Hy (eq_sym Ny)) as [Vy Sy].
    assert (Hdiv : forall z (f : fmt E M), zrep E M z f -> 2 ^ M <= zm z -> za z = false ->
      ze z < 2 - emax -> Z.even (zm z) = true).
    { intros z f Hz Hzm Hza Hlt. destruct f as [s|s| |s m e H]; cbn [zrep] in Hz.
      - subst z. cbn [zm] in Hzm. lia.
      - subst z. discriminate Hza.
      - destruct Hz as [s ->]. discriminate Hza.
      - destruct (zrep_finite z s m e H Hz) as (_ & _ & _ & [Hd|Hd]); [lia|].
        destruct Hd as [q Hq]. rewrite Hq, Z.even_mul, Z.even_pow by lia. apply orb_true_r. }
    assert (Hn : 2 - emax <= ze x).
    { destruct (Z_le_gt_dec (2 - emax) (ze x)) as [Hle|Hgt]; [exact Hle|exfalso].
      pose proof (Hdiv x fx Hx ltac:(lia) Hx2 ltac:(lia)) as Ex.
      unfold zulp in Hu. apply orb_true_iff in Hu. destruct Hu as [Hu|Hu].
      - apply andb_true_iff in Hu. destruct Hu as [Hu1 Hu2]. apply Z.eqb_eq in Hu1, Hu2.
        assert (Ay : za y = false) by (destruct (za y); [specialize (Hy2 eq_refl); lia|reflexivity]).
        pose proof (Hdiv y fy Hy ltac:(lia) Ay ltac:(lia)) as Ey.
        rewrite Hu2, Z.even_add, Ex in Ey. discriminate Ey.
      - assert (Hu2 : zm x = 2 * (2 ^ M - 1) + 1) by lia.
        rewrite Hu2, Z.even_add, Z.even_mul in Ex. discriminate Ex. }
    unfold ulp_above. rewrite <- Nx, <- Ny, Sx, Sy, Vx, Vy.
    split; [reflexivity|]. split; [reflexivity|]. split; [exact Hs|].
    split; [apply zmag_normal; assumption|].
    rewrite zmag_ulp by assumption. unfold zmag.
    unfold zulp in Hu. apply orb_true_iff in Hu. destruct Hu as [Hu|Hu].
    + assert (H1 : ze y = ze x) by lia. assert (H2 : zm y = zm x + 1) by lia.
      rewrite H1, H2, plus_IZR. ring.
    + assert (H1 : ze y = ze x + 1) by lia. assert (H2 : zm y = 2 ^ M) by lia.
      assert (H3 : zm x + 1 = 2 ^ M * 2) by lia.
      rewrite H1, H2. replace (ze x + 1 - M) with (1 + (ze x - M)) by ring.
      rewrite bpow_plus. change (bpow radix2 1) with 2%R.
      apply (f_equal IZR) in H3. rewrite plus_IZR, mult_IZR in H3.
      rewrite <- Rmult_assoc, <- H3. ring.
  - intros (H1 & H2 & H3 & H4 & H5). rewrite H1 in Nx. rewrite H2 in Ny.
    destruct (magv_zmag x fx Hx H1) as [Vx Sx]. destruct (magv_zmag y fy Hy H2) as [Vy Sy].
    rewrite Vx, Vy, Sx, Sy in *.
    assert (Hx1 : 2 ^ M <= zm x < 2 ^ (M + 1)).
    { destruct Wx as [_ [[Wx _]|[Wx _]]]; [|exact Wx]. exfalso. unfold zmag in H4.
      rewrite Wx, Rmult_0_l in H4. pose proof (bpow_gt_0 radix2 (2 - emax)). lra. }
    apply zmag_normal in H4; [|exact Hx1]. rewrite zmag_ulp in H5 by assumption.
    assert (H6 : zmag (M:=M) y = (IZR (zm x + 1) * bpow radix2 (ze x - M))%R).
    { rewrite H5. unfold zmag. rewrite plus_IZR. ring. }
    assert (Hy1 : 2 ^ M <= zm y < 2 ^ (M + 1)).
    { destruct Wy as [_ [[Wy _]|[Wy _]]]; [|exact Wy]. exfalso.
      assert (H7 : zmag (M:=M) y = 0%R) by (unfold zmag; rewrite Wy; ring). rewrite H6 in H7.
      assert (0 < IZR (zm x + 1) * bpow radix2 (ze x - M))%R.
      { apply Rmult_lt_0_compat; [apply IZR_lt; lia|apply bpow_gt_0]. } lra. }
    unfold zsign_ok. rewrite Nx, Ny. cbn [orb]. rewrite H3, eqb_reflx. cbn [andb]. unfold zulp.
    destruct (Z.eq_dec (zm x + 1) (2 ^ (M + 1))) as [Heq|Hne].
    + assert (H7 : zmag (M:=M) y = zmag (M:=M) (mkZ false (ze x + 1) (2 ^ M) false)).
      { rewrite H6. unfold zmag. cbn [zm ze]. rewrite Heq, HM2, mult_IZR.
        replace (ze x + 1 - M) with (1 + (ze x - M)) by ring. rewrite bpow_plus.
        change (bpow radix2 1) with 2%R. ring. }
      apply zmag_unique in H7; [|exact Hy1|cbn [zm]; lia]. cbn [ze zm] in H7. lia.
    + assert (H7 : zmag (M:=M) y = zmag (M:=M) (mkZ false (ze x) (zm x + 1) false)).
      { rewrite H6. reflexivity. }
      apply zmag_unique in H7; [|exact Hy1|cbn [zm]; lia]. cbn [ze zm] in H7. lia.
Qed.

Theorem eq_ulp_spec x y (fx fy : fmt E M) : represents x fx -> represents y fy ->
  (sat b (AssertIsEqualOrULP M x y) tt <-> fx = fy \/ ulp_above E M fx fy \/ ulp_above E M fy fx) /\
  (exec b (AssertIsEqualOrULP M x y) = Some tt <-> fx = fy \/ ulp_above E M fx fy \/ ulp_above E M fy fx).
Proof.
  intros [zx [-> Hx]] [zy [-> Hy]].
  pose proof (zrep_zwf _ _ Hx) as Wx. pose proof (zrep_zwf _ _ Hy) as Wy.
  rewrite <- (zeq_spec zx zy fx fy Hx Hy), <- (zulp_spec zx zy fx fy Hx Hy), <- (zulp_spec zy zx fy fx Hy Hx).
  assert (Hsym : zsign_ok zy zx = zsign_ok zx zy).
  { unfold zsign_ok. rewrite (orb_comm (znan zy)). f_equal. destruct (zs zx), (zs zy); reflexivity. }
  rewrite Hsym.
  assert (Hb : zsign_ok zx zy && ((zulp M zx zy || zulp M zy zx) || zcore zx zy) = true <->
    zsign_ok zx zy && zcore zx zy = true \/ zsign_ok zx zy && zulp M zx zy = true \/
    zsign_ok zx zy && zulp M zy zx = true).
  { destruct (zsign_ok zx zy), (zulp M zx zy), (zulp M zy zx), (zcore zx zy); cbn; intuition discriminate. }
  rewrite <- Hb. rewrite (exec_AssertIsEqualOrULP zx zy Wx Wy).
  split; split.
  - apply (sat_AssertIsEqualOrULP zx zy Wx Wy).
  - intros H. apply exec_sat. rewrite (exec_AssertIsEqualOrULP zx zy Wx Wy), H. reflexivity.
  - destruct (_ && _); [reflexivity|discriminate].
  - intros ->. reflexivity.
Qed.

(** Sign operations. *)
Lemma abs_spec x (fx : fmt E M) : represents x fx -> represents (FAbs x) (ieee_abs E M fx).
Proof.
  intros [z [-> Hz]]. exists (mkZ false (ze z) (zm z) (za z)). split; [reflexivity|].
  destruct fx; cbn [zrep ieee_abs Babs] in *; try (subst z; reflexivity).
  destruct Hz as [s ->]. exists false. reflexivity.
Qed.

Lemma select_spec c x y : 
  exec b (FSelect (emb (Z.b2z c)) x y) = Some (if c then x else y) /\
  (forall r, sat b (FSelect (emb (Z.b2z c)) x y) r -> r = if c then x else y).
Proof.
  assert (Hs : forall u v, exec b (select (emb (Z.b2z c)) u v) = Some (if c then u else v)).
  { intros u v. rewrite exec_select. reflexivity. }
  assert (Hs2 : forall u v r, sat b (select (emb (Z.b2z c)) u v) r -> r = if c then u else v).
  { intros u v r H. apply sat_select in H. destruct H as [d [H ->]]. apply b2z_inj in H. subst d. reflexivity. }
  split.
  - unfold FSelect. xs (Hs (Sign x) (Sign y)). xs (Hs (Exponent x) (Exponent y)).
    xs (Hs (Mantissa x) (Mantissa y)). xs (Hs (IsAbnormal x) (IsAbnormal y)).
    rewrite exec_ret. destruct x, y, c; reflexivity.
  - intros r H. unfold FSelect in H.
    do 4 (apply sat_bind in H; let w := fresh "w" in let Hw := fresh "Hw" in
      destruct H as [w [Hw H]]; apply Hs2 in Hw; subst w).
    apply sat_ret_inv in H. subst r. destruct x, y, c; reflexivity.
Qed.

Lemma select_bool v x y r : sat b (FSelect v x y) r -> v = emb 0 \/ v = emb 1.
Proof.
  intros H. unfold FSelect in H. apply sat_bind in H. destruct H as [w [Hw _]].
  apply sat_select in Hw. destruct Hw as [[|] [-> _]]; [right|left]; reflexivity.
Qed.

(** Same sign: subtraction cannot be forged into anything of another magnitude. *)
Lemma sub_abs_sound x y (fx fy : fmt E M) r : pow2_size E M mod b = 0 ->
  represents x fx -> represents y fy -> is_nan fx || is_nan fy = true \/ Bsign fx = Bsign fy ->
  sat b (Sub E M x y) r -> represents (FAbs r) (ieee_abs E M (ieee_sub E M fx fy)) \/ fx = fy.
Proof.
  intros Hd Hx Hy Hs H.
  destruct (sub_sound_exact x y fx fy r Hd Hx Hy H) as [H1|(F1 & F2 & [H1|(H1 & H2 & _)])].
  - left. apply abs_spec, H1.
  - exfalso. destruct Hs as [Hs|Hs].
    { destruct fx, fy; discriminate. }
    destruct H1 as (m & Hm & Hv & _).
    destruct (add_overflow_sign fx (ieee_neg E M fy) m ltac:(lia) F1) as [_ Hsg].
    { rewrite neg_finite. exact F2. }
    { rewrite neg_B2R. exact Hv. }
    rewrite neg_Bsign in Hsg by exact F2. rewrite Hs in Hsg. destruct (Bsign fy); discriminate.
  - right. apply B2R_Bsign_inj; assumption.
Qed.

Lemma sub_abs_complete x y (fx fy : fmt E M) :
  represents x fx -> represents y fy ->
  exists r, exec b (Sub E M x y) = Some r /\ (exists f : fmt E M, represents r f) /\
    (represents (FAbs r) (ieee_abs E M (ieee_sub E M fx fy)) \/ fx = fy).
Proof.
  intros Hx Hy. destruct (sub_complete x y fx fy Hx Hy) as (r & H & H1 & H2).
  exists r. split; [exact H|].
  destruct (classic (max_cancel E M fx (ieee_neg E M fy))) as [Hc|Hc].
  - split; [exists (B754_infinity false); apply H2, Hc|right].
    destruct Hc as (F1 & F2 & Hv & Hm). rewrite neg_finite in F2. rewrite neg_B2R, Ropp_involutive in Hv.
    pose proof (bpow_gt_0 radix2 (emax - 1)) as Hb.
    assert (Hnz : forall f : fmt E M, is_finite f = true -> (bpow radix2 (emax - 1) <= Rabs (B2R f))%R ->
      is_finite_strict f = true).
    { intros f Hf Hg. destruct f; try discriminate Hf; [|reflexivity].
      cbn [B2R] in Hg. rewrite Rabs_R0 in Hg. lra. }
    apply B2R_inj; [apply Hnz; assumption|apply Hnz; [exact F2|rewrite <- Hv; exact Hm]|exact Hv].
  - split; [exists (ieee_sub E M fx fy); apply H1, Hc|left; apply abs_spec, H1, Hc].
Qed.

Lemma le_sub_nan (fx fy : fmt E M) t : is_nan fx || is_nan fy = true ->
  ieee_le E M (ieee_abs E M (ieee_sub E M fx fy)) t = false.
Proof.
  intros H. assert (Hs : ieee_sub E M fx fy = B754_nan).
  { destruct fx, fy; try discriminate H; reflexivity. }
  rewrite Hs. reflexivity.
Qed.

Lemma zsign_spec x y (fx fy : fmt E M) : zrep E M x fx -> zrep E M y fy ->
  zsign_ok x y = is_nan fx || is_nan fy || Bool.eqb (Bsign fx) (Bsign fy).
Proof.
  intros Hx Hy. unfold zsign_ok. rewrite (znan_spec x fx Hx), (znan_spec y fy Hy).
  destruct (is_nan fx) eqn:Nx; [reflexivity|]. destruct (is_nan fy) eqn:Ny; [reflexivity|].
  rewrite (proj2 (magv_zmag x fx Hx Nx)), (proj2 (magv_zmag y fy Hy Ny)). reflexivity.
Qed.

Lemma zcore_eq x y (fx fy : fmt E M) : zrep E M x fx -> zrep E M y fy ->
  zsign_ok x y = true -> (zcore x y = true <-> fx = fy).
Proof.
  intros Hx Hy Hs. rewrite <- (zeq_spec x y fx fy Hx Hy), Hs. reflexivity.
Qed.

Theorem eq_custom_complete x y (fx fy : fmt E M) t : 0 <= t < 2 ^ (E + M + 1) ->
  represents x fx -> represents y fy ->
  (exec b (AssertIsEqualOrCustomULP E M x y t) = Some tt <-> ieee_within E M fx fy t).
Proof.
  intros Ht [zx [-> Hx]] [zy [-> Hy]].
  pose proof (zrep_zwf _ _ Hx) as Wx. pose proof (zrep_zwf _ _ Hy) as Wy.
  assert (Rx : represents (embF zx) fx) by (exists zx; auto).
  assert (Ry : represents (embF zy) fy) by (exists zy; auto).
  unfold AssertIsEqualOrCustomULP. xs (exec_nan_either zx zy Wx Wy).
  rewrite exec_bind, (exec_sign zx zy). fold (zsign_ok zx zy).
  pose proof (zsign_spec zx zy fx fy Hx Hy) as Hsg.
  pose proof (zcore_eq zx zy fx fy Hx Hy) as Hcore.
  pose proof (zeq_spec zx zy fx fy Hx Hy) as Heq.
  destruct (zsign_ok zx zy) eqn:Hok.
  2:{ split; [discriminate|]. intros [H|[H _]].
      - apply Heq in H. discriminate H.
      - rewrite H, eqb_reflx, orb_true_r in Hsg. discriminate Hsg. }
  destruct (sub_abs_complete (embF zx) (embF zy) fx fy Rx Ry) as (r & Hr & [f Hf] & Habs).
  xs Hr.
  pose proof (cmp_complete (b:=b) (FAbs r) (NewConstant E M t) _ _ (abs_spec r f Hf) (newconst_spec t Ht)) as (_ & Hle & _).
  cbv zeta. xs Hle. rewrite IsEq_true, (exec_cond zx zy Wx Wy).
  specialize (Hcore eq_refl). unfold ieee_within.
  destruct Habs as [Habs|Habs].
  2:{ rewrite (proj2 Hcore Habs), orb_true_r. split; [intros _; left; exact Habs|reflexivity]. }
  rewrite (represents_inj _ _ _ (abs_spec r f Hf) Habs). clear Hle.
  destruct (ieee_le E M (ieee_abs E M (ieee_sub E M fx fy)) (of_bits E M t)) eqn:Hl; cbn [orb].
  - split; [intros _; right|reflexivity]. split; [|reflexivity].
    destruct (is_nan fx || is_nan fy) eqn:Hn; [rewrite (le_sub_nan fx fy _ Hn) in Hl; discriminate Hl|].
    cbn [orb] in Hsg. symmetry in Hsg. apply eqb_prop, Hsg.
  - destruct (zcore zx zy).
    + split; [intros _; left; apply Hcore; reflexivity|reflexivity].
    + split; [discriminate|]. intros [H|[_ H]]; [apply Hcore in H|]; discriminate.
Qed.

Theorem eq_custom_sound x y (fx fy : fmt E M) t : pow2_size E M mod b = 0 ->
  0 <= t < 2 ^ (E + M + 1) -> represents x fx -> represents y fy ->
  (sat b (AssertIsEqualOrCustomULP E M x y t) tt <-> ieee_within E M fx fy t).
Proof.
  intros Hd Ht Rx Ry. split.
  2:{ intros H. apply exec_sat, (eq_custom_complete x y fx fy t Ht Rx Ry), H. }
  destruct Rx as [zx [-> Hx]], Ry as [zy [-> Hy]].
  pose proof (zrep_zwf _ _ Hx) as Wx. pose proof (zrep_zwf _ _ Hy) as Wy.
  assert (Rx : represents (embF zx) fx) by (exists zx; auto).
  assert (Ry : represents (embF zy) fy) by (exists zy; auto).
  unfold AssertIsEqualOrCustomULP. intros H. apply sat_bind in H. destruct H as [n [Hn H]].
  apply (sat_nan_either zx zy Wx Wy) in Hn. subst n.
  apply sat_bind in H. destruct H as [[] [Hs H]]. apply sat_sign in Hs.
  fold (zsign_ok zx zy) in Hs. pose proof (zsign_spec zx zy fx fy Hx Hy) as Hsg. rewrite Hs in Hsg.
  symmetry in Hsg. apply orb_true_iff in Hsg.
  apply sat_bind in H. destruct H as [r [Hr H]].
  cbv zeta in H. apply sat_bind in H. destruct H as [c [Hc H]].
  assert (Hsg' : is_nan fx || is_nan fy = true \/ Bsign fx = Bsign fy).
  { destruct Hsg as [Hsg|Hsg]; [left; exact Hsg|right; apply eqb_prop, Hsg]. }
  destruct (sub_abs_sound (embF zx) (embF zy) fx fy r Hd Rx Ry Hsg' Hr) as [Habs|Habs]; [|left; exact Habs].
  pose proof (cmp_sound (b:=b) (FAbs r) (NewConstant E M t) _ _ c Habs (newconst_spec t Ht)) as (_ & Hle & _).
  apply Hle in Hc. subst c. rewrite IsEq_true in H. apply (sat_cond zx zy Wx Wy) in H.
  apply orb_true_iff in H. destruct H as [H|H]; [right|left; apply (zcore_eq zx zy fx fy Hx Hy Hs), H].
  split; [|exact H]. destruct Hsg' as [Hn|Hn]; [|exact Hn].
  rewrite (le_sub_nan fx fy _ Hn) in H. discriminate H.
Qed.
End Eq.
