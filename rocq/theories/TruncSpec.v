(** Trunc, Floor, Ceil against IEEE rounding to integral values. *)
From Coq Require Import ZArith Reals Bool List Lia Lra ZifyBool.
From Flocq Require Import Core BinarySingleNaN.
From Verif Require Import Field FieldFacts Circuit Hints RangeCheck Gadget FloatModel
  CircuitFacts RangeFacts GadgetFacts RoundFacts Spec RoundCore RepFacts SqrtFacts CmpFacts
  AddFacts AddSpec Forge TruncFacts Tactics.
Local Open Scope Z_scope.

Lemma round_FIX0 rnd {Hr : Valid_rnd rnd} v :
  Generic_fmt.round radix2 (FIX_exp 0) rnd v = IZR (rnd v).
Proof.
  unfold Generic_fmt.round, scaled_mantissa, cexp, FIX_exp, F2R. cbn [Fnum Fexp Z.opp bpow].
  rewrite !Rmult_1_r. reflexivity.
Qed.

Lemma Zfloor_pow z k : 0 <= k -> Zfloor (IZR z * bpow radix2 (- k)) = z / 2 ^ k.
Proof.
  intros Hk. rewrite bpow_opp, <- (IZR_pow2 k) by lia.
  apply (Zfloor_div z (2 ^ k)). pose proof (pow_pos k Hk). Lia.lia.
Qed.
Lemma Zceil_pow z k : 0 <= k -> Zceil (IZR z * bpow radix2 (- k)) = cdiv z (2 ^ k).
Proof.
  intros Hk. unfold Zceil, cdiv.
  replace (- (IZR z * bpow radix2 (- k)))%R with (IZR (- z) * bpow radix2 (- k))%R
    by (rewrite opp_IZR; ring).
  rewrite Zfloor_pow by exact Hk. reflexivity.
Qed.

Section TruncSpec.
Context {MOD : Modulus} {E M b : Z} {HP : Params E M b} {HF : Format E M}.
#[local] Instance ts_width : Width b (4 * M + 44) := params_width E M b HP.
#[local] Instance ts_big : BigMod := width_big b _ ts_width.

Notation emax := (Spec.emax E).
Notation emin := (Spec.emin E M).

Lemma int_value x : zwf (E:=E) (M:=M) x -> za x = false ->
  let c := 0 <=? ze x in
  IZR (Zfloor (zmag (M:=M) x)) = (IZR (zm x / 2 ^ int_sh M x c) * bpow radix2 (int_sh M x c + int_e x c - M))%R /\
  IZR (Zceil (zmag (M:=M) x)) = (IZR (cdiv (zm x) (2 ^ int_sh M x c)) * bpow radix2 (int_sh M x c + int_e x c - M))%R.
Proof.
  intros Wx Ax c. destruct (fmt_M (E:=E) (M:=M)) as [HM [HM1 HM2]].
  assert (Hm : 0 <= zm x < 2 ^ (M + 1)) by (destruct Wx as [_ W]; lia).
  unfold int_sh, int_e, c. destruct (Z.leb_spec 0 (ze x)) as [He|He].
  - destruct (Z_le_gt_dec M (ze x)) as [HeM|HeM].
    + replace (Z.max (M - ze x) 0) with 0 by lia. cbn [Z.add].
      assert (Hz : zmag (M:=M) x = IZR (zm x * 2 ^ (ze x - M))).
      { unfold zmag. rewrite mult_IZR, IZR_pow2 by lia. reflexivity. }
      rewrite Hz, Zfloor_IZR, Zceil_IZR. unfold cdiv. change (2 ^ 0) with 1. rewrite !Z.div_1_r, Z.opp_involutive.
      rewrite mult_IZR, IZR_pow2 by lia. split; reflexivity.
    + replace (Z.max (M - ze x) 0) with (M - ze x) by lia.
      replace (M - ze x + ze x - M) with 0 by ring. cbn [bpow]. rewrite !Rmult_1_r.
      unfold zmag. replace (ze x - M) with (- (M - ze x)) by ring.
      rewrite Zfloor_pow, Zceil_pow by lia. split; reflexivity.
  - replace (Z.max (M - -1) 0) with (M + 1) by lia.
    replace (M + 1 + -1 - M) with 0 by ring. cbn [bpow]. rewrite !Rmult_1_r.
    rewrite Z.div_small by lia.
    assert (Hlt : (zmag (M:=M) x < 1)%R).
    { unfold zmag. apply Rlt_le_trans with (bpow radix2 (ze x + 1)).
      - replace (ze x + 1) with (M + 1 + (ze x - M)) by ring.
        rewrite (bpow_plus radix2 (M + 1)), <- (IZR_pow2 (M + 1)) by lia.
        apply Rmult_lt_compat_r; [apply bpow_gt_0|apply IZR_lt; lia].
      - change 1%R with (bpow radix2 0). apply bpow_le. lia. }
    destruct (Z.eq_dec (zm x) 0) as [H0|H0].
    + unfold zmag. rewrite H0, Rmult_0_l. rewrite Zfloor_IZR, Zceil_IZR. unfold cdiv.
      rewrite Z.div_0_l by lia. split; reflexivity.
    + assert (Hpos : (0 < zmag (M:=M) x)%R).
      { unfold zmag. apply Rmult_lt_0_compat; [apply IZR_lt; lia|apply bpow_gt_0]. }
      rewrite (Zfloor_imp 0) by (simpl; lra). rewrite (Zceil_imp 1) by (simpl; lra).
      split; [reflexivity|]. f_equal.
      destruct (cdiv_bounds (zm x) (2 ^ (M + 1)) ltac:(lia) ltac:(lia)) as (D1 & D2 & D3).
      set (q := cdiv _ _) in *. clearbody q. clear - D3 Hm H0 HM1 HM2. nia.
Qed.

(** Scaled quotients lie in the binade. *)
Lemma int_scaled x : zwf (E:=E) (M:=M) x -> za x = false -> 0 <= ze x ->
  let sh := int_sh M x true in
  2 ^ M <= zm x / 2 ^ sh * 2 ^ sh < 2 ^ (M + 1) /\
  2 ^ M <= cdiv (zm x) (2 ^ sh) * 2 ^ sh <= 2 ^ (M + 1).
Proof.
  intros Wx Ax He sh. destruct (fmt_M (E:=E) (M:=M)) as [HM [HM1 HM2]]. exps E M.
  assert (Hm : 2 ^ M <= zm x < 2 ^ (M + 1)).
  { destruct Wx as [_ W]. rewrite Ax in W. lia. }
  assert (Hsh : 0 <= sh <= M) by (unfold sh, int_sh, int_e; lia).
  assert (H1 : 2 ^ M = 2 ^ (M - sh) * 2 ^ sh) by (rewrite <- Z.pow_add_r by lia; f_equal; lia).
  pose proof (pow_pos sh ltac:(lia)) as Hp. pose proof (pow_pos (M - sh) ltac:(lia)) as Hp2.
  pose proof (Z.div_mod (zm x) (2 ^ sh) ltac:(lia)) as D1.
  pose proof (Z.mod_pos_bound (zm x) (2 ^ sh) Hp) as D2.
  destruct (cdiv_bounds (zm x) (2 ^ sh) Hp ltac:(lia)) as (_ & _ & D3).
  set (q := zm x / 2 ^ sh) in *. clearbody q. set (rr := zm x mod 2 ^ sh) in *. clearbody rr.
  set (u := cdiv _ _) in *. clearbody u.
  rewrite HM2 in *. rewrite H1 in *. clear - Hm D1 D2 D3 Hp Hp2.
  set (p := 2 ^ sh) in *. set (a := 2 ^ (M - sh)) in *. clearbody p a.
  assert (a <= q) by Lia.nia. assert (q < 2 * a) by Lia.nia.
  assert (a <= u) by Lia.nia. assert (u <= 2 * a) by Lia.nia.
  repeat split; Lia.nia.
Qed.

Lemma nearby_facts md (fx : fmt E M) : is_finite fx = true ->
  B2R (Bnearbyint md fx) = IZR (round_mode md (B2R fx)) /\
  is_finite (Bnearbyint md fx) = true /\ Bsign (Bnearbyint md fx) = Bsign fx.
Proof.
  intros Fx. destruct (Bnearbyint_correct _ _ _ md fx) as (H1 & H2 & H3).
  rewrite round_FIX0 in H1 by apply valid_rnd_round_mode.
  split; [exact H1|]. rewrite Fx in H2. split; [exact H2|].
  apply H3. destruct (Bnearbyint md fx); try discriminate H2; reflexivity.
Qed.

Lemma Ztrunc_sgn s v : (0 <= v)%R -> IZR (Ztrunc (sgn s * v)) = (sgn s * IZR (Zfloor v))%R.
Proof.
  intros Hv. destruct s; simpl.
  - replace (-1 * v)%R with (- v)%R by lra. rewrite Ztrunc_opp, opp_IZR, Ztrunc_floor by exact Hv. lra.
  - rewrite !Rmult_1_l, Ztrunc_floor by exact Hv. reflexivity.
Qed.
Lemma Zfloor_sgn s v : IZR (Zfloor (sgn s * v)) = (sgn s * IZR (if s then Zceil v else Zfloor v))%R.
Proof.
  destruct s; simpl.
  - unfold Zceil. replace (-1 * v)%R with (- v)%R by lra. rewrite opp_IZR. lra.
  - rewrite !Rmult_1_l. reflexivity.
Qed.

Lemma zmag_nonneg x : 0 <= zm x -> (0 <= zmag (M:=M) x)%R.
Proof. intros H. unfold zmag. apply Rmult_le_pos; [apply IZR_le; exact H|apply bpow_ge_0]. Qed.

Lemma ztrunc_spec x (fx : fmt E M) : zrep E M x fx ->
  zrep E M (ztrunc E M x (0 <=? ze x)) (ieee_trunc E M fx).
Proof.
  intros Hx. pose proof (zrep_zwf _ _ Hx) as Wx. destruct (fmt_M (E:=E) (M:=M)) as [HM [HM1 HM2]]. exps E M.
  destruct (is_finite fx) eqn:Fx.
  - destruct (zrep_B2R x fx Hx Fx) as (Vx & Sx & Ax & Cx).
    destruct (nearby_facts mode_ZR fx Fx) as (N1 & N2 & N3). cbn [round_mode] in N1.
    assert (Hm : 0 <= zm x) by (destruct Wx as [_ W]; lia).
    rewrite Vx, (Ztrunc_sgn _ _ (zmag_nonneg x Hm)) in N1.
    destruct (int_value x Wx Ax) as [V1 _]. rewrite V1 in N1.
    unfold ieee_trunc, ztrunc. rewrite Ax.
    destruct (Z.leb_spec 0 (ze x)) as [He|He].
    + destruct (int_scaled x Wx Ax He) as [I1 _].
      apply zrep_intro; cbn [za zm zs ze]; [reflexivity|exact I1|exact N2|congruence|].
      rewrite N1. unfold zmag. cbn [zm ze]. unfold int_e.
      rewrite mult_IZR, IZR_pow2 by (unfold int_sh; lia). rewrite (Rmult_assoc _ _ (bpow radix2 (ze x - M))), <- bpow_plus.
      replace (int_sh M x true + ze x - M) with (int_sh M x true + (ze x - M)) by ring. reflexivity.
    + assert (Hm2 : zm x < 2 ^ (M + 1)) by (destruct Wx as [_ W]; lia).
      assert (Hsh : int_sh M x false = M + 1) by (unfold int_sh, int_e; lia).
      rewrite Hsh in *. rewrite Z.div_small in * by lia.
      rewrite (zrep_zero_intro (zs x) (Bnearbyint mode_ZR fx)); [|exact N2|congruence|rewrite N1; ring].
      cbn. rewrite Hex3. reflexivity.
  - assert (Hlt : 0 <= ze x).
    { destruct fx; try discriminate Fx; cbn in Hx; [subst x; cbn; lia|destruct Hx as [s ->]; cbn; lia]. }
    unfold ztrunc. destruct (Z.leb_spec 0 (ze x)); [|lia].
    assert (Hsh : int_sh M x true = 0).
    { destruct fx; try discriminate Fx; cbn in Hx; [subst x|destruct Hx as [s ->]];
        unfold int_sh, int_e; cbn [ze]; lia. }
    rewrite Hsh. change (2 ^ 0) with 1. rewrite Z.div_1_r, Z.mul_1_r.
    destruct fx; try discriminate Fx; cbn in Hx |- *.
    + subst x. reflexivity.
    + destruct Hx as [s ->]. exists s. reflexivity.
Qed.

Lemma zfloor_spec x (fx : fmt E M) : zrep E M x fx ->
  zrep E M (zfloor E M x (0 <=? ze x)) (ieee_floor E M fx).
Proof.
  intros Hx. pose proof (zrep_zwf _ _ Hx) as Wx. destruct (fmt_M (E:=E) (M:=M)) as [HM [HM1 HM2]]. exps E M.
  destruct (is_finite fx) eqn:Fx.
  - destruct (zrep_B2R x fx Hx Fx) as (Vx & Sx & Ax & Cx).
    destruct (nearby_facts mode_DN fx Fx) as (N1 & N2 & N3). cbn [round_mode] in N1.
    rewrite Vx, Zfloor_sgn in N1.
    assert (Hm : 0 <= zm x < 2 ^ (M + 1)) by (destruct Wx as [_ W]; lia).
    destruct (int_value x Wx Ax) as [V1 V2].
    set (c := 0 <=? ze x) in *.
    assert (Hq : IZR (if zs x then Zceil (zmag (M:=M) x) else Zfloor (zmag (M:=M) x))
      = (IZR (floor_q M x c) * bpow radix2 (int_sh M x c + int_e x c - M))%R).
    { unfold floor_q. cbv zeta. destruct (zs x); assumption. }
    rewrite Hq in N1.
    assert (Hsc : sign_ok (ze x) c) by (unfold c, sign_ok; lia).
    destruct (int_bounds (b:=b) x Wx c Hsc) as (B1 & B2 & B3 & B4 & B5 & B6).
    assert (Hmt : (IZR (floor_q M x c) * bpow radix2 (int_sh M x c + int_e x c - M)
      = IZR (floor_q M x c * 2 ^ int_sh M x c) * bpow radix2 (int_e x c - M))%R).
    { rewrite mult_IZR, IZR_pow2 by lia. rewrite Rmult_assoc, <- bpow_plus. do 2 f_equal. ring. }
    rewrite Hmt in N1.
    assert (Hcase : let mt := floor_q M x c * 2 ^ int_sh M x c in
      mt = 0 \/ mt = 2 ^ (M + 1) \/ 2 ^ M <= mt < 2 ^ (M + 1)).
    { cbv zeta. unfold c in *. destruct (Z.leb_spec 0 (ze x)) as [He|He].
      - destruct (int_scaled x Wx Ax He) as [I1 I2]. unfold floor_q. cbv zeta.
        destruct (zs x); lia.
      - assert (Hsh : int_sh M x false = M + 1) by (unfold int_sh, int_e; lia).
        unfold floor_q. cbv zeta. rewrite Hsh in *.
        destruct (zs x); [|rewrite Z.div_small by lia; lia].
        destruct (cdiv_bounds (zm x) (2 ^ (M + 1)) ltac:(lia) ltac:(lia)) as (D1 & D2 & D3).
        set (q := cdiv _ _) in *. clearbody q.
        assert (q = 0 \/ q = 1) as [->| ->] by (clear - D1 D3 Hm HM1 HM2; nia); lia. }
    unfold ieee_floor, zfloor. rewrite Ax. cbv zeta in Hcase |- *.
    set (mt := floor_q M x c * 2 ^ int_sh M x c) in *.
    destruct Hcase as [H0|[H1|H2]].
    + rewrite H0 in *. destruct (Z.eqb_spec 0 (2 ^ (M + 1))); [lia|]. cbn [Z.eqb andb negb].
      rewrite (zrep_zero_intro (zs x) (Bnearbyint mode_DN fx)); [|exact N2|congruence|rewrite N1; ring].
      cbn. rewrite Hex3. reflexivity.
    + rewrite H1 in *. rewrite Z.eqb_refl. destruct (Z.eqb_spec (2 ^ M) 0); [lia|]. cbn [andb Z.b2z].
      apply zrep_intro; cbn [za zm zs ze]; [reflexivity|lia|exact N2|congruence|].
      rewrite N1. unfold zmag. cbn [zm ze]. f_equal.
      rewrite HM2, mult_IZR. replace (int_e x c + 1 - M) with (1 + (int_e x c - M)) by ring.
      rewrite (bpow_plus radix2 1). change (bpow radix2 1) with 2%R. ring.
    + destruct (Z.eqb_spec mt (2 ^ (M + 1))); [lia|]. destruct (Z.eqb_spec mt 0); [lia|].
      cbn [andb Z.b2z]. rewrite Z.add_0_r.
      apply zrep_intro; cbn [za zm zs ze]; [reflexivity|lia|exact N2|congruence|].
      rewrite N1. reflexivity.
  - assert (Hlt : 0 <= ze x).
    { destruct fx; try discriminate Fx; cbn in Hx; [subst x; cbn; lia|destruct Hx as [s ->]; cbn; lia]. }
    unfold zfloor, floor_q. destruct (Z.leb_spec 0 (ze x)); [|lia].
    assert (Hsh : int_sh M x true = 0).
    { destruct fx; try discriminate Fx; cbn in Hx; [subst x|destruct Hx as [s ->]];
        unfold int_sh, int_e; cbn [ze]; lia. }
    rewrite Hsh. change (2 ^ 0) with 1. unfold cdiv. rewrite !Z.div_1_r, Z.mul_1_r, Z.opp_involutive.
    replace (if zs x then zm x else zm x) with (zm x) by (destruct (zs x); reflexivity).
    unfold int_e.
    destruct fx; try discriminate Fx; cbn in Hx |- *.
    + subst x. cbn [zm za ze zs negb]. rewrite andb_false_r.
      destruct (Z.eqb_spec (2 ^ M) (2 ^ (M + 1))); [lia|]. cbn [Z.b2z]. rewrite Z.add_0_r. reflexivity.
    + destruct Hx as [s ->]. exists s. cbn [zm za ze zs negb]. rewrite andb_false_r.
      destruct (Z.eqb_spec 0 (2 ^ (M + 1))); [lia|]. cbn [Z.b2z]. rewrite Z.add_0_r. reflexivity.
Qed.

(** The other sign bit at exponent 0. *)
Lemma ztrunc_forged x : zwf (E:=E) (M:=M) x -> za x = false ->
  zrep E M (ztrunc E M x false) (B754_zero (zs x)).
Proof.
  intros Wx Ax. destruct (fmt_M (E:=E) (M:=M)) as [HM [HM1 HM2]]. exps E M.
  assert (Hm : 0 <= zm x < 2 ^ (M + 1)) by (destruct Wx as [_ W]; lia).
  assert (Hsh : int_sh M x false = M + 1) by (unfold int_sh, int_e; lia).
  unfold ztrunc. rewrite Hsh, Z.div_small, Ax, Hex3 by lia. reflexivity.
Qed.

Lemma one_facts : B2R (ieee_one E M) = 1%R /\ is_finite (ieee_one E M) = true /\
  Bsign (ieee_one E M) = false.
Proof.
  unfold ieee_one. split; [apply Bone_correct|]. split; [apply is_finite_Bone|apply Bsign_Bone].
Qed.

Lemma zfloor_forged x : zwf (E:=E) (M:=M) x -> za x = false -> zm x <> 0 ->
  zrep E M (zfloor E M x false)
    (if zs x then ieee_neg E M (ieee_one E M) else B754_zero false).
Proof.
  intros Wx Ax H0. destruct (fmt_M (E:=E) (M:=M)) as [HM [HM1 HM2]]. exps E M.
  assert (Hm : 0 <= zm x < 2 ^ (M + 1)) by (destruct Wx as [_ W]; lia).
  assert (Hsh : int_sh M x false = M + 1) by (unfold int_sh, int_e; lia).
  unfold zfloor, floor_q. rewrite Hsh, Ax. cbv zeta. destruct (zs x) eqn:Hs.
  - assert (cdiv (zm x) (2 ^ (M + 1)) = 1) as ->.
    { destruct (cdiv_bounds (zm x) (2 ^ (M + 1)) ltac:(lia) ltac:(lia)) as (D1 & D2 & D3).
      set (q := cdiv _ _) in *. clearbody q. clear - D1 D3 Hm H0 HM1 HM2. nia. }
    rewrite Z.mul_1_l, Z.eqb_refl. destruct (Z.eqb_spec (2 ^ M) 0); [lia|]. cbn [andb Z.b2z].
    destruct one_facts as (O1 & O2 & O3).
    apply zrep_intro; cbn [za zm zs ze].
    + reflexivity.
    + lia.
    + rewrite neg_finite. exact O2.
    + rewrite neg_Bsign by exact O2. rewrite O3. reflexivity.
    + rewrite neg_B2R, O1. unfold zmag, int_e. cbn [zm ze sgn].
      rewrite (IZR_pow2 M) by lia. rewrite <- bpow_plus. replace (M + (-1 + 1 - M)) with 0 by ring.
      simpl. ring.
  - rewrite Z.div_small by lia. rewrite Z.mul_0_l.
    destruct (Z.eqb_spec 0 (2 ^ (M + 1))); [lia|]. cbn [Z.eqb andb negb]. rewrite Hex3. reflexivity.
Qed.

(** Exponent 0 means magnitude in [1,2). *)
Lemma exp0_in_1_2 x (fx : fmt E M) : zrep E M x fx -> (ze x = 0 <-> in_1_2 E M fx).
Proof.
  intros Hx. pose proof (zrep_zwf _ _ Hx) as Wx. destruct (fmt_M (E:=E) (M:=M)) as [HM [HM1 HM2]]. exps E M.
  split.
  - intros H0. assert (Ax : za x = false).
    { destruct (za x) eqn:Ax; [|reflexivity]. destruct Wx as [_ W]. rewrite Ax in W. lia. }
    assert (Fx : is_finite fx = true).
    { destruct fx; cbn in Hx; try reflexivity; [subst x; discriminate|].
      destruct Hx as [s ->]. discriminate. }
    split; [exact Fx|]. destruct (zrep_B2R x fx Hx Fx) as (Vx & _ & _ & Cx).
    rewrite Vx, sgn_abs. destruct Cx as [Cx|[_ Cx]]; [|lia].
    destruct Cx as (_ & Hm & _). pose proof (zmag_mag (E:=E) (M:=M) x Hm) as Hg.
    pose proof (zmag_pos (E:=E) (M:=M) x ltac:(lia)) as Hp.
    pose proof (bpow_mag_le radix2 (zmag (M:=M) x) ltac:(lra)) as H1.
    pose proof (bpow_mag_gt radix2 (zmag (M:=M) x)) as H2.
    rewrite Hg, H0 in H1, H2. simpl in H1, H2. lra.
  - intros [Fx Hv]. destruct (zrep_B2R x fx Hx Fx) as (Vx & _ & _ & Cx).
    rewrite Vx, sgn_abs in Hv. destruct Cx as [Cx|[Cx _]].
    + destruct Cx as (_ & Hm & _). pose proof (zmag_mag (E:=E) (M:=M) x Hm) as Hg.
      pose proof (zmag_pos (E:=E) (M:=M) x ltac:(lia)) as Hp.
      rewrite Rabs_pos_eq in Hv by lra.
      assert (Hg2 : mag radix2 (zmag (M:=M) x) = 1 :> Z).
      { apply mag_unique_pos. simpl. lra. }
      lia.
    + unfold zmag in Hv. rewrite Cx, Rmult_0_l, Rabs_R0 in Hv. lra.
Qed.

(** ** Theorems *)

Theorem trunc_complete x (fx : fmt E M) : represents x fx ->
  exists r, exec b (Trunc E M x) = Some r /\ represents r (ieee_trunc E M fx).
Proof.
  intros [z [-> Hz]]. eexists. split; [exact (exec_Trunc z (zrep_zwf _ _ Hz))|].
  eexists. split; [reflexivity|]. apply ztrunc_spec, Hz.
Qed.

Theorem floor_complete x (fx : fmt E M) : represents x fx ->
  exists r, exec b (Floor E M x) = Some r /\ represents r (ieee_floor E M fx).
Proof.
  intros [z [-> Hz]]. eexists. split; [exact (exec_Floor z (zrep_zwf _ _ Hz))|].
  eexists. split; [reflexivity|]. apply zfloor_spec, Hz.
Qed.

Lemma ceil_floor (fx : fmt E M) :
  ieee_ceil E M fx = ieee_neg E M (ieee_floor E M (ieee_neg E M fx)).
Proof.
  unfold ieee_ceil, ieee_floor.
  destruct (is_finite fx) eqn:Fx.
  - destruct (nearby_facts mode_UP fx Fx) as (U1 & U2 & U3).
    assert (Fn : is_finite (ieee_neg E M fx) = true) by (rewrite neg_finite; exact Fx).
    destruct (nearby_facts mode_DN _ Fn) as (D1 & D2 & D3).
    apply B2R_Bsign_inj.
    + exact U2.
    + rewrite neg_finite. exact D2.
    + rewrite U1, neg_B2R, D1, neg_B2R. cbn [round_mode]. unfold Zceil. apply opp_IZR.
    + rewrite U3, neg_Bsign, D3, neg_Bsign, negb_involutive by assumption. reflexivity.
  - destruct fx as [s|s| |s m e p]; try discriminate Fx; [destruct s|]; reflexivity.
Qed.

Theorem ceil_complete x (fx : fmt E M) : represents x fx ->
  exists r, exec b (Ceil E M x) = Some r /\ represents r (ieee_ceil E M fx).
Proof.
  intros Hx. destruct (floor_complete (Neg x) _ (neg_spec x fx Hx)) as (r & H1 & H2).
  exists (Neg r). split.
  - unfold Ceil. rewrite (exec_bind_eq _ _ _ _ H1). reflexivity.
  - rewrite ceil_floor. apply neg_spec, H2.
Qed.

Lemma sign_ok_cases z c : sign_ok z c -> c = (0 <=? z) \/ (z = 0 /\ c = false).
Proof.
  intros [H1 H2]. destruct (Z.leb_spec 0 z) as [H|H].
  - destruct c; [left; reflexivity|]. right. destruct (Z.eq_dec z 0) as [H0|H0]; [auto|].
    specialize (H1 ltac:(Lia.lia)). discriminate.
  - left. apply H2, H.
Qed.

Theorem trunc_sound x (fx : fmt E M) r : pow2_size E M mod b = 0 ->
  represents x fx -> sat b (Trunc E M x) r ->
  represents r (ieee_trunc E M fx) \/
  (in_1_2 E M fx /\ represents (E:=E) (M:=M) r (B754_zero (Bsign fx))).
Proof.
  intros Hd [z [-> Hz]] H. pose proof (zrep_zwf _ _ Hz) as Wz.
  destruct (sat_Trunc z Wz r Hd H) as (c & Hc & ->).
  destruct (sign_ok_cases _ _ Hc) as [->|[H0 ->]].
  - left. eexists. split; [reflexivity|]. apply ztrunc_spec, Hz.
  - right. pose proof (proj1 (exp0_in_1_2 z fx Hz) H0) as Hi. split; [exact Hi|].
    destruct (zrep_B2R z fx Hz (proj1 Hi)) as (_ & Sx & Ax & _). rewrite Sx.
    eexists. split; [reflexivity|]. apply ztrunc_forged; assumption.
Qed.

Theorem floor_sound x (fx : fmt E M) r : pow2_size E M mod b = 0 ->
  represents x fx -> sat b (Floor E M x) r ->
  represents r (ieee_floor E M fx) \/
  (in_1_2 E M fx /\ represents (E:=E) (M:=M) r
     (if Bsign fx then ieee_neg E M (ieee_one E M) else B754_zero false)).
Proof.
  intros Hd [z [-> Hz]] H. pose proof (zrep_zwf _ _ Hz) as Wz.
  destruct (sat_Floor z Wz r Hd H) as (c & Hc & ->).
  destruct (sign_ok_cases _ _ Hc) as [->|[H0 ->]].
  - left. eexists. split; [reflexivity|]. apply zfloor_spec, Hz.
  - right. pose proof (proj1 (exp0_in_1_2 z fx Hz) H0) as Hi. split; [exact Hi|].
    destruct (zrep_B2R z fx Hz (proj1 Hi)) as (_ & Sx & Ax & Cx). rewrite Sx.
    eexists. split; [reflexivity|]. apply zfloor_forged; try assumption.
    exps E M. destruct (fmt_M (E:=E) (M:=M)) as [HM [HM1 HM2]].
    destruct Cx as [(_ & Cx & _)|[_ Cx]]; lia.
Qed.

Lemma in_1_2_neg (fx : fmt E M) : in_1_2 E M (ieee_neg E M fx) <-> in_1_2 E M fx.
Proof. unfold in_1_2. rewrite neg_finite, neg_B2R, Rabs_Ropp. reflexivity. Qed.

Lemma neg_neg (fx : fmt E M) : ieee_neg E M (ieee_neg E M fx) = fx.
Proof. apply Bopp_involutive. Qed.

Theorem ceil_sound x (fx : fmt E M) r : pow2_size E M mod b = 0 ->
  represents x fx -> sat b (Ceil E M x) r ->
  represents r (ieee_ceil E M fx) \/
  (in_1_2 E M fx /\ represents (E:=E) (M:=M) r
     (if Bsign fx then B754_zero true else ieee_one E M)).
Proof.
  intros Hd Hx H. unfold Ceil in H. apply sat_bind in H. destruct H as [v [Hv H]].
  apply sat_ret_inv in H. subst r. rewrite ceil_floor.
  destruct (floor_sound (Neg x) _ v Hd (neg_spec x fx Hx) Hv) as [H|[H1 H2]].
  - left. apply neg_spec, H.
  - right. pose proof (proj1 (in_1_2_neg fx) H1) as H3. clear H1. rename H3 into H1. split; [exact H1|].
    rewrite neg_Bsign in H2 by apply H1. apply neg_spec in H2.
    destruct (Bsign fx); cbn [negb] in H2; [exact H2|].
    rewrite neg_neg in H2. exact H2.
Qed.

(** ** The forgeries are accepted *)

Section Ops.
Variable x : zf.
Hypothesis Hx : zwf (E:=E) (M:=M) x.

Lemma sat_int_prefix_intro {A} (k : Z -> Z -> Z -> Z -> circ A) c r : sign_ok (ze x) c ->
  (forall inv, 0 <= inv < modulus -> emb (2 ^ int_sh M x c * inv) = emb 1 ->
    sat b (k (emb (Z.b2z c)) (emb (int_e x c)) (emb (2 ^ int_sh M x c)) inv) r) ->
  sat b (e_ge_0 <- IsPositive (emb (ze x)) E ;;
          e <- select e_ge_0 (emb (ze x)) (emb (-1)) ;;
          sh <- GMax (fsub (emb M) e) (emb 0) E ;;
          two_to_e <- QueryPow2 E M sh ;;
          inv <- inverse two_to_e ;;
          k e_ge_0 e two_to_e inv) r.
Proof.
  intros Hc Hk. destruct (int_bounds (b:=b) x Hx c Hc) as (B1 & B2 & B3 & _).
  params. exps E M.
  assert (Hm1 : 4 * emax <= 2 ^ (4 * M + 44 - 1)) by (rewrite <- Hex6; apply pow2_mono; lia).
  destruct (exec_inverse_pow2 b (int_sh M x c) (width_odd (b:=b) (K:=4*M+44)) ltac:(lia))
    as (w & Hw1 & Hw2 & Hw3).
  apply sat_bind. exists (emb (Z.b2z c)). split.
  { apply (sat_IsPositive (b:=b) (K:=4*M+44) (ze x) E ltac:(lia) ltac:(lia) ltac:(lia)).
    exists c. destruct Hc as [H1 H2]. split; [reflexivity|]. split; [exact H1|]. split; [exact H2|].
    destruct (cap_room (b:=b) (K:=4*M+44) E ltac:(lia) ltac:(lia)) as (_ & _ & _ & _ & C5). lia. }
  ystep. fold (int_e x c). rewrite fsub_emb.
  ys (exec_GMax (b:=b) (K:=4*M+44) (M - int_e x c) 0 E ltac:(lia) ltac:(lia) ltac:(lia)).
  fold (int_sh M x c).
  ys (exec_QueryPow2 (E:=E) (M:=M) (b:=b) (int_sh M x c) ltac:(lia)).
  ys Hw1. apply Hk; assumption.
Qed.

Lemma sat_Trunc_intro c : sign_ok (ze x) c -> sat b (Trunc E M (embF x)) (embF (ztrunc E M x c)).
Proof.
  intros Hc. params. exps E M. destruct (fmt_M (E:=E) (M:=M)) as [HM [HM1 HM2]].
  unfold Trunc. cbn [embF Sign Exponent Mantissa IsAbnormal].
  destruct (int_bounds (b:=b) x Hx c Hc) as (B1 & B2 & B3 & B4 & B5 & B6).
  match goal with |- sat b (bind _ (fun c0 => bind _ (fun e => bind _ (fun sh => bind _
    (fun t => bind _ (fun inv => @?k c0 e t inv)))))) _ =>
    apply (sat_int_prefix_intro k c _ Hc) end.
  intros inv I1 I2. cbv beta zeta.
  rewrite (int_m (b:=b) x Hx c inv Hc I1 I2).
  set (n := zm x * 2 ^ (M + 1 - int_sh M x c)).
  pose proof (pow_pos (M + 1 - int_sh M x c) ltac:(lia)) as Hp1.
  pose proof (pow_pos (int_sh M x c) ltac:(lia)) as Hp2.
  assert (Hle : 2 ^ (M + 1 - int_sh M x c) <= 2 ^ (M + 1)) by (apply pow2_mono; lia).
  assert (Hn : 0 <= n < 2 ^ (2 * M + 2)).
  { unfold n. rewrite B6. clear - B4 Hp1 Hle. nia. }
  assert (Hmod : 2 ^ (4 * M + 44 - b) <= modulus) by (apply (room (b:=b) (K:=4*M+44)); lia).
  assert (Hmm : 2 ^ (2 * M + 2) <= 2 ^ (4 * M + 44 - b)) by (apply pow2_mono; lia).
  assert (Hh : TruncHint (emb n) (M + 1) = Some (zm x / 2 ^ int_sh M x c)).
  { unfold TruncHint. rewrite emb_small by lia. rewrite Z.shiftr_div_pow2 by lia.
    unfold n. rewrite (int_div (b:=b) x Hx c Hc). reflexivity. }
  rewrite Hh. ystep. femb.
  set (q := zm x / 2 ^ int_sh M x c).
  assert (Hq : q = n / 2 ^ (M + 1)) by (unfold n; rewrite (int_div (b:=b) x Hx c Hc); reflexivity).
  assert (Hq1 : 0 <= q <= zm x).
  { unfold q. split; [apply Z.div_pos; lia|]. apply Z.div_le_upper_bound; [lia|].
    clear - Hp2 B4. nia. }
  pose proof (Z.div_mod n (2 ^ (M + 1)) ltac:(lia)) as Hdm. rewrite <- Hq in Hdm.
  pose proof (Z.mod_pos_bound n (2 ^ (M + 1)) ltac:(lia)) as Hmb.
  eapply sat_step; [apply (exec_abl (K:=4*M+44)); lia|].
  eapply sat_step.
  { apply (exec_abl (K:=4*M+44)); [lia|lia|].
    rewrite Z.mul_comm. clear - Hdm Hmb. lia. }
  ystep. apply sat_ret. unfold ztrunc. cbv zeta. fold q. reflexivity.
Qed.

Lemma sat_Floor_intro c : sign_ok (ze x) c -> sat b (Floor E M (embF x)) (embF (zfloor E M x c)).
Proof.
  intros Hc. params. exps E M. destruct (fmt_M (E:=E) (M:=M)) as [HM [HM1 HM2]].
  unfold Floor. cbn [embF Sign Exponent Mantissa IsAbnormal].
  destruct (int_bounds (b:=b) x Hx c Hc) as (B1 & B2 & B3 & B4 & B5 & B6).
  match goal with |- sat b (bind _ (fun c0 => bind _ (fun e => bind _ (fun sh => bind _
    (fun t => bind _ (fun inv => @?k c0 e t inv)))))) _ =>
    apply (sat_int_prefix_intro k c _ Hc) end.
  intros inv I1 I2. cbv beta zeta.
  rewrite (int_m (b:=b) x Hx c inv Hc I1 I2).
  set (n := zm x * 2 ^ (M + 1 - int_sh M x c)).
  pose proof (pow_pos (M + 1 - int_sh M x c) ltac:(lia)) as Hp1.
  pose proof (pow_pos (int_sh M x c) ltac:(lia)) as Hp2.
  assert (Hle : 2 ^ (M + 1 - int_sh M x c) <= 2 ^ (M + 1)) by (apply pow2_mono; lia).
  assert (Hn : 0 <= n < 2 ^ (2 * M + 2)).
  { unfold n. rewrite B6. clear - B4 Hp1 Hle. nia. }
  assert (Hmod : 2 ^ (4 * M + 44 - b) <= modulus) by (apply (room (b:=b) (K:=4*M+44)); lia).
  assert (Hmm : 2 ^ (2 * M + 2) <= 2 ^ (4 * M + 44 - b)) by (apply pow2_mono; lia).
  assert (Hmm2 : 4 * 2 ^ (M + 1) <= 2 ^ (4 * M + 44 - b)).
  { change 4 with (2 ^ 2). rewrite <- Z.pow_add_r by lia. apply pow2_mono; lia. }
  set (q := floor_q M x c).
  assert (Hq : q = if zs x then cdiv n (2 ^ (M + 1)) else n / 2 ^ (M + 1)).
  { unfold q, floor_q, n. cbv zeta. rewrite (int_div (b:=b) x Hx c Hc), (int_cdiv (b:=b) x Hx c Hc). reflexivity. }
  assert (Hh : FloorHint (emb n) (M + 1) (emb (Z.b2z (zs x))) = Some q).
  { unfold FloorHint. rewrite (emb_small n) by lia. rewrite Z.shiftr_div_pow2 by lia.
    rewrite Z.shiftl_mul_pow2 by lia. rewrite emb_b2z. rewrite Hq.
    destruct (zs x); cbn [Z.b2z].
    - change (u64 1 =? 1) with true. cbn [andb].
      rewrite <- cdiv_hint by lia. destruct (n / 2 ^ (M + 1) * 2 ^ (M + 1) =? n); reflexivity.
    - change (u64 0 =? 1) with false. reflexivity. }
  rewrite Hh. ystep. femb.
  destruct (floor_q_bounds (b:=b) x Hx c Hc) as [Q1 Q2]. fold q in Q1, Q2.
  assert (Hr : 0 <= (if zs x then - (n - q * 2 ^ (M + 1)) else n - q * 2 ^ (M + 1)) < 2 ^ (M + 1)).
  { rewrite Hq. destruct (zs x).
    - destruct (cdiv_bounds n (2 ^ (M + 1)) ltac:(lia) ltac:(lia)) as (_ & _ & D3). clear - D3. lia.
    - pose proof (Z.div_mod n (2 ^ (M + 1)) ltac:(lia)) as D1.
      pose proof (Z.mod_pos_bound n (2 ^ (M + 1)) ltac:(lia)) as D2.
      rewrite Z.mul_comm. clear - D1 D2. lia. }
  eapply sat_step; [apply (exec_abl (K:=4*M+44)); lia|].
  ystep.
  eapply sat_step; [apply (exec_abl (K:=4*M+44)); [lia|lia|exact Hr]|].
  rewrite IsEq_emb by lia.
  ystep. femb.
  assert (Hsel : 0 <= (if q * 2 ^ int_sh M x c =? 2 ^ (M + 1) then 2 ^ M else q * 2 ^ int_sh M x c) < modulus).
  { destruct (_ =? _); lia. }
  rewrite isZero_emb by lia.
  replace (emb (1 - Z.b2z (za x))) with (emb (Z.b2z (negb (za x)))) by (destruct (za x); reflexivity).
  repeat ystep. apply sat_ret. unfold zfloor. fold q. reflexivity.
Qed.
End Ops.

Lemma sign_ok_0 z c : z = 0 -> sign_ok z c.
Proof. intros ->. split; intros H; Lia.lia. Qed.

Theorem trunc_forgery x (fx : fmt E M) : represents x fx -> in_1_2 E M fx ->
  exists r, sat b (Trunc E M x) r /\ represents (E:=E) (M:=M) r (B754_zero (Bsign fx)).
Proof.
  intros [z [-> Hz]] Hi. pose proof (proj2 (exp0_in_1_2 z fx Hz) Hi) as H0.
  eexists. split; [exact (sat_Trunc_intro z (zrep_zwf _ _ Hz) false (sign_ok_0 _ _ H0))|].
  destruct (zrep_B2R z fx Hz (proj1 Hi)) as (_ & Sx & Ax & Cx). rewrite Sx.
  eexists. split; [reflexivity|]. apply ztrunc_forged; [exact (zrep_zwf _ _ Hz)|exact Ax].
Qed.

Theorem floor_forgery x (fx : fmt E M) : represents x fx -> in_1_2 E M fx ->
  exists r, sat b (Floor E M x) r /\ represents (E:=E) (M:=M) r
     (if Bsign fx then ieee_neg E M (ieee_one E M) else B754_zero false).
Proof.
  intros [z [-> Hz]] Hi. pose proof (proj2 (exp0_in_1_2 z fx Hz) Hi) as H0.
  eexists. split; [exact (sat_Floor_intro z (zrep_zwf _ _ Hz) false (sign_ok_0 _ _ H0))|].
  destruct (zrep_B2R z fx Hz (proj1 Hi)) as (_ & Sx & Ax & Cx). rewrite Sx.
  eexists. split; [reflexivity|]. apply zfloor_forged; [exact (zrep_zwf _ _ Hz)|exact Ax|].
  exps E M. destruct (fmt_M (E:=E) (M:=M)) as [HM [HM1 HM2]].
  destruct Cx as [(_ & Cx & _)|[_ Cx]]; lia.
Qed.

Theorem ceil_forgery x (fx : fmt E M) : represents x fx -> in_1_2 E M fx ->
  exists r, sat b (Ceil E M x) r /\ represents (E:=E) (M:=M) r
     (if Bsign fx then B754_zero true else ieee_one E M).
Proof.
  intros Hx Hi. destruct (floor_forgery (Neg x) _ (neg_spec x fx Hx) (proj2 (in_1_2_neg fx) Hi)) as (r & H1 & H2).
  exists (Neg r). split.
  - unfold Ceil. apply sat_bind. exists r. split; [exact H1|apply sat_ret; reflexivity].
  - rewrite neg_Bsign in H2 by apply Hi. apply neg_spec in H2.
    destruct (Bsign fx); cbn [negb] in H2; [exact H2|].
    rewrite neg_neg in H2. exact H2.
Qed.

End TruncSpec.
