(** Components of IEEE data: values, ranges, and the final step of the
    arithmetic operations. *)
From Coq Require Import ZArith Reals Bool Lia Lra ZifyBool.
From Flocq Require Import Core Digits BinarySingleNaN.
From Verif Require Import Hints Circuit RangeCheck Field FieldFacts FloatModel Spec GadgetFacts RangeFacts RoundFacts
  RoundCore Tactics.
Local Open Scope Z_scope.

Definition sgn (s : bool) : R := if s then (-1)%R else 1%R.

Lemma sgn_sq s : (sgn s * sgn s = 1)%R.
Proof. destruct s; simpl; lra. Qed.
Lemma sgn_xor s t : sgn (xorb s t) = (sgn s * sgn t)%R.
Proof. destruct s, t; simpl; lra. Qed.
Lemma sgn_abs s v : Rabs (sgn s * v) = Rabs v.
Proof.
  destruct s; simpl.
  - replace (-1 * v)%R with (- v)%R by lra. apply Rabs_Ropp.
  - f_equal. lra.
Qed.
Lemma sgn_IZR s m : IZR (cond_Zopp s m) = (sgn s * IZR m)%R.
Proof. destruct s; simpl; rewrite ?opp_IZR; lra. Qed.

Section Rep.
Context {E M : Z} {HF : Format E M}.

Notation emax := (Spec.emax E).
Notation emin := (Spec.emin E M).
Notation prec := (Spec.prec M).
Notation fexp := (FLT_exp emin prec).
Notation rnd := (Generic_fmt.round radix2 fexp ZnearestE).
Notation fmt := (Spec.fmt E M).

(** The magnitude denoted by exponent and mantissa. *)
Definition zmag (z : zf) : R := (IZR (zm z) * bpow radix2 (ze z - M))%R.

(** Normalised non-zero finite components. *)
Definition zfin (z : zf) : Prop :=
  za z = false /\ 2 ^ M <= zm z < 2 ^ (M + 1) /\ emin <= ze z < emax.

Lemma fmt_M : 4 <= M /\ 0 < 2 ^ M /\ 2 ^ (M + 1) = 2 * 2 ^ M.
Proof.
  destruct HF as [H1 H2 H3 H4]. split; [lia|]. split; [apply pow_pos; lia|].
  rewrite <- Z.pow_succ_r by lia. f_equal.
Qed.

Lemma zmag_pos z : 2 ^ M <= zm z -> (0 < zmag z)%R.
Proof.
  intros H. destruct fmt_M as [_ [H1 _]]. unfold zmag.
  apply Rmult_lt_0_compat; [apply IZR_lt; lia|apply bpow_gt_0].
Qed.

Lemma zmag_mag z : 2 ^ M <= zm z < 2 ^ (M + 1) -> mag radix2 (zmag z) = (ze z + 1) :> Z.
Proof.
  intros H. destruct fmt_M as [H0 [H1 H2]]. apply mag_unique_pos. unfold zmag. split.
  - replace (ze z + 1 - 1) with (M + (ze z - M)) by lia.
    rewrite bpow_plus, <- (IZR_pow2 M) by lia.
    apply Rmult_le_compat_r; [apply bpow_ge_0|apply IZR_le; lia].
  - replace (ze z + 1) with (M + 1 + (ze z - M)) by lia.
    rewrite (bpow_plus radix2 (M + 1)), <- (IZR_pow2 (M + 1)) by lia.
    apply Rmult_lt_compat_r; [apply bpow_gt_0|apply IZR_lt; lia].
Qed.

Lemma bounded_facts m e : SpecFloat.bounded prec emax m e = true ->
  let d := Zpos (digits2_pos m) in
  1 <= d <= prec /\ emin <= e <= emax - prec /\ e = Z.max (e + d - prec) emin /\
  2 ^ (d - 1) <= Zpos m < 2 ^ d.
Proof.
  intros H d. unfold SpecFloat.bounded in H. apply andb_true_iff in H.
  destruct H as [H1 H2]. unfold SpecFloat.canonical_mantissa in H1.
  apply Zeq_bool_eq in H1. unfold SpecFloat.fexp, SpecFloat.emin in H1.
  apply Z.leb_le in H2.
  fold d in H1.
  assert (Hd : d = Digits.Zdigits radix2 (Zpos m)) by (unfold d; apply Digits.Zpos_digits2_pos).
  assert (Hd1 : 1 <= d) by (unfold d; lia).
  pose proof (Digits.Zdigits_correct radix2 (Zpos m)) as Hdc. rewrite <- Hd in Hdc.
  assert (Hb : 2 ^ (d - 1) <= Zpos m < 2 ^ d).
  { change (2 ^ (d - 1)) with (Zpower radix2 (d - 1)).
    change (2 ^ d) with (Zpower radix2 d). rewrite Z.abs_eq in Hdc by lia. exact Hdc. }
  unfold Spec.emin. split; [lia|]. split; [lia|]. split; [lia|exact Hb].
Qed.

Lemma zrep_finite z s m e H : zrep E M z (B754_finite s m e H) ->
  zs z = s /\ zfin z /\ zmag z = (IZR (Zpos m) * bpow radix2 e)%R /\
  (emin + M - ze z <= 0 \/ (2 ^ (emin + M - ze z) | zm z)).
Proof.
  intros Hz. cbn [zrep] in Hz. subst z. destruct (bounded_facts m e H) as (H1 & H2 & H3 & H4).
  set (d := Zpos (digits2_pos m)) in *. destruct fmt_M as [HM [HM1 HM2]].
  cbn [zs]. split; [reflexivity|].
  assert (HpM : 2 ^ (d - 1) * 2 ^ (prec - d) = 2 ^ M).
  { rewrite <- Z.pow_add_r by lia. f_equal. unfold Spec.prec. lia. }
  assert (HpM1 : 2 ^ d * 2 ^ (prec - d) = 2 ^ (M + 1)).
  { rewrite <- Z.pow_add_r by lia. f_equal. unfold Spec.prec. lia. }
  pose proof (pow_pos (prec - d) ltac:(lia)) as Hpp.
  split.
  - unfold zfin. cbn [za zm ze]. split; [reflexivity|]. split.
    + rewrite <- HpM, <- HpM1. split.
      * apply Z.mul_le_mono_nonneg_r; lia.
      * apply Z.mul_lt_mono_pos_r; lia.
    + unfold Spec.prec in *. lia.
  - unfold zmag. cbn [zm ze]. split.
    + rewrite mult_IZR, IZR_pow2 by lia. rewrite Rmult_assoc, <- bpow_plus.
      do 2 f_equal. unfold Spec.prec. lia.
    + destruct (Z_le_gt_dec (emin + M - (e + d - 1)) 0) as [Hle|Hgt]; [left; exact Hle|].
      right. exists (Zpos m). do 2 f_equal. unfold Spec.prec in *. lia.
Qed.

Lemma zrep_B2R z f : zrep E M z f -> is_finite f = true ->
  B2R f = (sgn (zs z) * zmag z)%R /\ Bsign f = zs z /\ za z = false /\
  (zfin z \/ (zm z = 0 /\ ze z = emin - 1)).
Proof.
  destruct f as [s|s| |s m e H]; intros Hz Hf; try discriminate.
  - cbn [zrep] in Hz. subst z. unfold zmag. cbn. split; [lra|]. auto.
  - pose proof (zrep_finite _ _ _ _ _ Hz) as (H1 & H2 & H3 & _).
    split; [|split; [symmetry; exact H1|split; [apply H2|left; exact H2]]].
    rewrite H3. cbn [B2R]. unfold F2R. cbn [Fnum Fexp]. rewrite sgn_IZR, H1. lra.
Qed.

(** Uniqueness of normalised components. *)
Lemma zrep_intro z (f : fmt) : za z = false -> 2 ^ M <= zm z < 2 ^ (M + 1) ->
  is_finite f = true -> Bsign f = zs z -> B2R f = (sgn (zs z) * zmag z)%R ->
  zrep E M z f.
Proof.
  intros Ha Hm Hf Hs Hv. pose proof (zmag_pos z ltac:(lia)) as Hpos.
  destruct f as [s|s| |s m e H]; try discriminate.
  - exfalso. cbn in Hv. destruct (zs z); simpl in Hv; lra.
  - cbn [Bsign] in Hs. subst s.
    assert (Hz0 : exists z', zrep E M z' (B754_finite (zs z) m e H)) by (eexists; reflexivity).
    destruct Hz0 as [z' Hz']. pose proof (zrep_finite _ _ _ _ _ Hz') as (H1 & H2 & H3 & _).
    pose proof (zrep_B2R z' _ Hz' eq_refl) as (Hv' & _ & _ & _).
    rewrite Hv, H1 in Hv'.
    assert (Heq : zmag z = zmag z').
    { destruct (zs z); simpl in Hv'; lra. }
    assert (Hze : ze z = ze z').
    { pose proof (zmag_mag z Hm) as E1. pose proof (zmag_mag z' (proj1 (proj2 H2))) as E2.
      rewrite Heq in E1. lia. }
    assert (Hzm : zm z = zm z').
    { unfold zmag in Heq. rewrite Hze in Heq. apply eq_IZR.
      apply Rmult_eq_reg_r with (2 := Rgt_not_eq _ _ (bpow_gt_0 radix2 (ze z' - M))).
      exact Heq. }
    assert (z = z') as ->; [|exact Hz'].
    destruct z as [a1 a2 a3 a4], z' as [b1 b2 b3 b4]. destruct H2 as [H2 _].
    cbn in *. subst. reflexivity.
Qed.

Lemma zrep_zero_intro s (f : fmt) : is_finite f = true -> Bsign f = s -> B2R f = 0%R ->
  f = B754_zero s.
Proof.
  intros Hf Hs Hv. destruct f as [t|t| |t m e H]; try discriminate.
  - cbn in Hs. congruence.
  - exfalso. cbn [B2R] in Hv. apply eq_0_F2R in Hv.
    destruct t; simpl in Hv; discriminate.
Qed.

Lemma overflow_inf (f : fmt) s : B2SF f = binary_overflow prec emax mode_NE s ->
  f = B754_infinity s.
Proof.
  unfold binary_overflow. cbn [overflow_to_inf].
  destruct f; cbn; intros H; inversion H; reflexivity.
Qed.

(** What Flocq's correctness theorems say about an operation with exact result
    [v] of sign [sg]. *)
Definition op_result (f : fmt) (sg : bool) (v : R) : Prop :=
  if Rlt_bool (Rabs (rnd v)) (bpow radix2 emax)
  then B2R f = rnd v /\ is_finite f = true /\ Bsign f = sg
  else B2SF f = binary_overflow prec emax mode_NE sg.

Lemma rnd_sgn s v : rnd (sgn s * v) = (sgn s * rnd v)%R.
Proof.
  destruct s; simpl.
  - replace (-1 * v)%R with (- v)%R by lra.
    rewrite round_NE_opp. lra.
  - rewrite !Rmult_1_l. reflexivity.
Qed.

(** The malformed float accepted for an overflowing result (finding about
    [fixOverflow]). *)
Definition malformed (s : bool) (z : zf) : Prop :=
  exists m, 2 ^ M <= m < 2 ^ (M + 1) /\ z = mkZ s emax m false.

Definition fix_out (sg : bool) (zr e : Z) (a pos : bool) : zf :=
  let '(m', e', ab) := zfix (E:=E) (M:=M) zr (zr =? 0) e a pos in
  mkZ sg e' (if zr =? 0 then 0 else m') ab.

Lemma fix_spec f sg v0 zr e pos :
  op_result f sg (sgn sg * v0) -> rnd v0 = (IZR zr * bpow radix2 (e - M))%R ->
  (zr = 0 /\ e < emax) \/ 2 ^ M <= zr <= 2 ^ (M + 1) ->
  fix_pos_ok (E:=E) (M:=M) zr e pos ->
  zrep E M (fix_out sg zr e false pos) f \/
  (e + Z.b2z (zr =? 2 ^ (M + 1)) = emax /\ pos = false /\
   f = B754_infinity sg /\ malformed sg (fix_out sg zr e false pos)).
Proof.
  intros Hop Hr Hzr Hpos. destruct fmt_M as [HM [HM1 HM2]].
  unfold op_result in Hop. rewrite rnd_sgn, sgn_abs, Hr in Hop.
  unfold fix_out, zfix. unfold fix_pos_ok in Hpos. rewrite emax_max in *.
  cbv zeta in *.
  destruct Hzr as [[-> He]|Hzr].
  - (* underflow to zero *)
    left. rewrite Rmult_0_l, Rabs_R0 in Hop.
    rewrite Rlt_bool_true in Hop by apply bpow_gt_0.
    destruct Hop as (H1 & H2 & H3).
    rewrite (zrep_zero_intro sg f H2 H3) by (rewrite H1; destruct sg; simpl; lra).
    destruct (Z.eqb_spec 0 (2 ^ (M + 1))); [lia|]. cbn [Z.b2z] in Hpos.
    destruct Hpos as [_ Hpos]. rewrite Hpos by lia. cbn. rewrite emin_min. reflexivity.
  - destruct (Z.eqb_spec zr 0) as [Hz0|Hz0]; [lia|].
    set (ov := zr =? 2 ^ (M + 1)) in *. set (e1 := e + Z.b2z ov) in *.
    set (m1 := if ov then 2 ^ M else zr).
    assert (Hm1 : 2 ^ M <= m1 < 2 ^ (M + 1)).
    { unfold m1, ov. destruct (Z.eqb_spec zr (2 ^ (M + 1))); lia. }
    assert (Hval : (IZR zr * bpow radix2 (e - M) = IZR m1 * bpow radix2 (e1 - M))%R).
    { unfold m1, e1, ov. destruct (Z.eqb_spec zr (2 ^ (M + 1))) as [->|_]; cbn [Z.b2z].
      - rewrite HM2, mult_IZR. replace (e + 1 - M) with (1 + (e - M)) by lia.
        rewrite bpow_plus. simpl. lra.
      - rewrite Z.add_0_r. reflexivity. }
    assert (Hout : (if ov || pos then 2 ^ M else zr) = if pos then 2 ^ M else m1).
    { unfold m1. destruct ov, pos; reflexivity. }
    rewrite orb_false_r, Hout.
    set (w := mkZ sg e1 m1 false).
    assert (Hmag : mag radix2 (zmag w) = e1 + 1 :> Z) by (apply zmag_mag; exact Hm1).
    assert (Hwpos : (0 < zmag w)%R) by (apply zmag_pos; cbn; lia).
    rewrite Hval in Hop. change (IZR m1 * bpow radix2 (e1 - M))%R with (zmag w) in Hop.
    rewrite Rabs_pos_eq in Hop by lra.
    destruct (Z_lt_le_dec e1 emax) as [Hlt|Hge].
    + (* finite *)
      left. destruct Hpos as [_ Hpos]. rewrite Hpos by exact Hlt.
      rewrite Rlt_bool_true in Hop.
      2:{ apply Rlt_le_trans with (bpow radix2 (e1 + 1)); [|apply bpow_le; lia].
          pose proof (bpow_mag_gt radix2 (zmag w)) as Hb. rewrite Hmag in Hb.
          rewrite Rabs_pos_eq in Hb by lra. exact Hb. }
      destruct Hop as (H1 & H2 & H3).
      apply zrep_intro; cbn [za zm zs ze]; auto.
    + (* overflow *)
      rewrite Rlt_bool_false in Hop.
      2:{ apply Rle_trans with (bpow radix2 (e1 + 1 - 1)); [apply bpow_le; lia|].
          pose proof (bpow_mag_le radix2 (zmag w)) as Hb. rewrite Hmag in Hb.
          rewrite Rabs_pos_eq in Hb by lra. apply Hb. lra. }
      apply overflow_inf in Hop.
      destruct pos.
      * left. rewrite Hop. reflexivity.
      * right. assert (e1 = emax) as He1.
        { destruct (Z_lt_le_dec emax e1) as [Hlt|]; [|lia].
          destruct Hpos as [Hpos _]. specialize (Hpos Hlt). discriminate. }
        rewrite He1. split; [reflexivity|]. split; [reflexivity|]. split; [exact Hop|].
        exists m1. auto.
Qed.

(** Components satisfying the bounds every represented datum satisfies. *)
Definition zwf (z : zf) : Prop :=
  emin - 1 <= ze z <= emax /\
  ((zm z = 0 /\ (if za z then ze z = emax else ze z = emin - 1)) \/
   (2 ^ M <= zm z < 2 ^ (M + 1) /\
    (if za z then ze z = emax /\ zm z = 2 ^ M else emin <= ze z < emax))).

Lemma zrep_zwf z f : zrep E M z f -> zwf z.
Proof.
  destruct fmt_M as [HM [HM1 HM2]]. pose proof emin_lt_emax as Hee. unfold zwf.
  destruct f as [s|s| |s m e H]; intros Hz.
  - cbn in Hz. subst z. cbn. lia.
  - cbn in Hz. subst z. cbn. lia.
  - cbn in Hz. destruct Hz as [s ->]. cbn. lia.
  - pose proof (zrep_finite _ _ _ _ _ Hz) as (H1 & (H2 & H3 & H4) & _).
    rewrite H2. lia.
Qed.

Lemma zround_0 L s h : M + 2 <= L -> 0 <= s -> zround M 0 L s h = 0.
Proof.
  intros HL Hs. unfold zround, zcarry.
  set (k := L - M - 1 + s).
  pose proof (pow_pos k ltac:(unfold k; lia)). pose proof (pow_pos (k - 1) ltac:(unfold k; lia)).
  rewrite Z.div_0_l, Z.mod_0_l by lia.
  destruct (Z.eqb_spec 0 (2 ^ (k - 1))); [lia|].
  destruct (Z.leb_spec (2 ^ (k - 1)) 0); [lia|]. reflexivity.
Qed.

Lemma rnd_0 : rnd 0 = 0%R.
Proof. apply round_0. typeclasses eauto. Qed.

End Rep.

Lemma bit_top p n : 0 <= n -> 0 <= p < 2 ^ (n + 1) -> Hints.bit p n = Z.b2z (2 ^ n <=? p).
Proof.
  intros Hn Hp. unfold Hints.bit. rewrite Z.testbit_odd, Z.shiftr_div_pow2 by lia.
  pose proof (pow_pos n Hn) as Hpn.
  assert (H2 : 2 ^ (n + 1) = 2 * 2 ^ n) by (rewrite <- Z.pow_succ_r by lia; f_equal).
  destruct (Z.leb_spec (2 ^ n) p) as [Hge|Hlt].
  - replace (p / 2 ^ n) with 1; [reflexivity|].
    apply Z.div_unique with (p - 2 ^ n); lia.
  - rewrite Z.div_small by lia. reflexivity.
Qed.

(** Appending a zero bit does not change the rounding. *)
Lemma zround_double M n L s h : 0 <= n -> M + 2 <= L -> 0 <= s ->
  zround M (2 * n) (L + 1) s h = zround M n L s h.
Proof.
  intros Hn HL Hs. unfold zround. cbv zeta.
  replace (L + 1 - M - 1 + s) with (L - M - 1 + s + 1) by ring.
  set (k := L - M - 1 + s).
  destruct (div_pow_scale n 1 k Hn ltac:(lia) ltac:(unfold k; lia)) as [H1 H2].
  change (2 ^ 1) with 2 in H1, H2. replace (2 * n) with (n * 2) by ring.
  rewrite H1, H2.
  change (n mod 2 ^ k * 2) with (n mod 2 ^ k * 2 ^ 1).
  rewrite zcarry_scale by (unfold k; lia). reflexivity.
Qed.

(** A tight check needs no bound on the value checked. *)
Lemma check_unknown_any {MOD : Modulus} {b K : Z} {HW : Width b K} v n :
  1 <= n -> n + b <= K -> 0 <= v < modulus ->
  range_ok b v n TightForUnknownRange -> 0 <= v < 2 ^ n.
Proof.
  intros Hn Hr Hv H.
  destruct (cap_room (b:=b) (K:=K) n Hn Hr) as (H1 & H2 & H3 & H4 & H5).
  pose proof (width_b (b:=b) (K:=K)). pose proof (width_big b K HW) as HBig.
  apply range_ok_iff in H; [|lia..]. cbn in H. lia.
Qed.

Lemma params_format {MOD : Modulus} E M b : Params E M b -> Format E M.
Proof. intros [H1 H2 H3 H4 H5 H6 H7]. constructor; assumption. Qed.

Lemma exp_facts E M {HF : Format E M} :
  E_MAX E = Spec.emax E /\ E_NORMAL_MIN E = 2 - Spec.emax E /\
  E_MIN E M = Spec.emin E M - 1 /\ Spec.emin E M = 2 - Spec.emax E - M /\
  2 ^ (E - 1) = Spec.emax E /\ 2 ^ (E + 1) = 4 * Spec.emax E /\ 2 ^ E = 2 * Spec.emax E /\
  8 <= Spec.emax E /\ 2 * M <= Spec.emax E /\ 4 <= M /\ 4 <= E <= M.
Proof.
  pose proof (@emin_lt_emax E M HF) as He. pose proof (@emin_min E M) as Hm.
  destruct HF as [H1 H2 H3 H4].
  assert (2 ^ (E + 1) = 4 * 2 ^ (E - 1)).
  { change 4 with (2 ^ 2). rewrite <- Z.pow_add_r by lia. f_equal. lia. }
  assert (2 ^ E = 2 * 2 ^ (E - 1)) by (rewrite <- Z.pow_succ_r by lia; f_equal; lia).
  rewrite Hm. unfold E_NORMAL_MIN, E_MAX, Spec.emin, Spec.emax, Spec.prec in *.
  repeat split; lia.
Qed.

Ltac exps E M :=
  let H := fresh "H" in
  pose proof (exp_facts E M) as H;
  destruct H as (Hex1 & Hex2 & Hex3 & Hex4 & Hex5 & Hex6 & Hex7 & Hex8 & Hex9 & Hex10 & Hex11).

Lemma fsub_back {MOD : Modulus} {HB : BigMod} w z :
  0 <= w < modulus -> w = emb (fsub w (emb z) + z).
Proof.
  intros Hw. rewrite <- (emb_small w Hw) at 2. rewrite fsub_emb.
  rewrite <- (emb_small w Hw) at 1. unfold emb.
  rewrite Zplus_mod_idemp_l. f_equal. ring.
Qed.

(** Push field operations into [emb]. *)
Ltac femb := repeat first [ rewrite fmul_emb | rewrite fsub_emb | rewrite fadd_emb | rewrite fneg_emb ].
Ltac femb_in H :=
  repeat first [ rewrite fmul_emb in H | rewrite fsub_emb in H | rewrite fadd_emb in H
               | rewrite fneg_emb in H ].
