(** ToInt (float/float.go:1142-1155). *)
From Coq Require Import ZArith Reals Bool List Lia Lra ZifyBool.
From Flocq Require Import Core BinarySingleNaN.
From Verif Require Import Field FieldFacts Circuit Hints RangeCheck Gadget FloatModel
  CircuitFacts RangeFacts GadgetFacts RoundFacts Spec RoundCore RepFacts SqrtFacts CmpFacts
  AddFacts AddSpec Forge TruncFacts TruncSpec Tactics.
Local Open Scope Z_scope.

Section ToInt.
Context {MOD : Modulus} {E M b : Z} {HP : Params E M b} {HF : Format E M}.
#[local] Instance ti_width : Width b (4 * M + 44) := params_width E M b HP.
#[local] Instance ti_big : BigMod := width_big b _ ti_width.

Notation emax := (Spec.emax E).
Notation emin := (Spec.emin E M).

Definition zsg (s : bool) : Z := if s then -1 else 1.

(** Division by [2^M] in the field is unique. *)
Lemma pow2M_cancel r n : 0 <= r < modulus -> emb (r * 2 ^ M) = emb (n * 2 ^ M) -> r = emb n.
Proof.
  intros Hr H. destruct (fmt_M (E:=E) (M:=M)) as [HM _].
  destruct (exec_inverse_pow2 b M (width_odd (b:=b) (K:=4*M+44)) ltac:(lia)) as (w & _ & Hw2 & Hw3).
  rewrite <- (emb_small r Hr).
  assert (Hz : forall z, emb z = fmul (emb (z * 2 ^ M)) w).
  { intros z. symmetry. apply inv_cancel; assumption. }
  rewrite (Hz r), (Hz n), H. reflexivity.
Qed.

Section Ops.
Variable x : zf.
Hypothesis Hx : zwf (E:=E) (M:=M) x.
Definition int_te : Z := if ze x =? emin - 1 then 0 else ze x.

Lemma te_range : emin - 1 <= ze x <= emax /\ emin - 1 < int_te <= emax.
Proof.
  exps E M. destruct (fmt_M (E:=E) (M:=M)) as [HM [HM1 HM2]].
  assert (Hr : emin - 1 <= ze x <= emax) by apply Hx. split; [exact Hr|].
  unfold int_te. destruct (Z.eqb_spec (ze x) (emin - 1)); lia.
Qed.

Lemma min_eqb : IsEq (emb (ze x)) (emb (E_MIN E M)) = emb (Z.b2z (ze x =? emin - 1)).
Proof.
  params. exps E M. destruct te_range as [H1 _].
  assert (Hmod : 2 ^ (4 * M + 44) <= modulus) by (apply (room (b:=b) (K:=4*M+44)); lia).
  assert (Hm1 : 4 * emax <= 2 ^ (4 * M + 44)) by (rewrite <- Hex6; apply pow2_mono; lia).
  rewrite IsEq_emb by lia. rewrite Hex3. reflexivity.
Qed.

Lemma sat_ToInt_iff r : sat b (ToInt E M (embF x)) r <->
  exists T, 0 <= T < modulus /\ sat b (QueryPow2 E M (emb int_te)) T /\
    0 <= r < modulus /\ emb (r * 2 ^ M) = emb (zsg (zs x) * zm x * T).
Proof.
  destruct (fmt_M (E:=E) (M:=M)) as [HM _].
  unfold ToInt. cbn [embF Sign Exponent Mantissa]. rewrite min_eqb.
  assert (Hsel : forall v w T, 0 <= w < modulus -> emb (2 ^ M * w) = emb 1 ->
     0 <= T < modulus ->
     v = (if zs x then fneg (fmul (fmul (emb (zm x)) T) w) else fmul (fmul (emb (zm x)) T) w) ->
     0 <= v < modulus /\ emb (v * 2 ^ M) = emb (zsg (zs x) * zm x * T)).
  { intros v w T H1 H2 HT Hv. rewrite <- (emb_small w H1), <- (emb_small T HT) in Hv.
    rewrite !fmul_emb, fneg_emb in Hv.
    assert (Hv2 : v = emb (zsg (zs x) * zm x * T * w)).
    { rewrite Hv. unfold zsg. destruct (zs x); f_equal; ring. }
    rewrite Hv2. split; [apply emb_range|].
    rewrite <- fmul_emb, emb_emb, fmul_emb.
    replace (zsg (zs x) * zm x * T * w * 2 ^ M) with (zsg (zs x) * zm x * T * (2 ^ M * w)) by ring.
    rewrite <- fmul_emb, H2, fmul_emb. f_equal. ring. }
  split.
  - intros H. sstep H. fold int_te in H.
    apply sat_bind in H. destruct H as [T [HT H]].
    apply sat_bind in H. destruct H as [w [Hw H]].
    apply sat_inverse_pow2 in Hw; [|exact (width_odd (b:=b) (K:=4*M+44))|lia]. destruct Hw as [W1 W2].
    assert (HTr : 0 <= T < modulus).
    { clear - HT. unfold QueryPow2, QueryPowerOf2 in HT. apply sat_bind in HT. destruct HT as [w [Hw H]].
      apply sat_hint1 in Hw. apply sat_bind in H. destruct H as [[] [_ H]].
      apply sat_bind in H. destruct H as [[] [_ H]]. apply sat_ret_inv in H. subst w. exact Hw. }
    exists T. split; [exact HTr|]. split; [exact HT|].
    apply sat_select in H. destruct H as [s' [Hs' ->]]. apply b2z_inj in Hs'. subst s'.
    eapply Hsel; [exact W1|exact W2|exact HTr|]. destruct (zs x); reflexivity.
  - intros (T & HTr & HT & Hr & Heq).
    destruct (exec_inverse_pow2 b M (width_odd (b:=b) (K:=4*M+44)) ltac:(lia)) as (w & Hw1 & Hw2 & Hw3).
    ystep. fold int_te. apply sat_bind. exists T. split; [exact HT|].
    ys Hw1. apply sat_select. exists (zs x). split; [reflexivity|].
    match goal with |- r = ?v => destruct (Hsel v w T Hw2 Hw3 HTr ltac:(destruct (zs x); reflexivity)) as [V1 V2];
      set (v0 := v) in * end. clearbody v0.
    rewrite <- (emb_small v0 V1). apply pow2M_cancel; [exact Hr|].
    rewrite Heq, V2. reflexivity.
Qed.

Lemma exec_ToInt : 0 <= int_te <= M + E ->
  exists r, exec b (ToInt E M (embF x)) = Some r /\
    emb (r * 2 ^ M) = emb (zsg (zs x) * zm x * 2 ^ int_te).
Proof.
  intros Ht. destruct (fmt_M (E:=E) (M:=M)) as [HM _]. params.
  destruct (exec_inverse_pow2 b M (width_odd (b:=b) (K:=4*M+44)) ltac:(lia)) as (w & Hw1 & Hw2 & Hw3).
  eexists. split.
  - unfold ToInt. cbn [embF Sign Exponent Mantissa]. rewrite min_eqb. xstep. fold int_te.
    xs (exec_QueryPow2 (E:=E) (M:=M) (b:=b) int_te Ht).
    xs Hw1. apply exec_select.
  - rewrite <- (emb_small w Hw2). rewrite !fmul_emb, fneg_emb.
    assert (Hgen : forall v, emb (v * 2 ^ M * w) = emb v).
    { intros v. replace (v * 2 ^ M * w) with (v * (2 ^ M * w)) by ring.
      rewrite <- fmul_emb, Hw3, fmul_emb. f_equal. ring. }
    rewrite <- (Hgen (zsg (zs x) * zm x * 2 ^ int_te)).
    unfold zsg. destruct (zs x); cbn [Z.b2z]; rewrite <- (fmul_emb _ (2 ^ M)), emb_emb, fmul_emb;
      f_equal; ring.
Qed.

End Ops.

(** ** Against the real value *)

Lemma scaled_value x (fx : fmt E M) : zrep E M x fx -> is_finite fx = true -> 0 <= int_te x ->
  (B2R fx * bpow radix2 M)%R = IZR (zsg (zs x) * zm x * 2 ^ int_te x).
Proof.
  intros Hz Fx Ht. destruct (zrep_B2R x fx Hz Fx) as (Vx & _ & _ & Cx).
  rewrite Vx, !mult_IZR, IZR_pow2 by exact Ht. unfold zmag, int_te in *.
  assert (Hs : IZR (zsg (zs x)) = sgn (zs x)) by (destruct (zs x); reflexivity). rewrite Hs. clear Ht.
  destruct Cx as [(_ & _ & Cx)|[Cx Ce]].
  - destruct (Z.eqb_spec (ze x) (emin - 1)); [lia|].
    replace (ze x) with (ze x - M + M) at 2 by ring. rewrite bpow_plus. ring.
  - rewrite Cx. ring.
Qed.

Lemma te_cases x (fx : fmt E M) : zrep E M x fx ->
  (0 <= int_te x <= M + E <->
   is_finite fx = true /\ (B2R fx = 0%R \/ (1 <= Rabs (B2R fx))%R) /\
   (Rabs (B2R fx) < bpow radix2 (M + E + 1))%R).
Proof.
  intros Hz. pose proof (zrep_zwf _ _ Hz) as Wx. destruct (fmt_M (E:=E) (M:=M)) as [HM [HM1 HM2]]. exps E M.
  assert (HEM : M + E < emax).
  { destruct HF as [F1 F2 F3 F4]. unfold Spec.emax. lia. }
  split.
  - intros Ht. assert (Fx : is_finite fx = true).
    { destruct fx; try reflexivity; exfalso; cbn in Hz.
      - subst x. unfold int_te in Ht. cbn [ze] in Ht. destruct (Z.eqb_spec emax (emin - 1)); lia.
      - destruct Hz as [s ->]. unfold int_te in Ht. cbn [ze] in Ht. destruct (Z.eqb_spec emax (emin - 1)); lia. }
    split; [exact Fx|]. destruct (zrep_B2R x fx Hz Fx) as (Vx & _ & _ & Cx). rewrite Vx, sgn_abs.
    destruct Cx as [(_ & Hm & Ce)|[Cx Ce]].
    + unfold int_te in Ht. destruct (Z.eqb_spec (ze x) (emin - 1)); [lia|].
      pose proof (zmag_mag (E:=E) (M:=M) x Hm) as Hg. pose proof (zmag_pos (E:=E) (M:=M) x ltac:(lia)) as Hp.
      pose proof (bpow_mag_le radix2 (zmag (M:=M) x) ltac:(lra)) as H1.
      pose proof (bpow_mag_gt radix2 (zmag (M:=M) x)) as H2. rewrite Hg in H1, H2.
      rewrite Rabs_pos_eq in * by lra. split.
      * right. apply Rle_trans with (2 := H1). change 1%R with (bpow radix2 0). apply bpow_le. lia.
      * apply Rlt_le_trans with (1 := H2). apply bpow_le. lia.
    + unfold zmag. rewrite Cx, Rmult_0_l, Rmult_0_r, Rabs_R0. split; [left; reflexivity|apply bpow_gt_0].
  - intros (Fx & H1 & H2). destruct (zrep_B2R x fx Hz Fx) as (Vx & _ & _ & Cx). rewrite Vx, sgn_abs in *.
    unfold int_te. destruct Cx as [(_ & Hm & Ce)|[Cx Ce]].
    + destruct (Z.eqb_spec (ze x) (emin - 1)); [lia|].
      pose proof (zmag_mag (E:=E) (M:=M) x Hm) as Hg. pose proof (zmag_pos (E:=E) (M:=M) x ltac:(lia)) as Hp.
      pose proof (bpow_mag_le radix2 (zmag (M:=M) x) ltac:(lra)) as G1.
      pose proof (bpow_mag_gt radix2 (zmag (M:=M) x)) as G2. rewrite Hg in G1, G2.
      rewrite Rabs_pos_eq in * by lra.
      destruct H1 as [H1|H1].
      { exfalso. destruct (zs x); simpl in H1; lra. }
      assert (ze x + 1 - 1 < M + E + 1) by (apply (lt_bpow radix2); lra).
      assert (0 < ze x + 1) by (apply (lt_bpow radix2); change (bpow radix2 0) with 1%R; lra).
      lia.
    + destruct (Z.eqb_spec (ze x) (emin - 1)); lia.
Qed.

Theorem toint_complete x (fx : fmt E M) n : represents x fx -> is_finite fx = true ->
  B2R fx = IZR n -> Z.abs n < 2 ^ (M + E + 1) ->
  exec b (ToInt E M x) = Some (emb n).
Proof.
  intros [z [-> Hz]] Fx Hn Hlt. destruct (fmt_M (E:=E) (M:=M)) as [HM [HM1 HM2]].
  destruct HF as [F1 F2 F3 F4].
  assert (Ht : 0 <= int_te z <= M + E).
  { apply (te_cases z fx Hz). split; [exact Fx|]. rewrite Hn, <- abs_IZR. split.
    - destruct (Z.eq_dec n 0) as [->|Hn0]; [left; reflexivity|]. right. apply IZR_le. lia.
    - rewrite <- IZR_pow2 by lia. apply IZR_lt, Hlt. }
  destruct (exec_ToInt z (zrep_zwf _ _ Hz) Ht) as (r & H1 & H2).
  rewrite H1. f_equal.
  assert (Hr : 0 <= r < modulus).
  { apply (exec_sat b) in H1. apply (sat_ToInt_iff z (zrep_zwf _ _ Hz)) in H1.
    destruct H1 as (_ & _ & _ & H & _). exact H. }
  apply pow2M_cancel; [exact Hr|]. rewrite H2. f_equal.
  apply eq_IZR. rewrite <- (scaled_value z fx Hz Fx ltac:(lia)), Hn, mult_IZR, IZR_pow2 by lia. reflexivity.
Qed.

Theorem toint_sound x (fx : fmt E M) r : pow2_size E M mod b = 0 -> represents x fx ->
  sat b (ToInt E M x) r ->
  is_finite fx = true /\ (B2R fx = 0%R \/ (1 <= Rabs (B2R fx))%R) /\
  (Rabs (B2R fx) < bpow radix2 (M + E + 1))%R /\
  exists k, (B2R fx * bpow radix2 M)%R = IZR k /\ emb (r * 2 ^ M) = emb k.
Proof.
  intros Hd [z [-> Hz]] H. apply (sat_ToInt_iff z (zrep_zwf _ _ Hz)) in H.
  destruct H as (T & HT & HQ & Hr & Heq). pose proof (te_range z (zrep_zwf _ _ Hz)) as [_ Hte].
  params. exps E M.
  assert (Hm2 : 4 * emax <= 2 ^ (2 * M + 30)) by (rewrite <- Hex6; apply pow2_mono; lia).
  apply (sat_QueryPow2 (E:=E) (M:=M) (b:=b) (int_te z) Hd ltac:(lia)) in HQ. destruct HQ as [Ht ->].
  destruct (proj1 (te_cases z fx Hz) Ht) as (Fx & H1 & H2).
  split; [exact Fx|]. split; [exact H1|]. split; [exact H2|].
  eexists. split; [apply (scaled_value z fx Hz Fx); lia|]. rewrite Heq.
  rewrite <- !(fmul_emb (zsg (zs z) * zm z)), emb_emb. reflexivity.
Qed.

Theorem toint_sound_integral x (fx : fmt E M) n r : pow2_size E M mod b = 0 -> represents x fx ->
  is_finite fx = true -> B2R fx = IZR n -> sat b (ToInt E M x) r ->
  Z.abs n < 2 ^ (M + E + 1) /\ r = emb n.
Proof.
  intros Hd Hx Fx Hn H. destruct (fmt_M (E:=E) (M:=M)) as [HM [HM1 HM2]].
  destruct HF as [F1 F2 F3 F4].
  destruct (toint_sound x fx r Hd Hx H) as (_ & _ & H2 & k & H3 & H4).
  split.
  - apply lt_IZR. rewrite abs_IZR, <- Hn, IZR_pow2 by lia. exact H2.
  - apply pow2M_cancel.
    + destruct Hx as [z [-> Hz]]. apply (sat_ToInt_iff z (zrep_zwf _ _ Hz)) in H.
      destruct H as (_ & _ & _ & H & _). exact H.
    + rewrite H4. f_equal. apply eq_IZR. rewrite <- H3, Hn, mult_IZR, IZR_pow2 by lia. reflexivity.
Qed.

(** With a base width not dividing the table size, every non-zero integral
    input below [2^(M+E)] has a second accepted result. *)
Theorem toint_forgery x (fx : fmt E M) n : pow2_size E M mod b <> 0 -> represents x fx ->
  is_finite fx = true -> B2R fx = IZR n -> n <> 0 -> Z.abs n < 2 ^ (M + E) ->
  exists r, sat b (ToInt E M x) r /\ r <> emb n.
Proof.
  intros Hd [z [-> Hz]] Fx Hn Hn0 Hlt. destruct (fmt_M (E:=E) (M:=M)) as [HM [HM1 HM2]].
  pose proof (zrep_zwf _ _ Hz) as Wz. params. exps E M.
  assert (Ht : 0 <= int_te z <= M + E).
  { apply (te_cases z fx Hz). split; [exact Fx|]. rewrite Hn, <- abs_IZR. split.
    - right. apply IZR_le. lia.
    - rewrite <- IZR_pow2 by lia. apply IZR_lt. apply Z.lt_le_trans with (1 := Hlt). apply pow2_mono; lia. }
  pose proof (scaled_value z fx Hz Fx ltac:(lia)) as Hv.
  rewrite Hn, <- IZR_pow2, <- mult_IZR in Hv by lia. apply eq_IZR in Hv.
  destruct (zrep_B2R z fx Hz Fx) as (_ & _ & _ & Cz).
  assert (Hmz : 2 ^ M <= zm z < 2 ^ (M + 1)).
  { destruct Cz as [(_ & Cz & _)|[Cz _]]; [exact Cz|]. rewrite Cz in Hv. exfalso.
    pose proof (pow_pos M ltac:(lia)). lia. }
  set (e := int_te z) in *.
  assert (He : e < M + E).
  { apply Z.nle_gt. intros Hge. assert (e = M + E) by lia.
    assert (Habs : Z.abs n * 2 ^ M = zm z * 2 ^ e).
    { replace (Z.abs n * 2 ^ M) with (Z.abs (n * 2 ^ M)) by (rewrite Z.abs_mul, (Z.abs_eq (2 ^ M)) by lia; reflexivity).
      rewrite Hv. rewrite Z.abs_mul, (Z.abs_eq (2 ^ e)) by (apply Z.pow_nonneg; lia).
      rewrite Z.abs_mul, (Z.abs_eq (zm z)) by lia. unfold zsg. destruct (zs z); cbn [Z.abs]; ring. }
    rewrite H in Habs. pose proof (pow_pos (M + E) ltac:(lia)). clear - Habs Hlt Hmz HM1 H0. nia. }
  set (T := 2 ^ (e + 1) + 1 * 2 ^ pow2_size E M).
  assert (Hcap : 2 ^ pow2_size E M * 2 <= 2 ^ capacity b (pow2_size E M)).
  { rewrite Z.mul_comm, <- Z.pow_succ_r by (unfold pow2_size; lia). apply pow2_mono.
    pose proof (capacity_bounds b (pow2_size E M) ltac:(lia) ltac:(unfold pow2_size; lia)) as (C1 & C2 & C3).
      assert (capacity b (pow2_size E M) <> pow2_size E M).
      { intros Heq. apply Hd. rewrite <- Heq. unfold capacity; first [apply Z.mod_mul | rewrite Z.mul_comm; apply Z.mod_mul]; lia. }
      lia. }
  assert (HTlt : 2 ^ (e + 1) < 2 ^ pow2_size E M) by (apply Z.pow_lt_mono_r; unfold pow2_size; lia).
  assert (Hmod : 2 ^ (4 * M + 44) <= modulus) by (apply (room (b:=b) (K:=4*M+44)); lia).
  assert (HTm : 2 * 2 ^ pow2_size E M <= 2 ^ (2 * M + 30)).
  { rewrite <- Z.pow_succ_r by (unfold pow2_size; lia). apply pow2_mono; unfold pow2_size; lia. }
  assert (Hp30 : 2 ^ (2 * M + 30) * 2 ^ (M + 3) = 2 ^ (3 * M + 33)) by (rewrite <- Z.pow_add_r by lia; f_equal; lia).
  assert (Hp33 : 2 ^ (3 * M + 33) * 2 <= 2 ^ (4 * M + 44)).
  { rewrite (Z.mul_comm _ 2), <- Z.pow_succ_r by lia. apply pow2_mono; lia. }
  assert (Hp3 : 2 ^ (M + 3) = 8 * 2 ^ M) by (rewrite Z.pow_add_r by lia; lia).
  pose proof (pow_pos (e + 1) ltac:(lia)) as HTp.
  assert (Hp44 : 2 ^ (2 * M + 30) <= 2 ^ (4 * M + 44)) by (apply pow2_mono; lia).
  assert (HT : 0 <= T < modulus) by (unfold T; lia).
  destruct (exec_inverse_pow2 b M (width_odd (b:=b) (K:=4*M+44)) ltac:(lia)) as (w & _ & Hw2 & Hw3).
  exists (emb (zsg (zs z) * zm z * T * w)).
  assert (Hpw : forall v, emb (emb (v * w) * 2 ^ M) = emb v).
  { intros v. rewrite <- fmul_emb, emb_emb, fmul_emb.
    replace (v * w * 2 ^ M) with (v * (2 ^ M * w)) by ring.
    rewrite <- fmul_emb, Hw3, fmul_emb. f_equal. ring. }
  split.
  - apply (sat_ToInt_iff z Wz). exists T. split; [exact HT|]. split.
    + fold e. unfold QueryPow2. apply (sat_QueryPowerOf2 (b:=b) (K:=4*M+44)).
      * unfold pow2_size; lia.
      * unfold pow2_size; lia.
      * assert (M + E <= 2 ^ (4 * M + 44 - 3 - pow2_size E M)).
        { assert (2 ^ 6 <= 2 ^ (4 * M + 44 - 3 - pow2_size E M)) by (apply pow2_mono; unfold pow2_size; lia). lia. }
        lia.
      * exists (e + 1), 1. split; [unfold pow2_size; lia|]. split; [lia|]. split; [lia|].
        split; [|lia]. unfold T. symmetry. apply emb_small. exact HT.
    + split; [apply emb_range|]. apply Hpw.
  - intros Heq.
    assert (He2 : emb (zsg (zs z) * zm z * T) = emb (zsg (zs z) * zm z * 2 ^ e)).
    { rewrite <- (Hpw (zsg (zs z) * zm z * T)), Heq.
      rewrite <- fmul_emb, emb_emb, fmul_emb, Hv. reflexivity. }
    assert (Hpe : 0 < 2 ^ e) by (apply pow_pos; lia).
    assert (HTe : 2 ^ (e + 1) = 2 * 2 ^ e) by (rewrite Z.pow_add_r by lia; ring).
    apply emb_inj in He2.
    + assert (Hd2 : zsg (zs z) * zm z * (T - 2 ^ e) = 0) by lia.
      unfold T in Hd2. rewrite HTe in Hd2. unfold zsg in Hd2. clear - Hd2 Hmz HM1 Hpe HTlt HTe.
      destruct (zs z); nia.
    + replace (zsg (zs z) * zm z * T - zsg (zs z) * zm z * 2 ^ e) with (zsg (zs z) * (zm z * (T - 2 ^ e))) by ring.
      assert (Hb1 : 0 <= zm z * (T - 2 ^ e) < modulus).
      { unfold T. rewrite HTe. split; [clear - Hmz HM1 Hpe HTlt HTe; nia|].
        apply Z.lt_le_trans with (2 := Hmod). apply Z.lt_le_trans with (2 := Hp33).
        rewrite <- Hp30, Hp3. clear - Hmz HM1 HM2 Hpe HTlt HTe HTm. nia. }
      unfold zsg. destruct (zs z); lia.
Qed.

End ToInt.
