(** Context.Sqrt (float/float.go:860-958). *)
From Coq Require Import ZArith Reals Bool List Lia Lra ZifyBool.
From Flocq Require Import Core BinarySingleNaN.
From Verif Require Import Field FieldFacts Circuit Hints RangeCheck Gadget FloatModel
  CircuitFacts RangeFacts GadgetFacts RoundFacts Spec RoundCore RepFacts MulFacts Tactics.
Local Open Scope Z_scope.

(** [Abs] on an arbitrary field element: it is a small signed number. *)
Lemma sat_GAbs_any {MOD : Modulus} {b K : Z} {HW : Width b K} v n r :
  1 <= n -> n + b <= K -> 0 <= v < modulus ->
  sat b (GAbs v n) r -> exists z, v = emb z /\ Z.abs z < 2 ^ (n + b).
Proof.
  intros Hn Hr Hv H. pose proof (width_big b K HW) as HBig.
  destruct (cap_room (b:=b) (K:=K) n Hn Hr) as (H1 & H2 & H3 & H4 & H5).
  pose proof (width_b (b:=b) (K:=K)) as Hb.
  pose proof (capacity_bounds b n ltac:(lia) Hn) as [_ [Hc _]].
  assert (Hcp : 2 ^ capacity b n <= 2 ^ (n + b)) by (apply pow2_mono; lia).
  unfold GAbs in H.
  apply sat_bind in H as [s [Hs H]]. apply sat_bind in H as [u [Hu H]].
  apply sat_bind in H as [[] [Hb' H]]. apply sat_bind in H as [a [Ha H]].
  apply sat_bind in H as [[] [Hck H]]. apply sat_ret_inv in H. subst r.
  apply sat_assert_bool in Hb'. destruct Hb' as [c ->].
  apply sat_select in Ha. destruct Ha as [c' [_ ->]]. apply sat_check in Hck.
  assert (Hneg : 0 <= fneg v < modulus) by apply (emb_range (- v)).
  destruct c'.
  - apply range_ok_iff in Hck; [|lia..]. cbn in Hck. exists v.
    rewrite emb_small by exact Hv. lia.
  - apply range_ok_iff in Hck; [|lia..]. cbn in Hck. exists (- fneg v). split; [|lia].
    rewrite <- fneg_emb. rewrite (emb_small (fneg v)) by exact Hneg.
    rewrite <- (emb_small v Hv). rewrite fneg_emb. rewrite fneg_emb. f_equal. ring.
Qed.

Lemma emb_half {MOD : Modulus} {HB : BigMod} w z :
  0 <= w < modulus -> emb (2 ^ 1 * w) = emb 1 -> fmul (emb (2 * z)) w = emb z.
Proof.
  intros Hw H. rewrite <- (emb_small w Hw). rewrite fmul_emb.
  replace (2 * z * w) with (z * (2 ^ 1 * w)) by (change (2 ^ 1) with 2; ring).
  rewrite <- fmul_emb, H, fmul_emb. f_equal. ring.
Qed.

Lemma emb_double_inj {MOD : Modulus} {HB : BigMod} w z : Z.odd modulus = true ->
  0 <= w < modulus -> emb (2 * w) = emb (2 * z) -> w = emb z.
Proof.
  intros Ho Hw H. rewrite <- (emb_small w Hw). unfold emb in *.
  apply (odd_cancel_pow2 modulus 1); [exact HB|exact Ho|lia|].
  change (2 ^ 1) with 2. rewrite !(Z.mul_comm _ 2). exact H.
Qed.

Section SqrtZ.
Variables E M : Z.
Definition sqrt_e (x : zf) : Z := ze x / 2.
Definition sqrt_m (x : zf) : Z :=
  if Z.odd (ze x) then 2 * (zm x * 2 ^ (M + 4)) else zm x * 2 ^ (M + 4).
Definition sqrt_n (x : zf) : Z := Z.sqrt (sqrt_m x).
Definition sqrt_r (x : zf) : Z := sqrt_m x - sqrt_n x * sqrt_n x.
Definition sqrt_zr (x : zf) : Z := zround M (sqrt_n x) (M + 3) 0 (sqrt_r x =? 0).
Definition zsqrt (x : zf) : zf :=
  let nz := sqrt_n x =? 0 in
  let ab := (zs x && negb nz) || za x in
  mkZ (zs x) (if ab then E_MAX E else if nz then E_MIN E M else sqrt_e x)
    (if zs x then 0 else sqrt_zr x) ab.
End SqrtZ.

Section Sqrt.
Context {MOD : Modulus} {E M b : Z} {HP : Params E M b} {HF : Format E M}.
#[local] Instance sqrt_width : Width b (4 * M + 44) := params_width E M b HP.
#[local] Instance sqrt_big : BigMod := width_big b _ sqrt_width.

Notation emax := (Spec.emax E).
Notation emin := (Spec.emin E M).

Lemma odd_b2z e : e = 2 * (e / 2) + Z.b2z (Z.odd e).
Proof. rewrite (Z.div2_odd e) at 1. rewrite Z.div2_div. reflexivity. Qed.

Section Ops.
Variable x : zf.
Hypothesis Hx : zwf (E:=E) (M:=M) x.

Lemma sqrt_bounds :
  (zm x = 0 \/ 2 ^ M <= zm x) /\ zm x < 2 ^ (M + 1) /\
  0 <= sqrt_m M x <= 2 ^ (2 * M + 6) - 2 ^ (M + 5) /\
  sqrt_n M x * sqrt_n M x <= sqrt_m M x <= sqrt_n M x * sqrt_n M x + 2 * sqrt_n M x /\
  0 <= sqrt_n M x <= 2 ^ (M + 3) - 3 /\
  (zm x = 0 -> sqrt_n M x = 0) /\ (zm x <> 0 -> 2 ^ (M + 2) <= sqrt_n M x) /\
  2 ^ (M + 4) = 2 * 2 ^ (M + 3) /\ 2 ^ (M + 3) = 2 * 2 ^ (M + 2) /\ 2 ^ (M + 2) = 2 * 2 ^ (M + 1) /\
  2 ^ (2 * M + 6) = 2 ^ (M + 3) * 2 ^ (M + 3) /\
  - emax < sqrt_e x < emax /\ emin - 1 <= ze x <= emax.
Proof.
  params. exps E M. destruct (fmt_M (E:=E) (M:=M)) as [HM [HM1 HM2]].
  assert (H5 : 2 ^ (M + 5) = 2 * 2 ^ (M + 4)) by (rewrite <- Z.pow_succ_r by lia; f_equal; lia).
  assert (H4 : 2 ^ (M + 4) = 2 * 2 ^ (M + 3)) by (rewrite <- Z.pow_succ_r by lia; f_equal; lia).
  assert (H3 : 2 ^ (M + 3) = 2 * 2 ^ (M + 2)) by (rewrite <- Z.pow_succ_r by lia; f_equal; lia).
  assert (H2 : 2 ^ (M + 2) = 2 * 2 ^ (M + 1)) by (rewrite <- Z.pow_succ_r by lia; f_equal; lia).
  assert (H6 : 2 ^ (2 * M + 6) = 2 ^ (M + 3) * 2 ^ (M + 3)) by (rewrite <- Z.pow_add_r by lia; f_equal; lia).
  assert (Hxm : zm x = 0 \/ 2 ^ M <= zm x) by (destruct Hx; lia).
  assert (Hxm1 : zm x < 2 ^ (M + 1)) by (destruct Hx; lia).
  assert (Hm : 0 <= sqrt_m M x <= 2 ^ (2 * M + 6) - 2 ^ (M + 5)).
  { rewrite H6. unfold sqrt_m. clear - Hxm Hxm1 H5 H4 H3 H2 HM2 HM1.
    rewrite H5, H4, H3, H2, HM2 in *. set (p := 2 ^ M) in *.
    destruct (Z.odd (ze x)); nia. }
  pose proof (Z.sqrt_spec (sqrt_m M x) ltac:(lia)) as Hs. cbv zeta in Hs.
  fold (sqrt_n M x) in Hs.
  assert (Hn0 : 0 <= sqrt_n M x) by apply Z.sqrt_nonneg.
  split; [exact Hxm|]. split; [exact Hxm1|]. split; [exact Hm|].
  split; [unfold Z.succ in Hs; lia|].
  split.
  { split; [exact Hn0|].
    assert (~ 2 ^ (M + 3) - 2 <= sqrt_n M x); [|lia]. intros Hge.
    clear - Hge Hs Hm H6 H5 H4 H3 H2 HM1 HM2.
    rewrite H6, H5, H4 in Hm. set (q := 2 ^ (M + 3)) in *. nia. }
  split.
  { intros H0. unfold sqrt_n, sqrt_m. rewrite H0. destruct (Z.odd (ze x)); reflexivity. }
  split.
  { intros H0. unfold sqrt_n. rewrite <- (Z.sqrt_square (2 ^ (M + 2))) by lia.
    apply Z.sqrt_le_mono. unfold sqrt_m.
    assert (2 ^ M <= zm x) as Hz by lia. clear - Hz H5 H4 H3 H2 HM2 HM1.
    rewrite H4, H3, H2, HM2 in *. set (p := 2 ^ M) in *. destruct (Z.odd (ze x)); nia. }
  split; [exact H4|]. split; [exact H3|]. split; [exact H2|]. split; [exact H6|].
  destruct Hx as [Hx1 _]. split; [|exact Hx1].
  unfold sqrt_e. pose proof (odd_b2z (ze x)). destruct (Z.odd (ze x)); cbn [Z.b2z] in *; lia.
Qed.

Lemma sqrt_round_pre : round_pre (E:=E) (M:=M) (sqrt_n M x) (M + 3) 0 0.
Proof.
  params. destruct sqrt_bounds as (_ & _ & _ & _ & Hn & _).
  unfold round_pre. repeat split; lia.
Qed.

Lemma exec_Sqrt : exec b (Sqrt E M (embF x)) = Some (embF (zsqrt E M x)).
Proof.
  params. exps E M. destruct (fmt_M (E:=E) (M:=M)) as [HM [HM1 HM2]].
  destruct sqrt_bounds as (B1 & B2 & B3 & B4 & B5 & _ & _ & B8 & B9 & B10 & B11 & B12 & B13).
  assert (Hmod : 2 ^ (4 * M + 44 - b) <= modulus) by (apply (room (b:=b) (K:=4*M+44)); lia).
  assert (Hk : 2 ^ (2 * M + 6) * 2 <= 2 ^ (4 * M + 44 - b)).
  { rewrite Z.mul_comm, <- Z.pow_succ_r by lia. apply pow2_mono; lia. }
  assert (H5 : 2 ^ (M + 5) = 2 * 2 ^ (M + 4)) by (rewrite <- Z.pow_succ_r by lia; f_equal; lia).
  assert (Hk2 : 2 ^ (M + 5) <= 2 ^ (2 * M + 6)) by (apply pow2_mono; lia).
  assert (Hbm : 4 * emax <= 2 ^ (M + 5)) by (rewrite <- Hex6; apply pow2_mono; lia).
  unfold Sqrt, embF. cbn [Sign Exponent Mantissa IsAbnormal].
  set (delta := if Z.testbit (E_MIN E M) 0 then E_MIN E M - 1 else E_MIN E M).
  assert (Hdelta : Z.odd delta = false /\ E_MIN E M - 1 <= delta <= E_MIN E M).
  { unfold delta. rewrite Z.bit0_odd. destruct (Z.odd (E_MIN E M)) eqn:Ho; [|lia].
    split; [|lia]. rewrite Z.odd_sub, Ho. reflexivity. }
  destruct Hdelta as [Hd1 Hd2]. rewrite fsub_emb.
  assert (Hbit : NthBitHint (emb (ze x - delta)) 0 = Some (Z.b2z (Z.odd (ze x)))).
  { unfold NthBitHint, bit. rewrite emb_small by lia. rewrite Z.bit0_odd, Z.odd_sub, Hd1, xorb_false_r.
    destruct (Z.odd (ze x)); reflexivity. }
  rewrite Hbit. repeat xstep.
  destruct (exec_inverse_pow2 b 1 (width_odd (b:=b) (K:=4*M+44)) ltac:(lia)) as (w & Hw1 & Hw2 & Hw3).
  change (2 ^ 1) with 2 in Hw1. xs Hw1. rewrite fsub_emb.
  set (c := Z.odd (ze x)) in *.
  replace (ze x - Z.b2z c) with (2 * sqrt_e x)
    by (unfold sqrt_e; pose proof (odd_b2z (ze x)) as Ho; fold c in Ho; lia).
  rewrite (emb_half w _ Hw2 Hw3).
  xs (exec_GAbs (b:=b) (K:=4*M+44) (sqrt_e x) (E - 1) ltac:(lia) ltac:(lia) ltac:(lia)).
  cbv zeta. replace ((M + 3) * 2 - (M + 2)) with (M + 4) by ring.
  femb. xstep.
  replace (if c then zm x * 2 ^ (M + 4) + zm x * 2 ^ (M + 4) else zm x * 2 ^ (M + 4))
    with (sqrt_m M x).
  2:{ unfold sqrt_m. fold c. destruct c; ring. }
  assert (Hsq : SqrtHint (emb (sqrt_m M x)) = Some (sqrt_n M x)).
  { unfold SqrtHint. rewrite emb_small by lia. reflexivity. }
  rewrite Hsq. xstep. femb.
  change (sqrt_m M x - sqrt_n M x * sqrt_n M x) with (sqrt_r M x).
  assert (Hr : 0 <= sqrt_r M x <= 2 * sqrt_n M x) by (unfold sqrt_r; lia).
  rewrite exec_bind_eq with (a := tt).
  2:{ apply (exec_abl (K:=4*M+44)); [lia|lia|]. replace (M + 3 + 1) with (M + 4) by ring. lia. }
  rewrite exec_bind_eq with (a := tt).
  2:{ apply (exec_abl (K:=4*M+44)); [lia|lia|]. replace (M + 3 + 1) with (M + 4) by ring. lia. }
  rewrite !isZero_emb by lia. femb.
  xs (exec_zround (E:=E) (M:=M) (b:=b) _ _ _ _ (sqrt_r M x =? 0) sqrt_round_pre).
  change (zround M (sqrt_n M x) (M + 3) 0 (sqrt_r M x =? 0)) with (sqrt_zr M x).
  replace (emb (1 - Z.b2z (sqrt_n M x =? 0))) with (emb (Z.b2z (negb (sqrt_n M x =? 0))))
    by (destruct (sqrt_n M x =? 0); reflexivity).
  repeat xstep.
  unfold zsqrt. rewrite exec_ret. reflexivity.
Qed.

(** Every prover's root is the integer root; only the rounding step is left. *)
Lemma sat_Sqrt_round r : sat b (Sqrt E M (embF x)) r ->
  exists zr, sat b (round E M (emb (sqrt_n M x)) (M + 3) (emb 0) 0
                      (emb (Z.b2z (sqrt_r M x =? 0)))) zr /\
    r = mkF (emb (Z.b2z (zs (zsqrt E M x)))) (emb (ze (zsqrt E M x)))
          (if zs x then emb 0 else zr) (emb (Z.b2z (za (zsqrt E M x)))).
Proof.
  intros H. params. exps E M. destruct (fmt_M (E:=E) (M:=M)) as [HM [HM1 HM2]].
  destruct sqrt_bounds as (B1 & B2 & B3 & B4 & B5 & _ & _ & B8 & B9 & B10 & B11 & B12 & B13).
  pose proof (width_odd (b:=b) (K:=4*M+44)) as Hodd.
  assert (Hmod : 2 ^ (4 * M + 44 - b) <= modulus) by (apply (room (b:=b) (K:=4*M+44)); lia).
  assert (Hk : 2 ^ (2 * M + 6) * 2 <= 2 ^ (4 * M + 44 - b)).
  { rewrite Z.mul_comm, <- Z.pow_succ_r by lia. apply pow2_mono; lia. }
  assert (H5 : 2 ^ (M + 5) = 2 * 2 ^ (M + 4)) by (rewrite <- Z.pow_succ_r by lia; f_equal; lia).
  assert (Hk2 : 2 ^ (M + 5) <= 2 ^ (2 * M + 6)) by (apply pow2_mono; lia).
  assert (Hbm : 4 * emax <= 2 ^ (M + 5)) by (rewrite <- Hex6; apply pow2_mono; lia).
  unfold Sqrt, embF in H. cbn [Sign Exponent Mantissa IsAbnormal] in H.
  set (delta := if Z.testbit (E_MIN E M) 0 then E_MIN E M - 1 else E_MIN E M) in H.
  sbool H c.
  apply sat_bind in H. destruct H as [w [Hw H]].
  change 2 with (2 ^ 1) in Hw.
  apply sat_inverse_pow2 in Hw; [|exact Hodd|lia]. destruct Hw as [Hw1 Hw2].
  cbv zeta in H. rewrite fsub_emb in H.
  apply sat_bind in H. destruct H as [[a s] [Ha H]].
  set (v := fmul (emb (ze x - Z.b2z c)) w) in *.
  assert (Hv : 0 <= v < modulus) by apply fmul_range.
  apply (sat_GAbs_any (K:=4*M+44)) in Ha; [|lia|lia|exact Hv].
  destruct Ha as [z [Hz1 Hz2]].
  assert (Hz3 : 4 * 2 ^ (E - 1 + b) <= 2 ^ (4 * M + 44 - b)).
  { change 4 with (2 ^ 2). rewrite <- Z.pow_add_r by lia. apply pow2_mono; lia. }
  assert (Hzz : ze x - Z.b2z c = 2 * z).
  { apply emb_inj; revgoals.
    - destruct c; cbn [Z.b2z]; lia.
    - rewrite <- (fmul_emb 2 z), <- Hz1. unfold v.
      rewrite <- (emb_small w Hw1). femb.
      replace (2 * ((ze x - Z.b2z c) * w)) with ((ze x - Z.b2z c) * (2 ^ 1 * w))
        by (change (2 ^ 1) with 2; ring).
      rewrite <- (fmul_emb _ (2 ^ 1 * w)), Hw2, fmul_emb. f_equal. ring. }
  assert (Hc : c = Z.odd (ze x) /\ z = sqrt_e x).
  { unfold sqrt_e. pose proof (odd_b2z (ze x)) as Ho.
    destruct c, (Z.odd (ze x)); cbn [Z.b2z] in *; (split; [first [reflexivity|exfalso]|]); lia. }
  destruct Hc as [-> ->]. rewrite Hz1 in H. clear v Hv Hz1 Hz2 Hzz Hz3.
  set (c := Z.odd (ze x)) in *.
  replace ((M + 3) * 2 - (M + 2)) with (M + 4) in H by ring.
  femb_in H. sstep H.
  replace (if c then zm x * 2 ^ (M + 4) + zm x * 2 ^ (M + 4) else zm x * 2 ^ (M + 4))
    with (sqrt_m M x) in H.
  2:{ unfold sqrt_m. fold c. destruct c; ring. }
  shint H n Hn. scheck H Hc1. scheck H Hc2.
  (* the root is determined *)
  set (rv := fsub (emb (sqrt_m M x)) (fmul n n)) in *.
  assert (Hrv : 0 <= rv < modulus) by apply fsub_range.
  set (tv := fsub (fadd n n) rv) in *.
  assert (Htv : 0 <= tv < modulus) by apply fsub_range.
  destruct (cap_room (b:=b) (K:=4*M+44) (M + 3 + 1) ltac:(lia) ltac:(lia)) as (C1 & C2 & C3 & C4 & C5).
  pose proof (capacity_bounds b (M + 3 + 1) ltac:(lia) ltac:(lia)) as [_ [Cc _]].
  assert (Ccp : 2 ^ capacity b (M + 3 + 1) <= 2 ^ (M + 20)) by (apply pow2_mono; lia).
  apply range_ok_iff in Hc1; [|lia..]. apply range_ok_iff in Hc2; [|lia..]. cbn in Hc1, Hc2.
  assert (Hrr : rv = emb (sqrt_m M x - n * n)).
  { unfold rv. rewrite <- (emb_small n Hn). femb. rewrite (emb_small n Hn). reflexivity. }
  assert (Htt : tv = emb (2 * n - rv)).
  { unfold tv. rewrite <- (emb_small n Hn), <- (emb_small rv Hrv). femb.
    rewrite (emb_small n Hn), (emb_small rv Hrv). f_equal. ring. }
  assert (HS : emb (2 * n) = emb (rv + tv)).
  { rewrite <- (fadd_emb rv tv), (emb_small rv Hrv), (emb_small tv Htv).
    rewrite Htt at 1. rewrite <- (emb_small rv Hrv) at 1. rewrite fadd_emb. f_equal. ring. }
  assert (HS2 : (rv + tv) * (rv + tv) = 4 * (sqrt_m M x - rv)).
  { apply emb_inj; revgoals.
    - assert (Hp1 : 2 ^ (M + 20) * 2 ^ (M + 20) <= 2 ^ (4 * M + 44 - 4)).
      { rewrite <- Z.pow_add_r by lia. apply pow2_mono; lia. }
      assert (Hp2 : 8 * 2 ^ (4 * M + 44 - 3) = 2 ^ (4 * M + 44)).
      { change 8 with (2 ^ 3). rewrite <- Z.pow_add_r by lia. f_equal. lia. }
      assert (Hp3 : 4 * 2 ^ (M + 20) <= 2 ^ (4 * M + 44 - 3)).
      { change 4 with (2 ^ 2). rewrite <- Z.pow_add_r by lia. apply pow2_mono; lia. }
      assert (Hp4 : 4 * 2 ^ (2 * M + 6) <= 2 ^ (4 * M + 44 - 3)).
      { change 4 with (2 ^ 2). rewrite <- Z.pow_add_r by lia. apply pow2_mono; lia. }
      assert (Hp5 : 2 * 2 ^ (4 * M + 44 - 4) = 2 ^ (4 * M + 44 - 3)).
      { rewrite <- Z.pow_succ_r by lia. f_equal. lia. }
      assert (0 <= (rv + tv) * (rv + tv) < 4 * (2 ^ (M + 20) * 2 ^ (M + 20))).
      { clear - Hc1 Hc2 Ccp Hrv Htv. nia. }
      lia.
    - rewrite <- fmul_emb, <- HS, fmul_emb.
      rewrite <- (fmul_emb 4), <- (fsub_emb (sqrt_m M x)), (emb_small rv Hrv).
      rewrite Hrr. femb. f_equal. ring. }
  assert (Hev : exists k, rv + tv = 2 * k).
  { pose proof (odd_b2z (rv + tv)) as Ho. exists ((rv + tv) / 2).
    destruct (Z.odd (rv + tv)) eqn:Hod; cbn [Z.b2z] in Ho; [exfalso|lia].
    assert (Hoo : Z.odd ((rv + tv) * (rv + tv)) = true) by (rewrite Z.odd_mul, Hod; reflexivity).
    rewrite HS2, Z.odd_mul in Hoo. discriminate. }
  destruct Hev as [k Hk'].
  assert (n = emb k) as -> by (apply emb_double_inj; [exact Hodd|exact Hn|rewrite HS, Hk'; reflexivity]).
  assert (Hkk : k * k = sqrt_m M x - rv) by (rewrite Hk' in HS2; lia).
  assert (k = sqrt_n M x) as ->.
  { unfold sqrt_n. symmetry. apply Z.sqrt_unique. unfold Z.succ. lia. }
  assert (Hr : 0 <= sqrt_r M x <= 2 * sqrt_n M x) by (unfold sqrt_r; lia).
  assert (rv = emb (sqrt_r M x)) as Hrv'.
  { rewrite emb_small by lia. unfold sqrt_r. lia. }
  rewrite Hrv' in H.
  rewrite !isZero_emb in H by lia.
  apply sat_bind in H. destruct H as [zr [Hz H]]. exists zr. split; [exact Hz|].
  rewrite fsub_emb in H.
  replace (emb (1 - Z.b2z (sqrt_n M x =? 0))) with (emb (Z.b2z (negb (sqrt_n M x =? 0)))) in H
    by (destruct (sqrt_n M x =? 0); reflexivity).
  repeat sstep H.
  apply sat_bind in H. destruct H as [ms [Hms H]].
  apply sat_select in Hms. destruct Hms as [cs [Hcs ->]].
  apply b2z_inj in Hcs. subst cs.
  apply sat_ret_inv in H. rewrite <- H. reflexivity.
Qed.

Lemma sat_Sqrt r : pow2_size E M mod b = 0 ->
  sat b (Sqrt E M (embF x)) r -> r = embF (zsqrt E M x).
Proof.
  intros Hdv H. destruct (sat_Sqrt_round r H) as (zr & Hz & ->).
  apply sat_zround in Hz; [|exact Hdv|apply sqrt_round_pre]. subst zr.
  unfold zsqrt, embF, sqrt_zr. cbn [zs ze zm za]. destruct (zs x); reflexivity.
Qed.

End Ops.

Lemma sqrt_zr_range x : zwf (E:=E) (M:=M) x ->
  (zm x = 0 -> sqrt_zr M x = 0) /\ (zm x <> 0 -> 2 ^ M <= sqrt_zr M x < 2 ^ (M + 1)).
Proof.
  intros Wx. params. exps E M. destruct (fmt_M (E:=E) (M:=M)) as [HM [HM1 HM2]].
  destruct (sqrt_bounds x Wx) as (B1 & B2 & B3 & B4 & B5 & B6 & B7 & B8 & B9 & B10 & _).
  split; intros H0; unfold sqrt_zr.
  - rewrite (B6 H0). apply zround_0; lia.
  - specialize (B7 H0).
    destruct (zround_range (E:=E) (M:=M) (sqrt_n M x) (M + 3) 0 (sqrt_r M x =? 0) ltac:(lia)) as [[_ Hs]|Hz];
      [replace (M + 3 - 1) with (M + 2) by ring; lia|lia|lia|].
    split; [lia|].
    assert (zround M (sqrt_n M x) (M + 3) 0 (sqrt_r M x =? 0) <> 2 ^ (M + 1)); [|lia].
    unfold zround, zcarry. cbv zeta. replace (M + 3 - M - 1 + 0) with 2 by ring.
    change (2 ^ 2) with 4. change (2 ^ (2 - 1)) with 2. change (2 ^ 0) with 1.
    pose proof (Z.div_mod (sqrt_n M x) 4 ltac:(lia)).
    pose proof (Z.mod_pos_bound (sqrt_n M x) 4 ltac:(lia)).
    pose proof (Z.mod_pos_bound (sqrt_n M x / 4) 2 ltac:(lia)).
    destruct (Z.eqb_spec (sqrt_n M x mod 4) 2), (sqrt_r M x =? 0), (Z.leb_spec 2 (sqrt_n M x mod 4));
      cbn [andb Z.b2z]; lia.
Qed.

Lemma sqrt_value x : 0 <= sqrt_m M x ->
  sqrt (zmag (M:=M) x) = (sqrt (IZR (sqrt_m M x)) * bpow radix2 (sqrt_e x - M - 2))%R.
Proof.
  intros Hm. exps E M. unfold zmag.
  assert (IZR (zm x) * bpow radix2 (ze x - M)
          = IZR (sqrt_m M x) * (bpow radix2 (sqrt_e x - M - 2) * bpow radix2 (sqrt_e x - M - 2)))%R as ->.
  { pose proof (odd_b2z (ze x)) as Ho. unfold sqrt_m, sqrt_e.
    rewrite <- bpow_plus.
    assert (HA : (IZR (zm x * 2 ^ (M + 4)) = IZR (zm x) * bpow radix2 (M + 4))%R).
    { rewrite mult_IZR, IZR_pow2 by lia. reflexivity. }
    destruct (Z.odd (ze x)); cbn [Z.b2z] in Ho.
    - rewrite mult_IZR, HA.
      change 2%R with (bpow radix2 1).
      replace (bpow radix2 1 * (IZR (zm x) * bpow radix2 (M + 4)) *
        bpow radix2 (ze x / 2 - M - 2 + (ze x / 2 - M - 2)))%R
       with (IZR (zm x) * (bpow radix2 1 * bpow radix2 (M + 4) *
        bpow radix2 (ze x / 2 - M - 2 + (ze x / 2 - M - 2))))%R by ring.
      rewrite <- !bpow_plus. do 2 f_equal. lia.
    - rewrite HA, Rmult_assoc, <- bpow_plus. do 2 f_equal. lia. }
  pose proof (bpow_gt_0 radix2 (sqrt_e x - M - 2)) as Hb.
  rewrite sqrt_mult_alt.
  - rewrite sqrt_square by lra. reflexivity.
  - apply IZR_le. exact Hm.
Qed.

Lemma sqrt_spec x fx : zrep E M x fx -> zrep E M (zsqrt E M x) (ieee_sqrt E M fx).
Proof.
  intros Hx. pose proof (zrep_zwf _ _ Hx) as Wx.
  exps E M. destruct (fmt_M (E:=E) (M:=M)) as [HM [HM1 HM2]].
  destruct (sqrt_bounds x Wx) as (B1 & B2 & B3 & B4 & B5 & B6 & B7 & B8 & B9 & B10 & B11 & B12 & B13).
  destruct (sqrt_zr_range x Wx) as [Z0 Z1].
  assert (Hneq : zm x <> 0 -> (sqrt_n M x =? 0) = false).
  { intros H0. specialize (B7 H0). apply Z.eqb_neq. lia. }
  assert (Heq : zm x = 0 -> (sqrt_n M x =? 0) = true).
  { intros H0. rewrite (B6 H0). reflexivity. }
  destruct fx as [sx|sx| |sx mx ex Hbx].
  - cbn in Hx.
    assert (Ex : zm x = 0 /\ za x = false /\ zs x = sx) by (subst x; auto).
    destruct Ex as (Xm & Xa & Xs). unfold zsqrt.
    rewrite (Heq Xm), (Z0 Xm), Xa, Xs, Hex3. destruct sx; reflexivity.
  - cbn in Hx.
    assert (Ex : zm x = 2 ^ M /\ za x = true /\ zs x = sx /\ ze x = emax) by (subst x; auto).
    destruct Ex as (Xm & Xa & Xs & Xe). unfold zsqrt.
    rewrite Hneq by lia. rewrite Xa, Xs, orb_true_r.
    destruct sx.
    + cbn. eauto.
    + cbn. f_equal.
      assert (Ho : Z.odd (ze x) = false).
      { rewrite Xe. unfold Spec.emax. rewrite Z.odd_pow by lia. reflexivity. }
      assert (Hm : sqrt_m M x = 2 ^ (M + 2) * 2 ^ (M + 2)).
      { unfold sqrt_m. rewrite Ho, Xm. rewrite <- !Z.pow_add_r by lia. f_equal. lia. }
      assert (Hn : sqrt_n M x = 2 ^ (M + 2)).
      { unfold sqrt_n. rewrite Hm. apply Z.sqrt_square. lia. }
      unfold sqrt_zr, zround, zcarry. cbv zeta. replace (M + 3 - M - 1 + 0) with 2 by ring.
      rewrite Hn. replace (2 ^ (M + 2)) with (2 ^ M * 2 ^ 2) by (rewrite <- Z.pow_add_r by lia; reflexivity).
      change (2 ^ 2) with 4. change (2 ^ (2 - 1)) with 2. change (2 ^ 0) with 1.
      rewrite Z.div_mul, Z.mod_mul by lia. cbn. lia.
  - cbn in Hx. destruct Hx as [s Hx].
    assert (Ex : zm x = 0 /\ za x = true /\ zs x = s) by (subst x; auto).
    destruct Ex as (Xm & Xa & Xs). unfold zsqrt.
    rewrite (Heq Xm), (Z0 Xm), Xa, Xs, orb_true_r. cbn. exists s. destruct s; reflexivity.
  - destruct (zrep_finite _ _ _ _ _ Hx) as (Sx & (Ax & Hxm & Hxe) & _).
    set (fx := B754_finite sx mx ex Hbx) in *.
    pose proof (zrep_B2R x fx Hx eq_refl) as (Vx & Sx' & _ & _).
    assert (H0 : zm x <> 0) by lia. specialize (Z1 H0). specialize (B7 H0).
    unfold zsqrt. rewrite (Hneq H0), Ax, orb_false_r. cbn [negb]. rewrite andb_true_r, Sx.
    destruct sx.
    + cbn. eauto.
    + pose proof (Bsqrt_correct (Spec.prec M) (Spec.emax E) _ _ mode_NE fx) as (C1 & C2 & C3).
      change (Bsqrt mode_NE fx) with (ieee_sqrt E M fx) in C1, C2, C3.
      change (is_finite (ieee_sqrt E M fx) = true) in C2.
      assert (C3' : Bsign (ieee_sqrt E M fx) = false).
      { apply C3. destruct (ieee_sqrt E M fx); try reflexivity; discriminate. }
      apply zrep_intro; cbn [za zm zs ze]; auto.
      rewrite C1, Vx, Sx. cbn [sgn]. rewrite !Rmult_1_l.
      change (Generic_fmt.round radix2 (SpecFloat.fexp (Spec.prec M) (Spec.emax E)) (round_mode mode_NE)
         (sqrt (zmag (M:=M) x))) with
         (Generic_fmt.round radix2 (FLT_exp emin (Spec.prec M)) ZnearestE (sqrt (zmag (M:=M) x))).
      set (g := sqrt_e x - M - 2).
      assert (Hm0 : 0 <= sqrt_m M x) by lia.
      pose proof (sqrt_value x Hm0) as Hval. fold g in Hval.
      assert (He : sqrt_e x = g + (M + 3) - 1) by (unfold g; ring).
      unfold zmag at 2. cbn [zm ze]. unfold sqrt_zr.
      pose proof (bpow_gt_0 radix2 g) as Hg.
      assert (Hn0 : (0 <= IZR (sqrt_n M x))%R) by (apply IZR_le; lia).
      assert (Hsq : (IZR (sqrt_n M x) <= sqrt (IZR (sqrt_m M x)) < IZR (sqrt_n M x + 1))%R).
      { split.
        - rewrite <- (sqrt_square (IZR (sqrt_n M x))) by exact Hn0.
          apply sqrt_le_1_alt. rewrite <- mult_IZR. apply IZR_le. lia.
        - rewrite <- (sqrt_square (IZR (sqrt_n M x + 1))) by (apply IZR_le; lia).
          apply sqrt_lt_1_alt. rewrite <- mult_IZR. split; [apply IZR_le|apply IZR_lt]; lia. }
      replace (zround M (sqrt_n M x) (M + 3) 0 (sqrt_r M x =? 0))
        with (zround M (sqrt_n M x) (M + 3) (zshift (E:=E) (g + (M + 3) - 1) 0) (sqrt_r M x =? 0))
        by (f_equal; unfold zshift; clear; lia).
      rewrite He.
      apply round_core.
      * clear - B7 HM1 HM2 B10. lia.
      * lia.
      * replace (M + 3 - 1) with (M + 2) by ring. clear - B7 B5. lia.
      * rewrite Hval. split; [apply Rmult_le_compat_r|apply Rmult_lt_compat_r]; lra.
      * intros Hr. rewrite Hval. f_equal. apply Z.eqb_eq in Hr. unfold sqrt_r in Hr.
        replace (sqrt_m M x) with (sqrt_n M x * sqrt_n M x) by lia.
        rewrite mult_IZR. apply sqrt_square. exact Hn0.
      * intros Hr. rewrite Hval. apply Rmult_lt_compat_r; [exact Hg|].
        rewrite <- (sqrt_square (IZR (sqrt_n M x))) at 1 by exact Hn0.
        apply sqrt_lt_1_alt. rewrite <- mult_IZR. apply Z.eqb_neq in Hr. unfold sqrt_r in Hr.
        split; [apply IZR_le|apply IZR_lt]; clear - Hr B4 B5; nia.
      * lia.
      * right. rewrite <- He. clear - B13 Hex2 Hex4 Hex9 Hex10. unfold sqrt_e in *.
        pose proof (Z.div_mod (ze x) 2 ltac:(lia)). pose proof (Z.mod_pos_bound (ze x) 2 ltac:(lia)).
        lia.
Qed.

Theorem sqrt_complete x (fx : fmt E M) : represents x fx ->
  exists r, exec b (Sqrt E M x) = Some r /\ represents r (ieee_sqrt E M fx).
Proof.
  intros [zx [-> Hx]].
  eexists. split; [exact (exec_Sqrt zx (zrep_zwf _ _ Hx))|].
  eexists. split; [reflexivity|]. apply sqrt_spec, Hx.
Qed.

Theorem sqrt_sound x (fx : fmt E M) r : pow2_size E M mod b = 0 ->
  represents x fx -> sat b (Sqrt E M x) r -> represents r (ieee_sqrt E M fx).
Proof.
  intros Hd [zx [-> Hx]] H.
  rewrite (sat_Sqrt zx (zrep_zwf _ _ Hx) r Hd H).
  eexists. split; [reflexivity|]. apply sqrt_spec, Hx.
Qed.

End Sqrt.
