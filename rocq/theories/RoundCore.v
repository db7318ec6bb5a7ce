(** Rounding of integers and of reals: the bridge to Flocq. *)
From Coq Require Import ZArith Reals Bool Lia Lra ZifyBool.
From Flocq Require Import Core BinarySingleNaN.
From Verif Require Import Field FloatModel Spec GadgetFacts RangeFacts RoundFacts Tactics.
Local Open Scope Z_scope.

Lemma IZR_pow2 k : 0 <= k -> IZR (2 ^ k) = bpow radix2 k.
Proof. intros H. apply (IZR_Zpower radix2). exact H. Qed.

(** Nearest-even from an integer approximation. *)
Lemma nearest_core x n k h : 1 <= k -> 0 <= n ->
  (IZR n <= x * bpow radix2 k < IZR (n + 1))%R ->
  (h = true -> (x * bpow radix2 k = IZR n)%R) ->
  (h = false -> (IZR n < x * bpow radix2 k)%R) ->
  ZnearestE x = n / 2 ^ k + zcarry (n / 2 ^ k) (n mod 2 ^ k) k h.
Proof.
  intros Hk Hn Hx Ht Hf.
  pose proof (pow_pos k ltac:(lia)) as Hpk.
  pose proof (pow_pos (k - 1) ltac:(lia)) as Hpk1.
  pose proof (pow_S k ltac:(lia)) as HpS.
  pose proof (Z.div_mod n (2 ^ k) ltac:(lia)) as Hdm.
  pose proof (Z.mod_pos_bound n (2 ^ k) ltac:(lia)) as Hmb.
  set (pq := n / 2 ^ k) in *. set (rs := n mod 2 ^ k) in *.
  set (A := bpow radix2 k) in *.
  assert (HA : A = IZR (2 ^ k)) by (symmetry; apply IZR_pow2; lia).
  assert (HA0 : (0 < A)%R) by (apply bpow_gt_0).
  assert (HnR : IZR n = (A * IZR pq + IZR rs)%R).
  { rewrite HA, <- mult_IZR, <- plus_IZR. f_equal. lia. }
  assert (HnR1 : IZR (n + 1) = (A * IZR pq + IZR (rs + 1))%R).
  { rewrite HA, <- mult_IZR, <- plus_IZR. f_equal. lia. }
  assert (Hhalf : A = (2 * IZR (2 ^ (k - 1)))%R).
  { rewrite HA, <- mult_IZR. f_equal. lia. }
  set (f := (x - IZR pq)%R).
  assert (Hf1 : (IZR rs <= f * A < IZR (rs + 1))%R) by (unfold f; lra).
  assert (Hrs0 : (0 <= IZR rs)%R) by (apply IZR_le; lia).
  assert (Hrs1 : (IZR (rs + 1) <= A)%R) by (rewrite HA; apply IZR_le; lia).
  assert (Hfl : Zfloor x = pq).
  { apply Zfloor_imp. rewrite plus_IZR. split.
    - apply Rmult_le_reg_r with A; [exact HA0|]. unfold f in Hf1. lra.
    - apply Rmult_lt_reg_r with A; [exact HA0|]. unfold f in Hf1. lra. }
  unfold Znearest. rewrite Hfl. fold f. unfold zcarry.
  assert (Hce : (0 < f)%R -> Zceil x = pq + 1).
  { intros H0. rewrite Zceil_floor_neq; [rewrite Hfl; reflexivity|].
    rewrite Hfl. unfold f in H0. lra. }
  destruct (Z_lt_le_dec rs (2 ^ (k - 1))) as [Hlt|Hge].
  - rewrite Rcompare_Lt.
    + destruct (Z.eqb_spec rs (2 ^ (k - 1))); [lia|].
      destruct (Z.leb_spec (2 ^ (k - 1)) rs); [lia|]. simpl. lia.
    + apply Rmult_lt_reg_r with A; [exact HA0|].
      apply Rlt_le_trans with (IZR (rs + 1)); [apply Hf1|].
      assert (IZR (rs + 1) <= IZR (2 ^ (k - 1)))%R by (apply IZR_le; lia). lra.
  - assert (HR : (IZR (2 ^ (k - 1)) <= IZR rs)%R) by (apply IZR_le; lia).
    assert (Hp1 : (0 < IZR (2 ^ (k - 1)))%R) by (apply IZR_lt; lia).
    assert (Hf0 : (0 < f)%R).
    { apply Rmult_lt_reg_r with A; [exact HA0|]. lra. }
    destruct (Z.eqb_spec rs (2 ^ (k - 1))) as [Heq|Hne].
    + destruct h; cbn [andb].
      * rewrite Rcompare_Eq.
        -- specialize (Ht eq_refl). rewrite Hce by exact Hf0.
           rewrite Zmod_odd, <- Z.negb_even. destruct (Z.even pq); simpl; lia.
        -- apply Rmult_eq_reg_r with A; [|lra]. specialize (Ht eq_refl).
           unfold f. rewrite Heq in HnR. lra.
      * rewrite Rcompare_Gt.
        -- rewrite Hce by exact Hf0.
           destruct (Z.leb_spec (2 ^ (k - 1)) rs); [|lia]. reflexivity.
        -- apply Rmult_lt_reg_r with A; [exact HA0|]. specialize (Hf eq_refl).
           unfold f. rewrite Heq in HnR. lra.
    + assert (HR' : (IZR (2 ^ (k - 1)) < IZR rs)%R) by (apply IZR_lt; lia).
      rewrite Rcompare_Gt.
      * rewrite Hce by exact Hf0.
        destruct (Z.leb_spec (2 ^ (k - 1)) rs); [|lia]. reflexivity.
      * apply Rmult_lt_reg_r with A; [exact HA0|]. lra.
Qed.

Section Core.
Context {E M : Z} {HF : Format E M}.

Notation emax := (Spec.emax E).
Notation emin := (Spec.emin E M).
Notation prec := (Spec.prec M).
Notation fexp := (FLT_exp emin prec).
Notation rnd := (Generic_fmt.round radix2 fexp ZnearestE).

Lemma emin_normal : E_NORMAL_MIN E = emin + M.
Proof. unfold E_NORMAL_MIN, E_MAX, Spec.emin, Spec.emax, Spec.prec. lia. Qed.
Lemma emin_min : E_MIN E M = emin - 1.
Proof. unfold E_MIN, E_NORMAL_MIN, E_MAX, Spec.emin, Spec.emax, Spec.prec. lia. Qed.
Lemma emax_max : E_MAX E = emax.
Proof. reflexivity. Qed.
Lemma emin_lt_emax : emin + M < emax - 1 /\ 8 <= emax /\ 2 * M <= emax.
Proof.
  destruct HF as [H1 H2 H3 H4].
  assert (2 ^ 3 <= 2 ^ (E - 1)) by (apply pow2_mono; lia).
  unfold Spec.emin, Spec.emax, Spec.prec. lia.
Qed.

Lemma round_core v n g L h smax :
  1 <= n -> M + 2 <= L -> 2 ^ (L - 1) <= n < 2 ^ L ->
  (IZR n * bpow radix2 g <= v < IZR (n + 1) * bpow radix2 g)%R ->
  (h = true -> v = IZR n * bpow radix2 g)%R ->
  (h = false -> IZR n * bpow radix2 g < v)%R ->
  0 <= smax -> (M + 2 <= smax \/ E_NORMAL_MIN E <= g + L - 1) ->
  rnd v = (IZR (zround M n L (zshift (E:=E) (g + L - 1) smax) h)
           * bpow radix2 (g + L - 1 - M))%R.
Proof.
  intros Hn1 HLM Hn Hv Ht Hf Hsm Hcap. destruct HF as [HE HEM H2M _].
  set (e := g + L - 1) in *.
  assert (Hg0 : (0 < bpow radix2 g)%R) by apply bpow_gt_0.
  assert (HnR : (1 <= IZR n)%R) by (apply IZR_le; lia).
  assert (Hv0 : (0 < v)%R) by nra.
  assert (Hmag : mag radix2 v = (e + 1) :> Z).
  { apply mag_unique_pos. split.
    - replace (e + 1 - 1) with (L - 1 + g) by (unfold e; lia).
      rewrite bpow_plus, <- IZR_pow2 by lia.
      apply Rle_trans with (2 := proj1 Hv).
      apply Rmult_le_compat_r; [lra|]. apply IZR_le; lia.
    - replace (e + 1) with (L + g) by (unfold e; lia).
      rewrite bpow_plus, <- IZR_pow2 by lia.
      apply Rlt_le_trans with (1 := proj2 Hv).
      apply Rmult_le_compat_r; [lra|]. apply IZR_le; lia. }
  set (s := zshift (E:=E) e smax).
  assert (Hs : 0 <= s) by (unfold s, zshift; lia).
  destruct (Z_le_gt_dec (E_NORMAL_MIN E - e) smax) as [Hun|Hcapd].
  - (* the shift is not capped *)
    assert (Hse : s = Z.max (E_NORMAL_MIN E - e) 0) by (unfold s, zshift; lia).
    set (t := e - M + s).
    assert (Hcexp : cexp radix2 fexp v = t).
    { unfold cexp. rewrite Hmag. unfold FLT_exp. rewrite emin_normal in Hse.
      unfold t, Spec.prec. lia. }
    unfold Generic_fmt.round, scaled_mantissa. rewrite Hcexp.
    set (k := L - M - 1 + s).
    assert (Hkt : k + g = t) by (unfold k, t, e; lia).
    assert (Hk : 1 <= k) by (unfold k; lia).
    assert (Hxk : (v * bpow radix2 (- t) * bpow radix2 k = v * bpow radix2 (- g))%R).
    { rewrite Rmult_assoc, <- bpow_plus. do 2 f_equal. lia. }
    assert (Hgg : (bpow radix2 g * bpow radix2 (- g) = 1)%R).
    { rewrite <- bpow_plus. replace (g + - g) with 0 by lia. reflexivity. }
    assert (Hgi : (0 < bpow radix2 (- g))%R) by apply bpow_gt_0.
    rewrite (nearest_core _ n k h); try (lia || assumption).
    + unfold F2R. simpl Fnum. simpl Fexp. unfold zround. fold k.
      rewrite mult_IZR, IZR_pow2 by lia.
      rewrite Rmult_assoc, <- bpow_plus. do 2 f_equal. unfold t. lia.
    + rewrite Hxk. split.
      * apply Rmult_le_reg_r with (bpow radix2 g); [exact Hg0|].
        rewrite Rmult_assoc, (Rmult_comm (bpow radix2 (- g))), Hgg. lra.
      * apply Rmult_lt_reg_r with (bpow radix2 g); [exact Hg0|].
        rewrite Rmult_assoc, (Rmult_comm (bpow radix2 (- g))), Hgg. lra.
    + intros H. rewrite Hxk, (Ht H), Rmult_assoc, Hgg. lra.
    + intros H. rewrite Hxk. apply Rmult_lt_reg_r with (bpow radix2 g); [exact Hg0|].
      rewrite Rmult_assoc, (Rmult_comm (bpow radix2 (- g))), Hgg. specialize (Hf H). lra.
  - (* far below the subnormals: rounds to zero *)
    assert (Hse : s = smax) by (unfold s, zshift; lia).
    assert (Hz : zround M n L s h = 0).
    { unfold zround. set (k := L - M - 1 + s).
      assert (Hlt : 2 ^ L <= 2 ^ (k - 1)) by (apply pow2_mono; unfold k; lia).
      assert (Hlt' : 2 ^ (k - 1) <= 2 ^ k) by (apply pow2_mono; unfold k; lia).
      rewrite Z.div_small, Z.mod_small by lia. unfold zcarry.
      destruct (Z.eqb_spec n (2 ^ (k - 1))); [lia|].
      destruct (Z.leb_spec (2 ^ (k - 1)) n); [lia|]. reflexivity. }
    rewrite Hz, Rmult_0_l.
    assert (Hcexp : cexp radix2 fexp v = emin).
    { unfold cexp. rewrite Hmag. unfold FLT_exp. rewrite emin_normal in Hcapd, Hcap.
      unfold Spec.prec. lia. }
    unfold Generic_fmt.round, scaled_mantissa. rewrite Hcexp.
    rewrite (Znearest_imp _ _ 0); [unfold F2R; simpl; lra|].
    simpl. rewrite Rminus_0_r, Rabs_pos_eq.
    2:{ apply Rmult_le_pos; [lra|apply bpow_ge_0]. }
    apply Rlt_le_trans with (bpow radix2 (e + 1) * bpow radix2 (- emin))%R.
    + apply Rmult_lt_compat_r; [apply bpow_gt_0|].
      pose proof (bpow_mag_gt radix2 v) as Hb. rewrite Hmag in Hb.
      rewrite Rabs_pos_eq in Hb by lra. exact Hb.
    + rewrite <- bpow_plus. change (/ 2)%R with (bpow radix2 (-1)).
      apply bpow_le. rewrite emin_normal in Hcapd, Hcap. lia.
Qed.

(** Size of the rounded mantissa. *)
Lemma zround_range n L s h : M + 2 <= L -> 2 ^ (L - 1) <= n < 2 ^ L -> 0 <= s ->
  (zround M n L s h = 0 /\ M < s) \/ 2 ^ M <= zround M n L s h <= 2 ^ (M + 1).
Proof.
  intros HLM Hn Hs. destruct HF as [HE HEM H2M _]. unfold zround.
  set (k := L - M - 1 + s).
  pose proof (pow_pos k ltac:(unfold k; lia)) as Hpk.
  pose proof (pow_pos s ltac:(lia)) as Hps.
  pose proof (pow_pos M ltac:(lia)) as HpM.
  pose proof (pow_pos (L - 1) ltac:(lia)) as HpL.
  assert (Hpq0 : 0 <= n / 2 ^ k) by (apply Z.div_pos; lia).
  pose proof (zcarry_range (n / 2 ^ k) (n mod 2 ^ k) k h Hpq0) as Hc.
  set (c := zcarry (n / 2 ^ k) (n mod 2 ^ k) k h) in *.
  destruct (Z_le_gt_dec s M) as [HsM|HsM].
  - right.
    assert (H1 : 2 ^ (M - s) * 2 ^ s = 2 ^ M)
      by (rewrite <- Z.pow_add_r by lia; f_equal; lia).
    assert (H2 : 2 ^ (M + 1) = 2 * 2 ^ M) by (rewrite <- Z.pow_succ_r by lia; f_equal; lia).
    assert (Hlo : 2 ^ (M - s) <= n / 2 ^ k).
    { apply Z.div_le_lower_bound; [lia|]. rewrite <- Z.pow_add_r by (unfold k; lia).
      replace (k + (M - s)) with (L - 1) by (unfold k; lia). lia. }
    assert (Hhi : n / 2 ^ k < 2 * 2 ^ (M - s)).
    { apply Z.div_lt_upper_bound; [lia|]. rewrite <- Z.pow_succ_r by lia.
      rewrite <- Z.pow_add_r by (unfold k; lia).
      replace (k + Z.succ (M - s)) with L by (unfold k; lia). lia. }
    set (q := n / 2 ^ k) in *. clearbody q c. clear - H1 H2 Hlo Hhi Hc Hps. nia.
  - assert (Hq : n / 2 ^ k = 0).
    { apply Z.div_small. split; [lia|]. apply Z.lt_le_trans with (2 ^ L); [lia|].
      apply pow2_mono. unfold k. lia. }
    rewrite Hq in *. rewrite Z.add_0_l.
    destruct (Z.eq_dec c 0) as [Hc0|Hc0]; [left; rewrite Hc0; split; [reflexivity|lia]|].
    assert (Hc1 : c = 1) by lia. right. rewrite Hc1, Z.mul_1_l.
    destruct (Z.eq_dec s (M + 1)) as [->|Hs1].
    + assert (H2 : 2 ^ (M + 1) = 2 * 2 ^ M) by (rewrite <- Z.pow_succ_r by lia; f_equal; lia).
      lia.
    + exfalso. unfold c, zcarry in Hc1.
      assert (2 ^ L <= 2 ^ (k - 1)) by (apply pow2_mono; unfold k; lia).
      assert (2 ^ (k - 1) <= 2 ^ k) by (apply pow2_mono; unfold k; lia).
      rewrite Z.mod_small in Hc1 by lia.
      destruct (Z.eqb_spec n (2 ^ (k - 1))); [lia|].
      destruct (Z.leb_spec (2 ^ (k - 1)) n); [lia|]. simpl in Hc1. lia.
Qed.

End Core.
