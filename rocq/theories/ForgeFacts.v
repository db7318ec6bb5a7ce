(** When the specification [ForgeSpec] leaves only the IEEE result. *)
From Coq Require Import ZArith Reals Lra Lia Bool Znumtheory Zpow_facts.
From Flocq Require Import Core BinarySingleNaN.
From Verif Require Import Spec RoundCore ForgeSpec.
Local Open Scope Z_scope.

Section ForgeFacts.
Context {E M : Z} {HF : Format E M}.
Notation TS := (M + E + 1).

Lemma fill_exact b n : 0 < b -> n mod b = 0 -> fill b n = n.
Proof.
  intros Hb H. unfold fill.
  pose proof (Z.div_mod n b ltac:(lia)) as Hn. rewrite H, Z.add_0_r in Hn.
  replace (n + b - 1) with (b - 1 + (n / b) * b) by lia.
  rewrite Z.div_add, (Z.div_small (b - 1)) by lia. lia.
Qed.

Lemma wrong_power_none b shift T : 0 < M -> 0 < E -> 0 < b -> TS mod b = 0 -> 0 <= shift ->
  ~ wrong_power (E:=E) (M:=M) b shift T.
Proof.
  intros HM HE Hb Hd Hs (k & Hk1 & Hk & -> & HT). rewrite fill_exact in HT by assumption.
  assert (0 < 2 ^ TS) by (apply Z.pow_pos_nonneg; lia).
  assert (0 < 2 ^ (shift + k)) by (apply Z.pow_pos_nonneg; lia). nia.
Qed.

(** A bound on the odd part of the wrong answers to the query for 1. *)
Definition odd_bound (b B : Z) : Prop :=
  forall k, 1 <= k -> k <= M + E -> 2 ^ k + k * 2 ^ TS < 2 ^ fill b TS -> B <= k * 2 ^ (TS - k).

Lemma divided_short b B n L m j : odd_bound b B -> 0 <= M + 2 + (fill b L - L) ->
  0 <= j -> n = m * 2 ^ j -> 0 < m <= B -> ~ divided (E:=E) (M:=M) b 0 n L.
Proof.
  intros HB HL Hj Hn Hm (T & (k & Hk1 & Hk & -> & HT) & Hdv).
  rewrite Z.add_0_l in *. specialize (HB k Hk1 Hk HT).
  set (o := 1 + k * 2 ^ (TS - k)).
  assert (HTo : 2 ^ k + k * 2 ^ TS = 2 ^ k * o).
  { unfold o. replace TS with (k + (TS - k)) at 1 by ring. rewrite Z.pow_add_r by lia. ring. }
  assert (Ho : Z.odd o = true).
  { unfold o. rewrite Z.odd_add, Z.odd_mul.
    replace (TS - k) with (1 + (TS - k - 1)) by ring. rewrite Z.pow_add_r, Z.odd_mul by lia.
    cbn. rewrite andb_false_r. reflexivity. }
  assert (Hd : (o | 2 ^ (j + (M + 2 + (fill b L - L))) * m)).
  { apply Z.divide_trans with (2 ^ k * o); [exists (2 ^ k); ring|].
    rewrite <- HTo. rewrite (Z.pow_add_r 2 j) by lia.
    replace (2 ^ j * 2 ^ (M + 2 + (fill b L - L)) * m) with (n * 2 ^ (M + 2 + (fill b L - L)))
      by (rewrite Hn; ring). exact Hdv. }
  assert (Hr : rel_prime o 2).
  { apply rel_prime_sym, prime_rel_prime; [exact prime_2|]. intros [q Hq].
    rewrite Hq, Z.odd_mul in Ho. rewrite andb_false_r in Ho. discriminate. }
  apply (rel_prime_Zpower_r (j + (M + 2 + (fill b L - L)))) in Hr; [|lia].
  apply Gauss in Hd; [|exact Hr]. apply Z.divide_pos_le in Hd; [|lia]. unfold o in Hd. lia.
Qed.

Let HM : 0 < M := fmt_mw E M.
Let HE : 0 < E := fmt_ew E M.

Theorem product_binds b (x y f : fmt E M) : 0 < b -> (E + M + 1) mod b = 0 ->
  (product_outcome (E:=E) (M:=M) b x y f <-> f = ieee_mul E M x y).
Proof.
  intros Hb Hd. split; [|left; assumption]. intros [H|(e & (n & _ & _ & T & HT & _) & _)]; [exact H|].
  exfalso. revert HT. apply wrong_power_none; try assumption.
  - replace TS with (E + M + 1) by ring. exact Hd.
  - unfold denormal_shift. lia.
Qed.

Theorem quotient_binds b (x y f : fmt E M) : 0 < b -> (E + M + 1) mod b = 0 ->
  (quotient_outcome (E:=E) (M:=M) b x y f <-> f = ieee_div E M x y).
Proof.
  intros Hb Hd. split; [|left; assumption].
  intros [H|(e & (_ & _ & c & _ & _ & _ & T & HT & _) & _)]; [exact H|].
  exfalso. revert HT. apply wrong_power_none; try assumption.
  - replace TS with (E + M + 1) by ring. exact Hd.
  - unfold denormal_shift. lia.
Qed.

(** Whatever happens, a wrong result is a zero or NaN. *)
Theorem product_wrong b (x y f : fmt E M) : product_outcome (E:=E) (M:=M) b x y f ->
  f = ieee_mul E M x y \/ f = B754_zero (xorb (Bsign x) (Bsign y)) \/ f = B754_nan.
Proof. intros [H|(e & _ & [(_ & _ & H)|[_ H]])]; auto. Qed.

Theorem quotient_wrong b (x y f : fmt E M) : quotient_outcome (E:=E) (M:=M) b x y f ->
  f = ieee_div E M x y \/ f = B754_zero (xorb (Bsign x) (Bsign y)) \/ f = B754_nan.
Proof. intros [H|(e & _ & [(_ & _ & H)|[_ H]])]; auto. Qed.

Lemma fill_ge b n : 0 < b -> n <= fill b n.
Proof.
  intros Hb. unfold fill. pose proof (Z.div_mod (n + b - 1) b ltac:(lia)).
  pose proof (Z.mod_pos_bound (n + b - 1) b ltac:(lia)). lia.
Qed.

(** The exact product is [m * 2^j] with a short [m], and not below the normal
    range. *)
Theorem product_short b B (x y f : fmt E M) m j : 0 < b -> odd_bound b B ->
  (magv E M x * magv E M y = IZR m * bpow radix2 j)%R -> Z.abs m <= B ->
  (bpow radix2 (2 - emax E) <= magv E M x * magv E M y)%R ->
  (product_outcome (E:=E) (M:=M) b x y f <-> f = ieee_mul E M x y).
Proof.
  intros Hb HB Hxy Hm Hnorm. split; [|left; assumption].
  intros [H|(e & (n & Hn & Hv & Hdv) & _)]; [exact H|exfalso].
  assert (He : 2 - emax E <= e).
  { apply Z.lt_succ_r. apply (lt_bpow radix2). apply Rle_lt_trans with (1 := Hnorm). rewrite Hv.
    apply Rlt_le_trans with (IZR (2 ^ (2 * M + 2)) * bpow radix2 (e - (2 * M + 1)))%R.
    - apply Rmult_lt_compat_r; [apply bpow_gt_0|apply IZR_lt; lia].
    - rewrite IZR_pow2 by lia. rewrite <- bpow_plus. apply bpow_le. lia. }
  assert (Hs : denormal_shift (E:=E) (M:=M) e = 0) by (unfold denormal_shift; lia).
  rewrite Hs in Hdv. rewrite Hxy in Hv.
  assert (Hpos : (0 < IZR m * bpow radix2 j)%R).
  { rewrite <- Hxy. apply Rlt_le_trans with (2 := Hnorm). apply bpow_gt_0. }
  assert (Hm0 : 0 < m).
  { apply lt_IZR. apply Rmult_lt_reg_r with (bpow radix2 j); [apply bpow_gt_0|]. rewrite Rmult_0_l. exact Hpos. }
  pose proof (fill_ge b (2 * M + 2) Hb) as HL.
  set (g := e - (2 * M + 1)) in *.
  destruct (Z_le_gt_dec g j) as [Hgj|Hgj].
  - apply (divided_short b B n (2 * M + 2) m (j - g) HB); try lia; [|exact Hdv].
    apply eq_IZR. rewrite mult_IZR, IZR_pow2 by lia.
    apply Rmult_eq_reg_r with (bpow radix2 g); [|apply Rgt_not_eq, bpow_gt_0].
    rewrite <- Hv, Rmult_assoc, <- bpow_plus. do 2 f_equal. ring.
  - assert (Hmn : m = n * 2 ^ (g - j)).
    { apply eq_IZR. rewrite mult_IZR, IZR_pow2 by lia.
      apply Rmult_eq_reg_r with (bpow radix2 j); [|apply Rgt_not_eq, bpow_gt_0].
      rewrite Hv, Rmult_assoc, <- bpow_plus. do 2 f_equal. ring. }
    assert (0 < 2 ^ (g - j)) by (apply Z.pow_pos_nonneg; lia).
    assert (0 < 2 ^ (2 * M + 1)) by (apply Z.pow_pos_nonneg; lia).
    apply (divided_short b B n (2 * M + 2) n 0 HB); try lia; [|exact Hdv].
    assert (n <= m) by nia. lia.
Qed.

(** A quotient that is not below the normal range. *)
Theorem quotient_normal b (x y f : fmt E M) : 0 < b -> odd_bound b (2 ^ (M + 3)) ->
  is_zero (E:=E) (M:=M) y = true \/ (bpow radix2 (2 - emax E) <= magv E M x / magv E M y)%R ->
  (quotient_outcome (E:=E) (M:=M) b x y f <-> f = ieee_div E M x y).
Proof.
  intros Hb HB Hnorm. split; [|left; assumption].
  intros [H|(e & (Hn & Hx0 & c & He & Hc & Hq) & _)]; [exact H|exfalso].
  cbv zeta in Hq. set (q := Zfloor _) in Hq. destruct Hq as [Hq Hdv].
  assert (Hxm : (0 <= magv E M x)%R).
  { destruct x; cbn; try apply Rabs_pos. apply bpow_ge_0. }
  assert (Hdp : (0 < divisor (E:=E) (M:=M) y)%R).
  { destruct y as [s|s| |s m0 e0 H0]; try discriminate; cbn [divisor magv]; try apply bpow_gt_0.
    apply Rabs_pos_lt. cbn [B2R]. apply F2R_neq_0. destruct s; discriminate. }
  assert (Hv : (bpow radix2 e <= magv E M x / divisor (E:=E) (M:=M) y < bpow radix2 (e + 1))%R).
  { set (v := (magv E M x / divisor (E:=E) (M:=M) y)%R) in *.
    pose proof (Zfloor_lb (v * bpow radix2 (M + 2 - c - e))) as H1.
    pose proof (Zfloor_ub (v * bpow radix2 (M + 2 - c - e))) as H2. fold q in H1, H2.
    split.
    - apply Rmult_le_reg_r with (bpow radix2 (M + 2 - c - e)); [apply bpow_gt_0|].
      rewrite <- bpow_plus. replace (e + (M + 2 - c - e)) with (M + 2 - c) by ring.
      apply Rle_trans with (2 := H1). rewrite <- IZR_pow2 by lia. apply IZR_le. lia.
    - apply Rmult_lt_reg_r with (bpow radix2 (M + 2 - c - e)); [apply bpow_gt_0|].
      rewrite <- bpow_plus. replace (e + 1 + (M + 2 - c - e)) with (M + 3 - c) by ring.
      apply Rlt_le_trans with (1 := H2). rewrite <- IZR_pow2 by lia. rewrite <- plus_IZR.
      apply IZR_le. lia. }
  assert (Hbig : (bpow radix2 (2 - emax E) <= magv E M x / divisor (E:=E) (M:=M) y)%R).
  { destruct (is_zero y) eqn:Hz.
    - destruct y; try discriminate. cbn [divisor].
      assert (Hmin : (bpow radix2 (emin E M) <= magv E M x)%R).
      { destruct x as [s'|s'| |s' m0 e0 H0]; cbn [magv] in *.
        - exfalso. apply Hx0. cbn. apply Rabs_R0.
        - apply bpow_le. unfold Spec.emin, Spec.prec. pose proof (f_2M (E:=E) (M:=M)); unfold Spec.emin, Spec.prec, Spec.emax; lia.
        - exfalso. apply Hx0. cbn. apply Rabs_R0.
        - apply abs_B2R_ge_emin. reflexivity. }
      apply Rmult_le_reg_r with (bpow radix2 (emin E M - 1)); [apply bpow_gt_0|].
      unfold Rdiv. rewrite Rmult_assoc, Rinv_l, Rmult_1_r by (apply Rgt_not_eq, bpow_gt_0).
      apply Rle_trans with (2 := Hmin). rewrite <- bpow_plus. apply bpow_le.
      pose proof (f_2M (E:=E) (M:=M)); unfold Spec.emin, Spec.prec, Spec.emax; lia.
    - destruct Hnorm as [Hnorm|Hnorm]; [discriminate|].
      destruct y; try discriminate; exact Hnorm. }
  assert (He2 : 2 - emax E <= e).
  { apply Z.lt_succ_r. apply (lt_bpow radix2). apply Rle_lt_trans with (1 := Hbig). apply Hv. }
  assert (Hs : denormal_shift (E:=E) (M:=M) e = 0) by (unfold denormal_shift; lia).
  rewrite Hs in Hdv. pose proof (fill_ge b (M + 3) Hb) as HL.
  assert (0 < 2 ^ (M + 2 - c)) by (apply Z.pow_pos_nonneg; lia).
  assert (2 ^ (M + 3 - c) <= 2 ^ (M + 3)) by (apply Z.pow_le_mono_r; lia).
  apply (divided_short b (2 ^ (M + 3)) (q * 2 ^ c) (M + 3) q c HB); try lia. exact Hdv.
Qed.
End ForgeFacts.
