(** Addition, subtraction and square root when the base width of the range
    check need not divide the size of the table of powers of two. *)
From Coq Require Import ZArith Reals Lra Lia Bool List Znumtheory Zpow_facts.
From Flocq Require Import Core BinarySingleNaN.
From Verif Require Import Field FieldFacts Circuit CircuitFacts RangeCheck RangeFacts Gadget
  GadgetFacts Hints FloatModel Tactics RoundFacts Spec RoundCore RepFacts MulFacts
  SqrtFacts AddFacts AddSpec Forge EqFacts Outcomes Circuits CircuitSpec.
Local Open Scope Z_scope.

(** No answer but the honest one divides a power of two. *)
Lemma forged_not_pow2 S k u j : 1 <= k < S -> 0 <= j ->
  u * (2 ^ k + k * 2 ^ S) = 2 ^ j -> False.
Proof.
  intros Hk Hj H.
  set (o := 1 + k * 2 ^ (S - k)).
  assert (HT : 2 ^ k + k * 2 ^ S = 2 ^ k * o).
  { unfold o. replace S with (k + (S - k)) at 1 by ring. rewrite Z.pow_add_r by lia. ring. }
  assert (Ho : Z.odd o = true).
  { unfold o. rewrite Z.odd_add, Z.odd_mul.
    replace (S - k) with (1 + (S - k - 1)) by ring. rewrite Z.pow_add_r, Z.odd_mul by lia.
    cbn. rewrite andb_false_r. reflexivity. }
  assert (Hd : (o | 2 ^ j)).
  { exists (u * 2 ^ k). rewrite <- H, HT. ring. }
  assert (Hr : rel_prime o 2).
  { apply rel_prime_sym, prime_rel_prime; [exact prime_2|]. intros [q Hq].
    rewrite Hq, Z.odd_mul in Ho. rewrite andb_false_r in Ho. discriminate. }
  apply (rel_prime_Zpower_r j) in Hr; [|exact Hj].
  assert (H1 : (o | 1)).
  { apply (Gauss o (2 ^ j)); [rewrite Z.mul_1_r; exact Hd|exact Hr]. }
  apply Z.divide_1_r in H1. assert (0 < 2 ^ (S - k)) by (apply Z.pow_pos_nonneg; lia).
  unfold o in H1. nia.
Qed.

Section AnyWidth.
Context {MOD : Modulus} {E M b : Z} {HP : Params E M b} {HF : Format E M}.
#[local] Instance Wn : Width b (4 * M + 44) := params_width E M b HP.
#[local] Instance Bn : BigMod := width_big b _ Wn.
Hypothesis Hbig : 2 ^ 250 <= modulus.
#[local] Instance W250 : Width b 250.
Proof. destruct HP. constructor; (assumption || lia). Qed.

Notation emax := (Spec.emax E).
Notation emin := (Spec.emin E M).
Notation TS := (pow2_size E M).

(** The answers of the table of powers of two. *)
Definition answer (k z : Z) : Z := 2 ^ (z + k) + k * 2 ^ TS.

Lemma params_E5 : 5 <= E.
Proof.
  params. destruct (Z.eq_dec E 4) as [He|]; [exfalso|lia].
  destruct HP as [_ H2 H3 _ _ _ _]. rewrite He in *. change (2 ^ (4 - 1)) with 8 in H3. lia.
Qed.

Lemma sat_QueryPow2_any z r : - 2 ^ 180 <= z <= 2 ^ 180 ->
  sat b (QueryPow2 E M (emb z)) r ->
  exists k, 0 <= k /\ 0 <= z + k <= M + E /\ r = emb (answer k z) /\
    answer k z < 2 ^ (TS + b - 1).
Proof.
  intros Hz H. params. unfold QueryPow2, pow2_size in *.
  assert (2 ^ 180 <= 2 ^ (250 - 3 - (M + E + 1))) by (apply pow2_mono; lia).
  apply (sat_QueryPowerOf2 (b:=b) (K:=250)) in H; [|lia..].
  destruct H as (i & k & Hi & Hk & Hzk & Hr & Hlt). exists k.
  replace (z + k) with i by lia. unfold answer, pow2_size. replace (z + k) with i by lia.
  split; [exact Hk|]. split; [lia|]. split; [exact Hr|].
  pose proof (capacity_bounds b (M + E + 1) ltac:(lia) ltac:(lia)) as [_ [Hc _]].
  assert (2 ^ capacity b (M + E + 1) <= 2 ^ (M + E + 1 + b - 1)) by (apply pow2_mono; lia). lia.
Qed.

Lemma answer_0 z : answer 0 z = 2 ^ z.
Proof. unfold answer. rewrite Z.mul_0_l, !Z.add_0_r. reflexivity. Qed.

Lemma answer_big k z : 1 <= k -> 0 <= z + k -> 2 ^ TS < answer k z.
Proof.
  intros Hk Hz. params. unfold answer. pose proof (pow_pos (z + k) Hz).
  assert (0 < 2 ^ TS) by (apply pow_pos; unfold pow2_size; lia). nia.
Qed.

(** ** Rounding without a shift *)

Section Round.
Variables (n L : Z) (h : bool).
Hypotheses (Hn : 0 <= n < 2 ^ L) (HL : M + 3 <= L <= 2 * M + 5).

(** A dishonest power of two divides the mantissa away. *)
Lemma round_rest_forged k r : 1 <= k <= M + E -> answer k 0 < 2 ^ (TS + b - 1) ->
  sat b (round_rest (M:=M) (emb n) L (emb (answer k 0)) 0 (emb (Z.b2z h))) r ->
  r = emb 0 /\ exists u d, 0 <= u /\ 0 <= d <= b - 1 /\ u * answer k 0 = n * 2 ^ d.
Proof.
  intros Hk HT H. params. unfold round_rest in H.
  pose proof (answer_big k 0 ltac:(lia) ltac:(lia)) as HTb.
  set (T := answer k 0) in *. clearbody T.
  replace (0 + L - M - 2) with (L - M - 2) in H by ring.
  set (r_idx := L - M - 2) in *. set (q_idx := r_idx + 1) in *.
  assert (Hri : 1 <= r_idx <= M + 3) by (unfold r_idx; lia).
  pose proof (pow_pos r_idx ltac:(lia)) as Hpr.
  assert (Hpq : 2 ^ q_idx = 2 * 2 ^ r_idx).
  { unfold q_idx. rewrite <- Z.pow_succ_r by lia. reflexivity. }
  destruct (DecomposeMantissaForRoundingHint _ _ _ _ _ _) as [[[hp hq] hr] hs].
  shint H p Hp. shint H q Hq. shint H rr Hrr. shint H s Hs.
  apply sat_bind in H. destruct H as [u1 [Hu1 H]]. apply sat_assert_bool in Hu1.
  destruct Hu1 as [cq ->].
  apply sat_bind in H. destruct H as [u2 [Hu2 H]]. apply sat_assert_bool in Hu2.
  destruct Hu2 as [cr ->].
  scheck H Hcp. scheck H Hcs.
  apply sat_bind in H. destruct H as [u3 [Heq H]]. apply sat_assert_eq in Heq.
  pose proof (cap_room (b:=b) (K:=250) M ltac:(lia) ltac:(lia)) as (HcM & H2b & HcM' & _ & _).
  rewrite range_ok_iff in Hcp by (assumption || lia). unfold range_spec in Hcp.
  pose proof (cap_room (b:=b) (K:=250) r_idx ltac:(lia) ltac:(lia)) as (Hcr & _ & Hcr' & _ & _).
  rewrite range_ok_iff in Hcs by (assumption || lia). unfold range_spec in Hcs.
  pose proof (capacity_bounds b M ltac:(lia) ltac:(lia)) as [_ [HcapM _]].
  pose proof (capacity_bounds b r_idx ltac:(lia) ltac:(lia)) as [_ [Hcapr _]].
  set (d := capacity b r_idx - r_idx) in *.
  set (u := fmul s (emb (2 ^ d))) in *.
  assert (Hu : 0 <= u < 2 ^ (r_idx + d)).
  { split; [apply fmul_range|]. replace (r_idx + d) with (capacity b r_idx) by lia. exact Hcs. }
  assert (Hus : emb (s * 2 ^ d) = emb u).
  { unfold u. rewrite <- (emb_small s Hs) at 2. rewrite fmul_emb, emb_emb. reflexivity. }
  rewrite <- (emb_small p Hp), <- (emb_small s Hs) in Heq.
  rewrite !fmul_emb, !fadd_emb, !fmul_emb, fadd_emb, fmul_emb in Heq.
  change (2 ^ 0) with 1 in Heq. rewrite Z.mul_1_r in Heq.
  set (PQ := p + p + Z.b2z cq) in *.
  pose proof (pow_pos d ltac:(lia)) as Hpd.
  assert (HPQ : 0 <= PQ < 2 ^ (M + b)).
  { assert (2 ^ (M + b) = 2 * 2 ^ (M + b - 1)) by (apply pow_S; lia).
    assert (2 ^ capacity b M <= 2 ^ (M + b - 1)) by (apply pow2_mono; lia).
    unfold PQ. destruct cq; simpl; lia. }
  set (X := (PQ * 2 ^ q_idx + Z.b2z cr * 2 ^ r_idx) * 2 ^ d + u).
  assert (Heq2 : emb (X * T) = emb (n * 2 ^ d)).
  { transitivity (fmul (emb ((PQ * 2 ^ q_idx + (Z.b2z cr * 2 ^ r_idx + s)) * T)) (emb (2 ^ d))).
    - rewrite fmul_emb. unfold X.
      transitivity (fadd (emb ((PQ * 2 ^ q_idx + Z.b2z cr * 2 ^ r_idx) * 2 ^ d * T))
                         (fmul (emb u) (emb T))).
      { rewrite fmul_emb, fadd_emb. f_equal. ring. }
      rewrite <- Hus, fmul_emb, fadd_emb. f_equal. ring.
    - rewrite Heq, fmul_emb. reflexivity. }
  assert (HX : 0 <= X < 2 ^ (M + b + q_idx + d)).
  { rewrite Z.pow_add_r in Hu by lia.
    replace (2 ^ (M + b + q_idx + d)) with (2 ^ (M + b) * (2 * 2 ^ r_idx * 2 ^ d))
      by (rewrite <- Hpq, <- !Z.pow_add_r by lia; f_equal; ring).
    unfold X. rewrite Hpq. clear - HPQ Hu Hpr Hpd.
    set (P := 2 ^ (M + b)) in *. set (R := 2 ^ r_idx) in *. set (D := 2 ^ d) in *. clearbody P R D.
    assert (0 < R * D) by nia.
    replace ((PQ * (2 * R) + Z.b2z cr * R) * D) with ((2 * PQ + Z.b2z cr) * (R * D)) by ring.
    replace (P * (2 * R * D)) with (2 * P * (R * D)) by ring.
    set (RD := R * D) in *. clearbody RD.
    destruct cr; cbn [Z.b2z]; nia. }
  assert (HTp : 0 < T < 2 ^ (TS + b - 1)).
  { assert (0 < 2 ^ TS) by (apply pow_pos; unfold pow2_size; lia). lia. }
  assert (HnD : 0 <= n * 2 ^ d < 2 ^ (L + d)).
  { rewrite Z.pow_add_r by lia. clear - Hn Hpd. nia. }
  assert (Hint : X * T = n * 2 ^ d).
  { apply emb_inj; [exact Heq2|].
    assert (HXT : 0 <= X * T < 2 ^ (M + b + q_idx + d) * 2 ^ (TS + b - 1)).
    { clear - HX HTp. nia. }
    rewrite <- Z.pow_add_r in HXT by (unfold pow2_size; lia).
    assert (2 ^ (M + b + q_idx + d + (TS + b - 1)) <= 2 ^ 250)
      by (apply pow2_mono; unfold q_idx, r_idx, pow2_size; lia).
    assert (2 ^ (L + d) <= 2 ^ 250) by (apply pow2_mono; lia). lia. }
  assert (HXs : X < 2 ^ (r_idx + d)).
  { assert (Hle : 2 ^ (L + d) <= 2 ^ (r_idx + d) * 2 ^ TS).
    { rewrite <- Z.pow_add_r by (unfold pow2_size; lia). apply pow2_mono. unfold r_idx, pow2_size. lia. }
    assert (HA : 0 < 2 ^ (r_idx + d)) by (apply pow_pos; lia).
    assert (HB : 0 < 2 ^ TS) by (apply pow_pos; unfold pow2_size; lia).
    clear - Hle HnD Hint HTb HX HA HB. clearbody X.
    set (A := 2 ^ (r_idx + d)) in *. set (B := 2 ^ TS) in *. clearbody A B.
    destruct (Z_lt_le_dec X A) as [|Hge]; [assumption|exfalso].
    assert (A * B <= X * B) by (apply Z.mul_le_mono_nonneg_r; lia).
    assert (X * B < X * T) by (apply Z.mul_lt_mono_pos_l; lia). lia. }
  assert (Hz : PQ = 0 /\ cr = false).
  { rewrite Z.pow_add_r in HXs by lia. unfold X in HXs. rewrite Hpq in HXs.
    clear - HXs Hu HPQ Hpr Hpd.
    set (R := 2 ^ r_idx) in *. set (D := 2 ^ d) in *. clearbody R D.
    assert (0 < R * D) by nia.
    replace ((PQ * (2 * R) + Z.b2z cr * R) * D) with ((2 * PQ + Z.b2z cr) * (R * D)) in HXs by ring.
    set (RD := R * D) in *. clearbody RD.
    destruct cr; cbn [Z.b2z] in HXs; split; try reflexivity; try nia; exfalso; nia. }
  destruct Hz as [Hz1 ->].
  assert (Hp0 : p = 0 /\ cq = false) by (unfold PQ in Hz1; destruct cq; cbn [Z.b2z] in Hz1; lia).
  destruct Hp0 as [-> ->]. unfold X in Hint. rewrite Hz1 in Hint. cbn [Z.b2z] in Hint, H.
  rewrite !Z.mul_0_l in Hint. cbn in Hint.
  split.
  2:{ exists u, d. split; [lia|]. split; [lia|exact Hint]. }
  assert (Hne : s <> 2 ^ r_idx).
  { intros ->. unfold u in Hu. rewrite <- (emb_small (2 ^ r_idx) Hs) in Hu.
    rewrite fmul_emb, <- Z.pow_add_r in Hu by lia.
    rewrite emb_small in Hu; [lia|]. split; [apply Z.pow_nonneg; lia|].
    replace (r_idx + d) with (capacity b r_idx) by lia.
    assert (2 ^ capacity b r_idx < 2 ^ 250) by (apply Z.pow_lt_mono_r; lia). lia. }
  replace (fadd (fmul (emb 0) (emb (2 ^ r_idx))) s) with (emb s) in H.
  2:{ rewrite fmul_emb. rewrite <- (emb_small s Hs) at 2. rewrite fadd_emb. f_equal. }
  assert (Hrm : 2 ^ r_idx < 2 ^ 250) by (apply Z.pow_lt_mono_r; lia).
  rewrite IsEq_emb in H by lia.
  replace (s =? 2 ^ r_idx) with false in H by (symmetry; apply Z.eqb_neq; exact Hne).
  sstep H. cbn [andb] in H. sstep H. apply sat_ret_inv in H. subst r.
  reflexivity.
Qed.

Lemma sat_round_any r : sat b (round E M (emb n) L (emb 0) 0 (emb (Z.b2z h))) r ->
  r = emb (zround M n L 0 h) \/
  (n <> 0 /\ r = emb 0 /\ exists k u d, 1 <= k <= M + E /\ 0 <= u /\ 0 <= d <= b - 1 /\
     u * (2 ^ k + k * 2 ^ TS) = n * 2 ^ d).
Proof.
  intros H. params. unfold round in H. apply sat_bind in H. destruct H as [two [Htwo H]].
  apply sat_QueryPow2_any in Htwo; [|lia].
  destruct Htwo as (k & Hk0 & Hk & -> & HT).
  destruct (Z.eq_dec k 0) as [->|Hkn].
  - left. rewrite answer_0 in H.
    eapply (sat_round_rest (E:=E) n L 0 0 h); [..|exact H]; try reflexivity; lia.
  - apply (round_rest_forged k r) in H; [|lia|exact HT].
    destruct H as [-> (u & d & Hu & Hd & He)].
    destruct (Z.eq_dec n 0) as [Hn0|Hn0].
    + left. rewrite Hn0, zround_0 by lia. reflexivity.
    + right. split; [exact Hn0|]. split; [reflexivity|]. exists k, u, d.
      split; [lia|]. split; [exact Hu|]. split; [exact Hd|exact He].
Qed.
End Round.

(** ** Square root *)

(** Wires of a non-zero exponent whose mantissa is zero: no datum. *)
Definition hollow (r : FloatVar) : Prop :=
  exists s e, emin <= e <= emax /\ r = embF (mkZ s e 0 false).

Lemma hollow_inert r : hollow r -> inert (b:=b) (E:=E) (M:=M) r.
Proof.
  intros (s & e & He & ->) y f u [w [-> Hw]] H. unfold AssertIsEqual in H.
  apply sat_bind in H. destruct H as [nn [_ H]].
  apply sat_bind in H. destruct H as [[] [_ H]].
  apply sat_bind in H. destruct H as [[] [He' H]]. apply sat_assert_eq in He'.
  apply sat_bind in H. destruct H as [[] [Hm' H]]. apply sat_assert_eq in Hm'.
  apply sat_assert_eq in H. cbn [embF Exponent Mantissa IsAbnormal ze zm za] in *.
  pose proof (zrep_zwf _ _ Hw) as Ww. params. exps E M.
  destruct (fmt_M (E:=E) (M:=M)) as [HM [HM1 HM2]].
  destruct (small_pow (E:=E) (M:=M) (b:=b)) as (Hs1 & _ & _ & _ & _ & _ & Hs7 & _).
  destruct (sv_range (E:=E) (M:=M) w Ww) as (_ & _ & Hwm).
  apply b2z_inj in H. apply emb_inj in Hm'; [|lia].
  rewrite fsub_emb in He'.
  assert (Hwe : emin - 1 <= ze w <= emax) by apply Ww.
  apply emb_inj in He'; [|lia].
  destruct Ww as [_ Ww]. rewrite <- Hm', <- H in Ww. lia.
Qed.

Lemma hollow_no_datum r (f : fmt E M) : hollow r -> ~ represents r f.
Proof.
  intros Hr Hf. apply (hollow_inert r Hr r f tt Hf). apply exec_sat.
  apply (eq_spec r r f f Hf Hf). reflexivity.
Qed.

Theorem sqrt_sound_any x (fx : fmt E M) r : represents x fx -> sat b (Sqrt E M x) r ->
  represents r (ieee_sqrt E M fx) \/ (E - 2 < b /\ hollow r).
Proof.
  intros [zx [-> Hx]] H. params. exps E M.
  pose proof (zrep_zwf _ _ Hx) as Wx.
  destruct (fmt_M (E:=E) (M:=M)) as [HM [HM1 HM2]].
  destruct (sqrt_bounds zx Wx) as (B1 & B2 & B3 & B4 & B5 & B6 & B7 & B8 & B9 & B10 & B11 & B12 & B13).
  destruct (sat_Sqrt_round zx Wx r H) as (zr & Hz & ->).
  assert (Hgood : forall m, (if zs zx then emb 0 else m) = (if zs zx then emb 0 else emb (sqrt_zr M zx)) ->
    represents (mkF (emb (Z.b2z (zs (zsqrt E M zx)))) (emb (ze (zsqrt E M zx)))
      (if zs zx then emb 0 else m) (emb (Z.b2z (za (zsqrt E M zx))))) (ieee_sqrt E M fx)).
  { intros m ->. exists (zsqrt E M zx). split; [|apply sqrt_spec, Hx].
    unfold zsqrt, embF. cbn [zs ze zm za]. destruct (zs zx); reflexivity. }
  apply (sat_round_any (sqrt_n M zx) (M + 3)) in Hz; [|lia|lia].
  destruct Hz as [->|(Hn0 & -> & k & u & d & Hk & Hu & Hd & He)]; [left; apply Hgood; reflexivity|].
  destruct (zs zx) eqn:Hs; [left; apply (Hgood (emb 0)); reflexivity|].
  assert (HSp : 0 < 2 ^ TS) by (apply pow_pos; unfold pow2_size; lia).
  destruct (Z_le_gt_dec b (E - 2)) as [Hb|Hb].
  { exfalso.
    assert (HT : 2 ^ TS < 2 ^ k + k * 2 ^ TS).
    { pose proof (pow_pos k ltac:(lia)). clear - HSp H0 Hk. nia. }
    pose proof (pow_pos d ltac:(lia)) as Hpd.
    assert (Hlt : sqrt_n M zx * 2 ^ d < 2 ^ TS).
    { apply Z.lt_le_trans with (2 ^ (M + 3) * 2 ^ d).
      - apply Z.mul_lt_mono_pos_r; lia.
      - rewrite <- Z.pow_add_r by lia. apply pow2_mono. unfold pow2_size. lia. }
    assert (Hn1 : 0 < sqrt_n M zx * 2 ^ d) by (apply Z.mul_pos_pos; lia).
    clear - He HT Hlt Hn1 HSp Hu.
    set (T := 2 ^ k + k * 2 ^ TS) in *. set (N := sqrt_n M zx * 2 ^ d) in *.
    clearbody T N. assert (1 <= u) by nia. nia. }
  assert (Hm0 : zm zx <> 0) by (intros H0; apply Hn0, B6, H0).
  destruct (za zx) eqn:Ha.
  { exfalso. destruct Wx as [_ Wx]. rewrite Ha in Wx.
    assert (Hinf : zm zx = 2 ^ M /\ ze zx = emax) by lia. destruct Hinf as [Hi1 Hi2].
    assert (Hsq : sqrt_n M zx = 2 ^ (M + 2)).
    { unfold sqrt_n, sqrt_m. rewrite Hi1, Hi2.
      replace (Z.odd emax) with false.
      - rewrite <- Z.pow_add_r by lia. replace (M + (M + 4)) with ((M + 2) + (M + 2)) by ring.
        rewrite Z.pow_add_r by lia. apply Z.sqrt_square. apply Z.pow_nonneg. lia.
      - symmetry. unfold Spec.emax. replace (E - 1) with (1 + (E - 2)) by ring.
        rewrite Z.pow_add_r, Z.odd_mul by lia. reflexivity. }
    rewrite Hsq, <- Z.pow_add_r in He by lia.
    apply (forged_not_pow2 TS k u (M + 2 + d)); [unfold pow2_size; lia|lia|exact He]. }
  right. split; [lia|]. exists false, (sqrt_e zx). 
  split.
  - unfold sqrt_e. pose proof (odd_b2z (ze zx)) as Ho.
    destruct (Z.odd (ze zx)); cbn [Z.b2z] in Ho; lia.
  - unfold zsqrt, embF. cbn [zs ze zm za]. rewrite Hs, Ha. cbn [orb andb].
    destruct (Z.eqb_spec (sqrt_n M zx) 0) as [|_]; [contradiction|]. reflexivity.
Qed.

(** ** Addition *)

Lemma add_e_low x y (fx fy : fmt E M) : zrep E M x fx -> zrep E M y fy ->
  is_finite fx = true -> is_finite fy = true -> add_s M x y <> 0 ->
  emin <= add_e x y (add_shift M x y).
Proof.
  intros Hx Hy Fx Fy Hs0. destruct (fmt_M (E:=E) (M:=M)) as [HM [HM1 HM2]]. exps E M.
  pose proof (zrep_zwf _ _ Hx) as Wx. pose proof (zrep_zwf _ _ Hy) as Wy.
  destruct (add_norm (b:=b) x y Wx Wy Hs0) as [Hn Hsh].
  destruct (add_round_same (b:=b) x y fx fy Hx Hy Fx Fy) as (_ & _ & _ & Hcase).
  set (sh := add_shift M x y) in *. set (e := add_e x y sh) in *.
  destruct Hcase as [Hex|[Hc1 Hc2]].
  - set (n := Z.abs (add_s M x y) * 2 ^ sh) in *.
    set (g := e - (2 * M + 4)).
    assert (Hval : Rabs (val (M:=M) x + val (M:=M) y) = (IZR n * bpow radix2 g)%R).
    { rewrite Hex. unfold add_c. rewrite abs_IZR_mult by apply bpow_ge_0.
      unfold n. rewrite mult_IZR, IZR_pow2, Rmult_assoc, <- bpow_plus by lia.
      do 2 f_equal. unfold g, e, add_e. ring. }
    destruct (val_multiple x y x fx Hx Fx) as [jx Hjx].
    destruct (val_multiple x y y fy Hy Fy) as [jy Hjy].
    assert (Hj : Rabs (val (M:=M) x + val (M:=M) y) = (IZR (Z.abs (jx + jy)) * bpow radix2 emin)%R).
    { rewrite Hjx, Hjy, <- Rmult_plus_distr_r, <- plus_IZR. apply abs_IZR_mult, bpow_ge_0. }
    destruct (Z_le_gt_dec emin e) as [|Hlt]; [assumption|exfalso].
    assert (Hup : (IZR n * bpow radix2 g < bpow radix2 (e + 1))%R).
    { replace (e + 1) with ((2 * M + 5) + g) by (unfold g; ring). rewrite bpow_plus.
      apply Rmult_lt_compat_r; [apply bpow_gt_0|]. rewrite <- IZR_pow2 by lia.
      apply IZR_lt. lia. }
    assert (Hlo : (bpow radix2 (e + 1) <= bpow radix2 emin)%R) by (apply bpow_le; lia).
    assert (Hnp : (0 < IZR n * bpow radix2 g)%R).
    { apply Rmult_lt_0_compat; [|apply bpow_gt_0]. apply IZR_lt.
      pose proof (pow_pos (2 * M + 4) ltac:(lia)). lia. }
    rewrite <- Hval, Hj in Hup, Hnp. pose proof (bpow_gt_0 radix2 emin) as Hb.
    assert (1 <= IZR (Z.abs (jx + jy)))%R.
    { apply IZR_le. destruct (Z.eq_dec (Z.abs (jx + jy)) 0) as [H0|]; [|lia].
      rewrite H0 in Hnp. lra. }
    nra.
  - assert (2 * M + 2 <= Z.log2 (Z.abs (add_s M x y))).
    { rewrite <- (Z.log2_pow2 (2 * M + 2)) by lia. apply Z.log2_le_mono. exact Hc2. }
    assert (sh <= 2) by (unfold sh, add_shift; destruct (Z.eqb_spec (add_s M x y) 0); lia).
    unfold e, add_e. lia.
Qed.

Section AddOps.
Variables x y : zf.
Hypotheses (Wx : zwf (E:=E) (M:=M) x) (Wy : zwf (E:=E) (M:=M) y).

(** The sum when the first power of two may be dishonest. *)
Lemma add_first c k : (0 < ze y - ze x -> c = true) -> (ze y - ze x < 0 -> c = false) ->
  0 <= k -> add_D M x y + k <= M + E ->
  let s := (if c : bool then sv x else sv y) * answer k (add_D M x y)
           + (if c then sv y else sv x) * 2 ^ (M + 3) in
  s = add_s M x y \/ 2 ^ (2 * M + 5) <= Z.abs s.
Proof.
  intros Hc1 Hc2 Hk0 Hk s. params. pose proof params_E5 as HE5.
  destruct (sv_lo_hi (b:=b) x y c Hc1 Hc2) as [Hs _].
  destruct (Z.eq_dec k 0) as [->|Hkn].
  { left. unfold s. rewrite answer_0. exact Hs. }
  destruct (add_pows (E:=E) (M:=M) (b:=b)) as (P3 & _ & _ & P25 & _).
  destruct (fmt_M (E:=E) (M:=M)) as [HM [HM1 HM2]].
  destruct (add_bounds (b:=b) x y Wx Wy) as (_ & _ & _ & B4).
  destruct (sv_range (E:=E) (M:=M) x Wx) as (Sx1 & Sx2 & Sx3).
  destruct (sv_range (E:=E) (M:=M) y Wy) as (Sy1 & Sy2 & Sy3).
  assert (Hl : exists l, Z.abs (if c then sv x else sv y) = l /\ (l = 0 \/ 2 ^ M <= l)) by (destruct c; eauto).
  assert (Hh : Z.abs (if c then sv y else sv x) < 2 ^ (M + 1)) by (destruct c; lia).
  destruct Hl as (l & Hl1 & Hl2).
  set (lo := if c then sv x else sv y) in *. set (hi := if c then sv y else sv x) in *.
  clearbody lo hi.
  destruct Hl2 as [Hl0|Hl0].
  - left. assert (lo = 0) by lia. subst lo. unfold s. rewrite <- Hs. ring.
  - right. pose proof (answer_big k (add_D M x y) ltac:(lia) ltac:(lia)) as HT.
    assert (HS : 2 ^ (M + 6) <= 2 ^ TS) by (apply pow2_mono; unfold pow2_size; lia).
    assert (P6 : 2 ^ (M + 6) = 64 * 2 ^ M) by (rewrite Z.pow_add_r by lia; change (2 ^ 6) with 64; ring).
    unfold s. rewrite P25, P3. rewrite P6 in HS. rewrite HM2 in Hh.
    clear - HT HS Hl1 Hl0 Hh HM1.
    set (T := answer k (add_D M x y)) in *. set (B := 2 ^ TS) in *. set (p := 2 ^ M) in *.
    clearbody T B p.
    assert (H1 : p * (64 * p) <= Z.abs (lo * T)).
    { rewrite Z.abs_mul, Hl1. rewrite (Z.abs_eq T) by lia. apply Z.mul_le_mono_nonneg; lia. }
    assert (H2 : Z.abs (hi * (8 * p)) <= 2 * p * (8 * p)).
    { rewrite Z.abs_mul, (Z.abs_eq (8 * p)) by lia. apply Z.mul_le_mono_nonneg_r; lia. }
    lia.
Qed.

Lemma answer_pos k z : 0 <= k -> 0 <= z + k -> answer k z < 2 ^ (TS + b - 1) ->
  0 < answer k z <= 2 ^ 80.
Proof.
  intros Hk Hz HT. params. split.
  - unfold answer. pose proof (pow_pos (z + k) Hz).
    assert (0 < 2 ^ TS) by (apply pow_pos; unfold pow2_size; lia). nia.
  - apply Z.lt_le_incl, Z.lt_le_trans with (1 := HT). apply pow2_mono. unfold pow2_size. lia.
Qed.

Lemma add_first_wide (c : bool) k : 0 <= k -> 0 <= add_D M x y + k ->
  answer k (add_D M x y) < 2 ^ (TS + b - 1) ->
  Z.abs ((if c then sv x else sv y) * answer k (add_D M x y)
         + (if c then sv y else sv x) * 2 ^ (M + 3)) <= 2 ^ 140.
Proof.
  intros Hk HD HT. pose proof (answer_pos k _ Hk HD HT) as HTp. pose proof params_E5 as HE5. params.
  destruct (sv_range (E:=E) (M:=M) x Wx) as (Sx1 & Sx2 & Sx3).
  destruct (sv_range (E:=E) (M:=M) y Wy) as (Sy1 & Sy2 & Sy3).
  assert (HM1' : 2 ^ (M + 1) <= 2 ^ 59) by (apply pow2_mono; lia).
  assert (Hl : Z.abs (if c then sv x else sv y) <= 2 ^ 59) by (clear - Sx1 Sx3 Sy1 Sy3 HM1'; destruct c; lia).
  assert (Hh : Z.abs (if c then sv y else sv x) <= 2 ^ 59) by (clear - Sx1 Sx3 Sy1 Sy3 HM1'; destruct c; lia).
  assert (HM3' : 0 < 2 ^ (M + 3) <= 2 ^ 80) by (split; [apply pow_pos; lia|apply pow2_mono; lia]).
  clear - Hl Hh HTp HM3'.
  set (lo := if c then sv x else sv y) in *. set (hi := if c then sv y else sv x) in *.
  set (T := answer k (add_D M x y)) in *. set (B := 2 ^ (M + 3)) in *. clearbody lo hi T B.
  replace (2 ^ 140) with (2 ^ 59 * 2 ^ 80 + 2 ^ 59 * 2 ^ 80) by (vm_compute; reflexivity).
  generalize dependent (2 ^ 59). generalize dependent (2 ^ 80). intros p HT HB q Hl Hh.
  apply Z.le_trans with (Z.abs (lo * T) + Z.abs (hi * B)); [apply Z.abs_triangle|].
  rewrite !Z.abs_mul, (Z.abs_eq T), (Z.abs_eq B) by lia.
  apply Z.add_le_mono; apply Z.mul_le_mono_nonneg; lia.
Qed.

(** The check on the normalised sum leaves only honest powers of two. *)
Lemma add_second (c2 : bool) s k sh : 0 <= k -> 0 <= sh -> 0 <= sh + k <= M + E ->
  answer k sh < 2 ^ (TS + b - 1) ->
  (s = add_s M x y \/ 2 ^ (2 * M + 5) <= Z.abs s) ->
  let n := (if c2 then s else - s) * answer k sh in
  0 <= n - Z.b2z (negb (s =? 0)) * 2 ^ (2 * M + 4) < 2 ^ (2 * M + 4) ->
  s = add_s M x y /\ n = (if c2 then s else - s) * 2 ^ sh.
Proof.
  intros Hk Hsh Hks HT Hfirst n Hck. params. pose proof params_E5 as HE5.
  pose proof (answer_pos k sh Hk (proj1 Hks) HT) as [HTp _].
  destruct (fmt_M (E:=E) (M:=M)) as [HM [HM1 HM2]].
  destruct (add_pows (E:=E) (M:=M) (b:=b)) as (_ & _ & _ & P25 & P25' & P24').
  destruct (add_bounds (b:=b) x y Wx Wy) as (_ & B2 & _).
  assert (Hn : Z.abs s * answer k sh < 2 ^ (2 * M + 5)).
  { replace (Z.abs s * answer k sh) with (Z.abs n).
    - destruct (s =? 0); cbn [negb Z.b2z] in Hck; clear - Hck P25' P24'; lia.
    - unfold n. rewrite Z.abs_mul, (Z.abs_eq (answer k sh)) by lia. f_equal. destruct c2; lia. }
  assert (Hs : s = add_s M x y).
  { destruct Hfirst as [Hf|Hf]; [exact Hf|exfalso]. clear - Hf Hn HTp.
    assert (Z.abs s * 1 <= Z.abs s * answer k sh) by (apply Z.mul_le_mono_nonneg_l; lia). lia. }
  split; [exact Hs|]. unfold n.
  destruct (Z.eq_dec s 0) as [H0|H0]; [rewrite H0; destruct c2; reflexivity|].
  destruct (Z.eq_dec k 0) as [->|Hkn]; [rewrite answer_0; reflexivity|exfalso].
  pose proof (answer_big k sh ltac:(lia) ltac:(lia)) as HTb. rewrite <- Hs in B2. specialize (B2 H0).
  assert (HS : 2 ^ (M + 6) <= 2 ^ TS) by (apply pow2_mono; unfold pow2_size; lia).
  assert (P6 : 2 ^ (M + 6) = 64 * 2 ^ M) by (rewrite Z.pow_add_r by lia; change (2 ^ 6) with 64; ring).
  assert (Hm : 2 ^ M * (64 * 2 ^ M) <= Z.abs s * answer k sh)
    by (apply Z.mul_le_mono_nonneg; lia).
  clear - Hm Hn P25 HM1. nia.
Qed.

Lemma sat_Add_any r : sat b (Add E M (embF x) (embF y)) r ->
  (exists c2 sh pos, add_choice E M x y c2 sh pos /\ r = embF (zadd E M x y c2 sh pos)) \/
  (za x = false /\ za y = false /\ add_s M x y <> 0 /\
   exists s, add_e x y (add_shift M x y) <= emax /\
     r = embF (mkZ s (add_e x y (add_shift M x y)) 0 false)).
Proof.
  intros H. params. pose proof params_E5 as HE5. exps E M.
  destruct (fmt_M (E:=E) (M:=M)) as [HM [HM1 HM2]].
  destruct (add_pows (E:=E) (M:=M) (b:=b)) as (P3 & P23 & P24 & P25 & P25' & P24').
  destruct (add_bounds (b:=b) x y Wx Wy) as (B1 & B2 & B3 & B4).
  assert (Hmod : 2 ^ (4 * M + 44 - b) <= modulus) by (apply (room (b:=b) (K:=4*M+44)); lia).
  assert (Hw1 : 2 ^ (E + 1) <= 2 ^ (4 * M + 44 - 1)) by (apply pow2_mono; lia).
  assert (Hw2 : M + 3 <= 2 ^ (2 * M + 30)).
  { pose proof (Z.pow_gt_lin_r 2 (2 * M + 30) ltac:(lia) ltac:(lia)). lia. }
  unfold Add, embF in H. cbn [Sign Exponent Mantissa IsAbnormal] in H. rewrite fsub_emb in H.
  apply sat_bind in H. destruct H as [dl [Hd H]].
  apply (sat_GAbs (b:=b) (K:=4*M+44)) in Hd; [|lia|lia|lia].
  destruct Hd as [c [-> [Hc1 [Hc2 _]]]].
  sstep H. cbv zeta in H. rewrite fsub_emb in H.
  apply sat_bind in H. destruct H as [D [HD H]].
  apply (sat_GMax (b:=b) (K:=4*M+44)) in HD; [|lia|lia|lia].
  destruct HD as [-> _]. fold (add_D M x y) in H.
  apply sat_bind in H. destruct H as [t [Ht H]].
  apply sat_QueryPow2_any in Ht; [|lia]. destruct Ht as (k & Hk0 & Hk & -> & HT).
  rewrite !fneg_emb in H. do 2 sstep H. rewrite (sv_wire x), (sv_wire y) in H. sstep H.
  cbv zeta in H. rewrite (sum_select x y) in H. rewrite !fmul_emb, fadd_emb in H.
  destruct (sv_lo_hi (b:=b) x y c Hc1 Hc2) as [_ Hs2]. rewrite Hs2 in H.
  pose proof (add_first c k Hc1 Hc2 Hk0 ltac:(lia)) as Hfirst. cbv zeta in Hfirst.
  pose proof (add_first_wide c k Hk0 (proj1 Hk) HT) as Hsw. cbv zeta in Hsw.
  set (s := (if c then sv x else sv y) * answer k (add_D M x y)
           + (if c then sv y else sv x) * 2 ^ (M + 3)) in *. clearbody s.
  replace (M + 3 + (M + 1) + 1) with (2 * M + 5) in H by ring.
  apply sat_bind in H. destruct H as [wg [Hg H]].
  shint H w1 Hw1'.
  apply sat_bind in H. destruct H as [[] [Hb H]]. apply sat_assert_bool in Hb. destruct Hb as [c2 ->].
  clear Hg. shint H sh Hsh. scheck H Hck1.
  destruct (BitLen_bounds (2 * M + 5) ltac:(lia)) as [Hbl1 Hbl2].
  apply (check_loose_any (K:=4*M+44)) in Hck1; [|lia|lia|exact Hsh].
  assert (Hsh2 : sh <= 2 ^ 180).
  { pose proof (capacity_bounds b (BitLen (2 * M + 5)) ltac:(lia) ltac:(lia)) as [_ [Hcb _]].
    assert (2 ^ capacity b (BitLen (2 * M + 5)) <= 2 ^ 180) by (apply pow2_mono; lia). lia. }
  rewrite <- (emb_small sh Hsh) in H.
  apply sat_bind in H. destruct H as [ts [Hts H]].
  apply sat_QueryPow2_any in Hts; [|lia]. destruct Hts as (k2 & Hk20 & Hk2 & -> & HT2).
  pose proof (answer_pos k2 sh Hk20 (proj1 Hk2) HT2) as HT2p.
  assert (Hsr : 0 <= sh <= M + E) by lia.
  rewrite fneg_emb in H. sstep H. rewrite !fmul_emb in H.
  assert (Hnw : Z.abs ((if c2 then s else - s) * answer k2 sh) <= 2 ^ 220).
  { rewrite Z.abs_mul. replace (2 ^ 220) with (2 ^ 140 * 2 ^ 80) by (vm_compute; reflexivity).
    replace (Z.abs (if c2 then s else - s)) with (Z.abs s) by (clear; destruct c2; lia).
    rewrite (Z.abs_eq (answer k2 sh)) by (clear - HT2p; lia).
    clear - HT2p Hsw. apply Z.mul_le_mono_nonneg; lia. }
  assert (Hb220 : 2 ^ 220 < 2 ^ 250) by (apply Z.pow_lt_mono_r; lia).
  assert (Hnz : isZero (emb ((if c2 then s else - s) * answer k2 sh)) = emb (Z.b2z (s =? 0))).
  { rewrite isZero_emb by (clear - Hb220 Hbig Hnw; lia).
    do 2 f_equal. destruct (Z.eqb_spec s 0) as [->|Hne]; [destruct c2; reflexivity|].
    apply Z.eqb_neq. intros H0. apply Z.mul_eq_0 in H0. clear - H0 Hne HT2p. destruct c2; lia. }
  rewrite Hnz in H.
  scheck H Hck2. femb_in Hck2. femb_in H. rewrite !b2z_not in H.
  replace (1 - Z.b2z (s =? 0)) with (Z.b2z (negb (s =? 0))) in Hck2
    by (destruct (s =? 0); reflexivity).
  replace (2 * M + 5 - 1) with (2 * M + 4) in Hck2 by ring.
  assert (H24s : 2 ^ (2 * M + 4) < 2 ^ 140) by (clear - HpE HpEM Hp64 HE5; apply Z.pow_lt_mono_r; lia).
  assert (Hr1 : 1 <= 2 * M + 4) by (clear - HpE HpEM; lia).
  assert (Hr2 : 2 * M + 4 + b <= 250) by (clear - HpE HpEM Hp64 Hpb; lia).
  apply (check_small (K:=250) _ _ Hr1 Hr2) in Hck2.
  2:{ assert (Hk5 : 2 ^ 220 + 2 ^ 140 <= 2 ^ (250 - b)).
      { apply Z.le_trans with (2 ^ 233); [vm_compute; discriminate|].
        clear - Hpb. apply pow2_mono; lia. }
      clear - Hk5 Hnw H24s P24'. destruct (s =? 0); cbn [negb Z.b2z]; lia. }
  destruct (add_second c2 s k2 sh Hk20 (proj1 Hsr) Hk2 HT2 Hfirst Hck2) as [Hs Hn2].
  subst s. clear Hfirst Hsw.
  rewrite Hn2 in Hck2, H. clear Hnz Hnw.
  pose proof (proj1 (add_pinned (b:=b) x y Wx Wy c2 sh Hsr) Hck2) as Hpin.
  clear Hck2. rename Hpin into Hck2.
  rewrite (add_abs_n x y c2 sh Hck2) in H.
  assert (Hn : 0 <= Z.abs (add_s M x y) * 2 ^ sh < 2 ^ (2 * M + 5)).
  { destruct (Z.eq_dec (add_s M x y) 0) as [H0|H0].
    - rewrite H0. cbn [Z.abs]. rewrite Z.mul_0_l. lia.
    - destruct (Hck2 H0) as [_ ->]. destruct (add_norm (b:=b) x y Wx Wy H0). lia. }
  destruct (add_zr_range (b:=b) x y Wx Wy sh) as [Hzr _].
  { destruct (Z.eq_dec (add_s M x y) 0) as [H0|H0]; [left; exact H0|right; apply Hck2, H0]. }
  rewrite (IsEq_bool (E:=E) (M:=M) (b:=b)) in H. sstep H.
  apply sat_bind in H. destruct H as [zr [Hz H]].
  change (emb 1) with (emb (Z.b2z true)) in Hz.
  apply sat_round_any in Hz; [|exact Hn|lia].
  assert (He : - 2 * 2 ^ (E + 1) < add_e x y sh - E_MAX E < 2 * 2 ^ (E + 1))
    by (unfold add_e; destruct Wx as [Hx1 _], Wy as [Hy1 _]; lia).
  sstep H. fold (add_e x y sh) in H.
  apply sat_bind in H. destruct H as [tf [Htf H]].
  assert (Hgood : forall pos, fix_pos_ok (E:=E) (M:=M) (add_zr M x y sh) (add_e x y sh) pos ->
    r = embF (zadd E M x y c2 sh pos) ->
    exists c2 sh pos, add_choice E M x y c2 sh pos /\ r = embF (zadd E M x y c2 sh pos)).
  { intros pos Hpos ->. exists c2, sh, pos. split; [|reflexivity].
    split; [exact Hck2|split; [exact Hsr|exact Hpos]]. }
  destruct Hz as [->|(Hn0 & -> & _)].
  - fold (add_zr M x y sh) in Htf.
    apply sat_fixOverflow in Htf; [|exact Hzr|exact He].
    destruct Htf as [pos [Hpos ->]]. left. apply (Hgood pos Hpos).
    unfold zadd. destruct (zfix _ _ _ _ _) as [[m' e'] ab].
    rewrite (add_keep (b:=b) x y Wx Wy) in H. repeat sstep H.
    apply sat_ret_inv in H. rewrite <- H. unfold embF. cbn [zs ze zm za].
    f_equal. destruct (Bool.eqb (zs x) (zs y)); reflexivity.
  - assert (Hs0 : add_s M x y <> 0) by (intros H0; apply Hn0; rewrite H0; reflexivity).
    destruct (Hck2 Hs0) as [_ Hshe]. subst sh.
    apply sat_fixOverflow in Htf; [|lia|exact He].
    destruct Htf as [pos [Hpos ->]]. unfold fix_pos_ok in Hpos. unfold zfix in H.
    destruct (Z.eqb_spec 0 (2 ^ (M + 1))) as [|_]; [lia|]. cbn [Z.b2z orb] in Hpos, H.
    rewrite Z.add_0_r in Hpos, H. destruct Hpos as [Hp1 Hp2].
    rewrite (add_keep (b:=b) x y Wx Wy) in H. repeat sstep H. apply sat_ret_inv in H.
    destruct (add_s M x y =? 0) eqn:Hsz; [apply Z.eqb_eq in Hsz; contradiction|].
    destruct (pos || (za x || za y)) eqn:Hab.
    + left. destruct pos eqn:Hpos.
      * apply (Hgood true).
        { split; [reflexivity|]. intros Hlt. exfalso.
          destruct (add_zr M x y (add_shift M x y) =? 2 ^ (M + 1)); cbn [Z.b2z] in Hlt;
            destruct (Z_le_gt_dec (E_MAX E) (add_e x y (add_shift M x y))); try lia;
            discriminate (Hp2 ltac:(lia)). }
        unfold zadd, zfix. rewrite Hsz. cbn [orb]. rewrite orb_true_r.
        rewrite <- H. unfold embF. cbn [zs ze zm za].
        f_equal. destruct (Bool.eqb (zs x) (zs y)); reflexivity.
      * cbn [orb] in Hab.
        assert (Hh := honest_pos_ok E M (add_zr M x y (add_shift M x y)) (add_e x y (add_shift M x y))).
        apply (Hgood _ Hh). unfold zadd, zfix. rewrite Hsz, Hab, !orb_true_r.
        rewrite <- H. unfold embF. cbn [zs ze zm za].
        destruct (Bool.eqb (zs x) (zs y)), (za x); try reflexivity;
          (destruct (za y); [reflexivity|discriminate]).
    + right. apply orb_false_iff in Hab. destruct Hab as [-> Hab]. apply orb_false_iff in Hab.
      destruct Hab as [Ax Ay]. split; [exact Ax|]. split; [exact Ay|]. split; [exact Hs0|].
      rewrite Ax, Ay in H.
      exists (if Bool.eqb (zs x) (zs y) then zs x else negb c2). split.
      * destruct (Z_lt_le_dec (E_MAX E) (add_e x y (add_shift M x y))) as [Hlt|]; [|lia].
        discriminate (Hp1 Hlt).
      * rewrite <- H. unfold embF. cbn [zs ze zm za].
        f_equal. destruct (Bool.eqb (zs x) (zs y)); reflexivity.
Qed.
End AddOps.

Lemma zrep_normal z (f : fmt E M) : zrep E M z f -> za z = false -> is_finite f = true.
Proof.
  destruct f as [s|s| |s m e H]; cbn; intros Hz Ha; try reflexivity.
  - rewrite Hz in Ha. discriminate.
  - destruct Hz as [s ->]. discriminate.
Qed.

Theorem add_sound_any x y (fx fy : fmt E M) r : represents x fx -> represents y fy ->
  sat b (Add E M x y) r -> hollow r \/
  represents r (ieee_add E M fx fy) \/
  (is_finite fx = true /\ is_finite fy = true /\
   (overflow_wires E M (Bsign fx) (B2R fx + B2R fy) r \/
    (Bsign fx <> Bsign fy /\ B2R fx = (- B2R fy)%R /\
     (represents (E:=E) (M:=M) r (B754_zero true) \/
      ((bpow radix2 (emax - 1) <= Rabs (B2R fx))%R /\
       exists s, represents (E:=E) (M:=M) r (B754_infinity s)))))).
Proof.
  intros [zx [-> Hx]] [zy [-> Hy]] H.
  pose proof (zrep_zwf _ _ Hx) as Wx. pose proof (zrep_zwf _ _ Hy) as Wy.
  destruct (sat_Add_any zx zy Wx Wy r H)
    as [(c2 & sh & pos & Hch & ->)|(Ax & Ay & Hs0 & s & He & ->)].
  - right. exact (add_choice_sound (b:=b) zx zy fx fy c2 sh pos Hx Hy Hch).
  - left. exists s, (add_e zx zy (add_shift M zx zy)). split; [|reflexivity].
    split; [|exact He].
    apply (add_e_low zx zy fx fy Hx Hy); [| |exact Hs0].
    + exact (zrep_normal zx fx Hx Ax).
    + exact (zrep_normal zy fy Hy Ay).
Qed.

Lemma add_yields_any x y (fx fy : fmt E M) : represents x fx -> represents y fy ->
  yields (b:=b) (Add E M x y) (sum_outcome fx fy).
Proof.
  intros Hx Hy. apply add_yields_inert; [exact Hx|exact Hy|]. intros r Hr.
  destruct (add_sound_any x y fx fy r Hx Hy Hr) as [H|H]; [left; apply hollow_inert, H|right; exact H].
Qed.

Lemma sub_yields_any x y (fx fy : fmt E M) : represents x fx -> represents y fy ->
  yields (b:=b) (Sub E M x y) (diff_outcome fx fy).
Proof.
  intros Hx Hy.
  destruct (add_yields_any x (Neg y) fx (ieee_neg E M fy) Hx (neg_spec y fy Hy)) as [H1 H2].
  split.
  - intros r Hr. unfold diff_outcome. rewrite minus_plus_opp. exact (H1 r Hr).
  - intros f Hf. unfold diff_outcome in Hf. rewrite minus_plus_opp in Hf. exact (H2 f Hf).
Qed.

Lemma sqrt_yields_any x (fx : fmt E M) : represents x fx ->
  yields (b:=b) (Sqrt E M x) (fun f => f = ieee_sqrt E M fx).
Proof.
  intros Hx. apply honest_yields; [apply sqrt_complete; assumption|].
  intros r Hr. destruct (sqrt_sound_any x fx r Hx Hr) as [H|[_ H]];
    [right; exact H|left; apply hollow_inert, H].
Qed.

End AnyWidth.
