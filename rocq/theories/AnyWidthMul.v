(** Multiplication and division when the base width of the range check need not
    divide the size of the table of powers of two. *)
From Coq Require Import ZArith Reals Lra Lia Bool List Znumtheory Zpow_facts.
From Flocq Require Import Core BinarySingleNaN.
From Verif Require Import Field FieldFacts Circuit CircuitFacts RangeCheck RangeFacts Gadget
  GadgetFacts Hints FloatModel Tactics RoundFacts Spec RoundCore RepFacts MulFacts DivFacts
  SqrtFacts AddFacts Forge EqFacts Circuits CircuitSpec AnyWidth ForgeSpec.
Local Open Scope Z_scope.

Lemma fill_capacity b n : fill b n = capacity b n.
Proof. reflexivity. Qed.

Lemma capacity_mono b m n : 1 <= b -> m <= n -> capacity b m <= capacity b n.
Proof.
  intros Hb H. unfold capacity, decompSize. apply Z.mul_le_mono_nonneg_r; [lia|].
  apply Z.div_le_mono; lia.
Qed.

Section AnyWidthMul.
Context {MOD : Modulus} {E M b : Z} {HP : Params E M b} {HF : Format E M}.
#[local] Instance Wn : Width b (4 * M + 44) := params_width E M b HP.
#[local] Instance Bn : BigMod := width_big b _ Wn.
Hypothesis Hbig : 2 ^ 250 <= modulus.
#[local] Instance W250 : Width b 250.
Proof. destruct HP. constructor; (assumption || lia). Qed.

Notation emax := (Spec.emax E).
Notation emin := (Spec.emin E M).
Notation TS := (pow2_size E M).
Hypothesis Hfill : fill b M + fill b (2 * M + 2) + fill b (E + M + 1) + 2 <= 250.

Lemma table_size : TS = M + E + 1. Proof. reflexivity. Qed.

Lemma sat_QueryPow2_exact z r : - 2 ^ 180 <= z <= 2 ^ 180 ->
  (sat b (QueryPow2 E M (emb z)) r <->
   exists k, 0 <= k /\ 0 <= z + k <= M + E /\ r = emb (answer (E:=E) (M:=M) k z) /\
     answer (E:=E) (M:=M) k z < 2 ^ capacity b TS).
Proof.
  intros Hz. params. unfold QueryPow2, answer, pow2_size.
  assert (2 ^ 180 <= 2 ^ (250 - 3 - (M + E + 1))) by (apply pow2_mono; lia).
  rewrite (sat_QueryPowerOf2 (b:=b) (K:=250)); [|lia..]. split.
  - intros (i & k & Hi & Hk & Hzk & Hr & Hlt). exists k.
    replace (z + k) with i by lia. split; [exact Hk|]. split; [lia|]. split; [exact Hr|exact Hlt].
  - intros (k & Hk & Hi & Hr & Hlt). exists (z + k), k. split; [lia|]. split; [exact Hk|].
    split; [lia|]. split; [exact Hr|exact Hlt].
Qed.

Section Round.
Variables (n L shift : Z) (h : bool).
Hypotheses (Hn : 0 <= n < 2 ^ L) (HL : M + 3 <= L <= 2 * M + 2) (Hsh : 0 <= shift <= M + 2).

Notation d := (capacity b L - L).

Lemma pad_range : 0 <= d <= b - 1.
Proof. params. pose proof (capacity_bounds b L ltac:(lia) ltac:(lia)) as [_ [H _]]. lia. Qed.

Lemma half_exists : exists w, 0 <= w /\ emb (2 ^ d * w) = emb 1.
Proof.
  params. pose proof pad_range as Hd.
  assert (Ho : Z.odd modulus = true) by apply (p_odd (E:=E) (M:=M) (b:=b)).
  exists (((modulus + 1) / 2) ^ d).
  assert (Hh : 2 * ((modulus + 1) / 2) = modulus + 1).
  { symmetry. apply Z_div_exact_full_2; [lia|]. rewrite Zmod_odd, Z.odd_add, Ho. reflexivity. }
  assert (Hm : 2 < modulus) by exact Bn.
  split; [apply Z.pow_nonneg, Z.div_pos; lia|].
  rewrite <- Z.pow_mul_l, Hh.
  unfold emb. rewrite Zpower_mod by lia.
  replace ((modulus + 1) mod modulus) with 1.
  - rewrite Z.pow_1_l by lia. reflexivity.
  - symmetry. rewrite Z.add_comm. rewrite <- (Z.mul_1_l modulus) at 1.
    rewrite Z_mod_plus_full. apply Z.mod_small. lia.
Qed.

(** A wrong power of two is accepted if it divides the significand, and then
    nothing is left of it. *)
Lemma round_rest_wrong k r : 1 <= k -> shift + k <= M + E ->
  answer (E:=E) (M:=M) k shift < 2 ^ capacity b TS ->
  (sat b (round_rest (M:=M) (emb n) L (emb (answer (E:=E) (M:=M) k shift)) (M + 2) (emb (Z.b2z h))) r <->
   r = emb 0 /\ (answer (E:=E) (M:=M) k shift | n * 2 ^ (M + 2 + d))).
Proof.
  intros Hk1 Hk HT. params.
  pose proof (answer_big (E:=E) (M:=M) (b:=b) k shift ltac:(lia) ltac:(lia)) as HTb.
  set (T := answer k shift) in *. clearbody T. unfold round_rest.
  replace (M + 2 + L - M - 2) with L by ring.
  pose proof (pow_pos L ltac:(lia)) as HpL.
  assert (Hpq : 2 ^ (L + 1) = 2 * 2 ^ L) by (rewrite <- Z.pow_succ_r by lia; reflexivity).
  pose proof pad_range as Hd. pose proof table_size as HTS.
  pose proof (capacity_bounds b M ltac:(lia) ltac:(lia)) as [_ [HcapM _]].
  pose proof (capacity_bounds b TS ltac:(unfold pow2_size; lia) ltac:(unfold pow2_size; lia)) as [_ [HcapT _]].
  assert (HcL : capacity b L <= capacity b (2 * M + 2)) by (apply capacity_mono; lia).
  assert (Hroom : capacity b M + capacity b L + capacity b TS + 2 <= 250).
  { pose proof Hfill as Hf. change (capacity b M + capacity b (2 * M + 2) + capacity b (E + M + 1) + 2 <= 250) in Hf.
    replace (E + M + 1) with TS in Hf by (unfold pow2_size; ring). lia. }
  pose proof (cap_room (b:=b) (K:=250) M ltac:(lia) ltac:(lia)) as (HcM & H2b & HcM' & _ & _).
  pose proof (cap_room (b:=b) (K:=250) L ltac:(lia) ltac:(lia)) as (Hcr & _ & Hcr' & _ & _).
  pose proof (pow_pos d ltac:(lia)) as Hpd.
  assert (HTp : 0 < T < 2 ^ capacity b TS).
  { assert (0 < 2 ^ TS) by (apply pow_pos; unfold pow2_size; lia). lia. }
  assert (HnD : 0 <= n * 2 ^ (M + 2 + d) < 2 ^ (L + d) * 2 ^ (M + 2)).
  { rewrite (Z.pow_add_r 2 (M + 2) d), (Z.pow_add_r 2 L d) by lia.
    pose proof (pow_pos (M + 2) ltac:(lia)) as HM2. clear - Hn Hpd HM2.
    set (A := 2 ^ L) in *. set (B := 2 ^ d) in *. set (C := 2 ^ (M + 2)) in *. clearbody A B C.
    assert (0 < C * B) by nia. nia. }
  assert (Hle : 2 ^ (L + d) * 2 ^ (M + 2) <= 2 ^ (L + d) * 2 ^ TS).
  { apply Z.mul_le_mono_nonneg_l; [apply Z.pow_nonneg; lia|]. apply pow2_mono. unfold pow2_size. lia. }
  assert (H250 : 2 ^ (L + d) * 2 ^ (M + 2) <= 2 ^ 250).
  { rewrite <- Z.pow_add_r by lia. apply pow2_mono. unfold pow2_size in *. lia. }
  destruct (DecomposeMantissaForRoundingHint _ _ _ _ _ _) as [[[hp hq] hr] hs].
  split.
  - intros H. shint H p Hp. shint H q Hq. shint H rr Hrr. shint H s Hs.
    apply sat_bind in H. destruct H as [u1 [Hu1 H]]. apply sat_assert_bool in Hu1.
    destruct Hu1 as [cq ->].
    apply sat_bind in H. destruct H as [u2 [Hu2 H]]. apply sat_assert_bool in Hu2.
    destruct Hu2 as [cr ->].
    scheck H Hcp. scheck H Hcs.
    apply sat_bind in H. destruct H as [u3 [Heq H]]. apply sat_assert_eq in Heq.
    rewrite range_ok_iff in Hcp by (assumption || lia). unfold range_spec in Hcp.
    rewrite range_ok_iff in Hcs by (assumption || lia). unfold range_spec in Hcs.
    set (u := fmul s (emb (2 ^ d))) in *.
    assert (Hu : 0 <= u < 2 ^ (L + d)).
    { split; [apply fmul_range|]. replace (L + d) with (capacity b L) by lia. exact Hcs. }
    assert (Hus : emb (s * 2 ^ d) = emb u).
    { unfold u. rewrite <- (emb_small s Hs) at 2. rewrite fmul_emb, emb_emb. reflexivity. }
    rewrite <- (emb_small p Hp), <- (emb_small s Hs) in Heq.
    rewrite !fmul_emb, !fadd_emb, !fmul_emb, fadd_emb, fmul_emb in Heq.
    set (PQ := p + p + Z.b2z cq) in *.
    assert (HPQ : 0 <= PQ < 2 * 2 ^ capacity b M) by (unfold PQ; destruct cq; cbn [Z.b2z]; lia).
    set (X := (PQ * 2 ^ (L + 1) + Z.b2z cr * 2 ^ L) * 2 ^ d + u).
    assert (Heq2 : emb (X * T) = emb (n * 2 ^ (M + 2 + d))).
    { transitivity (fmul (emb ((PQ * 2 ^ (L + 1) + (Z.b2z cr * 2 ^ L + s)) * T)) (emb (2 ^ d))).
      - rewrite fmul_emb. unfold X.
        transitivity (fadd (emb ((PQ * 2 ^ (L + 1) + Z.b2z cr * 2 ^ L) * 2 ^ d * T))
                           (fmul (emb u) (emb T))).
        { rewrite fmul_emb, fadd_emb. f_equal. ring. }
        rewrite <- Hus, fmul_emb, fadd_emb. f_equal. ring.
      - rewrite Heq, fmul_emb. f_equal. rewrite (Z.pow_add_r 2 (M + 2) d) by lia. ring. }
    assert (HLd : 2 ^ (L + d) = 2 ^ L * 2 ^ d) by (apply Z.pow_add_r; lia).
    assert (HX : 0 <= X < 2 ^ (capacity b M + 2 + (L + d))).
    { rewrite (Z.pow_add_r 2 (capacity b M + 2)), (Z.pow_add_r 2 (capacity b M)) by lia.
      change (2 ^ 2) with 4. rewrite HLd in Hu |- *. unfold X. rewrite Hpq. clear - HPQ Hu HpL Hpd.
      set (P := 2 ^ capacity b M) in *. set (R := 2 ^ L) in *. set (D := 2 ^ d) in *. clearbody P R D.
      assert (0 < R * D) by nia.
      replace ((PQ * (2 * R) + Z.b2z cr * R) * D) with ((2 * PQ + Z.b2z cr) * (R * D)) by ring.
      set (RD := R * D) in *. clearbody RD.
      destruct cr; cbn [Z.b2z]; nia. }
    assert (Hint : X * T = n * 2 ^ (M + 2 + d)).
    { apply emb_inj; [exact Heq2|].
      assert (HXT : 0 <= X * T < 2 ^ (capacity b M + 2 + (L + d)) * 2 ^ capacity b TS).
      { clear - HX HTp. nia. }
      rewrite <- Z.pow_add_r in HXT by lia.
      assert (2 ^ (capacity b M + 2 + (L + d) + capacity b TS) <= 2 ^ 250)
        by (apply pow2_mono; lia). lia. }
    assert (HXs : X < 2 ^ (L + d)).
    { assert (HA : 0 < 2 ^ (L + d)) by (apply pow_pos; lia).
      assert (HB : 0 < 2 ^ TS) by (apply pow_pos; unfold pow2_size; lia).
      clear - Hle HnD Hint HTb HX HA HB. clearbody X.
      set (A := 2 ^ (L + d)) in *. set (B := 2 ^ TS) in *. clearbody A B.
      destruct (Z_lt_le_dec X A) as [|Hge]; [assumption|exfalso].
      assert (A * B <= X * B) by (apply Z.mul_le_mono_nonneg_r; lia).
      assert (X * B < X * T) by (apply Z.mul_lt_mono_pos_l; lia). lia. }
    assert (Hz : PQ = 0 /\ cr = false).
    { rewrite HLd in HXs, Hu. unfold X in HXs. rewrite Hpq in HXs.
      clear - HXs Hu HPQ HpL Hpd.
      set (R := 2 ^ L) in *. set (D := 2 ^ d) in *. clearbody R D.
      assert (0 < R * D) by nia.
      replace ((PQ * (2 * R) + Z.b2z cr * R) * D) with ((2 * PQ + Z.b2z cr) * (R * D)) in HXs by ring.
      set (RD := R * D) in *. clearbody RD.
      destruct cr; cbn [Z.b2z] in HXs; split; try reflexivity; try nia; exfalso; nia. }
    destruct Hz as [Hz1 ->].
    assert (Hp0 : p = 0 /\ cq = false) by (unfold PQ in Hz1; destruct cq; cbn [Z.b2z] in Hz1; lia).
    destruct Hp0 as [-> ->].
    split; [|exists X; symmetry; exact Hint].
    cbv zeta in H. cbn [Z.b2z] in H.
    apply sat_bind in H. destruct H as [ih [Hih H]]. unfold IsEq in Hih.
    apply sat_and in Hih. destruct Hih as (c1 & c2 & _ & _ & ->).
    sstep H. apply sat_ret_inv in H. subst r.
    change (fadd 0 0) with (emb 0). rewrite !fadd_emb, fmul_emb.
    destruct (c1 && c2); rewrite ?fadd_emb, ?fmul_emb; f_equal; ring.
  - intros [-> [X HX]].
    assert (HX0 : 0 <= X < 2 ^ (L + d)).
    { assert (HA : 0 < 2 ^ (L + d)) by (apply pow_pos; lia).
      assert (HB : 0 < 2 ^ TS) by (apply pow_pos; unfold pow2_size; lia).
      clear - Hle HnD HX HTb HA HB.
      set (A := 2 ^ (L + d)) in *. set (B := 2 ^ TS) in *. clearbody A B.
      split; [nia|].
      destruct (Z_lt_le_dec X A) as [|Hge]; [assumption|exfalso].
      assert (A * B <= X * B) by (apply Z.mul_le_mono_nonneg_r; lia).
      assert (X * B < X * T) by (apply Z.mul_lt_mono_pos_l; lia). lia. }
    destruct half_exists as (w & Hw0 & Hw).
    set (s := emb (X * w)).
    assert (Hsd : fmul s (emb (2 ^ d)) = emb X).
    { unfold s. rewrite fmul_emb. replace (X * w * 2 ^ d) with (X * (2 ^ d * w)) by ring.
      rewrite <- fmul_emb, Hw, fmul_emb. f_equal. ring. }
    assert (HXm : X < modulus).
    { assert (2 ^ (L + d) <= 2 ^ 250) by (apply pow2_mono; lia). lia. }
    apply sat_bind. exists 0. split; [apply sat_hint1; lia|].
    apply sat_bind. exists (emb (Z.b2z false)). split; [apply sat_hint1, emb_range|].
    apply sat_bind. exists (emb (Z.b2z false)). split; [apply sat_hint1, emb_range|].
    apply sat_bind. exists s. split; [apply sat_hint1, emb_range|].
    apply sat_bind. exists tt. split; [apply sat_assert_bool; eauto|].
    apply sat_bind. exists tt. split; [apply sat_assert_bool; eauto|].
    apply sat_bind. exists tt. split.
    { apply sat_check. apply range_ok_iff; try (assumption || lia). unfold range_spec. apply pow_pos. lia. }
    apply sat_bind. exists tt. split.
    { apply sat_check. apply range_ok_iff; try (assumption || lia || apply emb_range).
      unfold range_spec. rewrite Hsd, emb_small by lia.
      replace (capacity b L) with (L + d) by lia. lia. }
    cbv zeta. cbn [Z.b2z].
    apply sat_bind. exists tt. split.
    { apply sat_assert_eq.
      change (fadd 0 0) with (emb 0).
      unfold s. rewrite !fadd_emb, !fmul_emb, !fadd_emb, !fmul_emb.
      unfold emb. apply (odd_cancel_pow2 modulus d); [exact Bn|apply (p_odd (E:=E) (M:=M) (b:=b))|lia|].
      fold (emb ((((0 + 0 + 0) * 2 ^ (L + 1) + (0 * 2 ^ L + X * w)) * T) * 2 ^ d)).
      fold (emb (n * 2 ^ (M + 2) * 2 ^ d)).
      replace (n * 2 ^ (M + 2) * 2 ^ d) with (X * T * 1)
        by (rewrite <- HX, (Z.pow_add_r 2 (M + 2) d) by lia; ring).
      rewrite <- (fmul_emb (X * T)), <- Hw, fmul_emb. unfold emb. f_equal. ring. }
    apply sat_bind. eexists. split.
    { unfold IsEq, isZero. apply sat_and.
      match goal with |- exists c d, (if ?x then _ else _) = _ /\ _ => exists x, h end.
      split; [|split; reflexivity].
      match goal with |- (if ?x then _ else _) = _ => destruct x end;
        symmetry; apply emb_small; cbn [Z.b2z]; pose proof Bn as HB; unfold BigMod in HB; lia. }
    apply sat_bind. exists (emb 0). split.
    { apply sat_select. match goal with |- exists c, emb (Z.b2z ?x) = _ /\ _ => exists x; destruct x end;
        split; reflexivity. }
    change (fadd 0 0) with (emb 0).
    rewrite !fadd_emb, fmul_emb. reflexivity.
Qed.
End Round.
End AnyWidthMul.
