(** What the integer gadgets of gadget/gadget.go guarantee. *)
From Coq Require Import ZArith Znumtheory List Bool Lia ZifyBool.
From Verif Require Import Field FieldFacts Circuit Hints RangeCheck Gadget
  CircuitFacts RangeFacts.
Import ListNotations.
Local Open Scope Z_scope.

(** A base width [b] together with a number [K] of bits that fit in the field. *)
Class Width {MOD : Modulus} (b K : Z) : Prop := mkWidth {
  width_b : 2 <= b <= 17;
  width_K : 44 <= K;
  width_mod : 2 ^ K <= modulus;
  width_odd : Z.odd modulus = true }.

Ltac width_facts :=
  match goal with
  | H : Width ?b ?K |- _ =>
      pose proof (width_b (b:=b) (K:=K)) as Hwb;
      pose proof (width_K (b:=b) (K:=K)) as HwK;
      pose proof (width_mod (b:=b) (K:=K)) as Hwm
  end.

Lemma width_big {MOD : Modulus} b K : Width b K -> BigMod.
Proof.
  intros [Hb HK Hm _]. unfold BigMod.
  assert (2 ^ 2 <= 2 ^ K) by (apply Z.pow_le_mono_r; lia). lia.
Qed.

Section GadgetFacts.
Context {MOD : Modulus} {b K : Z} {HW : Width b K}.
#[local] Instance gadget_big : BigMod := width_big b K HW.

Lemma hp : 2 < modulus. Proof. exact gadget_big. Qed.

Lemma room n : n <= K -> 2 ^ n <= modulus.
Proof.
  intros H. destruct HW as [Hb HK Hm _].
  destruct (Z_lt_le_dec n 0) as [Hn|Hn].
  - rewrite Z.pow_neg_r by lia. pose proof hp. lia.
  - apply Z.le_trans with (2 ^ K); [apply Z.pow_le_mono_r; lia|exact Hm].
Qed.

Lemma pow_S n : 1 <= n -> 2 ^ n = 2 * 2 ^ (n - 1).
Proof. intros H. rewrite <- Z.pow_succ_r by lia. f_equal. lia. Qed.

Lemma pow_pos n : 0 <= n -> 0 < 2 ^ n.
Proof. intros H. apply Z.pow_pos_nonneg; lia. Qed.

Lemma emb_lt z c : 0 <= c -> - modulus <= z - c -> z < modulus -> z + modulus >= c ->
  (emb z < c <-> 0 <= z < c).
Proof.
  intros Hc H1 H2 H3. pose proof hp.
  destruct (Z_lt_le_dec z 0) as [Hz|Hz].
  - assert (emb z = z + modulus).
    { unfold emb. rewrite <- (Z.mod_add z 1) by lia. rewrite Z.mul_1_l.
      apply Z.mod_small. lia. }
    lia.
  - rewrite emb_small by lia. lia.
Qed.

Section Checks.
Variables (z n : Z).
Hypotheses (Hn : 1 <= n) (Hroom : n + b <= K).

Lemma cap_room : 2 ^ capacity b n <= 2 ^ (K - 1) /\ 2 ^ (2 * b) <= modulus /\
  2 ^ capacity b n <= modulus /\ 2 ^ K = 2 * 2 ^ (K - 1) /\ 2 ^ n <= 2 ^ capacity b n.
Proof.
  width_facts.
  pose proof (capacity_bounds b n ltac:(lia) Hn) as [_ [Hc _]].
  split; [apply pow2_mono; lia|].
  split; [apply room; lia|]. split; [apply room; lia|].
  split; [apply pow_S; lia|apply pow2_mono; lia].
Qed.

Lemma check_loose : - 2 ^ (K - 1) <= z < 2 ^ K ->
  (range_ok b (emb z) n Loose <-> 0 <= z < 2 ^ capacity b n).
Proof.
  intros Hz. width_facts.
  destruct cap_room as [H1 [H2 [H3 [H4 H5]]]].
  rewrite range_ok_iff by (lia || apply emb_range || assumption).
  unfold range_spec. apply emb_lt; lia.
Qed.

Lemma check_unknown : - 2 ^ (K - 1) <= z < 2 ^ K ->
  (range_ok b (emb z) n TightForUnknownRange <-> 0 <= z < 2 ^ n).
Proof.
  intros Hz. width_facts. pose proof (pow_pos n ltac:(lia)) as Hpn.
  destruct cap_room as [H1 [H2 [H3 [H4 H5]]]].
  rewrite range_ok_iff by (lia || apply emb_range || assumption).
  unfold range_spec. apply emb_lt; lia.
Qed.

Lemma check_small : - 2 ^ (K - b) <= z <= 2 ^ (K - b) ->
  (range_ok b (emb z) n TightForSmallAbs <-> 0 <= z < 2 ^ n).
Proof.
  intros Hz. width_facts.
  pose proof (capacity_bounds b n ltac:(lia) Hn) as [_ [Hc _]].
  destruct cap_room as [H1 [H2 [H3 [H4 H5]]]].
  rewrite range_ok_iff by (lia || apply emb_range || assumption).
  unfold range_spec. rewrite fmul_emb.
  set (d := capacity b n - n) in *.
  assert (Hd : 0 <= d <= b - 1) by lia.
  assert (Hpd : 0 < 2 ^ d) by (apply pow_pos; lia).
  assert (Hpd' : 2 ^ (K - b) * 2 ^ d <= 2 ^ (K - 1)).
  { rewrite <- Z.pow_add_r by lia. apply pow2_mono. lia. }
  assert (Hsp : 2 ^ capacity b n = 2 ^ n * 2 ^ d).
  { rewrite <- Z.pow_add_r by lia. f_equal. lia. }
  rewrite emb_lt by nia. nia.
Qed.

Lemma check_exec m : 0 <= z < 2 ^ n -> range_exec b (emb z) n m = true.
Proof.
  intros Hz. width_facts.
  destruct cap_room as [H1 [H2 [H3 [H4 H5]]]].
  rewrite emb_small by lia. apply range_exec_true; (assumption || lia).
Qed.

Lemma exec_abl m : 0 <= z < 2 ^ n ->
  exec b (AssertBitLength (emb z) n m) = Some tt.
Proof. intros Hz. apply exec_check, check_exec, Hz. Qed.

(** [Abs] (gadget.go:81-95): the absolute value is determined, the sign bit
    only for non-zero arguments. *)
Lemma sat_GAbs : - 2 ^ (K - 1) <= z <= 2 ^ (K - 1) -> forall r,
  sat b (GAbs (emb z) n) r
  <-> exists c, r = (emb (Z.abs z), emb (Z.b2z c)) /\
        (0 < z -> c = true) /\ (z < 0 -> c = false) /\ Z.abs z < 2 ^ capacity b n.
Proof.
  intros Hz r. width_facts.
  destruct cap_room as [H1 [H2 [H3 [H4 H5]]]].
  pose proof (pow_pos (K - 1) ltac:(lia)) as HpK.
  unfold GAbs. split.
  - intros H. apply sat_bind in H as [s [Hs H]]. apply sat_bind in H as [u [Hu H]].
    apply sat_bind in H as [[] [Hb H]]. apply sat_bind in H as [a [Ha H]].
    apply sat_bind in H as [[] [Hc H]]. apply sat_ret_inv in H. subst r.
    apply sat_assert_bool in Hb. destruct Hb as [c ->].
    apply sat_select in Ha. destruct Ha as [c' [Hc' ->]]. apply b2z_inj in Hc'. subst c'.
    apply sat_check in Hc.
    assert (Hv : (if c then emb z else fneg (emb z)) = emb (if c then z else - z))
      by (destruct c; [reflexivity|apply fneg_emb]).
    rewrite Hv in *.
    assert (Hok : 0 <= (if c then z else - z) < 2 ^ capacity b n).
    { destruct c; [| ].
      - apply check_loose in Hc; lia.
      - rewrite range_ok_iff in Hc by
          (assumption || apply emb_range || lia).
        unfold range_spec in Hc. apply emb_lt in Hc; lia. }
    exists c. destruct c.
    + replace (Z.abs z) with z by lia. repeat split; try lia.
    + replace (Z.abs z) with (- z) by lia. repeat split; lia.
  - intros [c [-> [Hc1 [Hc2 Hlt]]]].
    assert (Hv : (if c then emb z else fneg (emb z)) = emb (Z.abs z)).
    { destruct c; [|rewrite fneg_emb]; f_equal; lia. }
    apply sat_bind. exists (emb (Z.b2z c)). split; [apply sat_hint1, emb_range|].
    apply sat_bind. exists 0. split; [apply sat_hint1; pose proof hp; lia|].
    apply sat_bind. exists tt. split; [apply sat_assert_bool; eauto|].
    apply sat_bind. exists (emb (Z.abs z)). split.
    { apply sat_select. exists c. split; [reflexivity|symmetry; exact Hv]. }
    apply sat_bind. exists tt. split; [|reflexivity].
    apply sat_check.
    rewrite range_ok_iff by
      (assumption || apply emb_range || lia).
    unfold range_spec.
    rewrite emb_small by lia. exact Hlt.
Qed.

Lemma exec_GAbs : - 2 ^ n < z < 2 ^ n ->
  exec b (GAbs (emb z) n) = Some (emb (Z.abs z), emb (Z.b2z (0 <=? z))).
Proof.
  intros Hz. destruct cap_room as [H1 [H2 [H3 [H4 H5]]]].
  width_facts.
  assert (H2n : 2 * 2 ^ n <= 2 ^ (K - 1)).
  { rewrite <- Z.pow_succ_r by lia. apply pow2_mono. lia. }
  assert (HA : AbsHint (emb z)
    = (Some (Z.b2z (0 <=? z)), if 0 <=? z then Some z else Some (- z))).
  { unfold AbsHint. rewrite Z.shiftr_div_pow2 by lia. change (2 ^ 1) with 2.
    pose proof (Z.div_mod modulus 2 ltac:(lia)).
    pose proof (Z.mod_pos_bound modulus 2 ltac:(lia)).
    destruct (Z.leb_spec 0 z) as [Hs|Hs].
    - rewrite emb_small by lia.
      destruct (Z.ltb_spec z (modulus / 2)); [reflexivity|lia].
    - assert (emb z = z + modulus).
      { unfold emb. rewrite <- (Z.mod_add z 1) by lia. rewrite Z.mul_1_l.
        apply Z.mod_small. lia. }
      destruct (Z.ltb_spec (emb z) (modulus / 2)); [lia|].
      simpl. f_equal. f_equal. lia. }
  unfold GAbs. rewrite HA. cbn [fst snd].
  rewrite (exec_bind_eq _ _ _ _ (exec_hint1 _ _)).
  destruct (Z.leb_spec 0 z) as [Hs|Hs].
  - rewrite (exec_bind_eq _ _ _ _ (exec_hint1 _ _)).
    rewrite (exec_bind_eq _ _ _ _ (exec_assert_bool _ _)).
    rewrite (exec_bind_eq _ _ _ _ (exec_select _ _ _ _)). cbv iota.
    rewrite exec_bind_eq with (a := tt); [|apply exec_abl; lia].
    rewrite exec_ret. rewrite Z.abs_eq by lia. reflexivity.
  - rewrite (exec_bind_eq _ _ _ _ (exec_hint1 _ _)).
    rewrite (exec_bind_eq _ _ _ _ (exec_assert_bool _ _)).
    rewrite (exec_bind_eq _ _ _ _ (exec_select _ _ _ _)). cbv iota.
    rewrite fneg_emb.
    rewrite exec_bind_eq with (a := tt).
    2:{ apply exec_check. destruct cap_room as [? [? [? [? ?]]]].
        rewrite emb_small by lia. apply range_exec_true; (assumption || lia). }
    rewrite exec_ret. rewrite Z.abs_neq by lia. reflexivity.
Qed.

Lemma sat_IsPositive : - 2 ^ (K - 1) <= z <= 2 ^ (K - 1) -> forall r,
  sat b (IsPositive (emb z) n) r
  <-> exists c, r = emb (Z.b2z c) /\
        (0 < z -> c = true) /\ (z < 0 -> c = false) /\ Z.abs z < 2 ^ capacity b n.
Proof.
  intros Hz r. unfold IsPositive. split.
  - intros H. apply sat_bind in H as [[a s] [H1 H2]].
    apply sat_GAbs in H1; [|exact Hz]. destruct H1 as [c [He Hc]].
    injection He as -> ->. apply sat_ret_inv in H2. exists c. split; [auto|exact Hc].
  - intros [c [-> Hc]]. apply sat_bind. exists (emb (Z.abs z), emb (Z.b2z c)).
    split; [|reflexivity]. apply sat_GAbs; [exact Hz|]. exists c. auto.
Qed.

Lemma exec_IsPositive : - 2 ^ n < z < 2 ^ n ->
  exec b (IsPositive (emb z) n) = Some (emb (Z.b2z (0 <=? z))).
Proof.
  intros Hz. unfold IsPositive.
  rewrite (exec_bind_eq _ _ _ _ (exec_GAbs Hz)). reflexivity.
Qed.

End Checks.

Lemma sat_GMax x y n : 1 <= n -> n + b <= K ->
  - 2 ^ (K - 1) <= x - y <= 2 ^ (K - 1) -> forall r,
  sat b (GMax (emb x) (emb y) n) r
  <-> r = emb (Z.max x y) /\ Z.abs (x - y) < 2 ^ capacity b n.
Proof.
  intros Hn Hr Hz r. unfold GMax. rewrite fsub_emb. split.
  - intros H. apply sat_bind in H as [s [H1 H2]].
    apply sat_IsPositive in H1; try assumption. destruct H1 as [c [-> [Hc1 [Hc2 Hc3]]]].
    apply sat_select in H2. destruct H2 as [c' [Hc' ->]]. apply b2z_inj in Hc'. subst c'.
    split; [|exact Hc3]. destruct c; f_equal; lia.
  - intros [-> H]. apply sat_bind. exists (emb (Z.b2z (0 <=? x - y))). split.
    + apply sat_IsPositive; try assumption. exists (0 <=? x - y).
      repeat split; lia.
    + apply sat_select. eexists. split; [reflexivity|].
      destruct (Z.leb_spec 0 (x - y)); f_equal; lia.
Qed.

Lemma exec_GMax x y n : 1 <= n -> n + b <= K -> - 2 ^ n < x - y < 2 ^ n ->
  exec b (GMax (emb x) (emb y) n) = Some (emb (Z.max x y)).
Proof.
  intros Hn Hr Hz. unfold GMax. rewrite fsub_emb.
  rewrite (exec_bind_eq _ _ _ _ (exec_IsPositive _ _ Hn Hr Hz)).
  rewrite exec_select. destruct (Z.leb_spec 0 (x - y)); do 2 f_equal; lia.
Qed.

Lemma sat_GMin x y n : 1 <= n -> n + b <= K ->
  - 2 ^ (K - 1) <= x - y <= 2 ^ (K - 1) -> forall r,
  sat b (GMin (emb x) (emb y) n) r
  <-> r = emb (Z.min x y) /\ Z.abs (x - y) < 2 ^ capacity b n.
Proof.
  intros Hn Hr Hz r. unfold GMin. rewrite fsub_emb. split.
  - intros H. apply sat_bind in H as [s [H1 H2]].
    apply sat_IsPositive in H1; try assumption. destruct H1 as [c [-> [Hc1 [Hc2 Hc3]]]].
    apply sat_select in H2. destruct H2 as [c' [Hc' ->]]. apply b2z_inj in Hc'. subst c'.
    split; [|exact Hc3]. destruct c; f_equal; lia.
  - intros [-> H]. apply sat_bind. exists (emb (Z.b2z (0 <=? x - y))). split.
    + apply sat_IsPositive; try assumption. exists (0 <=? x - y).
      repeat split; lia.
    + apply sat_select. eexists. split; [reflexivity|].
      destruct (Z.leb_spec 0 (x - y)); f_equal; lia.
Qed.

Lemma exec_GMin x y n : 1 <= n -> n + b <= K -> - 2 ^ n < x - y < 2 ^ n ->
  exec b (GMin (emb x) (emb y) n) = Some (emb (Z.min x y)).
Proof.
  intros Hn Hr Hz. unfold GMin. rewrite fsub_emb.
  rewrite (exec_bind_eq _ _ _ _ (exec_IsPositive _ _ Hn Hr Hz)).
  rewrite exec_select. destruct (Z.leb_spec 0 (x - y)); do 2 f_equal; lia.
Qed.

Lemma IsEq_emb x y : - modulus < x - y < modulus ->
  IsEq (emb x) (emb y) = emb (Z.b2z (x =? y)).
Proof.
  intros H. unfold IsEq. rewrite fsub_emb, isZero_emb by lia.
  do 2 f_equal. lia.
Qed.

Lemma in_pow2_table_spec size v :
  in_pow2_table size v = true
  <-> exists i, 0 <= i < size /\ v = emb (i * 2 ^ size + 2 ^ i).
Proof.
  unfold in_pow2_table, pow2_entries. rewrite existsb_exists. split.
  - intros [e [Hi He]]. apply in_map_iff in Hi. destruct Hi as [i [Hi1 Hi2]].
    apply in_zseq in Hi2. apply Z.eqb_eq in He. exists i. subst. auto.
  - intros [i [Hi ->]]. eexists. split; [|apply Z.eqb_refl].
    apply in_map_iff. exists i. split; [reflexivity|]. apply in_zseq. exact Hi.
Qed.

(** [QueryPowerOf2] (gadget.go:122-137), all accepted results, for exponents
    that are small integers. *)
Lemma sat_QueryPowerOf2 size z : 1 <= size <= 2 ^ 15 -> size + 18 + b <= K ->
  - 2 ^ (K - 3 - size) <= z <= 2 ^ (K - 3 - size) -> forall r,
  sat b (QueryPowerOf2 size (emb z)) r
  <-> exists i k, 0 <= i < size /\ 0 <= k /\ z = i - k /\
        r = emb (2 ^ i + k * 2 ^ size) /\ 2 ^ i + k * 2 ^ size < 2 ^ capacity b size.
Proof.
  intros Hs Hr Hz r. width_facts.
  pose proof (pow_pos size ltac:(lia)) as Hps.
  destruct (cap_room size ltac:(lia) ltac:(lia)) as [H1 [H2 [H3 [H4 H5]]]].
  assert (Hcap : 2 ^ capacity b size <= 2 ^ (K - 3)).
  { apply pow2_mono. pose proof (capacity_bounds b size ltac:(lia) ltac:(lia)). lia. }
  assert (HK3 : 2 ^ (K - 3 - size) * 2 ^ size = 2 ^ (K - 3)).
  { rewrite <- Z.pow_add_r by lia. f_equal. lia. }
  assert (HK : 2 ^ K = 8 * 2 ^ (K - 3)).
  { change 8 with (2 ^ 3). rewrite <- Z.pow_add_r by lia. f_equal. lia. }
  assert (Hss : size * 2 ^ size <= 2 ^ (K - 3)).
  { apply Z.le_trans with (2 ^ 15 * 2 ^ size); [nia|].
    rewrite <- Z.pow_add_r by lia. apply pow2_mono. lia. }
  unfold QueryPowerOf2. split.
  - intros H. apply sat_bind in H as [w [Hw H]]. apply sat_hint1 in Hw.
    apply sat_bind in H as [[] [Hc H]]. apply sat_bind in H as [[] [Hq H]].
    apply sat_ret_inv in H. subst w.
    apply sat_check in Hc. apply sat_query in Hq.
    rewrite <- (emb_small r Hw) in Hc, Hq.
    rewrite range_ok_iff in Hc by (assumption || apply emb_range || lia).
    unfold range_spec in Hc. rewrite (emb_small r Hw) in Hc.
    rewrite fmul_emb, fadd_emb in Hq. apply in_pow2_table_spec in Hq.
    destruct Hq as [i [Hi Hq]].
    assert (Hpi : 0 < 2 ^ i) by (apply pow_pos; lia).
    assert (Hpi' : 2 ^ i < 2 ^ size) by (apply Z.pow_lt_mono_r; lia).
    assert (Heq : z * 2 ^ size + r = i * 2 ^ size + 2 ^ i).
    { apply emb_inj; [exact Hq|]. nia. }
    exists i, (i - z). split; [exact Hi|].
    assert (Hk : r = 2 ^ i + (i - z) * 2 ^ size) by lia.
    split; [nia|]. split; [lia|]. rewrite <- Hk. split; [|lia].
    symmetry. apply emb_small. exact Hw.
  - intros [i [k [Hi [Hk [-> [-> Hlt]]]]]].
    assert (Hpi : 0 < 2 ^ i) by (apply pow_pos; lia).
    apply sat_bind. eexists. split; [apply sat_hint1, emb_range|].
    apply sat_bind. exists tt. split.
    { apply sat_check. rewrite range_ok_iff by (assumption || apply emb_range || lia).
      unfold range_spec. rewrite emb_small; [exact Hlt|].
      assert (0 <= k * 2 ^ size) by (apply Z.mul_nonneg_nonneg; lia). lia. }
    apply sat_bind. exists tt. split; [|reflexivity].
    apply sat_query. rewrite fmul_emb, fadd_emb. apply in_pow2_table_spec.
    exists i. split; [exact Hi|]. f_equal. lia.
Qed.

(** The result is determined when the base width divides the table size. *)
Lemma sat_QueryPowerOf2_tight size z : 1 <= size <= 2 ^ 15 -> size + 18 + b <= K ->
  - 2 ^ (K - 3 - size) <= z <= 2 ^ (K - 3 - size) -> size mod b = 0 -> forall r,
  sat b (QueryPowerOf2 size (emb z)) r <-> 0 <= z < size /\ r = emb (2 ^ z).
Proof.
  intros Hs Hr Hz Hd r. width_facts. rewrite sat_QueryPowerOf2 by assumption.
  rewrite capacity_dvd by lia. split.
  - intros [i [k [Hi [Hk [-> [-> Hlt]]]]]].
    pose proof (pow_pos i ltac:(lia)). pose proof (pow_pos size ltac:(lia)).
    assert (k = 0) by nia. subst k. rewrite Z.mul_0_l, Z.add_0_r, Z.sub_0_r in *. auto.
  - intros [Hi ->]. exists z, 0. rewrite Z.mul_0_l, Z.add_0_r, Z.sub_0_r.
    repeat split; try lia. apply Z.pow_lt_mono_r; lia.
Qed.

Lemma exec_QueryPowerOf2 size z : 1 <= size <= 2 ^ 15 -> size + 18 + b <= K ->
  0 <= z < size ->
  exec b (QueryPowerOf2 size (emb z)) = Some (emb (2 ^ z)).
Proof.
  intros Hs Hr Hz. width_facts. unfold QueryPowerOf2, PowerOfTwoHint.
  assert (Hz' : emb z = z).
  { apply emb_small. split; [lia|]. assert (2 ^ 16 <= 2 ^ K) by (apply pow2_mono; lia). lia. }
  assert (Hu : u64 (emb z) = z).
  { rewrite Hz'. unfold u64. apply Z.mod_small. change (2 ^ 64) with 18446744073709551616. lia. }
  rewrite Hu.
  destruct (Z.ltb_spec z (2 ^ 16)); [|lia].
  rewrite (exec_bind_eq _ _ _ _ (exec_hint1 _ _)).
  rewrite exec_bind_eq with (a := tt).
  2:{ apply exec_abl; try lia. split; [pose proof (pow_pos z); lia|].
      apply Z.pow_lt_mono_r; lia. }
  rewrite exec_bind_eq with (a := tt); [reflexivity|].
  apply exec_query. rewrite fmul_emb, fadd_emb. apply in_pow2_table_spec.
  exists z. auto.
Qed.

End GadgetFacts.
