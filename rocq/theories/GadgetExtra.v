(** Corollaries about components, range checks and powers of two in the form
    used by the property statements. *)
From Coq Require Import ZArith Reals List Bool Lia ZifyBool.
From Flocq Require Import Core BinarySingleNaN.
From Verif Require Import Field FieldFacts Circuit Hints RangeCheck Gadget Util FloatModel
  CircuitFacts RangeFacts GadgetFacts RoundFacts Spec RepFacts CompFacts NewFacts Tactics.
Import ListNotations.
Local Open Scope Z_scope.

Section Comp.
Context {E M : Z} {HF : Format E M}.

(** The components as a sign, an exponent, a mantissa and a flag. *)
Theorem components_rep v : 0 <= v < 2 ^ (E + M + 1) ->
  let c := ComponentsOf v E M in
  (co_s c = 0 \/ co_s c = 1) /\ (co_a c = 0 \/ co_a c = 1) /\
  zrep E M (mkZ (co_s c =? 1) (co_e c) (co_m c) (co_a c =? 1)) (of_bits E M v).
Proof.
  intros Hv. cbv zeta. rewrite components_spec by assumption. unfold comp_of. cbn [co_s co_e co_m co_a].
  pose proof (zcomps_spec v Hv) as H. destruct (zcomps E M v) as [s e m a]. cbn [zs ze zm za].
  destruct s, a; cbn [Z.b2z]; repeat split; auto.
Qed.

Theorem components_value v : 0 <= v < 2 ^ (E + M + 1) ->
  let c := ComponentsOf v E M in
  let f := of_bits E M v in
  (is_finite f = true <-> co_a c = 0) /\
  (is_finite f = true ->
     B2R f = ((if co_s c =? 1 then -1 else 1) * IZR (co_m c) * bpow radix2 (co_e c - M))%R /\
     (co_m c = 0 \/ 2 ^ M <= co_m c < 2 ^ (M + 1))) /\
  (is_nan f = true <-> co_a c = 1 /\ co_m c = 0) /\
  (is_nan f = false -> Bsign f = (co_s c =? 1)).
Proof.
  intros Hv. destruct (components_rep v Hv) as (Hs & Ha & Hz). cbv zeta in *.
  revert Hs Ha Hz. generalize (ComponentsOf v E M) as c. generalize (of_bits E M v) as f.
  intros f [cs ce cm ca]. cbn [co_s co_e co_m co_a]. intros Hs Ha Hz.
  assert (HM : 0 < 2 ^ M) by (apply Z.pow_pos_nonneg; [lia|]; destruct HF; lia).
  destruct f as [s|s| |s m e H]; cbn [zrep] in Hz.
  - injection Hz as E1 E2 E3 E4. cbn [is_finite is_nan Bsign B2R]. rewrite E3.
    assert (ca = 0) by lia. split; [tauto|]. split; [|split; [lia|auto]].
    intros _. split; [|auto]. rewrite Rmult_0_r, Rmult_0_l. reflexivity.
  - injection Hz as E1 E2 E3 E4. cbn [is_finite is_nan Bsign B2R].
    split; [lia|]. split; [discriminate|]. split; [lia|auto].
  - destruct Hz as [s' Hz]. injection Hz as E1 E2 E3 E4. cbn [is_finite is_nan Bsign B2R].
    split; [lia|]. split; [discriminate|]. split; [split; [lia|reflexivity]|discriminate].
  - pose proof (zrep_finite _ s m e H Hz) as (F1 & F2 & F3 & _).
    pose proof (zrep_B2R _ (B754_finite s m e H) Hz eq_refl) as (F4 & F5 & _).
    cbn [zm ze zs za] in *.
    assert (Ea : ca = 0) by (injection Hz; lia).
    split; [cbn [is_finite]; tauto|]. split; [intros _; split|].
    + rewrite F4. unfold zmag, sgn. cbn [zm ze zs]. destruct (cs =? 1); cbn iota; ring.
    + right. destruct F2 as (G1 & G2 & _). cbn [zm] in *. lia.
    + cbn [is_nan]. split; [split; [discriminate|lia]|]. intros _. cbn [Bsign]. injection Hz. congruence.
Qed.

Theorem components_inj v w : 0 <= v < 2 ^ (E + M + 1) -> 0 <= w < 2 ^ (E + M + 1) ->
  is_nan (of_bits E M v) = false -> ComponentsOf v E M = ComponentsOf w E M -> v = w.
Proof.
  intros Hv Hw Hn He.
  destruct (valueof_spec v Hv) as (v' & V1 & V2 & V3 & V4).
  destruct (valueof_spec w Hw) as (w' & W1 & W2 & W3 & W4).
  rewrite He in V1. rewrite V1 in W1. injection W1 as <-.
  rewrite <- (V4 Hn). apply W4. rewrite <- W3, V3. exact Hn.
Qed.

End Comp.

Section Range.
Context {MOD : Modulus} {b K : Z} {HW : Width b K}.
#[local] Instance gx_big : BigMod := width_big b K HW.

Lemma capacity_eq bits : capacity b bits = b * ((bits + b - 1) / b).
Proof. unfold capacity, decompSize. ring. Qed.

Lemma gx_room bits : 1 <= bits -> bits + b <= K ->
  2 ^ (b * ((bits + b - 1) / b)) <= modulus /\ 2 ^ (2 * b) <= modulus.
Proof.
  intros Hn HK. rewrite <- capacity_eq. destruct (cap_room (b:=b) (K:=K) bits Hn HK) as (_ & H2 & H3 & _).
  auto.
Qed.

Theorem range_modes v bits : 1 <= bits -> bits + b <= K -> 0 <= v < modulus ->
  (range_ok b v bits Loose <-> v < 2 ^ (b * ((bits + b - 1) / b))) /\
  (range_ok b v bits TightForUnknownRange <-> v < 2 ^ bits) /\
  (range_ok b v bits TightForSmallAbs <->
     (v * 2 ^ (b * ((bits + b - 1) / b) - bits)) mod modulus < 2 ^ (b * ((bits + b - 1) / b))).
Proof.
  intros Hn HK Hv. pose proof (width_b (b:=b) (K:=K)) as Hb.
  destruct (gx_room bits Hn HK) as [H1 H2]. rewrite <- capacity_eq in *.
  split; [|split]; rewrite range_ok_iff by (assumption || lia); unfold range_spec; try tauto.
  rewrite <- (emb_small v) at 1 by exact Hv. rewrite fmul_emb. unfold emb. tauto.
Qed.

Theorem honest_digits v bits scale : 1 <= bits -> 0 <= v * scale < 2 ^ (b * ((bits + b - 1) / b)) ->
  let ds := DecomposeHint bits b v scale in
  length ds = Z.to_nat ((bits + b - 1) / b) /\
  Forall (fun d => 0 <= d < 2 ^ b) ds /\
  fold_right (fun d acc => d + 2 ^ b * acc) 0 ds = v * scale.
Proof.
  intros Hn Hv. pose proof (width_b (b:=b) (K:=K)) as Hb. cbv zeta. unfold DecomposeHint.
  assert (Hq : 0 <= (bits + b - 1) / b) by (apply Z.div_pos; lia).
  split; [apply digits_loop_length|]. split; [apply digits_loop_range; lia|].
  assert (H : forall n t, 0 <= t -> fold_right (fun d acc => d + 2 ^ b * acc) 0 (digits_loop n b t)
            = t mod 2 ^ (b * Z.of_nat n)).
  { clear - Hb. induction n as [|n IH]; intros t Ht.
    - cbn [digits_loop fold_right]. rewrite Z.mul_0_r. rewrite Z.pow_0_r, Z.mod_1_r. reflexivity.
    - cbn [digits_loop fold_right]. rewrite Z.shiftr_div_pow2 by lia.
      rewrite IH by (apply Z.div_pos; [lia|apply Z.pow_pos_nonneg; lia]).
      replace (b * Z.of_nat (S n)) with (b + b * Z.of_nat n) by lia.
      rewrite Z.pow_add_r by lia. symmetry. apply Z.rem_mul_r.
      + apply Z.pow_nonzero; lia.
      + apply Z.pow_pos_nonneg; lia. }
  rewrite H by lia. unfold decompSize. rewrite Z2Nat.id by exact Hq. apply Z.mod_small. exact Hv.
Qed.

(** Whatever the exponent, the power of two is determined when the base width
    divides the table size. *)
Theorem pow2_determined size e r1 r2 : 1 <= size <= 2 ^ 15 -> size + 18 + b <= K ->
  size mod b = 0 -> 0 <= e < modulus ->
  sat b (QueryPowerOf2 size e) r1 -> sat b (QueryPowerOf2 size e) r2 -> r1 = r2.
Proof.
  intros Hs HK Hd He.
  pose proof (width_b (b:=b) (K:=K)) as Hb.
  assert (Hroom : 2 ^ (size + 18) <= modulus) by (apply (room (b:=b) (K:=K)); lia).
  rewrite Z.pow_add_r in Hroom by lia.
  assert (HP : 0 < 2 ^ size) by (apply Z.pow_pos_nonneg; lia).
  assert (Hpre : forall r, sat b (QueryPowerOf2 size e) r -> 0 <= r < 2 ^ size /\
     exists i, 0 <= i < size /\ emb (e * 2 ^ size + r) = emb (i * 2 ^ size + 2 ^ i)).
  { intros r H. unfold QueryPowerOf2 in H. apply sat_bind in H as [w [Hw H]].
    apply sat_bind in H as [[] [Hc H]]. apply sat_bind in H as [[] [Hq H]].
    apply sat_ret_inv in H. subst w.
    assert (Hr : 0 <= r < modulus) by (destruct Hw as [w [H1 H2]]; cbn in H2; congruence).
    destruct Hc as [Hc _].
    destruct (range_modes r size ltac:(lia) ltac:(lia) Hr) as [HL _]. apply HL in Hc.
    rewrite <- capacity_eq, capacity_dvd in Hc by lia.
    split; [lia|]. destruct Hq as [Hq _]. apply in_pow2_table_spec in Hq.
    destruct Hq as [i [Hi Hq]]. exists i. split; [exact Hi|].
    rewrite <- Hq. rewrite <- (emb_small e He) at 2. rewrite fmul_emb.
    rewrite <- (emb_small r Hr) at 2. rewrite fadd_emb.
    reflexivity. }
  intros H1 H2. apply Hpre in H1 as [R1 [i [Hi E1]]]. apply Hpre in H2 as [R2 [j [Hj E2]]].
  assert (Hlow : forall k, 0 <= k < size -> 0 < 2 ^ k <= 2 ^ size).
  { intros k Hk. split; [apply Z.pow_pos_nonneg; lia|apply pow2_mono; lia]. }
  pose proof (Hlow i Hi) as Li. pose proof (Hlow j Hj) as Lj.
  assert (Hdiff : emb (r1 - r2) = emb ((i * 2 ^ size + 2 ^ i) - (j * 2 ^ size + 2 ^ j))).
  { replace (r1 - r2) with ((e * 2 ^ size + r1) - (e * 2 ^ size + r2)) by ring.
    unfold emb in *. rewrite (Zminus_mod (e * 2 ^ size + r1)), E1, E2, <- Zminus_mod. reflexivity. }
  assert (Hb1 : (r1 - r2) - ((i * 2 ^ size + 2 ^ i) - (j * 2 ^ size + 2 ^ j)) = 0).
  { set (d := (r1 - r2) - _).
    assert (Hdm : d mod modulus = 0).
    { unfold d. rewrite Zminus_mod. fold (emb (r1 - r2)). rewrite Hdiff. unfold emb.
      rewrite <- Zminus_mod, Z.sub_diag. apply Z.mod_0_l. lia. }
    assert (Hij : - 2 ^ 15 <= i - j <= 2 ^ 15) by lia.
    assert (Hprod : - (2 ^ 15 * 2 ^ size) <= (i - j) * 2 ^ size <= 2 ^ 15 * 2 ^ size).
    { clear - Hij HP. nia. }
    assert (Hdb : - modulus < d < modulus).
    { unfold d. clear - Hprod Hroom R1 R2 Li Lj. change (2 ^ 15) with 32768 in *.
      change (2 ^ 18) with 262144 in *. nia. }
    apply Z.mod_divide in Hdm; [|lia]. destruct Hdm as [q Hq].
    assert (q = 0) by (clear - Hq Hdb; nia). subst q. lia. }
  destruct (Z.lt_trichotomy i j) as [H|[H|H]].
  - assert (2 ^ i <= 2 ^ j) by (apply pow2_mono; lia).
    exfalso. clear - Hb1 R1 R2 H H0 HP. nia.
  - subst j. lia.
  - assert (2 ^ j <= 2 ^ i) by (apply pow2_mono; lia).
    exfalso. clear - Hb1 R1 R2 H H0 HP. nia.
Qed.

End Range.
