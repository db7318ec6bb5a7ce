(** The shared sub-circuits of float/float.go: powers of two, rounding and
    overflow, described by functions on integers. *)
From Coq Require Import ZArith Znumtheory List Bool Lia ZifyBool.
From Verif Require Import Field FieldFacts Circuit Hints RangeCheck Gadget
  FloatModel CircuitFacts RangeFacts GadgetFacts Tactics.
Import ListNotations.
Local Open Scope Z_scope.

(** Formats, fields and base widths covered by the proofs: binary32 and
    binary64 over BN254 with every base width from 2 to 17 are instances. *)
Class Params {MOD : Modulus} (E M b : Z) : Prop := mkParams {
  p_E : 4 <= E;
  p_EM : E < M;
  p_2M : 2 * M <= 2 ^ (E - 1);
  p_64 : E + M + 1 <= 64;
  p_b : 2 <= b <= 17;
  p_mod : 2 ^ (4 * M + 44) <= modulus;
  p_odd : Z.odd modulus = true }.

Lemma params_width {MOD : Modulus} E M b : Params E M b -> Width b (4 * M + 44).
Proof. intros [H1 H2 H3 H4 H5 H6 H7]. constructor; (assumption || lia). Qed.

Ltac params :=
  match goal with
  | H : Params ?E ?M ?b |- _ =>
      pose proof (p_E (E:=E) (M:=M) (b:=b)) as HpE;
      pose proof (p_EM (E:=E) (M:=M) (b:=b)) as HpEM;
      pose proof (p_2M (E:=E) (M:=M) (b:=b)) as Hp2M;
      pose proof (p_64 (E:=E) (M:=M) (b:=b)) as Hp64;
      pose proof (p_b (E:=E) (M:=M) (b:=b)) as Hpb;
      pose proof (p_mod (E:=E) (M:=M) (b:=b)) as Hpmod
  end.

(** Wires holding booleans and small integers. *)
Section EmbSteps.
Context {MOD : Modulus} {HB : BigMod}.
Variable b : Z.

Lemma sat_select_emb c x y r :
  sat b (select (emb (Z.b2z c)) (emb x) (emb y)) r <-> r = emb (if c then x else y).
Proof.
  rewrite sat_select. split.
  - intros [c' [H ->]]. apply b2z_inj in H. subst. destruct c'; reflexivity.
  - intros ->. exists c. split; [reflexivity|]. destruct c; reflexivity.
Qed.
Lemma sat_and_emb c d r :
  sat b (and_ (emb (Z.b2z c)) (emb (Z.b2z d))) r <-> r = emb (Z.b2z (c && d)).
Proof.
  rewrite sat_and. split.
  - intros [c' [d' [H [H' ->]]]]. apply b2z_inj in H, H'. subst. reflexivity.
  - intros ->. exists c, d. auto.
Qed.
Lemma sat_or_emb c d r :
  sat b (or_ (emb (Z.b2z c)) (emb (Z.b2z d))) r <-> r = emb (Z.b2z (c || d)).
Proof.
  rewrite sat_or. split.
  - intros [c' [d' [H [H' ->]]]]. apply b2z_inj in H, H'. subst. reflexivity.
  - intros ->. exists c, d. auto.
Qed.
Lemma sat_xor_emb c d r :
  sat b (xor_ (emb (Z.b2z c)) (emb (Z.b2z d))) r <-> r = emb (Z.b2z (xorb c d)).
Proof.
  rewrite sat_xor. split.
  - intros [c' [d' [H [H' ->]]]]. apply b2z_inj in H, H'. subst. reflexivity.
  - intros ->. exists c, d. auto.
Qed.
Lemma exec_select_emb c x y :
  exec b (select (emb (Z.b2z c)) (emb x) (emb y)) = Some (emb (if c then x else y)).
Proof. rewrite exec_select. destruct c; reflexivity. Qed.

Lemma sat_bool_hint h u r (f : Z -> circ r) (x : r) :
  sat b (w <- hint1 h ;; bind (assert_bool w) (fun _ => f w)) x ->
  u = tt -> exists c, sat b (f (emb (Z.b2z c))) x.
Proof.
  intros H _. apply sat_bind in H as [w [_ H]]. apply sat_bind in H as [[] [H1 H]].
  apply sat_assert_bool in H1. destruct H1 as [c ->]. eauto.
Qed.
End EmbSteps.

(** One step of the honest run. *)
Ltac xs L := rewrite (exec_bind_eq _ _ _ _ L); cbv beta.
Ltac xstep :=
  match goal with
  | |- context [exec ?b (bind (select (emb (Z.b2z ?c)) (emb ?x) (emb ?y)) ?f)] =>
      rewrite (exec_bind_eq b _ f _ (exec_select_emb b c x y)); cbv beta
  | |- context [exec ?b (bind (and_ (emb (Z.b2z ?c)) (emb (Z.b2z ?d))) ?f)] =>
      rewrite (exec_bind_eq b _ f _ (exec_and b c d)); cbv beta
  | |- context [exec ?b (bind (or_ (emb (Z.b2z ?c)) (emb (Z.b2z ?d))) ?f)] =>
      rewrite (exec_bind_eq b _ f _ (exec_or b c d)); cbv beta
  | |- context [exec ?b (bind (xor_ (emb (Z.b2z ?c)) (emb (Z.b2z ?d))) ?f)] =>
      rewrite (exec_bind_eq b _ f _ (exec_xor b c d)); cbv beta
  | |- context [exec ?b (bind (assert_bool (emb (Z.b2z ?c))) ?f)] =>
      rewrite (exec_bind_eq b _ f _ (exec_assert_bool b c)); cbv beta
  | |- context [exec ?b (bind (hint1 (Some ?w)) ?f)] =>
      rewrite (exec_bind_eq b _ f _ (exec_hint1 b w)); cbv beta
  end.

(** One step of a satisfying assignment. *)
Ltac sstep H :=
  let a := fresh "w" in let Ha := fresh "Ha" in
  apply sat_bind in H; destruct H as [a [Ha H]];
  first [ rewrite sat_select_emb in Ha; subst a
        | rewrite sat_and_emb in Ha; subst a
        | rewrite sat_or_emb in Ha; subst a
        | rewrite sat_xor_emb in Ha; subst a ].
Ltac sbool H c :=
  let w := fresh "w" in let Hw := fresh "Hw" in let u := fresh "u" in
  apply sat_bind in H; destruct H as [w [_ H]];
  apply sat_bind in H; destruct H as [u [Hw H]];
  apply sat_assert_bool in Hw; destruct Hw as [c ->]; clear u.
Ltac shint H w Hw :=
  apply sat_bind in H; destruct H as [w [Hw H]]; apply sat_hint1 in Hw.
Ltac scheck H Hc :=
  let u := fresh "u" in
  apply sat_bind in H; destruct H as [u [Hc H]]; apply sat_check in Hc; clear u.

(** Rounding to nearest-even after dropping [L - M - 1 + shift] bits of an
    [L]-bit number, scaled back by [2^shift]. *)
Definition zcarry (pq rs k : Z) (h : bool) : Z :=
  if (rs =? 2 ^ (k - 1)) && h then pq mod 2 else Z.b2z (2 ^ (k - 1) <=? rs).
Definition zround (M n L shift : Z) (h : bool) : Z :=
  let k := L - M - 1 + shift in
  let pq := n / 2 ^ k in
  let rs := n mod 2 ^ k in
  (pq + zcarry pq rs k h) * 2 ^ shift.

Lemma div_pow_scale n j k : 0 <= n -> 0 <= j -> 0 <= k ->
  n * 2 ^ j / 2 ^ (k + j) = n / 2 ^ k /\
  (n * 2 ^ j) mod 2 ^ (k + j) = (n mod 2 ^ k) * 2 ^ j.
Proof.
  intros Hn Hj Hk. pose proof (pow_pos j Hj). pose proof (pow_pos k Hk).
  rewrite Z.pow_add_r by lia.
  split; [apply Z.div_mul_cancel_r; lia|apply Z.mul_mod_distr_r; lia].
Qed.

(** The carry does not depend on the scale. *)
Lemma zcarry_scale pq rs j k h : 0 <= j -> 1 <= k ->
  zcarry pq (rs * 2 ^ j) (k + j) h = zcarry pq rs k h.
Proof.
  intros Hj Hk. unfold zcarry. pose proof (pow_pos j Hj).
  replace (k + j - 1) with (k - 1 + j) by lia. rewrite Z.pow_add_r by lia.
  pose proof (pow_pos (k - 1) ltac:(lia)).
  assert (H1 : (rs * 2 ^ j =? 2 ^ (k - 1) * 2 ^ j) = (rs =? 2 ^ (k - 1))).
  { destruct (Z.eqb_spec rs (2 ^ (k - 1))) as [->|Hne]; [apply Z.eqb_refl|].
    apply Z.eqb_neq. nia. }
  assert (H2 : (2 ^ (k - 1) * 2 ^ j <=? rs * 2 ^ j) = (2 ^ (k - 1) <=? rs)).
  { destruct (Z.leb_spec (2 ^ (k - 1)) rs); [apply Z.leb_le|apply Z.leb_gt]; nia. }
  rewrite H1, H2. reflexivity.
Qed.

Lemma zcarry_range pq rs k h : 0 <= pq -> 0 <= zcarry pq rs k h <= 1.
Proof.
  intros H. unfold zcarry. destruct (_ && _).
  - pose proof (Z.mod_pos_bound pq 2). lia.
  - destruct (_ <=? _); simpl; lia.
Qed.

Section RoundFacts.
Context {MOD : Modulus} {E M b : Z} {HP : Params E M b}.
#[local] Instance round_width : Width b (4 * M + 44) := params_width E M b HP.
#[local] Instance round_big : BigMod := width_big b _ round_width.

Lemma sat_QueryPow2 z : pow2_size E M mod b = 0 ->
  - 2 ^ (2 * M + 30) <= z <= 2 ^ (2 * M + 30) -> forall r,
  sat b (QueryPow2 E M (emb z)) r <-> 0 <= z <= M + E /\ r = emb (2 ^ z).
Proof.
  intros Hd Hz r. params. unfold QueryPow2, pow2_size in *.
  assert (2 ^ (2 * M + 30) <= 2 ^ (4 * M + 44 - 3 - (M + E + 1)))
    by (apply pow2_mono; lia).
  rewrite sat_QueryPowerOf2_tight by lia.
  split; intros [H1 H2]; (split; [lia|exact H2]).
Qed.

Lemma exec_QueryPow2 z : 0 <= z <= M + E ->
  exec b (QueryPow2 E M (emb z)) = Some (emb (2 ^ z)).
Proof.
  intros Hz. params. unfold QueryPow2. apply exec_QueryPowerOf2; unfold pow2_size; lia.
Qed.

Section Round.
Variables (n L shift smax : Z) (h : bool).
Hypotheses (HL : 0 <= n < 2 ^ L) (HLM : M + 1 <= L) (Hsh : 0 <= shift <= smax)
  (Hsm : smax <= M + E) (Hr : 1 <= smax + L - M - 2)
  (Hroom : L + 2 * smax + 34 <= 4 * M + 44) (Hpk : 1 <= L - M - 1 + shift).
Variables (k V r_idx q_idx pq rs : Z).
Hypotheses (Dk : k = L - M - 1 + shift) (DV : V = n * 2 ^ (smax - shift))
  (Dr : r_idx = smax + L - M - 2) (Dq : q_idx = r_idx + 1)
  (Dpq : pq = V / 2 ^ q_idx) (Drs : rs = V mod 2 ^ q_idx).

Lemma round_split :
  pq = n / 2 ^ k /\ rs = (n mod 2 ^ k) * 2 ^ (smax - shift).
Proof.
  rewrite Dpq, Drs, DV. replace q_idx with (k + (smax - shift)) by lia.
  apply div_pow_scale; lia.
Qed.

Lemma round_facts :
  0 <= V < 2 ^ (L + smax) /\ 0 < 2 ^ r_idx /\ 2 ^ q_idx = 2 * 2 ^ r_idx /\
  2 ^ (q_idx + 1) = 2 * 2 ^ q_idx /\ V = pq * 2 ^ q_idx + rs /\
  0 <= rs < 2 ^ q_idx /\ 0 <= pq < 2 ^ (M + 1) /\ 2 ^ (M + 1) = 2 * 2 ^ M /\
  2 ^ (L + smax) < modulus /\ V * 2 ^ shift = n * 2 ^ smax.
Proof.
  params.
  assert (HV : 0 <= V < 2 ^ (L + smax)).
  { rewrite DV. pose proof (pow_pos (smax - shift) ltac:(lia)).
    assert (2 ^ (smax - shift) <= 2 ^ smax) by (apply pow2_mono; lia).
    rewrite Z.pow_add_r by lia. nia. }
  assert (Hr1 : 1 <= r_idx) by lia.
  pose proof (pow_pos r_idx ltac:(lia)) as Hpr.
  assert (Hpq2 : 2 ^ q_idx = 2 * 2 ^ r_idx).
  { rewrite Dq. rewrite <- Z.pow_succ_r by lia. reflexivity. }
  assert (Hp2 : 2 ^ (q_idx + 1) = 2 * 2 ^ q_idx).
  { rewrite <- Z.pow_succ_r by lia. reflexivity. }
  assert (Hrs : 0 <= rs < 2 ^ q_idx) by (rewrite Drs; apply Z.mod_pos_bound; lia).
  repeat split; try assumption; try lia.
  - rewrite Dpq, Drs. pose proof (Z.div_mod V (2 ^ q_idx) ltac:(lia)). lia.
  - rewrite Dpq. apply Z.div_pos; lia.
  - rewrite Dpq. apply Z.div_lt_upper_bound; [lia|].
    rewrite <- Z.pow_add_r by lia.
    replace (q_idx + (M + 1)) with (L + smax) by lia. lia.
  - rewrite <- Z.pow_succ_r by lia. reflexivity.
  - assert (2 ^ (L + smax) < 2 ^ (4 * M + 44)) by (apply Z.pow_lt_mono_r; lia). lia.
  - rewrite DV. rewrite <- Z.mul_assoc, <- Z.pow_add_r by lia. do 2 f_equal. lia.
Qed.

Lemma round_result :
  (pq + (if (rs =? 2 ^ r_idx) && h then Z.b2z (Z.odd pq) else Z.b2z (2 ^ r_idx <=? rs)))
    * 2 ^ shift = zround M n L shift h.
Proof.
  destruct round_split as [Hd Hm]. unfold zround. rewrite <- Dk.
  rewrite <- Hd. f_equal. f_equal.
  rewrite <- (zcarry_scale pq (n mod 2 ^ k) (smax - shift) k h) by lia.
  rewrite <- Hm. unfold zcarry.
  replace (k + (smax - shift) - 1) with r_idx by lia.
  rewrite Zmod_odd. destruct (Z.odd pq); reflexivity.
Qed.

Lemma exec_round :
  exec b (round E M (emb n) L (emb shift) smax (emb (Z.b2z h)))
  = Some (emb (zround M n L shift h)).
Proof.
  params. unfold round. xs (exec_QueryPow2 shift ltac:(lia)).
  destruct round_facts as (HV & Hpr & Hpq2 & Hp2 & Hpq0 & Hrs & Hpqr & Hpl & HLs & HVs).
  rewrite <- Dr, <- Dq.
  set (cr := 2 ^ r_idx <=? rs).
  pose proof (pow_pos shift ltac:(lia)) as Hps.
  assert (Hq0 : 1 <= r_idx /\ 0 <= q_idx /\ 0 <= q_idx + 1) by lia.
  assert (Hdec : DecomposeMantissaForRoundingHint (emb n) (emb (2 ^ shift)) smax
            (q_idx + 1) q_idx r_idx
    = (Some (pq / 2), Some (Z.b2z (Z.odd pq)), Some (Z.b2z cr),
       Some (rs - Z.b2z cr * 2 ^ r_idx))).
  { assert (HLK : 2 ^ L <= 2 ^ (L + smax)) by (apply pow2_mono; lia).
    assert (Hsk : 2 ^ shift <= 2 ^ (L + smax)) by (apply pow2_mono; lia).
    rewrite (emb_small n), (emb_small (2 ^ shift)) by lia.
    unfold DecomposeMantissaForRoundingHint.
    destruct (Z.eqb_spec (2 ^ shift) 0); [lia|].
    rewrite <- HVs, Z.div_mul by lia.
    assert (Hp : Z.shiftr V (q_idx + 1) = pq / 2).
    { rewrite Z.shiftr_div_pow2 by lia. rewrite Hp2.
      rewrite Dpq, Z.mul_comm, Z.div_div by lia. reflexivity. }
    assert (Hq : bit V q_idx = Z.b2z (Z.odd pq)).
    { unfold bit. rewrite Z.testbit_odd, Z.shiftr_div_pow2 by lia.
      rewrite <- Dpq. destruct (Z.odd pq); reflexivity. }
    assert (Hrb : V / 2 ^ r_idx = 2 * pq + Z.b2z cr).
    { rewrite Hpq0, Hpq2. unfold cr. destruct (Z.leb_spec (2 ^ r_idx) rs).
      - replace (pq * (2 * 2 ^ r_idx) + rs)
          with ((2 * pq + 1) * 2 ^ r_idx + (rs - 2 ^ r_idx)) by ring.
        rewrite Z.div_add_l by lia. rewrite Z.div_small by lia. cbn [Z.b2z]. lia.
      - replace (pq * (2 * 2 ^ r_idx) + rs) with ((2 * pq) * 2 ^ r_idx + rs) by ring.
        rewrite Z.div_add_l by lia. rewrite Z.div_small by lia. cbn [Z.b2z]. lia. }
    assert (Hrbit : bit V r_idx = Z.b2z cr).
    { unfold bit. rewrite Z.testbit_odd, Z.shiftr_div_pow2 by lia. rewrite Hrb.
      rewrite Z.odd_add, Z.odd_mul. simpl. destruct cr; reflexivity. }
    assert (Hs : Z.land V (2 ^ r_idx - 1) = rs - Z.b2z cr * 2 ^ r_idx).
    { rewrite Z.sub_1_r, <- Z.ones_equiv, Z.land_ones by lia.
      rewrite Z.mod_eq by lia. rewrite Hrb. rewrite Hpq2 in Hpq0. lia. }
    rewrite Hp, Hq, Hrbit, Hs. reflexivity. }
  rewrite Hdec.
  assert (Hdm : pq = 2 * (pq / 2) + Z.b2z (Z.odd pq)).
  { pose proof (Z.div_mod pq 2 ltac:(lia)) as Hdm. rewrite Zmod_odd in Hdm.
    destruct (Z.odd pq); simpl in *; lia. }
  repeat xstep.
  rewrite exec_bind_eq with (a := tt).
  2:{ apply (exec_abl (K:=4*M+44)); [lia|lia|].
      split; [apply Z.div_pos; lia|]. apply Z.div_lt_upper_bound; lia. }
  rewrite exec_bind_eq with (a := tt).
  2:{ apply (exec_abl (K:=4*M+44)); [lia|lia|].
      unfold cr. destruct (Z.leb_spec (2 ^ r_idx) rs); cbn [Z.b2z]; lia. }
  cbv zeta. rewrite !fmul_emb, !fadd_emb.
  replace (pq / 2 + pq / 2 + Z.b2z (Z.odd pq)) with pq by lia.
  replace (Z.b2z cr * 2 ^ r_idx + (rs - Z.b2z cr * 2 ^ r_idx)) with rs by ring.
  rewrite !fmul_emb, fadd_emb, fmul_emb, <- Hpq0, HVs.
  xs (exec_assert_eq b (emb (n * 2 ^ smax))).
  assert (Hqm : 2 ^ q_idx <= 2 ^ (L + smax)) by (apply pow2_mono; lia).
  rewrite IsEq_emb by lia.
  repeat xstep. rewrite exec_ret, fadd_emb, fmul_emb. do 2 f_equal.
  apply round_result.
Qed.

(** The part of [round] after the query of the power of two. *)
Definition round_rest (mantissa mantissa_bit_length two_to_shift shift_max half_flag : Z) : circ Z :=
  let r_idx := shift_max + mantissa_bit_length - M - 2 in
  let q_idx := r_idx + 1 in
  let p_idx := q_idx + 1 in
  let '(hp, hq, hr, hs) :=
    DecomposeMantissaForRoundingHint mantissa two_to_shift shift_max p_idx q_idx r_idx in
  p <- hint1 hp ;;
  q <- hint1 hq ;;
  r <- hint1 hr ;;
  s <- hint1 hs ;;
  assert_bool q ;;;
  assert_bool r ;;;
  AssertBitLength p M Loose ;;;
  AssertBitLength s r_idx TightForSmallAbs ;;;
  let pq := fadd (fadd p p) q in
  let rs := fadd (fmul r (emb (2 ^ r_idx))) s in
  let pqrs := fadd (fmul pq (emb (2 ^ q_idx))) rs in
  assert_eq (fmul pqrs two_to_shift) (fmul mantissa (emb (2 ^ shift_max))) ;;;
  is_half <- and_ (IsEq rs (emb (2 ^ r_idx))) half_flag ;;
  carry <- select is_half q r ;;
  Ret (fmul (fadd pq carry) two_to_shift).

Lemma sat_round_rest r :
  sat b (round_rest (emb n) L (emb (2 ^ shift)) smax (emb (Z.b2z h))) r ->
  r = emb (zround M n L shift h).
Proof.
  intros H. params. unfold round_rest in H.
  destruct round_facts as (HV & Hpr & Hpq2 & Hp2 & Hpq0 & Hrs & Hpqr & Hpl & HLs & HVs).
  rewrite <- Dr, <- Dq in H.
  assert (Hq0 : 1 <= r_idx /\ 0 <= q_idx /\ 0 <= q_idx + 1) by lia.
  pose proof (pow_pos shift ltac:(lia)) as Hps.
  destruct (DecomposeMantissaForRoundingHint _ _ _ _ _ _) as [[[hp hq] hr] hs].
  shint H p Hp. shint H q Hq. shint H rr Hrr. shint H s Hs.
  apply sat_bind in H. destruct H as [u1 [Hu1 H]]. apply sat_assert_bool in Hu1.
  destruct Hu1 as [cq ->].
  apply sat_bind in H. destruct H as [u2 [Hu2 H]]. apply sat_assert_bool in Hu2.
  destruct Hu2 as [cr ->].
  scheck H Hcp. scheck H Hcs.
  apply sat_bind in H. destruct H as [u3 [Heq H]]. apply sat_assert_eq in Heq.
  (* the bounds given by the checks *)
  pose proof (cap_room (b:=b) (K:=4*M+44) M ltac:(lia) ltac:(lia)) as (HcM & H2b & HcM' & _ & _).
  rewrite range_ok_iff in Hcp by (assumption || lia). unfold range_spec in Hcp.
  pose proof (cap_room (b:=b) (K:=4*M+44) r_idx ltac:(lia) ltac:(lia)) as (Hcr & _ & Hcr' & _ & _).
  rewrite range_ok_iff in Hcs by (assumption || lia). unfold range_spec in Hcs.
  pose proof (capacity_bounds b M ltac:(lia) ltac:(lia)) as [_ [HcapM _]].
  pose proof (capacity_bounds b r_idx ltac:(lia) ltac:(lia)) as [_ [Hcapr _]].
  set (d := capacity b r_idx - r_idx) in *.
  set (u := fmul s (emb (2 ^ d))) in *.
  assert (Hu : 0 <= u < 2 ^ (r_idx + d)).
  { split; [apply fmul_range|]. replace (r_idx + d) with (capacity b r_idx) by (lia).
    exact Hcs. }
  assert (Hus : emb (s * 2 ^ d) = emb u).
  { unfold u. rewrite <- (emb_small s Hs) at 2. rewrite fmul_emb, emb_emb. reflexivity. }
  (* the equation over the integers *)
  rewrite <- (emb_small p Hp), <- (emb_small s Hs) in Heq.
  rewrite !fmul_emb, !fadd_emb, !fmul_emb, fadd_emb, fmul_emb in Heq.
  set (PQ := p + p + Z.b2z cq) in *.
  pose proof (pow_pos d ltac:(lia)) as Hpd.
  assert (HPQ : 0 <= PQ < 2 ^ (M + b)).
  { assert (2 ^ (M + b) = 2 * 2 ^ (M + b - 1)) by (apply pow_S; lia).
    assert (2 ^ capacity b M <= 2 ^ (M + b - 1)) by (apply pow2_mono; lia).
    unfold PQ. destruct cq; simpl; lia. }
  assert (Heq2 : emb ((PQ * 2 ^ q_idx + Z.b2z cr * 2 ^ r_idx) * 2 ^ d * 2 ^ shift + u * 2 ^ shift)
               = emb (n * 2 ^ smax * 2 ^ d)).
  { transitivity (fmul (emb ((PQ * 2 ^ q_idx + (Z.b2z cr * 2 ^ r_idx + s)) * 2 ^ shift)) (emb (2 ^ d))).
    - rewrite fmul_emb.
      transitivity (fadd (emb ((PQ * 2 ^ q_idx + Z.b2z cr * 2 ^ r_idx) * 2 ^ d * 2 ^ shift))
                         (fmul (emb u) (emb (2 ^ shift)))).
      { rewrite fmul_emb, fadd_emb. reflexivity. }
      rewrite <- Hus, fmul_emb, fadd_emb. f_equal. ring.
    - rewrite Heq, fmul_emb. reflexivity. }
  assert (Hbig : 2 ^ (L + 2 * smax + 34) <= modulus) by (apply (room (b:=b) (K:=4*M+44)); lia).
  assert (Hq2d : 2 ^ (M + b) * 2 ^ q_idx * 2 ^ d * 2 ^ shift <= 2 ^ (L + 2 * smax + 32)).
  { rewrite <- !Z.pow_add_r by lia. apply pow2_mono. lia. }
  assert (Hb32 : 2 ^ (L + 2 * smax + 34) = 4 * 2 ^ (L + 2 * smax + 32)).
  { change 4 with (2 ^ 2). rewrite <- Z.pow_add_r by lia. f_equal. lia. }
  assert (HR : n * 2 ^ smax * 2 ^ d < 2 ^ (L + 2 * smax + 32)).
  { apply Z.lt_le_trans with (2 ^ L * (2 ^ smax * 2 ^ d)).
    - rewrite <- Z.mul_assoc. apply Z.mul_lt_mono_pos_r; [|lia].
      apply Z.mul_pos_pos; [apply pow_pos; lia|exact Hpd].
    - rewrite <- !Z.pow_add_r by lia. apply pow2_mono. lia. }
  set (A := 2 ^ d * 2 ^ shift) in *.
  assert (HA : 0 < A) by (unfold A; apply Z.mul_pos_pos; lia).
  assert (Hint : (PQ * 2 ^ q_idx + Z.b2z cr * 2 ^ r_idx) * 2 ^ d * 2 ^ shift + u * 2 ^ shift
                 = n * 2 ^ smax * 2 ^ d).
  { apply emb_inj; [exact Heq2|].
    assert (Hl1 : 0 <= (PQ * 2 ^ q_idx + Z.b2z cr * 2 ^ r_idx) * 2 ^ d * 2 ^ shift
                  <= 2 ^ (L + 2 * smax + 32)).
    { rewrite <- Z.mul_assoc. fold A.
      assert (0 <= PQ * 2 ^ q_idx + Z.b2z cr * 2 ^ r_idx <= 2 ^ (M + b) * 2 ^ q_idx).
      { clear - HPQ Hpq2 Hpr. destruct cr; cbn [Z.b2z]; nia. }
      rewrite <- Z.mul_assoc in Hq2d. fold A in Hq2d.
      split; [apply Z.mul_nonneg_nonneg; lia|].
      eapply Z.le_trans; [apply Z.mul_le_mono_nonneg_r; [lia|apply H0]|exact Hq2d]. }
    assert (Hl2 : 0 <= u * 2 ^ shift <= 2 ^ (L + 2 * smax + 32)).
    { split; [apply Z.mul_nonneg_nonneg; lia|].
      apply Z.le_trans with (2 ^ (r_idx + d) * 2 ^ shift).
      - apply Z.mul_le_mono_nonneg_r; lia.
      - rewrite <- Z.pow_add_r by lia. apply pow2_mono. lia. }
    assert (0 <= n * 2 ^ smax * 2 ^ d).
    { apply Z.mul_nonneg_nonneg; [|lia]. apply Z.mul_nonneg_nonneg; [lia|].
      pose proof (pow_pos smax ltac:(lia)). lia. }
    lia. }
  (* s is an integer below 2^r_idx *)
  rewrite <- HVs in Hint.
  assert (Hu2 : u = (V - (PQ * 2 ^ q_idx + Z.b2z cr * 2 ^ r_idx)) * 2 ^ d).
  { clear - Hint Hps. nia. }
  set (s' := V - (PQ * 2 ^ q_idx + Z.b2z cr * 2 ^ r_idx)) in *.
  assert (Hs' : 0 <= s' < 2 ^ r_idx).
  { rewrite Z.pow_add_r in Hu by lia. clear - Hu Hu2 Hpd. nia. }
  assert (Hss : s = s').
  { assert (Hm1 : emb s = emb s').
    { unfold emb. apply (odd_cancel_pow2 modulus d); [exact round_big|apply (p_odd (E:=E) (M:=M) (b:=b))|lia|].
      change (emb (s * 2 ^ d) = emb (s' * 2 ^ d)). rewrite Hus, Hu2. reflexivity. }
    rewrite !emb_small in Hm1; [exact Hm1| |exact Hs].
    assert (2 ^ r_idx <= 2 ^ (L + smax)) by (apply pow2_mono; lia). lia. }
  subst s. clear Hcs Hus u Hu Hint Heq2 Heq Hu2.
  assert (Hrs' : 0 <= Z.b2z cr * 2 ^ r_idx + s' < 2 ^ q_idx) by (destruct cr; cbn [Z.b2z]; lia).
  assert (HVd : V = PQ * 2 ^ q_idx + (Z.b2z cr * 2 ^ r_idx + s')) by (unfold s'; ring).
  assert (HPQe : PQ = pq).
  { rewrite Dpq, HVd. rewrite Z.div_add_l by lia. rewrite Z.div_small by lia. lia. }
  assert (Hrse : Z.b2z cr * 2 ^ r_idx + s' = rs) by lia.
  assert (Hcq : cq = Z.odd pq).
  { rewrite <- HPQe. unfold PQ. replace (p + p) with (2 * p) by lia.
    rewrite Z.odd_add, Z.odd_mul. simpl. destruct cq; reflexivity. }
  assert (Hcr2 : cr = (2 ^ r_idx <=? rs)) by (destruct cr; cbn [Z.b2z] in Hrse; lia).
  rewrite <- (emb_small p Hp), <- (emb_small s' Hs) in H.
  rewrite !fmul_emb, !fadd_emb in H. fold PQ in H.
  rewrite Hrse, HPQe in H.
  assert (Hqm : 2 ^ q_idx <= 2 ^ (L + smax)) by (apply pow2_mono; lia).
  rewrite IsEq_emb in H by lia.
  sstep H. sstep H. apply sat_ret_inv in H. rewrite <- H.
  rewrite fadd_emb, fmul_emb. f_equal. rewrite <- round_result.
  rewrite <- Hcr2, <- Hcq. destruct ((rs =? 2 ^ r_idx) && h); reflexivity.
Qed.

Lemma sat_round r : pow2_size E M mod b = 0 ->
  sat b (round E M (emb n) L (emb shift) smax (emb (Z.b2z h))) r ->
  r = emb (zround M n L shift h).
Proof.
  intros Hdv H. params. unfold round in H.
  assert (Hb30 : M + E <= 2 ^ (2 * M + 30)).
  { assert (2 ^ 6 <= 2 ^ (2 * M + 30)) by (apply pow2_mono; lia). lia. }
  apply sat_bind in H. destruct H as [two [Htwo H]].
  apply sat_QueryPow2 in Htwo; [|exact Hdv|lia]. destruct Htwo as [_ ->].
  apply sat_round_rest. exact H.
Qed.

End Round.

Definition round_pre (n L shift smax : Z) : Prop :=
  0 <= n < 2 ^ L /\ M + 1 <= L /\ 0 <= shift <= smax /\ smax <= M + E /\
  1 <= smax + L - M - 2 /\ L + 2 * smax + 34 <= 4 * M + 44 /\ 1 <= L - M - 1 + shift.

Lemma exec_zround n L shift smax h : round_pre n L shift smax ->
  exec b (round E M (emb n) L (emb shift) smax (emb (Z.b2z h)))
  = Some (emb (zround M n L shift h)).
Proof.
  intros (H1 & H2 & H3 & H4 & H5 & H6 & H7). eapply exec_round; (eassumption || reflexivity).
Qed.

Lemma sat_zround n L shift smax h r : pow2_size E M mod b = 0 ->
  round_pre n L shift smax ->
  sat b (round E M (emb n) L (emb shift) smax (emb (Z.b2z h))) r ->
  r = emb (zround M n L shift h).
Proof.
  intros Hd (H1 & H2 & H3 & H4 & H5 & H6 & H7) H.
  eapply sat_round in H; (eassumption || reflexivity).
Qed.

(** ** fixOverflow *)

Definition zfix (m : Z) (mz : bool) (e : Z) (a pos : bool) : Z * Z * bool :=
  let ov := m =? 2 ^ (M + 1) in
  let e1 := e + Z.b2z ov in
  let ab := pos || a in
  (if ov || ab then 2 ^ M else m,
   if ab then E_MAX E else if mz then E_MIN E M else e1,
   ab).

Lemma small_pow : 2 * 2 ^ (M + 1) < modulus /\ 2 ^ M < 2 ^ (M + 1) /\
  2 ^ (M + 1) = 2 * 2 ^ M /\ 0 < 2 ^ M /\ E_MAX E = 2 ^ (E - 1) /\
  2 ^ (E + 1) = 4 * 2 ^ (E - 1) /\ 2 ^ (E - 1) < 2 ^ M /\ 8 <= 2 ^ (E - 1) /\
  2 ^ E = 2 * 2 ^ (E - 1).
Proof.
  params.
  assert (2 ^ (M + 2) < 2 ^ (4 * M + 44)) by (apply Z.pow_lt_mono_r; lia).
  assert (2 ^ (M + 2) = 2 * 2 ^ (M + 1)) by (rewrite <- Z.pow_succ_r by lia; f_equal; lia).
  assert (2 ^ (M + 1) = 2 * 2 ^ M) by (rewrite <- Z.pow_succ_r by lia; f_equal; lia).
  assert (2 ^ (E + 1) = 4 * 2 ^ (E - 1)).
  { change 4 with (2 ^ 2). rewrite <- Z.pow_add_r by lia. f_equal. lia. }
  assert (2 ^ E = 2 * 2 ^ (E - 1)) by (rewrite <- Z.pow_succ_r by lia; f_equal; lia).
  assert (2 ^ (E - 1) < 2 ^ M) by (apply Z.pow_lt_mono_r; lia).
  assert (2 ^ 3 <= 2 ^ (E - 1)) by (apply pow2_mono; lia).
  pose proof (pow_pos M ltac:(lia)).
  unfold E_MAX. repeat split; lia.
Qed.

Lemma room_2 : 4 * 2 ^ (E + 1) <= 2 ^ (4 * M + 44 - 1).
Proof.
  params. change 4 with (2 ^ 2). rewrite <- Z.pow_add_r by lia. apply pow2_mono. lia.
Qed.

Definition fix_pos_ok (m e : Z) (pos : bool) : Prop :=
  let e1 := e + Z.b2z (m =? 2 ^ (M + 1)) in
  (E_MAX E < e1 -> pos = true) /\ (e1 < E_MAX E -> pos = false).

Lemma exec_fixOverflow m mz e a :
  0 <= m <= 2 ^ (M + 1) ->
  - 2 ^ (E + 1) < e - E_MAX E < 2 ^ (E + 1) - 1 ->
  exec b (fixOverflow E M (emb m) (emb (Z.b2z mz)) (emb e) (emb (Z.b2z a)))
  = let '(m', e', ab) := zfix m mz e a
        (E_MAX E <=? e + Z.b2z (m =? 2 ^ (M + 1))) in
    Some (emb m', emb e', emb (Z.b2z ab)).
Proof.
  intros Hm He. params.
  destruct small_pow as (Hs1 & Hs2 & Hs3 & Hs4 & Hs5 & Hs6 & Hs7 & Hs8 & Hs9).
  unfold fixOverflow. rewrite IsEq_emb by lia.
  set (ov := m =? 2 ^ (M + 1)). rewrite fadd_emb, fsub_emb.
  rewrite (exec_bind_eq _ _ _ _ (exec_IsPositive (b:=b) (K:=4*M+44)
     (e + Z.b2z ov - E_MAX E) (E + 1) ltac:(lia) ltac:(lia) ltac:(destruct ov; cbn [Z.b2z]; lia))).
  replace (0 <=? e + Z.b2z ov - E_MAX E) with (E_MAX E <=? e + Z.b2z ov) by Lia.lia.
  repeat xstep. rewrite exec_ret. unfold zfix. fold ov. reflexivity.
Qed.

Lemma sat_fixOverflow m mz e a r :
  0 <= m <= 2 ^ (M + 1) ->
  - 2 * 2 ^ (E + 1) < e - E_MAX E < 2 * 2 ^ (E + 1) ->
  sat b (fixOverflow E M (emb m) (emb (Z.b2z mz)) (emb e) (emb (Z.b2z a))) r ->
  exists pos, fix_pos_ok m e pos /\
    r = let '(m', e', ab) := zfix m mz e a pos in (emb m', emb e', emb (Z.b2z ab)).
Proof.
  intros Hm He H. params. pose proof room_2 as Hr2.
  destruct small_pow as (Hs1 & Hs2 & Hs3 & Hs4 & Hs5 & Hs6 & Hs7 & Hs8 & Hs9).
  unfold fixOverflow in H. rewrite IsEq_emb in H by lia.
  unfold fix_pos_ok, zfix.
  set (ov := m =? 2 ^ (M + 1)) in *. rewrite fadd_emb, fsub_emb in H.
  apply sat_bind in H. destruct H as [p [Hp H]].
  apply (sat_IsPositive (b:=b) (K:=4*M+44)) in Hp;
    [|lia|lia|destruct ov; cbn [Z.b2z]; lia].
  destruct Hp as [pos [-> [Hp1 [Hp2 Hp3]]]].
  repeat sstep H. apply sat_ret_inv in H.
  exists pos. split; [|rewrite <- H; reflexivity].
  split; intros; [apply Hp1|apply Hp2]; lia.
Qed.

(** The converse: every sign choice allowed by the gadget is accepted. *)
Lemma sat_fixOverflow_intro m mz e a pos :
  0 <= m <= 2 ^ (M + 1) ->
  - 2 ^ (E + 1) < e - E_MAX E < 2 ^ (E + 1) - 1 ->
  fix_pos_ok m e pos ->
  sat b (fixOverflow E M (emb m) (emb (Z.b2z mz)) (emb e) (emb (Z.b2z a)))
    (let '(m', e', ab) := zfix m mz e a pos in (emb m', emb e', emb (Z.b2z ab))).
Proof.
  intros Hm He Hpos. params. pose proof room_2 as Hr2.
  destruct small_pow as (Hs1 & Hs2 & Hs3 & Hs4 & Hs5 & Hs6 & Hs7 & Hs8 & Hs9).
  unfold fixOverflow. rewrite IsEq_emb by lia.
  unfold fix_pos_ok in Hpos. unfold zfix.
  set (ov := m =? 2 ^ (M + 1)) in *. rewrite fadd_emb, fsub_emb.
  destruct Hpos as [Hp1 Hp2].
  apply sat_bind. exists (emb (Z.b2z pos)). split.
  { apply (sat_IsPositive (b:=b) (K:=4*M+44));
      [lia|lia|destruct ov; cbn [Z.b2z]; lia|].
    exists pos. split; [reflexivity|]. split; [intros; apply Hp1; lia|].
    split; [intros; apply Hp2; lia|].
    destruct (cap_room (b:=b) (K:=4*M+44) (E + 1) ltac:(lia) ltac:(lia)) as (_ & _ & _ & _ & Hc).
    destruct ov; cbn [Z.b2z]; lia. }
  apply sat_bind. eexists. split; [apply sat_or_emb; reflexivity|].
  apply sat_bind. eexists. split; [apply sat_or_emb; reflexivity|].
  apply sat_bind. eexists. split; [apply sat_select_emb; reflexivity|].
  apply sat_bind. eexists. split; [apply sat_select_emb; reflexivity|].
  apply sat_bind. eexists. split; [apply sat_select_emb; reflexivity|].
  reflexivity.
Qed.

(** ** The shift for subnormal results *)

Definition zshift (e smax : Z) : Z := Z.max (Z.min (E_NORMAL_MIN E - e) smax) 0.

Lemma exec_subnormal_shift e smax : 0 <= smax < 2 ^ (E + 1) ->
  - 2 ^ (E + 1) < E_NORMAL_MIN E - e - smax ->
  E_NORMAL_MIN E - e - smax < 2 ^ (E + 1) ->
  - 2 ^ (E + 1) < E_NORMAL_MIN E - e ->
  exec b (subnormal_shift E (emb e) smax) = Some (emb (zshift e smax)).
Proof.
  intros Hs H1 H2 H3. params. unfold subnormal_shift. rewrite fsub_emb.
  xs (exec_GMin (b:=b) (K:=4*M+44) (E_NORMAL_MIN E - e) smax (E + 1) ltac:(lia) ltac:(lia) ltac:(lia)).
  rewrite (exec_GMax (b:=b) (K:=4*M+44)) by lia. reflexivity.
Qed.

Lemma sat_subnormal_shift e smax r :
  0 <= smax <= 2 ^ (E + 1) -> - 2 * 2 ^ (E + 1) <= E_NORMAL_MIN E - e <= 2 * 2 ^ (E + 1) ->
  sat b (subnormal_shift E (emb e) smax) r -> r = emb (zshift e smax).
Proof.
  intros Hs He H. params. pose proof room_2 as Hr2. unfold subnormal_shift in H.
  rewrite fsub_emb in H. apply sat_bind in H. destruct H as [mn [Hmn H]].
  apply (sat_GMin (b:=b) (K:=4*M+44)) in Hmn; [|lia|lia|lia]. destruct Hmn as [-> _].
  apply (sat_GMax (b:=b) (K:=4*M+44)) in H; [|lia|lia|lia]. destruct H as [-> _]. reflexivity.
Qed.

End RoundFacts.
