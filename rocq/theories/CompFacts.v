(** ComponentsOf, ValueOf (util/util.go:287-360) and NewFloat
    (float/float.go:68-166). *)
From Coq Require Import ZArith Bool List Lia ZifyBool.
From Flocq Require Import Core BinarySingleNaN.
From Flocq Require Binary Bits.
From Verif Require Import Field FieldFacts Circuit Hints RangeCheck Gadget Util FloatModel
  CircuitFacts RangeFacts GadgetFacts RoundFacts Spec RoundCore RepFacts SqrtFacts AddFacts
  CmpFacts Tactics.
Local Open Scope Z_scope.

(** The fields of a bit pattern. *)
Definition bsgn (E M v : Z) : bool := 2 ^ (E + M) <=? v.
Definition bexp (E M v : Z) : Z := v / 2 ^ M mod 2 ^ E.
Definition bman (M v : Z) : Z := v mod 2 ^ M.

(** Left shift bringing a fraction to the top of [M] bits. *)
Definition nshift (M m : Z) : Z := if m =? 0 then M else M - 1 - Z.log2 m.

Definition zcomps (E M v : Z) : zf :=
  let s := bsgn E M v in let e := bexp E M v in let m := bman M v in
  if e =? 0 then mkZ s (1 - emax E - nshift M m) (2 * (m * 2 ^ nshift M m)) false
  else if e =? 2 ^ E - 1 then mkZ s (emax E) (if m =? 0 then 2 ^ M else 0) true
  else mkZ s (e + 1 - emax E) (m + 2 ^ M) false.

Section Comp.
Context {E M : Z} {HF : Format E M}.
Notation emax := (Spec.emax E).
Notation emin := (Spec.emin E M).

Lemma fields v : 0 <= v < 2 ^ (E + M + 1) ->
  v = Z.b2z (bsgn E M v) * 2 ^ (E + M) + bexp E M v * 2 ^ M + bman M v /\
  0 <= bexp E M v < 2 ^ E /\ 0 <= bman M v < 2 ^ M /\
  v / 2 ^ (E + M) = Z.b2z (bsgn E M v) /\
  v / 2 ^ M = Z.b2z (bsgn E M v) * 2 ^ E + bexp E M v.
Proof.
  intros Hv. destruct (fmt_M (E:=E) (M:=M)) as [HM [HM1 HM2]]. exps E M.
  unfold bsgn, bexp, bman.
  assert (H1 : 2 ^ (E + M + 1) = 2 * (2 ^ E * 2 ^ M)).
  { rewrite <- Z.pow_add_r by lia. rewrite <- Z.pow_succ_r by lia. f_equal. }
  assert (H2 : 2 ^ (E + M) = 2 ^ E * 2 ^ M) by (apply Z.pow_add_r; lia).
  assert (HE : 0 < 2 ^ E) by (apply pow_pos; lia).
  rewrite H2. rewrite H1 in Hv. clear - Hv HM1 HE.
  set (p := 2 ^ M) in *. set (q := 2 ^ E) in *. clearbody p q.
  pose proof (Z.div_mod v p ltac:(Lia.lia)) as D1. pose proof (Z.mod_pos_bound v p HM1) as D2.
  pose proof (Z.div_mod (v / p) q ltac:(Lia.lia)) as D3. pose proof (Z.mod_pos_bound (v / p) q HE) as D4.
  set (a := v / p) in *. set (r := v mod p) in *. set (e := a mod q) in *. set (t := a / q) in *.
  assert (Ht : v / (q * p) = t).
  { unfold t, a. rewrite Z.mul_comm. symmetry. apply Z.div_div; Lia.lia. }
  assert (Htt : t = Z.b2z (q * p <=? v)).
  { rewrite <- Ht. destruct (Z.leb_spec (q * p) v) as [Hle|Hlt].
    - symmetry. apply Z.div_unique with (v - q * p); [left|]; cbn; Lia.lia.
    - apply Z.div_small. Lia.lia. }
  rewrite Ht. clearbody t a r e. rewrite <- Htt. clear Htt Ht.
  split; [rewrite D1, D3; ring|]. split; [exact D4|]. split; [exact D2|].
  split; [reflexivity|]. rewrite D3. ring.
Qed.

Lemma split_fields v : 0 <= v < 2 ^ (E + M + 1) ->
  Bits.split_bits M E v = (bsgn E M v, bman M v, bexp E M v).
Proof.
  intros Hv. exps E M. unfold Bits.split_bits, bsgn, bexp, bman.
  replace (2 ^ (E + M)) with (2 ^ M * 2 ^ E) by (rewrite <- Z.pow_add_r by lia; f_equal; lia).
  reflexivity.
Qed.

Lemma digits_log2 m : Zpos (digits2_pos m) = Z.log2 (Zpos m) + 1.
Proof.
  rewrite Digits.Zpos_digits2_pos. apply Digits.Zdigits_unique.
  replace (Z.log2 (Zpos m) + 1 - 1) with (Z.log2 (Zpos m)) by ring.
  pose proof (Z.log2_spec (Zpos m) ltac:(Lia.lia)) as H. rewrite Z.abs_eq by Lia.lia.
  rewrite <- Z.add_1_r in H. exact H.
Qed.

Lemma nshift_facts m : 0 <= m < 2 ^ M -> 0 <= nshift M m <= M /\
  (m = 0 \/ 2 ^ (M - 1) <= m * 2 ^ nshift M m < 2 ^ M) /\
  (m <> 0 -> nshift M m <= M - 1).
Proof.
  intros Hm. destruct (fmt_M (E:=E) (M:=M)) as [HM [HM1 HM2]]. unfold nshift.
  destruct (Z.eqb_spec m 0) as [->|H0]; [split; [lia|split; [left; reflexivity|intros H; contradiction]]|].
  pose proof (Z.log2_spec m ltac:(lia)) as Hl. pose proof (Z.log2_nonneg m) as Hl0.
  assert (Hl1 : Z.log2 m < M) by (apply Z.log2_lt_pow2; lia).
  split; [lia|]. split; [right|intros _; lia].
  set (l := Z.log2 m) in *. clearbody l.
  assert (H1 : 2 ^ (M - 1) = 2 ^ l * 2 ^ (M - 1 - l)) by (rewrite <- Z.pow_add_r by lia; f_equal; lia).
  assert (H2 : 2 ^ M = 2 ^ (Z.succ l) * 2 ^ (M - 1 - l)) by (rewrite <- Z.pow_add_r by lia; f_equal; lia).
  pose proof (pow_pos (M - 1 - l) ltac:(lia)) as H3. rewrite H1, H2. clear - Hl H3. nia.
Qed.

Lemma zcomps_spec v : 0 <= v < 2 ^ (E + M + 1) -> zrep E M (zcomps E M v) (of_bits E M v).
Proof.
  intros Hv. destruct (fmt_M (E:=E) (M:=M)) as [HM [HM1 HM2]]. exps E M.
  destruct (fields v Hv) as (_ & He & Hm & _ & _).
  unfold of_bits, Bits.binary_float_of_bits, zcomps.
  set (pf := Bits.binary_float_of_bits_aux_correct _ _ _ _ _ _). clearbody pf.
  assert (Hb : Bits.binary_float_of_bits_aux M E v =
    if Zeq_bool (bexp E M v) 0 then
      match bman M v with
      | Z0 => Binary.F754_zero (bsgn E M v)
      | Zpos px => Binary.F754_finite (bsgn E M v) px (SpecFloat.emin (M + 1) emax)
      | Zneg _ => Binary.F754_nan false xH
      end
    else if Zeq_bool (bexp E M v) (2 ^ E - 1) then
      match bman M v with
      | Z0 => Binary.F754_infinity (bsgn E M v)
      | Zpos px => Binary.F754_nan (bsgn E M v) px
      | Zneg _ => Binary.F754_nan false xH
      end
    else
      match bman M v + 2 ^ M with
      | Zpos px => Binary.F754_finite (bsgn E M v) px (bexp E M v + SpecFloat.emin (M + 1) emax - 1)
      | _ => Binary.F754_nan false xH
      end).
  { unfold Bits.binary_float_of_bits_aux. rewrite split_fields by exact Hv. reflexivity. }
  assert (Hpf := pf). rewrite Hb in Hpf.
  assert (Heq : forall f (p : Binary.valid_binary (M + 1) emax f = true),
    f = Bits.binary_float_of_bits_aux M E v ->
    Binary.B2BSN (M + 1) emax (Binary.FF2B (M + 1) emax f p) =
    Binary.B2BSN (M + 1) emax (Binary.FF2B (M + 1) emax (Bits.binary_float_of_bits_aux M E v) pf)).
  { intros f p ->. f_equal. f_equal. apply Eqdep_dec.UIP_dec. decide equality. }
  match goal with |- zrep _ _ ?z _ => change (zrep E M z (Binary.B2BSN (M + 1) emax
    (Binary.FF2B (M + 1) emax (Bits.binary_float_of_bits_aux M E v) pf))) end.
  rewrite <- (Heq _ Hpf (eq_sym Hb)). clear Heq Hb pf.
  assert (Hemin : SpecFloat.emin (M + 1) emax = emin) by (unfold SpecFloat.emin, Spec.emin, Spec.prec; lia).
  revert Hpf. rewrite Hemin.
  destruct (Z.eqb_spec (bexp E M v) 0) as [He0|He0].
  - rewrite He0. cbn [Zeq_bool Z.compare]. unfold nshift.
    destruct (bman M v) as [|p|p] eqn:Hmv; intros Hpf; [| |exfalso; lia].
    + cbn [Binary.FF2B Binary.B2BSN zrep]. change (0 =? 0) with true. cbv iota. f_equal; lia.
    + cbn [Binary.FF2B Binary.B2BSN zrep]. change (Z.pos p =? 0) with false. cbv iota zeta.
      rewrite digits_log2. unfold Spec.prec.
      assert (Hl2 : Z.log2 (Zpos p) < M) by (apply Z.log2_lt_pow2; lia).
      pose proof (Z.log2_nonneg (Zpos p)) as Hl0.
      f_equal; [lia|].
      replace (M + 1 - (Z.log2 (Zpos p) + 1)) with (Z.succ (M - 1 - Z.log2 (Zpos p))) by ring.
      rewrite Z.pow_succ_r by lia. ring.
  - rewrite (Zeq_bool_false _ _ He0).
    destruct (Z.eqb_spec (bexp E M v) (2 ^ E - 1)) as [He1|He1].
    + rewrite He1. rewrite (Zeq_bool_true _ _ eq_refl).
      destruct (bman M v) as [|p|p] eqn:Hmv; intros Hpf; [| |exfalso; lia].
      * reflexivity.
      * cbn. eexists. reflexivity.
    + rewrite (Zeq_bool_false _ _ He1).
      destruct (bman M v + 2 ^ M) as [|p|p] eqn:Hmv; intros Hpf; [exfalso; lia| |exfalso; lia].
      cbn [Binary.FF2B Binary.B2BSN zrep]. cbv zeta.
      rewrite digits_log2. unfold Spec.prec.
      assert (Hl : Z.log2 (Zpos p) = M) by (apply Z.log2_unique; [lia|rewrite <- Z.add_1_r; lia]).
      rewrite Hl. f_equal; [lia|].
      replace (M + 1 - (M + 1)) with 0 by ring. change (2 ^ 0) with 1. lia.
Qed.

Lemma u64_id z : 0 <= z < 2 ^ 64 -> u64 z = z.
Proof. intros H. unfold u64. apply Z.mod_small. exact H. Qed.

Lemma leading_zeros_0 n : leading_zeros 0 n = Z.of_nat n.
Proof.
  induction n as [|n IH]; [reflexivity|]. cbn [leading_zeros]. rewrite Z.testbit_0_l, IH. Lia.lia.
Qed.

Lemma lz_nshift m : 0 <= m < 2 ^ M -> leading_zeros m (Z.to_nat M) = nshift M m.
Proof.
  intros Hm. destruct (fmt_M (E:=E) (M:=M)) as [HM _]. unfold nshift.
  destruct (Z.eqb_spec m 0) as [->|H0].
  - rewrite leading_zeros_0, Z2Nat.id by lia. reflexivity.
  - rewrite leading_zeros_log2 by (rewrite Z2Nat.id by lia; lia).
    rewrite Z2Nat.id by lia. reflexivity.
Qed.

Definition comp_of (z : zf) : components := mkComp (Z.b2z (zs z)) (ze z) (zm z) (Z.b2z (za z)).

(** The splitting shared by ComponentsOf and DecodeFloatHint. *)
Lemma split_u64 v : 0 <= v < 2 ^ (E + M + 1) ->
  u64 v = v /\ Z.shiftr v (E + M) = Z.b2z (bsgn E M v) /\
  u64 (Z.shiftr v M - u64 (Z.shiftl (Z.b2z (bsgn E M v)) E)) = bexp E M v.
Proof.
  intros Hv. destruct (fmt_M (E:=E) (M:=M)) as [HM [HM1 HM2]]. exps E M.
  destruct HF as [F1 F2 F3 F4].
  destruct (fields v Hv) as (Hs & He & Hm & Hv1 & Hv2).
  assert (H64 : 2 ^ (E + M + 1) <= 2 ^ 64) by (apply pow2_mono; lia).
  assert (HE64 : 2 * 2 ^ E <= 2 ^ 64).
  { rewrite <- Z.pow_succ_r by lia. apply pow2_mono; lia. }
  split; [apply u64_id; lia|].
  rewrite !Z.shiftr_div_pow2, Z.shiftl_mul_pow2, Hv1, Hv2 by lia. split; [reflexivity|].
  rewrite (u64_id (_ * _)) by (destruct (bsgn E M v); cbn [Z.b2z]; lia).
  replace (Z.b2z (bsgn E M v) * 2 ^ E + bexp E M v - Z.b2z (bsgn E M v) * 2 ^ E) with (bexp E M v) by ring.
  apply u64_id. lia.
Qed.

Theorem components_spec v : 0 <= v < 2 ^ (E + M + 1) ->
  ComponentsOf v E M = comp_of (zcomps E M v).
Proof.
  intros Hv. destruct (fmt_M (E:=E) (M:=M)) as [HM [HM1 HM2]]. exps E M.
  pose proof (f_64 (E:=E) (M:=M)) as F4.
  destruct (fields v Hv) as (Hs & He & Hm & Hv1 & Hv2).
  destruct (split_u64 v Hv) as (U1 & U2 & U3).
  assert (H64 : 2 ^ (E + M + 1) <= 2 ^ 64) by (apply pow2_mono; lia).
  assert (H63 : 2 ^ (E + M + 1) = 2 * 2 ^ (E + M)) by (rewrite <- Z.pow_succ_r by lia; f_equal; lia).
  assert (Hsp : 2 ^ (E + M) = 2 ^ E * 2 ^ M) by (apply Z.pow_add_r; lia).
  assert (Hee : 0 <= bexp E M v * 2 ^ M < 2 ^ (E + M)).
  { rewrite Hsp. clear - He HM1. nia. }
  unfold ComponentsOf. rewrite U1, U2, U3. cbv zeta.
  rewrite !(Z.shiftl_mul_pow2 _ (E + M)), !(Z.shiftl_mul_pow2 _ M) by lia.
  rewrite (u64_id (_ * 2 ^ (E + M))) by (destruct (bsgn E M v); cbn [Z.b2z]; lia).
  rewrite (u64_id (_ * 2 ^ M)) by lia.
  replace (v - Z.b2z (bsgn E M v) * 2 ^ (E + M) - bexp E M v * 2 ^ M) with (bman M v)
    by (rewrite Hs at 2; ring).
  assert (HMM : 2 ^ M <= 2 ^ (E + M)) by (apply pow2_mono; lia).
  rewrite (u64_id (bman M v)) by lia.
  rewrite lz_nshift by exact Hm.
  destruct (nshift_facts (bman M v) Hm) as (N1 & _ & _).
  rewrite !Z.shiftl_mul_pow2 by lia. change (2 ^ 1) with 2.
  unfold comp_of, zcomps. cbv zeta. fold (Spec.emax E).
  change (2 ^ (E - 1)) with emax.
  destruct (Z.eqb_spec (bexp E M v) 0) as [He0|He0].
  - destruct (Z.eqb_spec (bexp E M v + (1 - emax)) (1 - emax)); [|lia].
    destruct (Z.eqb_spec (bexp E M v + (1 - emax)) emax); [lia|].
    cbn [zs ze zm za Z.b2z]. f_equal; [lia|ring].
  - destruct (Z.eqb_spec (bexp E M v + (1 - emax)) (1 - emax)); [lia|].
    destruct (Z.eqb_spec (bexp E M v) (2 ^ E - 1)) as [He1|He1].
    + destruct (Z.eqb_spec (bexp E M v + (1 - emax)) emax); [|lia].
      cbn [zs ze zm za Z.b2z andb]. f_equal; [lia|].
      destruct (Z.eqb_spec (bman M v) 0) as [->|]; reflexivity.
    + destruct (Z.eqb_spec (bexp E M v + (1 - emax)) emax); [lia|].
      cbn [zs ze zm za Z.b2z andb]. f_equal; lia.
Qed.

Lemma u64abs_id z : 0 <= z < 2 ^ 64 -> u64abs z = z.
Proof. intros H. unfold u64abs. rewrite Z.abs_eq by apply H. apply u64_id, H. Qed.

(** The bit pattern ValueOf returns for the components of [v]. *)
Definition canon (v : Z) : Z :=
  if (bexp E M v =? 2 ^ E - 1) && negb (bman M v =? 0)
  then Z.b2z (bsgn E M v) * 2 ^ (E + M) + (2 ^ E - 1) * 2 ^ M + 1 else v.

Theorem valueof_comps v : 0 <= v < 2 ^ (E + M + 1) ->
  ValueOf (comp_of (zcomps E M v)) E M = Some (canon v).
Proof.
  intros Hv. destruct (fmt_M (E:=E) (M:=M)) as [HM [HM1 HM2]]. exps E M.
  pose proof (f_64 (E:=E) (M:=M)) as F4.
  destruct (fields v Hv) as (Hs & He & Hm & Hv1 & Hv2).
  assert (H64 : 2 ^ (E + M + 1) <= 2 ^ 64) by (apply pow2_mono; lia).
  assert (H63 : 2 ^ (E + M + 1) = 2 * 2 ^ (E + M)) by (rewrite <- Z.pow_succ_r by lia; f_equal; lia).
  assert (Hsp : 2 ^ (E + M) = 2 ^ E * 2 ^ M) by (apply Z.pow_add_r; lia).
  assert (HE4 : 16 <= 2 ^ E) by (change 16 with (2 ^ 4); apply pow2_mono; lia).
  assert (HM16 : M < 2 ^ M) by (apply Z.pow_gt_lin_r; lia).
  assert (HEM : 16 * 2 ^ M <= 2 ^ E * 2 ^ M) by (apply Z.mul_le_mono_nonneg_r; lia).
  assert (HEM2 : 2 ^ E * 2 <= 2 ^ E * 2 ^ M).
  { apply Z.mul_le_mono_nonneg_l; [lia|]. change 2 with (2 ^ 1) at 1. apply pow2_mono; lia. }
  unfold ValueOf, canon. cbn [comp_of co_s co_e co_m co_a].
  rewrite (u64abs_id (Z.b2z (zs _))) by (destruct (zs (zcomps E M v)); cbn [Z.b2z]; lia).
  rewrite (u64abs_id (Z.b2z (za _))) by (destruct (za (zcomps E M v)); cbn [Z.b2z]; lia).
  replace (Z.b2z (za (zcomps E M v)) =? 1) with (za (zcomps E M v))
    by (destruct (za (zcomps E M v)); reflexivity).
  replace (M + E) with (E + M) by ring.
  assert (Hs1 : Z.b2z (bsgn E M v) * 2 ^ (E + M) + (bexp E M v * 2 ^ M + bman M v) <= v) by (clear - Hs; lia).
  assert (Hss : 0 <= Z.b2z (bsgn E M v) * 2 ^ (E + M) <= 2 ^ (E + M)).
  { destruct (bsgn E M v); cbn [Z.b2z]; lia. }
  change (2 ^ (E - 1)) with emax.
  unfold zcomps. cbv zeta.
  destruct (nshift_facts (bman M v) Hm) as (N1 & N2 & N3).
  destruct (Z.eqb_spec (bexp E M v) 0) as [He0|He0].
  - cbn [zs ze zm za Z.b2z]. rewrite He0 in *.
    destruct (Z.eqb_spec 0 (2 ^ E - 1)); [lia|]. cbn [andb].
    assert (Hmm : 0 <= 2 * (bman M v * 2 ^ nshift M (bman M v)) < 2 ^ (M + 1)).
    { destruct N2 as [N2|N2]; [rewrite N2; lia|lia]. }
    rewrite (u64abs_id (2 * _)) by lia.
    replace (1 - emax - nshift M (bman M v) + (emax - 1 + M)) with (M - nshift M (bman M v)) by ring.
    rewrite u64abs_id by lia.
    destruct (Z.leb_spec (M - nshift M (bman M v)) M); [|lia].
    assert (Hz : Bool.eqb (M - nshift M (bman M v) =? 0) (2 * (bman M v * 2 ^ nshift M (bman M v)) =? 0) = true).
    { apply eqb_true_iff. destruct N2 as [N2|N2].
      - rewrite N2. unfold nshift. cbn [Z.eqb Z.mul]. lia.
      - assert (0 < 2 ^ (M - 1)) by (apply pow_pos; lia).
        assert (bman M v <> 0) by (intros Hz; rewrite Hz in N2; lia). specialize (N3 H1). lia. }
    rewrite Hz. cbn [orb negb].
    replace (M + 1 - (M - nshift M (bman M v))) with (Z.succ (nshift M (bman M v))) by ring.
    rewrite Z.shiftr_div_pow2, !Z.shiftl_mul_pow2 by lia.
    rewrite Z.pow_succ_r by lia.
    replace (2 * (bman M v * 2 ^ nshift M (bman M v))) with (bman M v * (2 * 2 ^ nshift M (bman M v))) by ring.
    pose proof (pow_pos (nshift M (bman M v)) ltac:(lia)) as Hpn.
    rewrite Z.div_mul by lia.
    rewrite (u64_id (bman M v * _)) by lia. rewrite Z.eqb_refl. cbn [negb].
    rewrite (u64_id (_ * 2 ^ (E + M))) by lia.
    rewrite u64_id by lia. f_equal. rewrite Hs at 3. ring.
  - destruct (Z.eqb_spec (bexp E M v) (2 ^ E - 1)) as [He1|He1].
    + cbn [zs ze zm za Z.b2z andb].
      replace (emax + (emax - 1 + M)) with (2 ^ E - 1 + M) by lia.
      rewrite u64abs_id by lia.
      destruct (Z.leb_spec (2 ^ E - 1 + M) M); [lia|].
      replace (2 ^ E - 1 + M - M) with (2 ^ E - 1) by ring. rewrite Z.eqb_refl. cbn [Bool.eqb negb].
      rewrite !Z.shiftl_mul_pow2 by lia.
      assert (Hle : (2 ^ E - 1) * 2 ^ M = 2 ^ (E + M) - 2 ^ M) by (rewrite Hsp; ring).
      rewrite (u64_id (_ * 2 ^ (E + M))) by lia.
      rewrite (u64_id (_ * 2 ^ M)) by (rewrite Hle; lia).
      rewrite He1 in Hs.
      destruct (Z.eqb_spec (bman M v) 0) as [Hm0|Hm0]; cbn [negb].
      * rewrite (u64abs_id (2 ^ M)) by lia. destruct (Z.eqb_spec (2 ^ M) 0); [lia|].
        rewrite Z.sub_diag. change (u64 0) with 0. rewrite Hm0 in Hs.
        rewrite u64_id by (rewrite Hle; lia). f_equal. rewrite Hs at 2. ring.
      * change (u64abs 0) with 0. cbn [Z.eqb].
        rewrite u64_id by (rewrite Hle; lia). reflexivity.
    + cbn [zs ze zm za Z.b2z andb].
      replace (bexp E M v + 1 - emax + (emax - 1 + M)) with (bexp E M v + M) by ring.
      rewrite u64abs_id by lia.
      destruct (Z.leb_spec (bexp E M v + M) M); [lia|].
      replace (bexp E M v + M - M) with (bexp E M v) by ring.
      destruct (Z.eqb_spec (bexp E M v) (2 ^ E - 1)); [contradiction|]. cbn [Bool.eqb negb].
      rewrite !Z.shiftl_mul_pow2 by lia.
      assert (Hee : 0 <= bexp E M v * 2 ^ M <= 2 ^ (E + M) - 2 ^ M).
      { rewrite Hsp. clear - He HM1. nia. }
      rewrite (u64_id (_ * 2 ^ (E + M))) by lia.
      rewrite (u64_id (_ * 2 ^ M)) by lia.
      rewrite (u64abs_id (bman M v + 2 ^ M)) by lia.
      replace (bman M v + 2 ^ M - 2 ^ M) with (bman M v) by ring.
      rewrite (u64_id (bman M v)) by lia.
      rewrite u64_id by lia. f_equal. rewrite Hs at 4. reflexivity.
Qed.

(** NaN patterns. *)
Lemma of_bits_nan v : 0 <= v < 2 ^ (E + M + 1) ->
  is_nan (of_bits E M v) = (bexp E M v =? 2 ^ E - 1) && negb (bman M v =? 0).
Proof.
  intros Hv. pose proof (zcomps_spec v Hv) as Hz.
  destruct (fmt_M (E:=E) (M:=M)) as [HM [HM1 HM2]]. exps E M.
  destruct (fields v Hv) as (Hs & He & Hm & _ & _). unfold zcomps in Hz. cbv zeta in Hz.
  destruct (Z.eqb_spec (bexp E M v) 0) as [He0|He0].
  - destruct (Z.eqb_spec (bexp E M v) (2 ^ E - 1)); [lia|]. cbn [andb].
    destruct (of_bits E M v); try reflexivity. cbn in Hz. destruct Hz as [s Hz]. discriminate.
  - destruct (Z.eqb_spec (bexp E M v) (2 ^ E - 1)).
    + destruct (Z.eqb_spec (bman M v) 0) as [Hm0|Hm0]; cbn [andb negb].
      * destruct (of_bits E M v); try reflexivity. cbn in Hz. destruct Hz as [s Hz]. injection Hz. intros; lia.
      * destruct (of_bits E M v) as [s|s| |s m e0 H]; try reflexivity; cbn in Hz; try discriminate.
        injection Hz. intros; lia.
    + cbn [andb]. destruct (of_bits E M v); try reflexivity. cbn in Hz. destruct Hz as [s Hz]. discriminate.
Qed.

Theorem valueof_spec v : 0 <= v < 2 ^ (E + M + 1) ->
  exists w, ValueOf (ComponentsOf v E M) E M = Some w /\ 0 <= w < 2 ^ (E + M + 1) /\
    of_bits E M w = of_bits E M v /\ (is_nan (of_bits E M v) = false -> w = v).
Proof.
  intros Hv. rewrite components_spec, valueof_comps by exact Hv.
  exists (canon v). split; [reflexivity|]. rewrite of_bits_nan by exact Hv. unfold canon.
  destruct (fmt_M (E:=E) (M:=M)) as [HM [HM1 HM2]]. exps E M.
  destruct (fields v Hv) as (Hs & He & Hm & _ & _).
  destruct ((bexp E M v =? 2 ^ E - 1) && negb (bman M v =? 0)) eqn:Hn; [|auto].
  apply andb_true_iff in Hn. destruct Hn as [Hn1 Hn2].
  set (w := Z.b2z (bsgn E M v) * 2 ^ (E + M) + (2 ^ E - 1) * 2 ^ M + 1).
  assert (HM16 : 16 <= 2 ^ M) by (change 16 with (2 ^ 4); apply pow2_mono; lia).
  assert (HE16 : 16 <= 2 ^ E) by (change 16 with (2 ^ 4); apply pow2_mono; lia).
  assert (Hsp : 2 ^ (E + M) = 2 ^ E * 2 ^ M) by (apply Z.pow_add_r; lia).
  assert (H63 : 2 ^ (E + M + 1) = 2 * 2 ^ (E + M)) by (rewrite <- Z.pow_succ_r by lia; f_equal; lia).
  assert (Hle : (2 ^ E - 1) * 2 ^ M = 2 ^ (E + M) - 2 ^ M) by (rewrite Hsp; ring).
  assert (Hw : 0 <= w < 2 ^ (E + M + 1)).
  { unfold w. rewrite Hle. destruct (bsgn E M v); cbn [Z.b2z]; lia. }
  split; [exact Hw|]. split; [|discriminate].
  assert (W1 : bman M w = 1).
  { unfold bman, w. symmetry. apply Z.mod_unique with (Z.b2z (bsgn E M v) * 2 ^ E + (2 ^ E - 1)); [left; lia|].
    rewrite Hsp. ring. }
  assert (W2 : bexp E M w = 2 ^ E - 1).
  { unfold bexp. assert (w / 2 ^ M = Z.b2z (bsgn E M v) * 2 ^ E + (2 ^ E - 1)) as ->.
    { symmetry. apply Z.div_unique with 1; [left; lia|]. unfold w. rewrite Hsp. ring. }
    rewrite Z.add_comm, Z.mod_add by lia. apply Z.mod_small. lia. }
  assert (Hnan : forall u, 0 <= u < 2 ^ (E + M + 1) -> bexp E M u = 2 ^ E - 1 -> bman M u <> 0 ->
    of_bits E M u = B754_nan).
  { intros u Hu H1 H2. pose proof (of_bits_nan u Hu) as H. rewrite H1, Z.eqb_refl in H.
    destruct (Z.eqb_spec (bman M u) 0); [contradiction|]. cbn [andb negb] in H.
    destruct (of_bits E M u); try discriminate H. reflexivity. }
  rewrite (Hnan w Hw W2 ltac:(lia)). symmetry. apply Hnan; [exact Hv|lia|lia].
Qed.

(** Every datum has a bit pattern. *)
Lemma of_bits_surj (f : fmt E M) : exists v, 0 <= v < 2 ^ (E + M + 1) /\ of_bits E M v = f.
Proof.
  assert (Hp : Binary.nan_pl (Spec.prec M) 1 = true).
  { unfold Binary.nan_pl, Spec.prec. destruct (fmt_M (E:=E) (M:=M)) as [HM _].
    apply Z.ltb_lt. change (Z.pos (SpecFloat.digits2_pos 1)) with 1. lia. }
  set (g := Binary.BSN2B (Spec.prec M) emax
    (exist (fun n => Binary.is_nan (Spec.prec M) emax n = true)
      (Binary.B754_nan (Spec.prec M) emax false 1 Hp) eq_refl) f).
  exists (Bits.bits_of_binary_float M E g). split.
  - pose proof (Bits.bits_of_binary_float_range M E (fmt_mw E M) (fmt_ew E M) g) as H.
    replace (E + M + 1) with (M + E + 1) by ring. exact H.
  - unfold of_bits.
    pose proof (Bits.binary_float_of_bits_of_binary_float M E (fmt_mw E M) (fmt_ew E M) (fmt_prec_lt_emax E M) g) as H.
    transitivity (Binary.B2BSN (Spec.prec M) emax g); [f_equal; exact H|].
    apply Binary.B2BSN_BSN2B.
Qed.

End Comp.
