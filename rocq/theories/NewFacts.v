(** NewFloat and NewConstant (float/float.go:68-178). *)
From Coq Require Import ZArith Bool List Lia ZifyBool.
From Flocq Require Import Core BinarySingleNaN.
From Verif Require Import Field FieldFacts Circuit Hints RangeCheck Gadget Util FloatModel
  CircuitFacts RangeFacts GadgetFacts RoundFacts Spec RoundCore RepFacts SqrtFacts AddFacts
  CmpFacts CompFacts Tactics.
Local Open Scope Z_scope.

Definition znew (E M : Z) (s : bool) (e m : Z) : zf :=
  if e =? 0 then mkZ s (1 - emax E - nshift M m) (2 * (m * 2 ^ nshift M m)) false
  else if e =? 2 ^ E - 1 then mkZ s (emax E) (if m =? 0 then 2 ^ M else 0) true
  else mkZ s (e + 1 - emax E) (m + 2 ^ M) false.

Section New.
Context {MOD : Modulus} {E M b : Z} {HP : Params E M b} {HF : Format E M}.
Notation emax := (Spec.emax E).
Notation emin := (Spec.emin E M).
#[local] Instance Wn : Width b (4 * M + 44) := params_width E M b HP.
#[local] Instance Bn : BigMod := width_big b _ _.

Lemma fields_unique s e m v : 0 <= e < 2 ^ E -> 0 <= m < 2 ^ M ->
  v = Z.b2z s * 2 ^ (E + M) + e * 2 ^ M + m ->
  0 <= v < 2 ^ (E + M + 1) /\ bsgn E M v = s /\ bexp E M v = e /\ bman M v = m.
Proof.
  intros He Hm Hv. destruct (fmt_M (E:=E) (M:=M)) as [HM [HM1 HM2]]. exps E M.
  assert (Hsp : 2 ^ (E + M) = 2 ^ E * 2 ^ M) by (apply Z.pow_add_r; lia).
  assert (H63 : 2 ^ (E + M + 1) = 2 * 2 ^ (E + M)) by (rewrite <- Z.pow_succ_r by lia; f_equal; lia).
  assert (Hem : 0 <= e * 2 ^ M + m < 2 ^ (E + M)).
  { rewrite Hsp. clear - He Hm HM1. nia. }
  split; [destruct s; cbn [Z.b2z] in Hv; lia|].
  split; [unfold bsgn; destruct s; cbn [Z.b2z] in Hv; lia|].
  assert (Hq : v / 2 ^ M = Z.b2z s * 2 ^ E + e).
  { symmetry. apply Z.div_unique with m; [left; exact Hm|]. rewrite Hv, Hsp. ring. }
  split.
  - unfold bexp. rewrite Hq, Z.add_comm, Z.mod_add by lia. apply Z.mod_small, He.
  - unfold bman. symmetry. apply Z.mod_unique with (Z.b2z s * 2 ^ E + e); [left; exact Hm|].
    rewrite Hv, Hsp. ring.
Qed.

Lemma new_pows : 2 ^ (E + M + 1) < modulus /\ 2 ^ E <= 2 ^ (E + M) /\ 2 ^ M <= 2 ^ (E + M) /\
  2 ^ (E + M + 1) = 2 * 2 ^ (E + M) /\ 2 ^ M = 2 * 2 ^ (M - 1) /\ 0 < 2 ^ (M - 1) /\
  2 ^ (E + M) = 2 ^ E * 2 ^ M /\ 0 < 2 ^ E /\ 2 ^ M * 2 ^ M * 8 < modulus /\ 8 * 2 ^ E < modulus.
Proof.
  params. destruct (fmt_M (E:=E) (M:=M)) as [HM [HM1 HM2]].
  assert (H1 : 2 ^ (E + M + 1) < 2 ^ (4 * M + 44)) by (apply Z.pow_lt_mono_r; lia).
  assert (H2 : 2 ^ (M + M + 3) < 2 ^ (4 * M + 44)) by (apply Z.pow_lt_mono_r; lia).
  assert (H3 : 2 ^ (E + 3) < 2 ^ (4 * M + 44)) by (apply Z.pow_lt_mono_r; lia).
  rewrite (Z.pow_add_r 2 (M + M) 3), (Z.pow_add_r 2 M M) in H2 by lia. rewrite (Z.pow_add_r 2 E 3) in H3 by lia.
  change (2 ^ 3) with 8 in *.
  repeat split; try lia.
  - apply pow2_mono; lia.
  - apply pow2_mono; lia.
  - rewrite <- Z.pow_succ_r by lia. f_equal.
  - apply pow_S. lia.
  - apply pow_pos. lia.
  - apply Z.pow_add_r; lia.
  - apply pow_pos. lia.
Qed.

(** The circuit after the powers-of-two query. *)
Definition new_tail (s m e shift two : Z) : circ FloatVar :=
  let exponent_min := E_NORMAL_MIN E - 1 in
  let exponent := fadd e (emb exponent_min) in
  let mantissa_is_zero := isZero m in
  let mantissa_is_not_zero := fsub (emb 1) mantissa_is_zero in
  let exponent_is_min := IsEq exponent (emb exponent_min) in
  let exponent_is_max := IsEq exponent (emb (E_MAX E)) in
  let shifted_mantissa := fmul m two in
  sub_exponent <- select mantissa_is_zero
                    (fsub (emb exponent_min) (emb M)) (fsub exponent shift) ;;
  exponent' <- select exponent_is_min sub_exponent exponent ;;
  is_nan <- and_ exponent_is_max mantissa_is_not_zero ;;
  nm <- select is_nan (emb 0) (fadd m (emb (2 ^ M))) ;;
  mantissa <- select exponent_is_min (fadd shifted_mantissa shifted_mantissa) nm ;;
  Ret (mkF s exponent' mantissa exponent_is_max).

Lemma NewFloat_tail v : NewFloat E M v =
  (s <- hint1 (fst (DecodeFloatHint v E M)) ;;
   e <- hint1 (snd (DecodeFloatHint v E M)) ;;
   let m := fsub v (fadd (fmul s (emb (2 ^ (E + M)))) (fmul e (emb (2 ^ M)))) in
   assert_bool s ;;;
   AssertBitLength e E TightForUnknownRange ;;;
   AssertBitLength m M TightForUnknownRange ;;;
   shift <- hint1 (NormalizeHint m M) ;;
   AssertBitLength shift (BitLen M) Loose ;;;
   two <- QueryPow2 E M shift ;;
   AssertBitLength (fsub (fmul m two) (fmul (fsub (emb 1) (isZero m)) (emb (2 ^ (M - 1)))))
     (M - 1) TightForSmallAbs ;;;
   new_tail s m e shift two).
Proof. reflexivity. Qed.

Lemma new_shape s e m shift two : 0 <= e < 2 ^ E -> 0 <= m < 2 ^ M ->
  (m <> 0 -> shift = nshift M m /\ two = 2 ^ shift) ->
  mkF (emb (Z.b2z s))
    (emb (if e =? 0 then if m =? 0 then 1 - emax - M else e + (1 - emax) - shift else e + (1 - emax)))
    (emb (if e =? 0 then m * two + m * two
          else if (e =? 2 ^ E - 1) && negb (m =? 0) then 0 else m + 2 ^ M))
    (emb (Z.b2z (e =? 2 ^ E - 1))) = embF (znew E M s e m).
Proof.
  intros He Hm Hsh. exps E M. unfold znew, embF.
  destruct (Z.eqb_spec e 0) as [->|He0].
  - cbn [zs ze zm za]. destruct (Z.eqb_spec 0 (2 ^ E - 1)); [lia|].
    destruct (Z.eqb_spec m 0) as [->|Hm0].
    + unfold nshift. cbn [Z.eqb Z.mul Z.add]. reflexivity.
    + destruct (Hsh Hm0) as [-> ->]. do 2 f_equal; ring.
  - destruct (Z.eqb_spec e (2 ^ E - 1)) as [He1|He1]; cbn [zs ze zm za andb].
    + f_equal; [f_equal; lia|]. destruct (Z.eqb_spec m 0) as [->|]; reflexivity.
    + f_equal. f_equal. lia.
Qed.

Lemma new_eqs e : 0 <= e < 2 ^ E ->
  IsEq (fadd (emb e) (emb (E_NORMAL_MIN E - 1))) (emb (E_NORMAL_MIN E - 1)) = emb (Z.b2z (e =? 0)) /\
  IsEq (fadd (emb e) (emb (E_NORMAL_MIN E - 1))) (emb (E_MAX E)) = emb (Z.b2z (e =? 2 ^ E - 1)) /\
  E_NORMAL_MIN E - 1 = 1 - emax.
Proof.
  intros He. destruct new_pows as (P1 & P2 & P3 & P4 & P5 & P6 & P7 & P8 & P9 & P10).
  exps E M. rewrite fadd_emb.
  assert (Hn : E_NORMAL_MIN E - 1 = 1 - emax) by (unfold E_NORMAL_MIN, Spec.emax; lia).
  assert (Hx : E_MAX E = emax) by reflexivity.
  rewrite Hn, Hx, !IsEq_emb by lia.
  split; [|split]; [do 2 f_equal; lia|do 2 f_equal; lia|reflexivity].
Qed.

Lemma exec_new_tail s e m shift two : 0 <= e < 2 ^ E -> 0 <= m < 2 ^ M ->
  (m <> 0 -> shift = nshift M m /\ two = 2 ^ shift) ->
  exec b (new_tail (emb (Z.b2z s)) (emb m) (emb e) (emb shift) (emb two)) = Some (embF (znew E M s e m)).
Proof.
  intros He Hm Hsh. destruct new_pows as (P1 & P2 & P3 & P4 & P5 & P6 & P7 & P8 & P9 & P10).
  destruct (new_eqs e He) as (Q1 & Q2 & Q3). unfold new_tail. cbv zeta.
  rewrite Q1, Q2, Q3. rewrite isZero_emb, not_emb by lia. femb.
  repeat xstep. rewrite exec_ret. f_equal.
  apply (new_shape s e m shift two He Hm Hsh).
Qed.

Lemma sat_new_tail s e m shift two r : 0 <= e < 2 ^ E -> 0 <= m < 2 ^ M ->
  (m <> 0 -> shift = nshift M m /\ two = 2 ^ shift) ->
  sat b (new_tail (emb (Z.b2z s)) (emb m) (emb e) (emb shift) (emb two)) r -> r = embF (znew E M s e m).
Proof.
  intros He Hm Hsh H. destruct new_pows as (P1 & P2 & P3 & P4 & P5 & P6 & P7 & P8 & P9 & P10).
  destruct (new_eqs e He) as (Q1 & Q2 & Q3). unfold new_tail in H. cbv zeta in H.
  rewrite Q1, Q2, Q3 in H. rewrite isZero_emb, not_emb in H by lia. femb_in H.
  do 5 sstep H. apply sat_ret_inv in H. subst r.
  apply (new_shape s e m shift two He Hm Hsh).
Qed.

Lemma nshift_unique m i : 0 < m < 2 ^ M -> 0 <= i -> 2 ^ (M - 1) <= m * 2 ^ i < 2 ^ M ->
  i = nshift M m.
Proof.
  intros Hm Hi H. destruct (fmt_M (E:=E) (M:=M)) as [HM [HM1 HM2]].
  unfold nshift. destruct (Z.eqb_spec m 0); [lia|].
  assert (HL : Z.log2 (m * 2 ^ i) = M - 1).
  { apply Z.log2_unique; [lia|]. replace (Z.succ (M - 1)) with M by lia. exact H. }
  rewrite Z.log2_mul_pow2 in HL by lia. lia.
Qed.

Theorem newfloat_exec v : 0 <= v < 2 ^ (E + M + 1) ->
  exec b (NewFloat E M v) = Some (embF (zcomps E M v)).
Proof.
  intros Hv. params. destruct (fmt_M (E:=E) (M:=M)) as [HM [HM1 HM2]].
  destruct new_pows as (P1 & P2 & P3 & P4 & P5 & P6 & P7 & P8 & P9 & P10). exps E M.
  destruct (fields v Hv) as (Hs & He & Hm & _ & _).
  destruct (split_u64 v Hv) as (U1 & U2 & U3).
  change (zcomps E M v) with (znew E M (bsgn E M v) (bexp E M v) (bman M v)).
  set (s := bsgn E M v) in *. set (e := bexp E M v) in *. set (m := bman M v) in *.
  rewrite NewFloat_tail. unfold DecodeFloatHint. rewrite U1, U2, U3. cbn [fst snd].
  clearbody s e m.
  rewrite <- (emb_small v) by lia.
  do 2 xstep. femb.
  replace (v - (Z.b2z s * 2 ^ (E + M) + e * 2 ^ M)) with m by lia.
  xstep.
  do 2 rewrite exec_bind_eq with (a := tt) by (apply (exec_abl (K:=4*M+44)); lia).
  cbv zeta.
  set (sh := if m =? 0 then 0 else nshift M m).
  assert (Hnorm : NormalizeHint (emb m) M = Some sh).
  { unfold NormalizeHint, sh. rewrite emb_small by lia.
    destruct (Z.eqb_spec m 0); [reflexivity|]. rewrite lz_nshift by exact Hm. reflexivity. }
  rewrite Hnorm. xstep.
  destruct (nshift_facts m Hm) as (N1 & N2 & N3).
  assert (Hsh : 0 <= sh <= M) by (unfold sh; destruct (Z.eqb_spec m 0); lia).
  destruct (BitLen_bounds M ltac:(lia)) as [Hbl1 Hbl2].
  rewrite exec_bind_eq with (a := tt) by (apply (exec_abl (K:=4*M+44)); lia).
  xs (exec_QueryPow2 (E:=E) (M:=M) (b:=b) sh ltac:(lia)).
  rewrite isZero_emb, not_emb by lia. femb.
  rewrite exec_bind_eq with (a := tt).
  2:{ apply (exec_abl (K:=4*M+44)); [lia|lia|]. unfold sh.
      destruct (Z.eqb_spec m 0) as [->|H0]; cbn [negb Z.b2z]; [lia|].
      destruct N2 as [N2|N2]; lia. }
  apply exec_new_tail; [exact He|exact Hm|]. intros H0. unfold sh.
  destruct (Z.eqb_spec m 0); [contradiction|]. split; reflexivity.
Qed.

Theorem newfloat_sat v r : 0 <= v < modulus -> sat b (NewFloat E M v) r ->
  0 <= v < 2 ^ (E + M + 1) /\ r = embF (zcomps E M v).
Proof.
  intros Hv H. params. destruct (fmt_M (E:=E) (M:=M)) as [HM [HM1 HM2]].
  destruct new_pows as (P1 & P2 & P3 & P4 & P5 & P6 & P7 & P8 & P9 & P10). exps E M.
  rewrite NewFloat_tail in H.
  shint H sw Hsw. shint H e He. cbv zeta in H.
  apply sat_bind in H. destruct H as [u [Hs H]]. apply sat_assert_bool in Hs. destruct Hs as [s ->]. clear u Hsw.
  scheck H Ce. scheck H Cm.
  destruct (cap_room (b:=b) (K:=4*M+44) E ltac:(lia) ltac:(lia)) as (R1 & R2 & R3 & R4 & R5).
  destruct (cap_room (b:=b) (K:=4*M+44) M ltac:(lia) ltac:(lia)) as (R1' & _ & R3' & _ & _).
  apply range_ok_iff in Ce; [|lia|lia|exact He|lia|lia]. cbn in Ce.
  match type of Cm with range_ok _ ?w _ _ => set (m := w) in * end.
  assert (Hmr : 0 <= m < modulus) by (apply emb_range).
  apply range_ok_iff in Cm; [|lia|lia|exact Hmr|lia|lia]. cbn in Cm.
  assert (Hve : v = Z.b2z s * 2 ^ (E + M) + e * 2 ^ M + m).
  { assert (Hem : 0 <= e * 2 ^ M + m < 2 ^ (E + M)).
    { rewrite P7. clear - He Hmr Ce Cm HM1. nia. }
    assert (Hm : m = emb (v - (Z.b2z s * 2 ^ (E + M) + e * 2 ^ M))).
    { unfold m. rewrite <- (emb_small e He) at 1. rewrite <- (emb_small v Hv) at 1. femb. reflexivity. }
    rewrite <- (emb_small v Hv).
    rewrite <- (emb_small (_ + m)) by (destruct s; cbn [Z.b2z]; lia).
    rewrite Hm at 1. unfold emb. rewrite Zplus_mod_idemp_r. f_equal. ring. }
  destruct (fields_unique s e m v ltac:(lia) ltac:(lia) Hve) as (F1 & F2 & F3 & F4).
  split; [exact F1|].
  change (zcomps E M v) with (znew E M (bsgn E M v) (bexp E M v) (bman M v)).
  rewrite F2, F3, F4. clearbody m. clear F1 F2 F3 F4 Hve Hv.
  shint H sh Hsh. scheck H Csh.
  destruct (BitLen_bounds M ltac:(lia)) as [Hbl1 Hbl2].
  destruct (cap_room (b:=b) (K:=4*M+44) (BitLen M) ltac:(lia) ltac:(lia)) as (R1'' & _ & R3'' & _ & _).
  apply range_ok_iff in Csh; [|lia|lia|exact Hsh|lia|lia]. cbn in Csh.
  destruct (capacity_bounds b (BitLen M) ltac:(lia) ltac:(lia)) as (_ & K1 & K2).
  assert (Hshb : 2 ^ capacity b (BitLen M) <= 2 ^ (4 * M + 44 - 3 - pow2_size E M))
    by (apply pow2_mono; unfold pow2_size; lia).
  apply sat_bind in H. destruct H as [two [Htwo H]].
  rewrite <- (emb_small sh Hsh) in Htwo. unfold QueryPow2 in Htwo.
  apply sat_QueryPowerOf2 in Htwo; [|unfold pow2_size; lia|unfold pow2_size; lia|lia].
  destruct Htwo as (i & k & Hi & Hk & Hshe & -> & Hcap).
  set (t := 2 ^ i + k * 2 ^ pow2_size E M) in *.
  scheck H Cn. rewrite <- (emb_small m Hmr) in Cn, H. rewrite isZero_emb, not_emb in Cn by lia.
  femb_in Cn.
  destruct (capacity_bounds b (pow2_size E M) ltac:(lia) ltac:(unfold pow2_size; lia)) as (_ & K3 & K4).
  pose proof (pow_pos i ltac:(lia)) as Hpi.
  pose proof (pow_pos (pow2_size E M) ltac:(unfold pow2_size; lia)) as Hps.
  assert (Ht : 0 < t) by (unfold t; clear - Hpi Hps Hk; nia).
  assert (Htb : m * t <= 2 ^ (4 * M + 44 - b - 1)).
  { apply Z.le_trans with (2 ^ M * 2 ^ capacity b (pow2_size E M)).
    - apply Z.mul_le_mono_nonneg; lia.
    - rewrite <- Z.pow_add_r by lia. apply pow2_mono. unfold pow2_size in *. lia. }
  assert (HMb : 2 ^ (M - 1) <= 2 ^ (4 * M + 44 - b - 1)) by (apply pow2_mono; lia).
  assert (HSb : 2 ^ (4 * M + 44 - b) = 2 * 2 ^ (4 * M + 44 - b - 1)) by (apply pow_S; lia).
  assert (Hmt : 0 <= m * t) by (apply Z.mul_nonneg_nonneg; lia).
  apply (check_small (b:=b) (K:=4*M+44)) in Cn; [|lia|lia|destruct (m =? 0); cbn [negb Z.b2z]; lia].
  rewrite <- (emb_small e He) in H. rewrite <- (emb_small sh Hsh) in H.
  apply sat_new_tail in H; [exact H|lia|lia|].
  intros Hm0. destruct (Z.eqb_spec m 0); [contradiction|]. cbn [negb Z.b2z] in Cn.
  assert (Hk0 : k = 0).
  { assert (Hps2 : 2 ^ M <= 2 ^ pow2_size E M) by (apply pow2_mono; unfold pow2_size; lia).
    assert (Hm1 : 1 <= m) by lia. assert (Hlt : m * t < 2 ^ M) by lia.
    assert (Htm : t <= m * t) by (clear - Ht Hm1; nia).
    clear - Hk Hps2 Hps Hlt Htm Hpi. unfold t in *.
    destruct (Z_le_gt_dec k 0) as [Hk0|Hk1]; [Lia.lia|].
    assert (1 * 2 ^ pow2_size E M <= k * 2 ^ pow2_size E M) by (apply Z.mul_le_mono_nonneg_r; Lia.lia).
    Lia.lia. }
  assert (Ht2 : t = 2 ^ i) by (unfold t; rewrite Hk0; ring).
  assert (Hsi : sh = i) by lia. rewrite Hsi, Ht2. split; [|reflexivity].
  rewrite Ht2 in Cn. apply nshift_unique; lia.
Qed.

Lemma newconst_comps v : 0 <= v < 2 ^ (E + M + 1) -> NewConstant E M v = embF (zcomps E M v).
Proof. intros Hv. unfold NewConstant. rewrite components_spec by exact Hv. reflexivity. Qed.

Theorem newconst_spec v : 0 <= v < 2 ^ (E + M + 1) -> represents (NewConstant E M v) (of_bits E M v).
Proof.
  intros Hv. rewrite newconst_comps by exact Hv. exists (zcomps E M v).
  split; [reflexivity|]. apply zcomps_spec, Hv.
Qed.

Theorem newfloat_complete v : 0 <= v < 2 ^ (E + M + 1) ->
  exec b (NewFloat E M v) = Some (NewConstant E M v) /\
  represents (NewConstant E M v) (of_bits E M v).
Proof.
  intros Hv. split; [|apply newconst_spec, Hv].
  rewrite newconst_comps by exact Hv. apply newfloat_exec, Hv.
Qed.

Theorem newfloat_sound v r : 0 <= v < modulus ->
  (sat b (NewFloat E M v) r <-> 0 <= v < 2 ^ (E + M + 1) /\ r = NewConstant E M v).
Proof.
  intros Hv. split.
  - intros H. destruct (newfloat_sat v r Hv H) as [H1 ->]. split; [exact H1|].
    symmetry. apply newconst_comps, H1.
  - intros [H1 ->]. apply exec_sat. apply newfloat_complete, H1.
Qed.
Theorem newfloat_rejects v : 2 ^ (E + M + 1) <= v < modulus ->
  exec b (NewFloat E M v) = None /\ forall r, ~ sat b (NewFloat E M v) r.
Proof.
  intros Hv. assert (Hp : 0 <= 2 ^ (E + M + 1)) by (apply Z.pow_nonneg; lia).
  assert (H : forall r, ~ sat b (NewFloat E M v) r).
  { intros r Hr. apply newfloat_sound in Hr; lia. }
  split; [|exact H]. destruct (exec b (NewFloat E M v)) as [r|] eqn:Er; [|reflexivity].
  exfalso. apply (H r), exec_sat, Er.
Qed.

End New.
