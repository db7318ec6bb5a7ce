(** Which choices of the prover the operations accept: converses of the
    soundness lemmas. *)
From Coq Require Import ZArith Reals Bool List Lia Lra ZifyBool.
From Flocq Require Import Core Digits BinarySingleNaN.
From Verif Require Import Field FieldFacts Circuit Hints RangeCheck Gadget FloatModel
  CircuitFacts RangeFacts GadgetFacts RoundFacts Spec RoundCore RepFacts MulFacts DivFacts SqrtFacts
  AddFacts AddSpec Tactics.
Local Open Scope Z_scope.

(** An honest step of a satisfying assignment. *)
Lemma sat_step {MOD : Modulus} {HB : BigMod} b {A B} (c : circ A) (f : A -> circ B) a r :
  exec b c = Some a -> sat b (f a) r -> sat b (bind c f) r.
Proof. intros H1 H2. apply sat_bind. exists a. split; [apply exec_sat, H1|exact H2]. Qed.

Ltac ys L := eapply sat_step; [exact L|]; cbv beta iota.
Ltac ystep :=
  match goal with
  | |- sat ?b (bind (select (emb (Z.b2z ?c)) (emb ?x) (emb ?y)) ?f) _ =>
      apply (sat_step b _ f _ _ (exec_select_emb b c x y)); cbv beta
  | |- sat ?b (bind (and_ (emb (Z.b2z ?c)) (emb (Z.b2z ?d))) ?f) _ =>
      apply (sat_step b _ f _ _ (exec_and b c d)); cbv beta
  | |- sat ?b (bind (or_ (emb (Z.b2z ?c)) (emb (Z.b2z ?d))) ?f) _ =>
      apply (sat_step b _ f _ _ (exec_or b c d)); cbv beta
  | |- sat ?b (bind (xor_ (emb (Z.b2z ?c)) (emb (Z.b2z ?d))) ?f) _ =>
      apply (sat_step b _ f _ _ (exec_xor b c d)); cbv beta
  | |- sat ?b (bind (assert_bool (emb (Z.b2z ?c))) ?f) _ =>
      apply (sat_step b _ f _ _ (exec_assert_bool b c)); cbv beta
  | |- sat ?b (bind (hint1 (Some ?w)) ?f) _ =>
      apply (sat_step b _ f _ _ (exec_hint1 b w)); cbv beta
  end.

Section Forge.
Context {MOD : Modulus} {E M b : Z} {HP : Params E M b} {HF : Format E M}.
#[local] Instance fo_width : Width b (4 * M + 44) := params_width E M b HP.
#[local] Instance fo_big : BigMod := width_big b _ fo_width.

Notation emax := (Spec.emax E).
Notation emin := (Spec.emin E M).
Notation rnd := (Generic_fmt.round radix2 (FLT_exp (Spec.emin E M) (Spec.prec M)) ZnearestE).

Section Ops.
Variables x y : zf.
Hypotheses (Hx : zwf (E:=E) (M:=M) x) (Hy : zwf (E:=E) (M:=M) y).

Lemma sat_Mul_intro pos : fix_pos_ok (E:=E) (M:=M) (mul_zr E M x y) (mul_e M x y) pos ->
  sat b (Mul E M (embF x) (embF y)) (embF (zmul E M x y pos)).
Proof.
  intros Hpos.
  params. destruct (mul_bounds x y Hx Hy) as (Hp & Hn & He & H2 & H1 & Hk & H0).
  destruct (fmt_M (E:=E) (M:=M)) as [HM [HM1 HM2]].
  exps E M.
  destruct (small_pow (E:=E) (M:=M) (b:=b)) as (Hs1 & Hs2 & Hs3 & Hs4 & Hs5 & Hs6 & Hs7 & Hs8 & Hs9).
  pose proof (mul_zr_range x y Hx Hy) as [Hzr _].
  unfold Mul, embF. cbn [Sign Exponent Mantissa IsAbnormal].
  ystep. rewrite fmul_emb. set (p := zm x * zm y) in *.
  assert (Hpm : emb p = p).
  { apply emb_small. assert (2 ^ (4 * M + 44 - b) <= modulus) by (apply (room (b:=b) (K:=4*M+44)); lia). lia. }
  assert (Hbit : NthBitHint (emb p) ((M + 1) * 2 - 1) = Some (Z.b2z (2 ^ (2 * M + 1) <=? p))).
  { unfold NthBitHint. rewrite Hpm. f_equal. replace ((M + 1) * 2 - 1) with (2 * M + 1) by lia.
    apply bit_top; [lia|]. replace (2 * M + 1 + 1) with (2 * M + 2) by lia. exact Hp. }
  rewrite Hbit. set (msb := 2 ^ (2 * M + 1) <=? p) in *.
  repeat ystep.
  replace ((M + 1) * 2 - 1) with (2 * M + 1) by lia.
  rewrite fmul_emb, fsub_emb.
  eapply sat_step with (a := tt).
  { apply (exec_abl (K:=4*M+44)); [lia|lia|]. unfold msb.
      destruct (Z.leb_spec (2 ^ (2 * M + 1)) p); cbn [Z.b2z]; lia. }
  cbv zeta. ystep. rewrite !fadd_emb.
  change (ze x + ze y + Z.b2z msb) with (mul_e M x y).
  replace (p + (if msb then 0 else p)) with (mul_n M x y).
  2:{ unfold mul_n. cbv zeta. fold p. fold msb. destruct msb; lia. }
  ys (exec_subnormal_shift (E:=E) (M:=M) (b:=b) (mul_e M x y) (M + 2)
        ltac:(lia) ltac:(lia) ltac:(lia)
        ltac:(lia)).
  change (emb 1) with (emb (Z.b2z true)).
  ys (exec_zround (E:=E) (M:=M) (b:=b) _ _ _ _ true
        (mul_round_pre x y Hx Hy _ (zshift_range (E:=E) (mul_e M x y) (M + 2) ltac:(lia)))).
  change (zround M (mul_n M x y) ((M + 1) * 2) (zshift (E:=E) (mul_e M x y) (M + 2)) true)
    with (mul_zr E M x y).
  rewrite isZero_emb by lia.
  ystep.
  unfold zmul, fix_out.
  apply sat_bind. eexists. split; [apply (sat_fixOverflow_intro (E:=E) (M:=M) (b:=b)) with (pos := pos); [lia|lia|exact Hpos]|].
  destruct (zfix _ _ _ _ _) as [[m' e'] ab].
  ystep. reflexivity.
Qed.

Lemma sat_Div_intro pos : fix_pos_ok (E:=E) (M:=M) (div_zr E M x y) (div_e M x y) pos ->
  sat b (Div E M (embF x) (embF y)) (embF (zdiv E M x y pos)).
Proof.
  intros Hpos.
  params. exps E M. destruct (fmt_M (E:=E) (M:=M)) as [HM [HM1 HM2]].
  destruct (div_bounds x y Hx Hy) as (B1 & B2 & B3 & B4 & B5 & B6 & _ & _ & B9 & B10 & B11 & B12 & B13).
  pose proof (div_zr_range x y Hx Hy) as [Hzr _].
  assert (Hmod : 2 ^ (4 * M + 44 - b) <= modulus) by (apply (room (b:=b) (K:=4*M+44)); lia).
  assert (Hbig : 2 ^ (M + 3) * 2 <= 2 ^ (2 * M + 5)) by (rewrite B12; nia).
  unfold Div, embF. cbn [Sign Exponent Mantissa IsAbnormal].
  ystep. rewrite isZero_emb.
  2:{ destruct Hy; lia. }
  ystep. fold (div_y M y).
  assert (Hxm : 0 <= zm x) by lia.
  assert (Hq : DivHint (emb (zm x)) (emb (div_y M y)) (M + 2) = Some (div_q M x y)).
  { unfold DivHint. rewrite !emb_small by lia. rewrite Z.shiftl_mul_pow2 by lia.
    destruct (Z.eqb_spec (div_y M y) 0); [lia|]. reflexivity. }
  rewrite Hq. ystep.
  assert (Hbit : NthBitHint (emb (div_q M x y)) (M + 2) = Some (Z.b2z (div_msb M x y))).
  { unfold NthBitHint. rewrite emb_small by lia. f_equal.
    apply bit_top; [lia|]. replace (M + 2 + 1) with (M + 3) by lia. exact B6. }
  rewrite Hbit. repeat ystep. cbv zeta.
  femb.
  replace (zm x * 2 ^ (M + 2) - div_q M x y * div_y M y) with (div_r M x y) by lia.
  eapply sat_step with (a := tt); [apply (exec_abl (K:=4*M+44)); lia|].
  eapply sat_step with (a := tt); [apply (exec_abl (K:=4*M+44)); lia|].
  replace (M + 2 + 1 - 1) with (M + 2) by lia.
  eapply sat_step with (a := tt).
  { apply (exec_abl (K:=4*M+44)); [lia|lia|]. unfold div_msb.
      destruct (Z.leb_spec (2 ^ (M + 2)) (div_q M x y)); cbn [Z.b2z]; lia. }
  ystep. rewrite !fadd_emb.
  change (ze x - ze y - (1 - Z.b2z (div_msb M x y))) with (div_e M x y).
  replace (div_q M x y + (if div_msb M x y then 0 else div_q M x y)) with (div_n M x y).
  2:{ unfold div_n. destruct (div_msb M x y); lia. }
  ys (exec_subnormal_shift (E:=E) (M:=M) (b:=b) (div_e M x y) (M + 2)
        ltac:(lia) ltac:(lia) ltac:(lia) ltac:(lia)).
  rewrite isZero_emb by lia. replace (M + 2 + 1) with (M + 3) by lia.
  ys (exec_zround (E:=E) (M:=M) (b:=b) _ _ _ _ (div_r M x y =? 0)
        (div_round_pre x y Hx Hy _ (zshift_range (E:=E) (div_e M x y) (M + 2) ltac:(lia)))).
  change (zround M (div_n M x y) (M + 3) (zshift (E:=E) (div_e M x y) (M + 2)) (div_r M x y =? 0))
    with (div_zr E M x y).
  rewrite isZero_emb by lia.
  repeat ystep.
  unfold zdiv.
  apply sat_bind. eexists. split; [apply (sat_fixOverflow_intro (E:=E) (M:=M) (b:=b)) with (pos := pos); [lia|lia|exact Hpos]|].
  destruct (zfix _ _ _ _ _) as [[m' e'] ab].
  ystep. reflexivity.
Qed.

Lemma sat_Add_intro c2 shift pos : add_choice E M x y c2 shift pos ->
  sat b (Add E M (embF x) (embF y)) (embF (zadd E M x y c2 shift pos)).
Proof.
  intros (Hpin & Hshift & Hpos).
  params. exps E M. destruct (fmt_M (E:=E) (M:=M)) as [HM [HM1 HM2]].
  destruct (add_pows (E:=E) (M:=M) (b:=b)) as (P3 & P23 & P24 & P25 & P25' & P24').
  destruct (add_bounds (b:=b) x y Hx Hy) as (B1 & B2 & B3 & B4).
  assert (Hn : 0 <= Z.abs (add_s M x y) * 2 ^ shift < 2 ^ (2 * M + 5)).
  { destruct (Z.eq_dec (add_s M x y) 0) as [H0|H0].
    - rewrite H0. cbn [Z.abs]. rewrite Z.mul_0_l. lia.
    - destruct (Hpin H0) as [_ ->]. pose proof (add_norm (b:=b) x y Hx Hy H0). lia. }
  destruct (add_zr_range (b:=b) x y Hx Hy shift) as [Hzr _].
  { destruct (Z.eq_dec (add_s M x y) 0) as [H0|H0]; [left; exact H0|right; apply Hpin, H0]. }
  assert (Hmod : 2 ^ (4 * M + 44 - b) <= modulus) by (apply (room (b:=b) (K:=4*M+44)); lia).
  assert (Hk : 2 ^ (2 * M + 5) <= 2 ^ (4 * M + 44 - b)) by (apply pow2_mono; lia).
  assert (Hk2 : 2 ^ (2 * M + 5) < 2 ^ (4 * M + 44 - 2)) by (apply Z.pow_lt_mono_r; lia).
  unfold Add, embF. cbn [Sign Exponent Mantissa IsAbnormal]. rewrite fsub_emb.
  ys (exec_GAbs (b:=b) (K:=4*M+44) (ze y - ze x) (E + 1) ltac:(lia) ltac:(lia) ltac:(lia)).
  ystep. rewrite fsub_emb.
  ys (exec_GMax (b:=b) (K:=4*M+44) (M + 3 - Z.abs (ze y - ze x)) 0 E ltac:(lia) ltac:(lia) ltac:(lia)).
  fold (add_D M x y).
  ys (exec_QueryPow2 (E:=E) (M:=M) (b:=b) (add_D M x y) ltac:(lia)).
  rewrite !fneg_emb. do 2 ystep. rewrite (sv_wire x), (sv_wire y). ystep.
  replace (0 <=? ze y - ze x) with (ze x <=? ze y) by Lia.lia.
  cbv zeta. rewrite sum_select. fold (add_lo x y). fold (add_hi x y).
  rewrite !fmul_emb, fadd_emb. fold (add_s M x y).
  replace (M + 3 + (M + 1) + 1) with (2 * M + 5) by ring.
  apply sat_bind. exists (emb (Z.b2z c2)). split; [apply sat_hint1, emb_range|].
  apply sat_bind. exists (emb 0). split; [apply sat_hint1, emb_range|].
  ystep.
  apply sat_bind. exists (emb shift). split; [apply sat_hint1, emb_range|].
  destruct (BitLen_bounds (2 * M + 5) ltac:(lia)) as [Hbl1 Hbl2].
  eapply sat_step with (a := tt); [apply (exec_abl (K:=4*M+44)); lia|].
  ys (exec_QueryPow2 (E:=E) (M:=M) (b:=b) shift ltac:(lia)).
  rewrite fneg_emb. ystep. rewrite !fmul_emb. rewrite (add_nz (b:=b) x y Hx Hy c2 shift Hshift).
  pose proof (proj2 (add_pinned (b:=b) x y Hx Hy c2 shift Hshift) Hpin) as Hck.
  cbv zeta in Hck.
  femb. rewrite !b2z_not.
  replace (1 - Z.b2z (add_s M x y =? 0)) with (Z.b2z (negb (add_s M x y =? 0)))
    by (destruct (add_s M x y =? 0); reflexivity).
  replace (2 * M + 5 - 1) with (2 * M + 4) by ring.
  eapply sat_step with (a := tt); [apply (exec_abl (K:=4*M+44)); [lia|lia|exact Hck]|].
  rewrite (add_abs_n x y c2 shift Hpin).
  rewrite (IsEq_bool (E:=E) (M:=M) (b:=b)).
  replace (if ze x <=? ze y then ze y else ze x) with (Z.max (ze x) (ze y))
    by (clear; destruct (Z.leb_spec (ze x) (ze y)); Lia.lia).
  femb. fold (add_e x y shift).
  ystep. change (emb 1) with (emb (Z.b2z true)).
  ys (exec_zround (E:=E) (M:=M) (b:=b) _ _ _ _ true (add_round_pre (b:=b) _ Hn)).
  fold (add_zr M x y shift).
  ystep. unfold zadd.
  apply sat_bind. eexists. split.
  { apply (sat_fixOverflow_intro (E:=E) (M:=M) (b:=b)) with (pos := pos); [lia| |exact Hpos].
    unfold add_e. destruct Hx as [Hx1 _], Hy as [Hy1 _]. lia. }
  destruct (zfix _ _ _ _ _) as [[m' e'] ab].
  rewrite (add_keep (E:=E) (M:=M) (b:=b) x y Hx Hy).
  repeat ystep. apply sat_ret. unfold embF. cbn [zs ze zm za].
  f_equal. destruct (Bool.eqb (zs x) (zs y)); reflexivity.
Qed.
End Ops.

Lemma embF_inj z w : zwf (E:=E) (M:=M) z -> emin - 1 <= ze w <= emax -> 0 <= zm w < 2 ^ (M + 1) ->
  embF z = embF w -> z = w.
Proof.
  intros Wz He Hm H. exps E M. destruct (fmt_M (E:=E) (M:=M)) as [HM [HM1 HM2]]. params.
  destruct (small_pow (E:=E) (M:=M) (b:=b)) as (Hs1 & _ & _ & _ & _ & _ & Hs7 & _).
  destruct (sv_range (E:=E) (M:=M) z Wz) as (_ & _ & Hzm). destruct Wz as [Wz _].
  unfold embF in H. injection H as H1 H2 H3 H4.
  assert (ze z = ze w) by (apply emb_inj; [exact H2|lia]).
  assert (zm z = zm w) by (apply emb_inj; [exact H3|lia]).
  assert (Hb : forall c d, emb (Z.b2z c) = emb (Z.b2z d) -> c = d).
  { intros c d Hc. apply emb_inj in Hc; [destruct c, d; simpl in Hc; congruence|].
    pose proof (pow_pos (M + 1) ltac:(lia)). destruct c, d; cbn [Z.b2z]; lia. }
  apply Hb in H1, H4. destruct z, w. cbn in *. congruence.
Qed.

(** Wires stand for at most one datum. *)
Lemma zrep_inj z (f g : fmt E M) : zrep E M z f -> zrep E M z g -> f = g.
Proof.
  intros Hf Hg.
  assert (Hfin : forall h : fmt E M, zrep E M z h -> is_finite h = negb (za z)).
  { intros h Hh. destruct h; cbn in Hh; try (subst z; reflexivity).
    destruct Hh as [s ->]. reflexivity. }
  pose proof (Hfin f Hf) as Ff. pose proof (Hfin g Hg) as Fg.
  destruct (za z) eqn:Ha; cbn in Ff, Fg.
  - destruct (fmt_M (E:=E) (M:=M)) as [HM [HM1 HM2]].
    destruct f as [s|s| |s m e H]; try discriminate Ff;
      destruct g as [s'|s'| |s' m' e' H']; try discriminate Fg; cbn in Hf, Hg; try reflexivity.
    + congruence.
    + exfalso. destruct Hg as [s' Hg]. rewrite Hf in Hg. injection Hg as _ Hg. lia.
    + exfalso. destruct Hf as [s0 Hf]. rewrite Hf in Hg. injection Hg as _ Hg. lia.
  - destruct (zrep_B2R z f Hf Ff) as (Vf & Sf & _). destruct (zrep_B2R z g Hg Fg) as (Vg & Sg & _).
    apply B2R_Bsign_inj; congruence.
Qed.

Lemma represents_inj r (f g : fmt E M) : represents r f -> represents r g -> f = g.
Proof.
  intros (z & -> & Hf) (w & Hw & Hg).
  assert (z = w).
  { apply embF_inj; [exact (zrep_zwf _ _ Hf)| |
      exact (proj2 (proj2 (sv_range (E:=E) (M:=M) w (zrep_zwf _ _ Hg))))|exact Hw].
    destruct (zrep_zwf _ _ Hg) as [H _]. exact H. }
  subst w. eapply zrep_inj; eassumption.
Qed.

(** Unflagged wires of the reserved exponent stand for nothing. *)
Lemma malformed_no_datum s m : 2 ^ M <= m < 2 ^ (M + 1) ->
  forall f : fmt E M, ~ represents (embF (mkZ s emax m false)) f.
Proof.
  intros Hm f (z & Hz & Hf). exps E M. destruct (fmt_M (E:=E) (M:=M)) as [HM [HM1 HM2]].
  pose proof (zrep_zwf _ _ Hf) as Wz.
  symmetry in Hz. apply embF_inj in Hz; [|exact Wz|cbn [ze]; lia|cbn [zm]; lia].
  subst z. destruct Wz as [_ Wz]. cbn [zm ze za] in Wz. lia.
Qed.

Lemma overflow_no_datum s v r : overflow_wires E M s v r -> forall f : fmt E M, ~ represents r f.
Proof. intros (m & Hm & _ & ->). apply malformed_no_datum, Hm. Qed.

Lemma window m zr e : 2 ^ M <= m < 2 ^ (M + 1) -> zr = 0 \/ 2 ^ M <= zr <= 2 ^ (M + 1) ->
  (IZR m * bpow radix2 (emax - M) = IZR zr * bpow radix2 (e - M))%R <->
  e + Z.b2z (zr =? 2 ^ (M + 1)) = emax /\ m = if zr =? 2 ^ (M + 1) then 2 ^ M else zr.
Proof.
  intros Hm Hz. destruct (fmt_M (E:=E) (M:=M)) as [HM [HM1 HM2]].
  assert (Hgo : forall m' e', 2 ^ M <= m' < 2 ^ (M + 1) ->
    (IZR m * bpow radix2 (emax - M) = IZR m' * bpow radix2 (e' - M))%R <-> e' = emax /\ m = m').
  { intros m' e' Hm'. split; [|intros [-> ->]; reflexivity]. intros Heq.
    pose proof (zmag_mag (E:=E) (M:=M) (mkZ false emax m false) Hm) as M1.
    pose proof (zmag_mag (E:=E) (M:=M) (mkZ false e' m' false) Hm') as M2.
    unfold zmag in M1, M2. cbn [zm ze] in M1, M2. rewrite Heq, M2 in M1.
    assert (e' = emax) by lia. subst e'. split; [reflexivity|].
    apply eq_IZR. apply Rmult_eq_reg_r in Heq; [exact Heq|]. apply Rgt_not_eq, bpow_gt_0. }
  destruct (Z.eqb_spec zr (2 ^ (M + 1))) as [->|Hne]; cbn [Z.b2z].
  - rewrite <- Hgo by lia.
    replace (IZR (2 ^ (M + 1)) * bpow radix2 (e - M))%R with (IZR (2 ^ M) * bpow radix2 (e + 1 - M))%R.
    + reflexivity.
    + rewrite HM2, mult_IZR. replace (e + 1 - M) with (e - M + 1) by ring. rewrite bpow_plus.
      change (bpow radix2 1) with 2%R. ring.
  - rewrite Z.add_0_r. destruct Hz as [->|Hz]; [|apply Hgo; lia].
    split; [|lia]. rewrite Rmult_0_l. intros H. exfalso.
    pose proof (bpow_gt_0 radix2 (emax - M)).
    assert (0 < IZR m)%R by (apply IZR_lt; lia). nra.
Qed.

Lemma fix_out_window sg zr e : 2 ^ M <= zr <= 2 ^ (M + 1) ->
  e + Z.b2z (zr =? 2 ^ (M + 1)) = emax ->
  fix_out (E:=E) (M:=M) sg zr e false false
  = mkZ sg emax (if zr =? 2 ^ (M + 1) then 2 ^ M else zr) false /\
  fix_pos_ok (E:=E) (M:=M) zr e false.
Proof.
  intros Hz He. destruct (fmt_M (E:=E) (M:=M)) as [HM [HM1 HM2]]. exps E M. split.
  - unfold fix_out, zfix. cbn [orb]. rewrite orb_false_r.
    destruct (Z.eqb_spec zr 0); [lia|]. rewrite He. reflexivity.
  - unfold fix_pos_ok. cbv zeta. rewrite He, Hex1. split; [lia|reflexivity].
Qed.

(** ** Multiplication *)

Lemma mul_zr_cases x y : zwf (E:=E) (M:=M) x -> zwf (E:=E) (M:=M) y ->
  mul_zr E M x y = 0 \/ 2 ^ M <= mul_zr E M x y <= 2 ^ (M + 1).
Proof.
  intros Wx Wy. destruct (fmt_M (E:=E) (M:=M)) as [HM [HM1 HM2]].
  destruct (mul_bounds x y Wx Wy) as (_ & Hn & _).
  unfold mul_zr. destruct Hn as [Hn|Hn].
  - rewrite Hn. left. apply zround_0; [lia|]. unfold zshift. Lia.lia.
  - destruct (zround_range (E:=E) (M:=M) (mul_n M x y) ((M + 1) * 2)
      (zshift (E:=E) (mul_e M x y) (M + 2)) true ltac:(lia)) as [[Hz _]|Hz]; [| |left; exact Hz|right; exact Hz].
    + replace ((M + 1) * 2 - 1) with (2 * M + 1) by ring.
      replace ((M + 1) * 2) with (2 * M + 2) by ring. exact Hn.
    + unfold zshift. Lia.lia.
Qed.

Lemma mul_value x y (fx fy : fmt E M) : zrep E M x fx -> zrep E M y fy ->
  is_finite fx = true -> is_finite fy = true ->
  Rabs (rne E M (B2R fx * B2R fy)) = (IZR (mul_zr E M x y) * bpow radix2 (mul_e M x y - M))%R /\
  xorb (Bsign fx) (Bsign fy) = xorb (zs x) (zs y).
Proof.
  intros Hx Hy Fx Fy. pose proof (zrep_zwf _ _ Hx) as Wx. pose proof (zrep_zwf _ _ Hy) as Wy.
  destruct (zrep_B2R x fx Hx Fx) as (Vx & -> & _ & _). destruct (zrep_B2R y fy Hy Fy) as (Vy & -> & _ & _).
  split; [|reflexivity]. rewrite Vx, Vy.
  replace (sgn (zs x) * zmag (M:=M) x * (sgn (zs y) * zmag (M:=M) y))%R
      with (sgn (xorb (zs x) (zs y)) * (zmag (M:=M) x * zmag (M:=M) y))%R by (rewrite sgn_xor; ring).
  unfold rne. rewrite rnd_sgn, sgn_abs, (mul_rounded x y Wx Wy).
  apply Rabs_pos_eq, Rmult_le_pos; [|apply bpow_ge_0].
  apply IZR_le. destruct (fmt_M (E:=E) (M:=M)) as [HM [HM1 HM2]].
  destruct (mul_zr_cases x y Wx Wy); lia.
Qed.

Theorem mul_sound_exact x y (fx fy : fmt E M) r : pow2_size E M mod b = 0 ->
  represents x fx -> represents y fy -> sat b (Mul E M x y) r ->
  represents r (ieee_mul E M fx fy) \/
  (is_finite fx = true /\ is_finite fy = true /\
   overflow_wires E M (xorb (Bsign fx) (Bsign fy)) (B2R fx * B2R fy) r).
Proof.
  intros Hd [zx [-> Hx]] [zy [-> Hy]] H. destruct (fmt_M (E:=E) (M:=M)) as [HM [HM1 HM2]].
  pose proof (zrep_zwf _ _ Hx) as Wx. pose proof (zrep_zwf _ _ Hy) as Wy.
  destruct (sat_Mul zx zy Wx Wy r Hd H) as [pos [Hpos ->]].
  destruct (mul_spec zx zy fx fy _ Hx Hy Hpos) as [H'|(H1 & H2 & -> & He & H3 & m & Hm & H5)].
  - left. eexists. split; [reflexivity|exact H'].
  - right. split; [exact H1|]. split; [exact H2|].
    destruct (mul_value zx zy fx fy Hx Hy H1 H2) as [Hv ->].
    exists m. split; [exact Hm|]. split; [|rewrite H5; reflexivity].
    rewrite Hv. symmetry. apply (window m _ _ Hm (mul_zr_cases zx zy Wx Wy)).
    split; [exact He|].
    destruct (zrep_B2R zx fx Hx H1) as (_ & _ & Ax & _). destruct (zrep_B2R zy fy Hy H2) as (_ & _ & Ay & _).
    unfold zmul in H5. rewrite Ax, Ay in H5. cbn [orb] in H5.
    destruct (mul_zr_cases zx zy Wx Wy) as [Hz|Hz].
    + unfold fix_out in H5. rewrite Hz in H5.
      destruct (zfix _ _ _ _ _) as [[? ?] ?]. apply (f_equal zm) in H5. cbn in H5. lia.
    + rewrite (proj1 (fix_out_window _ _ _ Hz He)) in H5.
      apply (f_equal zm) in H5. cbn [zm] in H5. symmetry. exact H5.
Qed.

Theorem mul_forgery x y (fx fy : fmt E M) r : represents x fx -> represents y fy ->
  is_finite fx = true -> is_finite fy = true ->
  overflow_wires E M (xorb (Bsign fx) (Bsign fy)) (B2R fx * B2R fy) r ->
  sat b (Mul E M x y) r.
Proof.
  intros [zx [-> Hx]] [zy [-> Hy]] Fx Fy (m & Hm & Hv & ->).
  destruct (fmt_M (E:=E) (M:=M)) as [HM [HM1 HM2]].
  pose proof (zrep_zwf _ _ Hx) as Wx. pose proof (zrep_zwf _ _ Hy) as Wy.
  destruct (mul_value zx zy fx fy Hx Hy Fx Fy) as [Hv' Hs]. rewrite Hv' in Hv. symmetry in Hv.
  apply (window m _ _ Hm (mul_zr_cases zx zy Wx Wy)) in Hv. destruct Hv as [He Hmz].
  assert (Hz : 2 ^ M <= mul_zr E M zx zy <= 2 ^ (M + 1)).
  { destruct (mul_zr_cases zx zy Wx Wy) as [Hz|Hz]; [|exact Hz]. exfalso.
    rewrite Hz in Hmz. destruct (Z.eqb_spec 0 (2 ^ (M + 1))); lia. }
  destruct (fix_out_window (xorb (zs zx) (zs zy)) _ _ Hz He) as [Ho Hpos].
  pose proof (sat_Mul_intro zx zy Wx Wy false Hpos) as H.
  destruct (zrep_B2R zx fx Hx Fx) as (_ & _ & Ax & _). destruct (zrep_B2R zy fy Hy Fy) as (_ & _ & Ay & _).
  unfold zmul in H. rewrite Ax, Ay in H. cbn [orb] in H. rewrite Ho in H.
  rewrite Hs, Hmz. exact H.
Qed.

(** ** Division *)

Lemma div_zr_cases x y : zwf (E:=E) (M:=M) x -> zwf (E:=E) (M:=M) y ->
  div_zr E M x y = 0 \/ 2 ^ M <= div_zr E M x y <= 2 ^ (M + 1).
Proof. intros Wx Wy. pose proof (div_zr_range (b:=b) x y Wx Wy) as [H1 H2]. lia. Qed.

Lemma div_val x y (fx fy : fmt E M) : zrep E M x fx -> zrep E M y fy ->
  is_finite fx = true -> is_finite_strict fy = true ->
  Rabs (rne E M (B2R fx / B2R fy)) = (IZR (div_zr E M x y) * bpow radix2 (div_e M x y - M))%R /\
  xorb (Bsign fx) (Bsign fy) = xorb (zs x) (zs y) /\ za x = false /\ za y = false /\ zm y <> 0.
Proof.
  intros Hx Hy Fx Fy. pose proof (zrep_zwf _ _ Hx) as Wx. pose proof (zrep_zwf _ _ Hy) as Wy.
  destruct (fmt_M (E:=E) (M:=M)) as [HM [HM1 HM2]].
  assert (Fy' : is_finite fy = true) by (destruct fy; try discriminate; reflexivity).
  destruct (zrep_B2R x fx Hx Fx) as (Vx & -> & Ax & _). destruct (zrep_B2R y fy Hy Fy') as (Vy & -> & Ay & _).
  assert (Hym : 2 ^ M <= zm y).
  { destruct fy as [sy|sy| |sy my ey Hby]; try discriminate.
    destruct (zrep_finite _ _ _ _ _ Hy) as (_ & (_ & Hf & _) & _). lia. }
  split; [|repeat split; try assumption; lia]. rewrite Vx, Vy.
  pose proof (zmag_pos (E:=E) (M:=M) y Hym) as Hyp.
  replace (sgn (zs x) * zmag (M:=M) x / (sgn (zs y) * zmag (M:=M) y))%R
        with (sgn (xorb (zs x) (zs y)) * (zmag (M:=M) x / zmag (M:=M) y))%R.
  2:{ rewrite sgn_xor. destruct (zs x), (zs y); simpl; field; lra. }
  unfold rne. rewrite rnd_sgn, sgn_abs, (div_rounded x y Wx Wy Hym).
  apply Rabs_pos_eq, Rmult_le_pos; [|apply bpow_ge_0].
  apply IZR_le. destruct (div_zr_cases x y Wx Wy); lia.
Qed.

Lemma zdiv_fix x y pos : za x = false -> za y = false -> zm y <> 0 ->
  zdiv E M x y pos = fix_out (E:=E) (M:=M) (xorb (zs x) (zs y)) (div_zr E M x y) (div_e M x y) false pos.
Proof.
  intros Ax Ay Hy. unfold zdiv, fix_out. rewrite Ax, Ay, orb_false_r.
  destruct (Z.eqb_spec (zm y) 0); [lia|]. reflexivity.
Qed.

Theorem div_sound_exact x y (fx fy : fmt E M) r : pow2_size E M mod b = 0 ->
  represents x fx -> represents y fy -> sat b (Div E M x y) r ->
  represents r (ieee_div E M fx fy) \/
  (is_finite fx = true /\ is_finite_strict fy = true /\
   overflow_wires E M (xorb (Bsign fx) (Bsign fy)) (B2R fx / B2R fy) r).
Proof.
  intros Hd [zx [-> Hx]] [zy [-> Hy]] H. destruct (fmt_M (E:=E) (M:=M)) as [HM [HM1 HM2]].
  pose proof (zrep_zwf _ _ Hx) as Wx. pose proof (zrep_zwf _ _ Hy) as Wy.
  destruct (sat_Div zx zy Wx Wy r Hd H) as [pos [Hpos ->]].
  destruct (div_spec zx zy fx fy _ Hx Hy Hpos) as [H'|(H1 & H2 & -> & He & H3 & m & Hm & H5)].
  - left. eexists. split; [reflexivity|exact H'].
  - right. split; [exact H1|]. split; [exact H2|].
    destruct (div_val zx zy fx fy Hx Hy H1 H2) as (Hv & -> & Ax & Ay & Hym).
    exists m. split; [exact Hm|]. split; [|rewrite H5; reflexivity].
    rewrite Hv. symmetry. apply (window m _ _ Hm (div_zr_cases zx zy Wx Wy)).
    split; [exact He|]. rewrite (zdiv_fix zx zy false Ax Ay Hym) in H5.
    destruct (div_zr_cases zx zy Wx Wy) as [Hz|Hz].
    + unfold fix_out in H5. rewrite Hz in H5.
      destruct (zfix _ _ _ _ _) as [[? ?] ?]. apply (f_equal zm) in H5. cbn in H5. lia.
    + rewrite (proj1 (fix_out_window _ _ _ Hz He)) in H5.
      apply (f_equal zm) in H5. cbn [zm] in H5. symmetry. exact H5.
Qed.

Theorem div_forgery x y (fx fy : fmt E M) r : represents x fx -> represents y fy ->
  is_finite fx = true -> is_finite_strict fy = true ->
  overflow_wires E M (xorb (Bsign fx) (Bsign fy)) (B2R fx / B2R fy) r ->
  sat b (Div E M x y) r.
Proof.
  intros [zx [-> Hx]] [zy [-> Hy]] Fx Fy (m & Hm & Hv & ->).
  destruct (fmt_M (E:=E) (M:=M)) as [HM [HM1 HM2]].
  pose proof (zrep_zwf _ _ Hx) as Wx. pose proof (zrep_zwf _ _ Hy) as Wy.
  destruct (div_val zx zy fx fy Hx Hy Fx Fy) as (Hv' & Hs & Ax & Ay & Hym).
  rewrite Hv' in Hv. symmetry in Hv.
  apply (window m _ _ Hm (div_zr_cases zx zy Wx Wy)) in Hv. destruct Hv as [He Hmz].
  assert (Hz : 2 ^ M <= div_zr E M zx zy <= 2 ^ (M + 1)).
  { destruct (div_zr_cases zx zy Wx Wy) as [Hz|Hz]; [|exact Hz]. exfalso.
    rewrite Hz in Hmz. destruct (Z.eqb_spec 0 (2 ^ (M + 1))); lia. }
  destruct (fix_out_window (xorb (zs zx) (zs zy)) _ _ Hz He) as [Ho Hpos].
  pose proof (sat_Div_intro zx zy Wx Wy false Hpos) as H.
  rewrite (zdiv_fix zx zy false Ax Ay Hym), Ho in H. rewrite Hs, Hmz. exact H.
Qed.

(** ** Addition *)

(** The wires of a non-zero finite sum. *)
Lemma add_val x y (fx fy : fmt E M) : zrep E M x fx -> zrep E M y fy ->
  is_finite fx = true -> is_finite fy = true -> add_s M x y <> 0 ->
  Rabs (rne E M (B2R fx + B2R fy))
  = (IZR (add_zr M x y (add_shift M x y)) * bpow radix2 (add_e x y (add_shift M x y) - M))%R /\
  2 ^ M <= add_zr M x y (add_shift M x y) <= 2 ^ (M + 1).
Proof.
  intros Hx Hy Fx Fy Hs. pose proof (zrep_zwf _ _ Hx) as Wx. pose proof (zrep_zwf _ _ Hy) as Wy.
  destruct (zrep_B2R x fx Hx Fx) as (Vx & _). destruct (zrep_B2R y fy Hy Fy) as (Vy & _).
  rewrite val_sgn in Vx, Vy. rewrite Vx, Vy.
  destruct (add_round_same x y fx fy Hx Hy Fx Fy) as (R1 & _).
  destruct (add_zr_range (b:=b) x y Wx Wy (add_shift M x y) (or_intror eq_refl)) as (Z1 & _ & Z2).
  split; [|specialize (Z2 Hs); lia].
  unfold rne. rewrite R1, <- round_NE_abs by typeclasses eauto.
  apply (add_rounded x y fx fy Hx Hy Fx Fy Hs).
Qed.

Lemma add_overflow_sign (fx fy : fmt E M) m : 2 ^ M <= m ->
  is_finite fx = true -> is_finite fy = true ->
  Rabs (rne E M (B2R fx + B2R fy)) = (IZR m * bpow radix2 (emax - M))%R ->
  ieee_add E M fx fy = B754_infinity (Bsign fx) /\ Bsign fx = Bsign fy.
Proof.
  intros Hm Fx Fy Hv. destruct (fmt_M (E:=E) (M:=M)) as [HM [HM1 HM2]].
  pose proof (Bplus_correct (Spec.prec M) (Spec.emax E) _ _ mode_NE fx fy Fx Fy) as HB.
  change (Generic_fmt.round radix2 (SpecFloat.fexp (Spec.prec M) (Spec.emax E)) (round_mode mode_NE)
    (B2R fx + B2R fy)) with (rne E M (B2R fx + B2R fy)) in HB.
  rewrite Rlt_bool_false in HB.
  - destruct HB as [HB1 HB2]. split; [apply overflow_inf; exact HB1|exact HB2].
  - rewrite Hv. replace (bpow radix2 (Spec.emax E)) with (IZR (2 ^ M) * bpow radix2 (emax - M))%R.
    + apply Rmult_le_compat_r; [apply bpow_ge_0|apply IZR_le; exact Hm].
    + rewrite IZR_pow2, <- bpow_plus by lia. f_equal. ring.
Qed.

(** What the prover's freedom amounts to. *)
Lemma add_choice_sound x y (fx fy : fmt E M) c2 sh pos : zrep E M x fx -> zrep E M y fy ->
  add_choice E M x y c2 sh pos -> let r := embF (zadd E M x y c2 sh pos) in
  represents r (ieee_add E M fx fy) \/
  (is_finite fx = true /\ is_finite fy = true /\
   (overflow_wires E M (Bsign fx) (B2R fx + B2R fy) r \/
    (Bsign fx <> Bsign fy /\ B2R fx = (- B2R fy)%R /\
     (represents (E:=E) (M:=M) r (B754_zero true) \/
      ((bpow radix2 (emax - 1) <= Rabs (B2R fx))%R /\
       exists s, represents (E:=E) (M:=M) r (B754_infinity s)))))).
Proof.
  intros Hx Hy Hch r. subst r.
  pose proof (zrep_zwf _ _ Hx) as Wx. pose proof (zrep_zwf _ _ Hy) as Wy.
  destruct (add_spec x y fx fy c2 sh pos Hx Hy Hch)
    as [H'|(Fx & Fy & [(-> & H2 & s & H3 & m & Hm & H5)|(H1 & H2 & H3 & H4 & H5)])].
  - left. eexists. split; [reflexivity|exact H'].
  - right. split; [exact Fx|]. split; [exact Fy|]. left. destruct Hch as (Hpin & _).
    destruct (fmt_M (E:=E) (M:=M)) as [HM [HM1 HM2]].
    destruct (Z.eq_dec (add_s M x y) 0) as [H0|H0].
    + exfalso. destruct (add_zr_range (b:=b) x y Wx Wy sh (or_introl H0)) as (_ & Hz & _).
      destruct (zrep_B2R x fx Hx Fx) as (_ & _ & Ax & _). destruct (zrep_B2R y fy Hy Fy) as (_ & _ & Ay & _).
      unfold zadd, zfix in H5. rewrite (Hz H0), Ax, Ay in H5. apply (f_equal zm) in H5. cbn [zm orb] in H5.
      destruct (Z.eqb_spec 0 (2 ^ (M + 1))); cbn [orb] in H5; lia.
    + destruct (Hpin H0) as [_ ->].
      destruct (add_val x y fx fy Hx Hy Fx Fy H0) as [Hv Hz].
      assert (Hmv : (IZR m * bpow radix2 (emax - M)
        = IZR (add_zr M x y (add_shift M x y)) * bpow radix2 (add_e x y (add_shift M x y) - M))%R).
      { apply (window m _ _ Hm (or_intror Hz)). split; [exact H2|].
        destruct (zrep_B2R x fx Hx Fx) as (_ & _ & Ax & _). destruct (zrep_B2R y fy Hy Fy) as (_ & _ & Ay & _).
        unfold zadd, zfix in H5. rewrite Ax, Ay in H5. apply (f_equal zm) in H5. cbn [zm orb] in H5.
        rewrite orb_false_r in H5. symmetry. exact H5. }
      rewrite <- Hmv in Hv.
      destruct (add_overflow_sign fx fy m ltac:(lia) Fx Fy Hv) as [Hi _].
      rewrite Hi in H3. injection H3 as Hs. exists m. split; [exact Hm|]. split; [exact Hv|].
      rewrite H5, Hs. reflexivity.
  - destruct H5 as [(_ & H5)|(_ & _ & Ex & H5)].
    + destruct c2; cbn [negb] in H5.
      * left. rewrite H4. eexists. split; [reflexivity|exact H5].
      * right. split; [exact Fx|]. split; [exact Fy|]. right.
        destruct (zrep_B2R x fx Hx Fx) as (_ & -> & _). destruct (zrep_B2R y fy Hy Fy) as (_ & -> & _).
        split; [exact H1|]. split; [exact H3|]. left. eexists. split; [reflexivity|exact H5].
    + right. split; [exact Fx|]. split; [exact Fy|]. right.
      pose proof (proj1 (max_cancel_exp x fx Hx Fx) Ex) as Hmax.
      destruct (zrep_B2R x fx Hx Fx) as (_ & -> & _). destruct (zrep_B2R y fy Hy Fy) as (_ & -> & _).
      split; [exact H1|]. split; [exact H3|]. right. split; [exact Hmax|].
      eexists. eexists. split; [reflexivity|exact H5].
Qed.

Theorem add_sound_exact x y (fx fy : fmt E M) r : pow2_size E M mod b = 0 ->
  represents x fx -> represents y fy -> sat b (Add E M x y) r ->
  represents r (ieee_add E M fx fy) \/
  (is_finite fx = true /\ is_finite fy = true /\
   (overflow_wires E M (Bsign fx) (B2R fx + B2R fy) r \/
    (Bsign fx <> Bsign fy /\ B2R fx = (- B2R fy)%R /\
     (represents (E:=E) (M:=M) r (B754_zero true) \/
      ((bpow radix2 (emax - 1) <= Rabs (B2R fx))%R /\
       exists s, represents (E:=E) (M:=M) r (B754_infinity s)))))).
Proof.
  intros Hd [x' [-> Hx]] [y' [-> Hy]] H. rename x' into x, y' into y.
  pose proof (zrep_zwf _ _ Hx) as Wx. pose proof (zrep_zwf _ _ Hy) as Wy.
  destruct (sat_Add x y Wx Wy r Hd H) as (c2 & sh & pos & Hch & ->).
  exact (add_choice_sound x y fx fy c2 sh pos Hx Hy Hch).
Qed.

Theorem add_overflow_forgery x y (fx fy : fmt E M) r : represents x fx -> represents y fy ->
  is_finite fx = true -> is_finite fy = true ->
  overflow_wires E M (Bsign fx) (B2R fx + B2R fy) r -> sat b (Add E M x y) r.
Proof.
  intros [zx [-> Hx]] [zy [-> Hy]] Fx Fy (m & Hm & Hv & ->). rename zx into x, zy into y.
  destruct (fmt_M (E:=E) (M:=M)) as [HM [HM1 HM2]].
  pose proof (zrep_zwf _ _ Hx) as Wx. pose proof (zrep_zwf _ _ Hy) as Wy.
  destruct (add_overflow_sign fx fy m ltac:(lia) Fx Fy Hv) as [_ Hsg].
  destruct (zrep_B2R x fx Hx Fx) as (Vx & Sx & Ax & _). destruct (zrep_B2R y fy Hy Fy) as (Vy & Sy & Ay & _).
  assert (H0 : add_s M x y <> 0).
  { intros H0. destruct (add_round_same x y fx fy Hx Hy Fx Fy) as (_ & R2 & R3 & _).
    rewrite Vx, Vy, !val_sgn in Hv.
    assert (val (M:=M) x + val (M:=M) y = 0)%R as HS.
    { destruct (Rtotal_order (val (M:=M) x + val (M:=M) y) 0) as [Hl|[He|Hg]]; [|exact He|].
      - apply R3 in Hl. lia.
      - apply R2 in Hg. lia. }
    rewrite HS in Hv. unfold rne in Hv. rewrite rnd_0, Rabs_R0 in Hv.
    pose proof (bpow_gt_0 radix2 (emax - M)). assert (0 < IZR m)%R by (apply IZR_lt; lia). nra. }
  destruct (add_val x y fx fy Hx Hy Fx Fy H0) as [Hv' Hz]. rewrite Hv' in Hv. symmetry in Hv.
  apply (window m _ _ Hm (or_intror Hz)) in Hv. destruct Hv as [He Hmz].
  destruct (fix_out_window (zs x) _ _ Hz He) as [Ho Hpos].
  assert (Hch : add_choice E M x y (0 <? add_s M x y) (add_shift M x y) false).
  { split; [auto|]. split; [|exact Hpos].
    destruct (add_norm (b:=b) x y Wx Wy H0) as [_ Hn]. destruct HF. lia. }
  pose proof (sat_Add_intro x y Wx Wy _ _ _ Hch) as H.
  replace (zadd E M x y (0 <? add_s M x y) (add_shift M x y) false)
    with (mkZ (Bsign fx) emax m false) in H; [exact H|].
  rewrite Hmz. rewrite Sx. rewrite <- Ho. unfold zadd, fix_out. rewrite Ax, Ay. cbn [orb].
  replace (add_s M x y =? 0) with false by (symmetry; apply Z.eqb_neq; exact H0).
  replace (add_zr M x y (add_shift M x y) =? 0) with false by (symmetry; apply Z.eqb_neq; lia).
  destruct (zfix _ _ _ _ _) as [[m' e'] ab]. f_equal.
  replace (Bool.eqb (zs x) (zs y)) with true; [reflexivity|].
  rewrite <- Sx, <- Sy, Hsg. symmetry. apply Bool.eqb_reflx.
Qed.

(** Cancelling operands: the sign of the zero is the prover's choice, and at
    the maximal exponent so is an infinity. *)
Theorem add_cancel_forgery x y (fx fy : fmt E M) s : represents x fx -> represents y fy ->
  is_finite fx = true -> is_finite fy = true ->
  Bsign fx <> Bsign fy -> B2R fx = (- B2R fy)%R ->
  (exists r, sat b (Add E M x y) r /\ represents (E:=E) (M:=M) r (B754_zero s)) /\
  ((bpow radix2 (emax - 1) <= Rabs (B2R fx))%R ->
   exists r, sat b (Add E M x y) r /\ represents (E:=E) (M:=M) r (B754_infinity s)).
Proof.
  intros [zx [-> Hx]] [zy [-> Hy]] Fx Fy Hsg Hv. rename zx into x, zy into y.
  destruct (fmt_M (E:=E) (M:=M)) as [HM [HM1 HM2]]. exps E M.
  pose proof (zrep_zwf _ _ Hx) as Wx. pose proof (zrep_zwf _ _ Hy) as Wy.
  destruct (zrep_B2R x fx Hx Fx) as (Vx & Sx & Ax & Cx). destruct (zrep_B2R y fy Hy Fy) as (Vy & Sy & Ay & Cy).
  assert (H0 : add_s M x y = 0).
  { destruct (add_round_same x y fx fy Hx Hy Fx Fy) as (_ & R2 & R3 & _).
    rewrite val_sgn in Vx, Vy. rewrite Vx, Vy in Hv.
    destruct (Z.lt_trichotomy (add_s M x y) 0) as [Hl|[He|Hg]]; [|exact He|].
    - apply R3 in Hl. lra.
    - apply R2 in Hg. lra. }
  assert (Hzr : forall sh, add_zr M x y sh = 0).
  { intros sh. apply (add_zr_range (b:=b) x y Wx Wy sh (or_introl H0)), H0. }
  assert (Hov : (0 =? 2 ^ (M + 1)) = false) by (apply Z.eqb_neq; lia).
  assert (Hne : Bool.eqb (zs x) (zs y) = false).
  { apply Bool.eqb_false_iff. rewrite <- Sx, <- Sy. exact Hsg. }
  assert (Htop : Z.max (ze x) (ze y) <= emax - 1).
  { destruct Cx as [(_ & _ & Cx)|[_ Cx]], Cy as [(_ & _ & Cy)|[_ Cy]]; lia. }
  split.
  - assert (Hch : add_choice E M x y (negb s) 2 false).
    { split; [contradiction|]. split; [lia|]. unfold fix_pos_ok. cbv zeta. rewrite Hzr, Hov, Hex1.
      cbn [Z.b2z]. unfold add_e. split; [lia|reflexivity]. }
    eexists. split; [exact (sat_Add_intro x y Wx Wy _ _ _ Hch)|].
    eexists. split; [reflexivity|]. unfold zadd, zfix. rewrite Hzr, Ax, Ay, Hov, Hne, H0, Hex3.
    cbn [orb]. rewrite negb_involutive. reflexivity.
  - intros Hmax. pose proof (proj2 (max_cancel_exp x fx Hx Fx) Hmax) as Ex.
    assert (Hch : add_choice E M x y (negb s) 0 true).
    { split; [contradiction|]. split; [lia|]. unfold fix_pos_ok. cbv zeta. rewrite Hzr, Hov, Hex1.
      cbn [Z.b2z]. unfold add_e. split; [reflexivity|lia]. }
    eexists. split; [exact (sat_Add_intro x y Wx Wy _ _ _ Hch)|].
    eexists. split; [reflexivity|]. unfold zadd, zfix. rewrite Hzr, Ax, Ay, Hov, Hne, H0, Hex1.
    cbn [orb]. rewrite negb_involutive. reflexivity.
Qed.

(** ** Subtraction *)

Lemma neg_finite (fy : fmt E M) : is_finite (ieee_neg E M fy) = is_finite fy.
Proof. apply is_finite_Bopp. Qed.
Lemma neg_B2R (fy : fmt E M) : B2R (ieee_neg E M fy) = (- B2R fy)%R.
Proof. apply B2R_Bopp. Qed.
Lemma neg_Bsign (fy : fmt E M) : is_finite fy = true ->
  Bsign (ieee_neg E M fy) = negb (Bsign fy).
Proof. destruct fy; try discriminate; reflexivity. Qed.

Theorem sub_complete x y (fx fy : fmt E M) : represents x fx -> represents y fy ->
  exists r, exec b (Sub E M x y) = Some r /\
    (~ max_cancel E M fx (ieee_neg E M fy) -> represents r (ieee_sub E M fx fy)) /\
    (max_cancel E M fx (ieee_neg E M fy) -> represents (E:=E) (M:=M) r (B754_infinity false)).
Proof.
  intros Hx Hy. rewrite minus_plus_opp.
  exact (add_complete x (Neg y) fx _ Hx (neg_spec y fy Hy)).
Qed.

Theorem sub_sound_exact x y (fx fy : fmt E M) r : pow2_size E M mod b = 0 ->
  represents x fx -> represents y fy -> sat b (Sub E M x y) r ->
  represents r (ieee_sub E M fx fy) \/
  (is_finite fx = true /\ is_finite fy = true /\
   (overflow_wires E M (Bsign fx) (B2R fx - B2R fy) r \/
    (Bsign fx = Bsign fy /\ B2R fx = B2R fy /\
     (represents (E:=E) (M:=M) r (B754_zero true) \/
      ((bpow radix2 (emax - 1) <= Rabs (B2R fx))%R /\
       exists s, represents (E:=E) (M:=M) r (B754_infinity s)))))).
Proof.
  intros Hd Hx Hy H. rewrite minus_plus_opp.
  destruct (add_sound_exact x (Neg y) fx _ r Hd Hx (neg_spec y fy Hy) H)
    as [H1|(F1 & F2 & H1)]; [left; exact H1|right].
  rewrite neg_finite in F2. rewrite neg_B2R, neg_Bsign in H1 by exact F2.
  split; [exact F1|]. split; [exact F2|].
  destruct H1 as [H1|(H1 & H2 & H3)]; [left; exact H1|right].
  rewrite Ropp_involutive in H2. split; [|split; [exact H2|exact H3]].
  destruct (Bsign fx), (Bsign fy); try reflexivity; exfalso; apply H1; reflexivity.
Qed.

Theorem sub_overflow_forgery x y (fx fy : fmt E M) r : represents x fx -> represents y fy ->
  is_finite fx = true -> is_finite fy = true ->
  overflow_wires E M (Bsign fx) (B2R fx - B2R fy) r -> sat b (Sub E M x y) r.
Proof.
  intros Hx Hy Fx Fy H.
  apply (add_overflow_forgery x (Neg y) fx _ r Hx (neg_spec y fy Hy) Fx).
  - rewrite neg_finite. exact Fy.
  - rewrite neg_B2R. exact H.
Qed.

Theorem sub_cancel_forgery x y (fx fy : fmt E M) s : represents x fx -> represents y fy ->
  is_finite fx = true -> is_finite fy = true ->
  Bsign fx = Bsign fy -> B2R fx = B2R fy ->
  (exists r, sat b (Sub E M x y) r /\ represents (E:=E) (M:=M) r (B754_zero s)) /\
  ((bpow radix2 (emax - 1) <= Rabs (B2R fx))%R ->
   exists r, sat b (Sub E M x y) r /\ represents (E:=E) (M:=M) r (B754_infinity s)).
Proof.
  intros Hx Hy Fx Fy H1 H2.
  apply (add_cancel_forgery x (Neg y) fx (ieee_neg E M fy) s Hx (neg_spec y fy Hy) Fx).
  - rewrite neg_finite. exact Fy.
  - rewrite neg_Bsign by exact Fy. rewrite H1. destruct (Bsign fy); discriminate.
  - rewrite neg_B2R, Ropp_involutive. exact H2.
Qed.

End Forge.
