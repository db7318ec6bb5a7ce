(** Products and quotients at every base width of the range check: which wires
    a prover can obtain. *)
From Coq Require Import ZArith Reals Lra Lia Bool List Znumtheory Zpow_facts ZifyBool.
From Flocq Require Import Core BinarySingleNaN.
From Verif Require Import Field FieldFacts Circuit CircuitFacts RangeCheck RangeFacts Gadget
  GadgetFacts Hints FloatModel Tactics RoundFacts Spec RoundCore RepFacts MulFacts DivFacts
  SqrtFacts AddFacts AddSpec Forge EqFacts Circuits CircuitSpec AnyWidth ForgeSpec AnyWidthMul.
Local Open Scope Z_scope.

Section AnyWidthOps.
Context {MOD : Modulus} {E M b : Z} {HP : Params E M b} {HF : Format E M}.
#[local] Instance Wn : Width b (4 * M + 44) := params_width E M b HP.
#[local] Instance Bn : BigMod := width_big b _ Wn.
Hypothesis Hbig : 2 ^ 250 <= modulus.
Hypothesis Hfill : fill b M + fill b (2 * M + 2) + fill b (E + M + 1) + 2 <= 250.

Notation emax := (Spec.emax E).
Notation emin := (Spec.emin E M).

Lemma sat_round_exact n L shift h r : round_pre (E:=E) (M:=M) n L shift (M + 2) ->
  M + 3 <= L <= 2 * M + 2 ->
  (sat b (round E M (emb n) L (emb shift) (M + 2) (emb (Z.b2z h))) r <->
   r = emb (zround M n L shift h) \/
   (r = emb 0 /\ divided (E:=E) (M:=M) b shift n L)).
Proof.
  intros Hpre HL. params. pose proof Hpre as (H1 & H2 & H3 & H4 & H5 & H6 & H7).
  assert (Hs180 : - 2 ^ 180 <= shift <= 2 ^ 180).
  { assert (2 ^ 6 <= 2 ^ 180) by (apply pow2_mono; lia). lia. }
  split.
  - intros H. unfold round in H. apply sat_bind in H. destruct H as [two [Htwo H]].
    apply (sat_QueryPow2_exact Hbig) in Htwo; [|exact Hs180].
    destruct Htwo as (k & Hk0 & Hk & -> & HT).
    destruct (Z.eq_dec k 0) as [->|Hkn].
    + left. rewrite answer_0 in H.
      eapply (sat_round_rest (E:=E) n L shift (M + 2) h); [..|exact H]; try reflexivity; lia.
    + right. apply (round_rest_wrong Hbig Hfill n L shift h H1 HL H3 k r) in H;
        [|lia|lia|exact HT].
      destruct H as [-> H]. split; [reflexivity|]. exists (answer (E:=E) (M:=M) k shift).
      split; [|exact H]. exists k. split; [lia|]. split; [lia|]. split; [reflexivity|exact HT].
  - intros [->|[-> (T & (k & Hk1 & Hk & -> & HT) & H)]].
    + apply exec_sat. apply exec_zround. exact Hpre.
    + unfold round. apply sat_bind. exists (emb (answer (E:=E) (M:=M) k shift)). split.
      * apply (sat_QueryPow2_exact Hbig); [exact Hs180|]. exists k. split; [lia|]. split; [lia|].
        split; [reflexivity|exact HT].
      * apply (round_rest_wrong Hbig Hfill n L shift h H1 HL H3 k); [lia|lia|exact HT|].
        split; [reflexivity|exact H].
Qed.

Section Ops.
Variables x y : zf.
Hypotheses (Hx : zwf (E:=E) (M:=M) x) (Hy : zwf (E:=E) (M:=M) y).

Theorem sat_Mul_exact r :
  sat b (Mul E M (embF x) (embF y)) r <->
  (exists pos, fix_pos_ok (E:=E) (M:=M) (mul_zr E M x y) (mul_e M x y) pos /\
     r = embF (zmul E M x y pos)) \/
  (divided (E:=E) (M:=M) b (zshift (E:=E) (mul_e M x y) (M + 2)) (mul_n M x y) (2 * M + 2) /\
   exists pos, fix_pos_ok (E:=E) (M:=M) 0 (mul_e M x y) pos /\
     r = embF (fix_out (E:=E) (M:=M) (xorb (zs x) (zs y)) 0 (mul_e M x y) (za x || za y) pos)).
Proof.
  params. destruct (mul_bounds x y Hx Hy) as (Hp & Hn & He & H2 & H1 & Hk & H0).
  destruct (fmt_M (E:=E) (M:=M)) as [HM [HM1 HM2]].
  exps E M.
  destruct (small_pow (E:=E) (M:=M) (b:=b)) as (Hs1 & Hs2 & Hs3 & Hs4 & Hs5 & Hs6 & Hs7 & Hs8 & Hs9).
  pose proof (mul_zr_range x y Hx Hy) as [Hzr _].
  pose proof (mul_round_pre x y Hx Hy _ (zshift_range (E:=E) (mul_e M x y) (M + 2) ltac:(lia))) as Hpre.
  split.
  - intros H.
    unfold Mul, embF in H. cbn [Sign Exponent Mantissa IsAbnormal] in H.
    sstep H. rewrite fmul_emb in H. set (p := zm x * zm y) in *.
    sbool H c. replace ((M + 1) * 2 - 1) with (2 * M + 1) in H by lia.
    rewrite fmul_emb, fsub_emb in H. scheck H Hc.
    apply (check_small (K:=4*M+44)) in Hc; [|lia|lia|destruct c; cbn [Z.b2z]; lia].
    assert (c = (2 ^ (2 * M + 1) <=? p)).
    { destruct (Z.leb_spec (2 ^ (2 * M + 1)) p); destruct c; cbn [Z.b2z] in Hc; try reflexivity; lia. }
    subst c. set (msb := 2 ^ (2 * M + 1) <=? p) in *.
    cbv zeta in H. change (emb 0) with (emb 0) in H. sstep H. rewrite !fadd_emb in H.
    change (ze x + ze y + Z.b2z msb) with (mul_e M x y) in H.
    replace (p + (if msb then 0 else p)) with (mul_n M x y) in H.
    2:{ unfold mul_n. cbv zeta. fold p. fold msb. destruct msb; lia. }
    apply sat_bind in H. destruct H as [sh [Hsh H]].
    apply (sat_subnormal_shift (E:=E) (M:=M)) in Hsh;
      [|lia|lia]. subst sh.
    apply sat_bind in H. destruct H as [zr [Hz H]].
    change (emb 1) with (emb (Z.b2z true)) in Hz.
    apply sat_round_exact in Hz; [|exact Hpre|lia].
    destruct Hz as [->|[-> Hdv]].
    + left.
      change (zround M (mul_n M x y) ((M + 1) * 2) (zshift (E:=E) (mul_e M x y) (M + 2)) true)
        with (mul_zr E M x y) in H.
      rewrite isZero_emb in H by lia.
      sstep H.
      apply sat_bind in H. destruct H as [t [Ht H]].
      apply sat_fixOverflow in Ht; [|lia|lia].
      destruct Ht as [pos [Hpos ->]]. exists pos. split; [exact Hpos|].
      unfold zmul, fix_out. destruct (zfix _ _ _ _ _) as [[m' e'] ab].
      sstep H. apply sat_ret_inv in H. rewrite <- H. reflexivity.
    + right. split; [replace (2 * M + 2) with ((M + 1) * 2) by ring; exact Hdv|].
      rewrite isZero_emb in H by lia.
      sstep H.
      apply sat_bind in H. destruct H as [t [Ht H]].
      apply sat_fixOverflow in Ht; [|lia|lia].
      destruct Ht as [pos [Hpos ->]]. exists pos. split; [exact Hpos|].
      unfold fix_out. destruct (zfix _ _ _ _ _) as [[m' e'] ab].
      sstep H. apply sat_ret_inv in H. rewrite <- H. reflexivity.
  - intros [[pos [Hpos ->]]|[Hdv [pos [Hpos ->]]]]; [apply sat_Mul_intro; assumption|].
    unfold Mul, embF. cbn [Sign Exponent Mantissa IsAbnormal].
    ystep. rewrite fmul_emb. set (p := zm x * zm y) in *.
    assert (Hpm : emb p = p).
    { apply emb_small. assert (2 ^ (4 * M + 44 - b) <= modulus) by (apply (room (b:=b) (K:=4*M+44)); lia). lia. }
    assert (Hbit : NthBitHint (emb p) ((M + 1) * 2 - 1) = Some (Z.b2z (2 ^ (2 * M + 1) <=? p))).
    { unfold NthBitHint. rewrite Hpm. f_equal. replace ((M + 1) * 2 - 1) with (2 * M + 1) by lia.
      apply bit_top; [lia|]. replace (2 * M + 1 + 1) with (2 * M + 2) by lia. exact Hp. }
    rewrite Hbit. set (msb := 2 ^ (2 * M + 1) <=? p) in *.
    repeat ystep.
    replace ((M + 1) * 2 - 1) with (2 * M + 1) by lia.
    rewrite fmul_emb, fsub_emb.
    eapply sat_step with (a := tt).
    { apply (exec_abl (K:=4*M+44)); [lia|lia|]. unfold msb.
      destruct (Z.leb_spec (2 ^ (2 * M + 1)) p); cbn [Z.b2z]; lia. }
    cbv zeta. ystep. rewrite !fadd_emb.
    change (ze x + ze y + Z.b2z msb) with (mul_e M x y).
    replace (p + (if msb then 0 else p)) with (mul_n M x y).
    2:{ unfold mul_n. cbv zeta. fold p. fold msb. destruct msb; lia. }
    ys (exec_subnormal_shift (E:=E) (M:=M) (b:=b) (mul_e M x y) (M + 2)
          ltac:(lia) ltac:(lia) ltac:(lia)
          ltac:(lia)).
    change (emb 1) with (emb (Z.b2z true)).
    apply sat_bind. exists (emb 0). split.
    { apply sat_round_exact; [exact Hpre|lia|]. right. split; [reflexivity|].
      replace ((M + 1) * 2) with (2 * M + 2) by ring. exact Hdv. }
    rewrite isZero_emb by lia.
    ystep.
    unfold fix_out.
    apply sat_bind. eexists. split; [apply (sat_fixOverflow_intro (E:=E) (M:=M) (b:=b)) with (pos := pos); [lia|lia|exact Hpos]|].
    destruct (zfix _ _ _ _ _) as [[m' e'] ab].
    ystep. reflexivity.
Qed.

Theorem sat_Div_exact r :
  sat b (Div E M (embF x) (embF y)) r <->
  (exists pos, fix_pos_ok (E:=E) (M:=M) (div_zr E M x y) (div_e M x y) pos /\
     r = embF (zdiv E M x y pos)) \/
  (divided (E:=E) (M:=M) b (zshift (E:=E) (div_e M x y) (M + 2)) (div_n M x y) (M + 3) /\
   exists pos, fix_pos_ok (E:=E) (M:=M) 0 (div_e M x y) pos /\
     r = embF (fix_out (E:=E) (M:=M) (xorb (zs x) (zs y)) 0 (div_e M x y) (za x || (zm y =? 0)) pos)).
Proof.
  params. exps E M. destruct (fmt_M (E:=E) (M:=M)) as [HM [HM1 HM2]].
  destruct (div_bounds x y Hx Hy) as (B1 & B2 & B3 & B4 & B5 & B6 & _ & _ & B9 & B10 & B11 & B12 & B13).
  pose proof (div_zr_range x y Hx Hy) as [Hzr _].
  assert (Hmod : 2 ^ (4 * M + 44 - b) <= modulus) by (apply (room (b:=b) (K:=4*M+44)); lia).
  assert (Hk1 : 2 ^ (4 * M + 44 - b) <= 2 ^ (4 * M + 44 - 1)) by (apply pow2_mono; lia).
  assert (Hk2 : 2 ^ (4 * M + 44) = 2 * 2 ^ (4 * M + 44 - 1)) by (apply pow_S; lia).
  assert (Hbg : 2 ^ (M + 3) * 2 <= 2 ^ (2 * M + 5)) by (rewrite B12; nia).
  assert (Hxm : 0 <= zm x) by lia.
  pose proof (div_round_pre x y Hx Hy _ (zshift_range (E:=E) (div_e M x y) (M + 2) ltac:(lia))) as Hpre.
  split.
  - intros H. unfold Div, embF in H. cbn [Sign Exponent Mantissa IsAbnormal] in H.
    sstep H. rewrite isZero_emb in H by (destruct Hy; lia).
    sstep H. fold (div_y M y) in H.
    shint H w Hw. sbool H c. cbv zeta in H.
    scheck H Hc1. scheck H Hc2. scheck H Hc3.
    replace (M + 2 + 1 - 1) with (M + 2) in Hc3 by lia.
    apply (check_unknown_any (K:=4*M+44)) in Hc3; [|lia|lia|apply fsub_range].
    set (v := fsub w (fmul (emb (Z.b2z c)) (emb (2 ^ (M + 2))))) in *.
    assert (exists q, w = emb q /\ 0 <= q < 2 ^ (M + 3) /\ c = (2 ^ (M + 2) <=? q)) as (q & -> & Hq & Hcq).
    { exists (v + Z.b2z c * 2 ^ (M + 2)).
      split; [|split; destruct c; cbn [Z.b2z]; lia].
      unfold v. rewrite fmul_emb. apply fsub_back, Hw. }
    clear v Hc3.
    femb_in Hc1. femb_in Hc2.
    set (rr := zm x * 2 ^ (M + 2) - q * div_y M y) in *.
    assert (Hrb : - 2 ^ (2 * M + 5) <= 2 * rr <= 2 ^ (2 * M + 5)).
    { rewrite B12. unfold rr. clear - Hq B1 B2 B3 B9 B10 HM1 HM2.
      rewrite B9, B10, HM2 in *. set (p := 2 ^ M) in *. set (yy := div_y M y) in *. nia. }
    apply (check_loose (K:=4*M+44)) in Hc1; [|lia|lia|lia].
    apply (check_loose (K:=4*M+44)) in Hc2; [|lia|lia|lia].
    assert (q = div_q M x y).
    { unfold div_q. apply Z.div_unique with rr; unfold rr in *; lia. }
    subst q. assert (rr = div_r M x y) as Hrr by (unfold rr; lia).
    fold (div_msb M x y) in Hcq. subst c.
    sstep H. femb_in H.
    change (ze x - ze y - (1 - Z.b2z (div_msb M x y))) with (div_e M x y) in H.
    replace (div_q M x y + (if div_msb M x y then 0 else div_q M x y)) with (div_n M x y) in H.
    2:{ unfold div_n. destruct (div_msb M x y); lia. }
    fold rr in H. rewrite Hrr in H.
    apply sat_bind in H. destruct H as [sh [Hsh H]].
    apply (sat_subnormal_shift (E:=E) (M:=M)) in Hsh; [|lia|lia]. subst sh.
    apply sat_bind in H. destruct H as [zr [Hz H]].
    rewrite isZero_emb in Hz by lia. replace (M + 2 + 1) with (M + 3) in Hz by lia.
    apply sat_round_exact in Hz; [|exact Hpre|lia].
    destruct Hz as [->|[-> Hdv]].
    + left.
      change (zround M (div_n M x y) (M + 3) (zshift (E:=E) (div_e M x y) (M + 2)) (div_r M x y =? 0))
        with (div_zr E M x y) in H.
      rewrite isZero_emb in H by lia.
      repeat sstep H.
      apply sat_bind in H. destruct H as [t [Ht H]].
      apply sat_fixOverflow in Ht; [|lia|lia].
      destruct Ht as [pos [Hpos ->]]. exists pos. split; [exact Hpos|].
      unfold zdiv. destruct (zfix _ _ _ _ _) as [[m' e'] ab].
      sstep H. apply sat_ret_inv in H. rewrite <- H. reflexivity.
    + right. split; [exact Hdv|].
      rewrite isZero_emb in H by lia. rewrite Z.eqb_refl in H.
      repeat sstep H. cbn [orb] in H.
      apply sat_bind in H. destruct H as [t [Ht H]].
      apply sat_fixOverflow in Ht; [|lia|lia].
      destruct Ht as [pos [Hpos ->]]. exists pos. split; [exact Hpos|].
      unfold fix_out. rewrite Z.eqb_refl. destruct (zfix _ _ _ _ _) as [[m' e'] ab].
      sstep H. apply sat_ret_inv in H. rewrite <- H. reflexivity.
  - intros [[pos [Hpos ->]]|[Hdv [pos [Hpos ->]]]]; [apply sat_Div_intro; assumption|].
    unfold Div, embF. cbn [Sign Exponent Mantissa IsAbnormal].
    ystep. rewrite isZero_emb.
    2:{ destruct Hy; lia. }
    ystep. fold (div_y M y).
    assert (Hq : DivHint (emb (zm x)) (emb (div_y M y)) (M + 2) = Some (div_q M x y)).
    { unfold DivHint. rewrite !emb_small by lia. rewrite Z.shiftl_mul_pow2 by lia.
      destruct (Z.eqb_spec (div_y M y) 0); [lia|]. reflexivity. }
    rewrite Hq. ystep.
    assert (Hbit : NthBitHint (emb (div_q M x y)) (M + 2) = Some (Z.b2z (div_msb M x y))).
    { unfold NthBitHint. rewrite emb_small by lia. f_equal.
      apply bit_top; [lia|]. replace (M + 2 + 1) with (M + 3) by lia. exact B6. }
    rewrite Hbit. repeat ystep. cbv zeta.
    femb.
    replace (zm x * 2 ^ (M + 2) - div_q M x y * div_y M y) with (div_r M x y) by lia.
    eapply sat_step with (a := tt); [apply (exec_abl (K:=4*M+44)); lia|].
    eapply sat_step with (a := tt); [apply (exec_abl (K:=4*M+44)); lia|].
    replace (M + 2 + 1 - 1) with (M + 2) by lia.
    eapply sat_step with (a := tt).
    { apply (exec_abl (K:=4*M+44)); [lia|lia|]. unfold div_msb.
        destruct (Z.leb_spec (2 ^ (M + 2)) (div_q M x y)); cbn [Z.b2z]; lia. }
    ystep. rewrite !fadd_emb.
    change (ze x - ze y - (1 - Z.b2z (div_msb M x y))) with (div_e M x y).
    replace (div_q M x y + (if div_msb M x y then 0 else div_q M x y)) with (div_n M x y).
    2:{ unfold div_n. destruct (div_msb M x y); lia. }
    ys (exec_subnormal_shift (E:=E) (M:=M) (b:=b) (div_e M x y) (M + 2)
          ltac:(lia) ltac:(lia) ltac:(lia) ltac:(lia)).
    rewrite isZero_emb by lia. replace (M + 2 + 1) with (M + 3) by lia.
    apply sat_bind. exists (emb 0). split.
    { apply sat_round_exact; [exact Hpre|lia|]. right. split; [reflexivity|exact Hdv]. }
    rewrite isZero_emb by lia. rewrite Z.eqb_refl.
    repeat ystep. cbn [orb].
    unfold fix_out. rewrite Z.eqb_refl.
    apply sat_bind. eexists. split; [apply (sat_fixOverflow_intro (E:=E) (M:=M) (b:=b)) with (pos := pos); [lia|lia|exact Hpos]|].
    destruct (zfix _ _ _ _ _) as [[m' e'] ab].
    ystep. reflexivity.
Qed.
End Ops.
End AnyWidthOps.
