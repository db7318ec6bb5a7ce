(** Context.Div (float/float.go:757-858). *)
From Coq Require Import ZArith Reals Bool List Lia Lra ZifyBool.
From Flocq Require Import Core BinarySingleNaN.
From Verif Require Import Field FieldFacts Circuit Hints RangeCheck Gadget FloatModel
  CircuitFacts RangeFacts GadgetFacts RoundFacts Spec RoundCore RepFacts MulFacts Tactics.
Local Open Scope Z_scope.

Section DivZ.
Variables E M : Z.
Definition div_y (y : zf) : Z := if zm y =? 0 then 2 ^ M else zm y.
Definition div_q (x y : zf) : Z := zm x * 2 ^ (M + 2) / div_y y.
Definition div_r (x y : zf) : Z := (zm x * 2 ^ (M + 2)) mod div_y y.
Definition div_msb (x y : zf) : bool := 2 ^ (M + 2) <=? div_q x y.
Definition div_n (x y : zf) : Z := if div_msb x y then div_q x y else 2 * div_q x y.
Definition div_e (x y : zf) : Z := ze x - ze y - (1 - Z.b2z (div_msb x y)).
Definition div_zr (x y : zf) : Z :=
  zround M (div_n x y) (M + 3) (zshift (E:=E) (div_e x y) (M + 2)) (div_r x y =? 0).
Definition zdiv (x y : zf) (pos : bool) : zf :=
  let mz := (div_zr x y =? 0) || za y in
  let '(m', e', ab) := zfix (E:=E) (M:=M) (div_zr x y) mz (div_e x y) (za x || (zm y =? 0)) pos in
  mkZ (xorb (zs x) (zs y)) e' (if mz then 0 else m') ab.
End DivZ.

Section Div.
Context {MOD : Modulus} {E M b : Z} {HP : Params E M b} {HF : Format E M}.
#[local] Instance div_width : Width b (4 * M + 44) := params_width E M b HP.
#[local] Instance div_big : BigMod := width_big b _ div_width.

Notation emax := (Spec.emax E).
Notation emin := (Spec.emin E M).

Section Ops.
Variables x y : zf.
Hypotheses (Hx : zwf (E:=E) (M:=M) x) (Hy : zwf (E:=E) (M:=M) y).

Lemma div_bounds :
  (zm x = 0 \/ 2 ^ M <= zm x) /\ zm x < 2 ^ (M + 1) /\ 2 ^ M <= div_y M y < 2 ^ (M + 1) /\
  zm x * 2 ^ (M + 2) = div_q M x y * div_y M y + div_r M x y /\
  0 <= div_r M x y < div_y M y /\
  0 <= div_q M x y < 2 ^ (M + 3) /\
  (zm x = 0 -> div_q M x y = 0) /\ (zm x <> 0 -> 2 ^ (M + 1) <= div_q M x y) /\
  2 ^ (M + 3) = 2 * 2 ^ (M + 2) /\ 2 ^ (M + 2) = 2 * 2 ^ (M + 1) /\
  2 ^ (2 * M + 5) <= 2 ^ (4 * M + 44 - b) /\ 2 ^ (2 * M + 5) = 2 ^ (M + 1) * 2 ^ (M + 3) * 2 /\
  - 2 * emax - M <= div_e M x y <= 2 * emax + M - 1.
Proof.
  params. exps E M. destruct (fmt_M (E:=E) (M:=M)) as [HM [HM1 HM2]].
  assert (H3 : 2 ^ (M + 3) = 2 * 2 ^ (M + 2)) by (rewrite <- Z.pow_succ_r by lia; f_equal; lia).
  assert (H2 : 2 ^ (M + 2) = 2 * 2 ^ (M + 1)) by (rewrite <- Z.pow_succ_r by lia; f_equal; lia).
  assert (Hxm : zm x = 0 \/ 2 ^ M <= zm x) by (destruct Hx; lia).
  assert (Hxm1 : zm x < 2 ^ (M + 1)) by (destruct Hx; lia).
  assert (Hym : 2 ^ M <= div_y M y < 2 ^ (M + 1)).
  { unfold div_y. destruct Hy as [_ Hy']. destruct (Z.eqb_spec (zm y) 0); lia. }
  assert (Hdm : zm x * 2 ^ (M + 2) = div_q M x y * div_y M y + div_r M x y).
  { unfold div_q, div_r. rewrite (Z.mul_comm (_ / _)). apply Z.div_mod. lia. }
  assert (Hr : 0 <= div_r M x y < div_y M y) by (apply Z.mod_pos_bound; lia).
  assert (Hq : 0 <= div_q M x y < 2 ^ (M + 3)).
  { clear - Hdm Hr Hym Hxm Hxm1 H3 H2 HM2 HM1. rewrite H3, H2, HM2 in *.
    set (q := div_q M x y) in *. set (p := 2 ^ M) in *. set (yy := div_y M y) in *. nia. }
  split; [exact Hxm|]. split; [exact Hxm1|]. split; [exact Hym|]. split; [exact Hdm|].
  split; [exact Hr|]. split; [exact Hq|].
  split.
  { intros H0. rewrite H0 in Hdm. clear - Hdm Hr Hq Hym HM1.
    set (q := div_q M x y) in *. set (p := 2 ^ M) in *. set (yy := div_y M y) in *. nia. }
  split.
  { intros H0. assert (2 ^ M <= zm x) as Hx0 by lia.
    clear - Hdm Hr Hym Hx0 Hxm1 H3 H2 HM2 HM1. rewrite H2, HM2 in *.
    set (q := div_q M x y) in *. set (p := 2 ^ M) in *. set (yy := div_y M y) in *. nia. }
  split; [exact H3|]. split; [exact H2|]. split; [apply pow2_mono; lia|].
  split.
  { change (2 ^ (M + 1) * 2 ^ (M + 3) * 2) with (2 ^ (M + 1) * 2 ^ (M + 3) * 2 ^ 1).
    rewrite <- !Z.pow_add_r by lia. f_equal. lia. }
  unfold div_e. destruct Hx as [Hx1 _], Hy as [Hy1 _].
  destruct (div_msb M x y); cbn [Z.b2z]; lia.
Qed.

Lemma div_n_range : div_n M x y = 0 \/ 2 ^ (M + 2) <= div_n M x y < 2 ^ (M + 3).
Proof.
  destruct div_bounds as (B1 & B2 & B3 & B4 & B5 & B6 & B7 & B8 & B9 & B10 & _).
  unfold div_n, div_msb.
  destruct (Z.eq_dec (zm x) 0) as [H0|H0]; [left|right].
  - rewrite (B7 H0). destruct (_ <=? _); reflexivity.
  - specialize (B8 H0). destruct (Z.leb_spec (2 ^ (M + 2)) (div_q M x y)); lia.
Qed.

Lemma div_zr_range : 0 <= div_zr E M x y <= 2 ^ (M + 1) /\
  (div_zr E M x y = 0 \/ 2 ^ M <= div_zr E M x y).
Proof.
  params. destruct (fmt_M (E:=E) (M:=M)) as [HM [HM1 HM2]].
  unfold div_zr.
  set (s := zshift (div_e M x y) (M + 2)).
  assert (Hs : 0 <= s) by (unfold s, zshift; lia).
  destruct div_n_range as [->|Hn].
  - rewrite zround_0 by lia. lia.
  - destruct (zround_range (E:=E) (M:=M) (div_n M x y) (M + 3) s (div_r M x y =? 0) ltac:(lia)) as [[-> _]|Hz];
      [replace (M + 3 - 1) with (M + 2) by lia; exact Hn|lia|lia|lia].
Qed.

Lemma div_round_pre s : 0 <= s <= M + 2 ->
  round_pre (E:=E) (M:=M) (div_n M x y) (M + 3) s (M + 2).
Proof.
  intros Hs. params. pose proof div_n_range as Hn.
  unfold round_pre. pose proof (pow_pos (M + 3) ltac:(lia)).
  pose proof (pow_pos (M + 2) ltac:(lia)). repeat split; lia.
Qed.

Lemma exec_Div :
  exec b (Div E M (embF x) (embF y))
  = Some (embF (zdiv E M x y (honest_pos E M (div_zr E M x y) (div_e M x y)))).
Proof.
  params. exps E M. destruct (fmt_M (E:=E) (M:=M)) as [HM [HM1 HM2]].
  destruct div_bounds as (B1 & B2 & B3 & B4 & B5 & B6 & _ & _ & B9 & B10 & B11 & B12 & B13).
  pose proof div_zr_range as [Hzr _].
  assert (Hmod : 2 ^ (4 * M + 44 - b) <= modulus) by (apply (room (b:=b) (K:=4*M+44)); lia).
  assert (Hbig : 2 ^ (M + 3) * 2 <= 2 ^ (2 * M + 5)) by (rewrite B12; nia).
  unfold Div, embF. cbn [Sign Exponent Mantissa IsAbnormal].
  xstep. rewrite isZero_emb.
  2:{ destruct Hy; lia. }
  xstep. fold (div_y M y).
  assert (Hxm : 0 <= zm x) by lia.
  assert (Hq : DivHint (emb (zm x)) (emb (div_y M y)) (M + 2) = Some (div_q M x y)).
  { unfold DivHint. rewrite !emb_small by lia. rewrite Z.shiftl_mul_pow2 by lia.
    destruct (Z.eqb_spec (div_y M y) 0); [lia|]. reflexivity. }
  rewrite Hq. xstep.
  assert (Hbit : NthBitHint (emb (div_q M x y)) (M + 2) = Some (Z.b2z (div_msb M x y))).
  { unfold NthBitHint. rewrite emb_small by lia. f_equal.
    apply bit_top; [lia|]. replace (M + 2 + 1) with (M + 3) by lia. exact B6. }
  rewrite Hbit. repeat xstep. cbv zeta.
  femb.
  replace (zm x * 2 ^ (M + 2) - div_q M x y * div_y M y) with (div_r M x y) by lia.
  rewrite exec_bind_eq with (a := tt) by (apply (exec_abl (K:=4*M+44)); lia).
  rewrite exec_bind_eq with (a := tt) by (apply (exec_abl (K:=4*M+44)); lia).
  replace (M + 2 + 1 - 1) with (M + 2) by lia.
  rewrite exec_bind_eq with (a := tt).
  2:{ apply (exec_abl (K:=4*M+44)); [lia|lia|]. unfold div_msb.
      destruct (Z.leb_spec (2 ^ (M + 2)) (div_q M x y)); cbn [Z.b2z]; lia. }
  xstep. rewrite !fadd_emb.
  change (ze x - ze y - (1 - Z.b2z (div_msb M x y))) with (div_e M x y).
  replace (div_q M x y + (if div_msb M x y then 0 else div_q M x y)) with (div_n M x y).
  2:{ unfold div_n. destruct (div_msb M x y); lia. }
  xs (exec_subnormal_shift (E:=E) (M:=M) (b:=b) (div_e M x y) (M + 2)
        ltac:(lia) ltac:(lia) ltac:(lia) ltac:(lia)).
  rewrite isZero_emb by lia. replace (M + 2 + 1) with (M + 3) by lia.
  xs (exec_zround (E:=E) (M:=M) (b:=b) _ _ _ _ (div_r M x y =? 0)
        (div_round_pre _ (zshift_range (E:=E) (div_e M x y) (M + 2) ltac:(lia)))).
  change (zround M (div_n M x y) (M + 3) (zshift (E:=E) (div_e M x y) (M + 2)) (div_r M x y =? 0))
    with (div_zr E M x y).
  rewrite isZero_emb by lia.
  repeat xstep.
  unfold zdiv, honest_pos.
  rewrite exec_bind, exec_fixOverflow by lia.
  destruct (zfix _ _ _ _ _) as [[m' e'] ab].
  xstep. reflexivity.
Qed.

Lemma sat_Div r : pow2_size E M mod b = 0 ->
  sat b (Div E M (embF x) (embF y)) r ->
  exists pos, fix_pos_ok (E:=E) (M:=M) (div_zr E M x y) (div_e M x y) pos /\
    r = embF (zdiv E M x y pos).
Proof.
  intros Hdv H. params. exps E M. destruct (fmt_M (E:=E) (M:=M)) as [HM [HM1 HM2]].
  destruct div_bounds as (B1 & B2 & B3 & B4 & B5 & B6 & _ & _ & B9 & B10 & B11 & B12 & B13).
  pose proof div_zr_range as [Hzr _].
  assert (Hmod : 2 ^ (4 * M + 44 - b) <= modulus) by (apply (room (b:=b) (K:=4*M+44)); lia).
  assert (Hk1 : 2 ^ (4 * M + 44 - b) <= 2 ^ (4 * M + 44 - 1)) by (apply pow2_mono; lia).
  assert (Hk2 : 2 ^ (4 * M + 44) = 2 * 2 ^ (4 * M + 44 - 1)) by (apply pow_S; lia).
  assert (Hbig : 2 ^ (M + 3) * 2 <= 2 ^ (2 * M + 5)) by (rewrite B12; nia).
  assert (Hxm : 0 <= zm x) by lia.
  unfold Div, embF in H. cbn [Sign Exponent Mantissa IsAbnormal] in H.
  sstep H. rewrite isZero_emb in H by (destruct Hy; lia).
  sstep H. fold (div_y M y) in H.
  shint H w Hw. sbool H c. cbv zeta in H.
  scheck H Hc1. scheck H Hc2. scheck H Hc3.
  replace (M + 2 + 1 - 1) with (M + 2) in Hc3 by lia.
  apply (check_unknown_any (K:=4*M+44)) in Hc3; [|lia|lia|apply fsub_range].
  set (v := fsub w (fmul (emb (Z.b2z c)) (emb (2 ^ (M + 2))))) in *.
  assert (exists q, w = emb q /\ 0 <= q < 2 ^ (M + 3) /\ c = (2 ^ (M + 2) <=? q)) as (q & -> & Hq & Hcq).
  { exists (v + Z.b2z c * 2 ^ (M + 2)).
    split; [|split; destruct c; cbn [Z.b2z]; lia].
    unfold v. rewrite fmul_emb. apply fsub_back, Hw. }
  clear v Hc3.
  femb_in Hc1. femb_in Hc2.
  set (rr := zm x * 2 ^ (M + 2) - q * div_y M y) in *.
  assert (Hrb : - 2 ^ (2 * M + 5) <= 2 * rr <= 2 ^ (2 * M + 5)).
  { rewrite B12. unfold rr. clear - Hq B1 B2 B3 B9 B10 HM1 HM2.
    rewrite B9, B10, HM2 in *. set (p := 2 ^ M) in *. set (yy := div_y M y) in *. nia. }
  apply (check_loose (K:=4*M+44)) in Hc1; [|lia|lia|lia].
  apply (check_loose (K:=4*M+44)) in Hc2; [|lia|lia|lia].
  assert (q = div_q M x y).
  { unfold div_q. apply Z.div_unique with rr; unfold rr in *; lia. }
  subst q. assert (rr = div_r M x y) as Hrr by (unfold rr; lia).
  fold (div_msb M x y) in Hcq. subst c.
  sstep H. femb_in H.
  change (ze x - ze y - (1 - Z.b2z (div_msb M x y))) with (div_e M x y) in H.
  replace (div_q M x y + (if div_msb M x y then 0 else div_q M x y)) with (div_n M x y) in H.
  2:{ unfold div_n. destruct (div_msb M x y); lia. }
  fold rr in H. rewrite Hrr in H.
  apply sat_bind in H. destruct H as [sh [Hsh H]].
  apply (sat_subnormal_shift (E:=E) (M:=M)) in Hsh; [|lia|lia]. subst sh.
  apply sat_bind in H. destruct H as [zr [Hz H]].
  rewrite isZero_emb in Hz by lia. replace (M + 2 + 1) with (M + 3) in Hz by lia.
  apply sat_zround in Hz; [|exact Hdv|apply div_round_pre, zshift_range; lia].
  subst zr.
  change (zround M (div_n M x y) (M + 3) (zshift (E:=E) (div_e M x y) (M + 2)) (div_r M x y =? 0))
    with (div_zr E M x y) in H.
  rewrite isZero_emb in H by lia.
  repeat sstep H.
  apply sat_bind in H. destruct H as [t [Ht H]].
  apply sat_fixOverflow in Ht; [|lia|lia].
  destruct Ht as [pos [Hpos ->]]. exists pos. split; [exact Hpos|].
  unfold zdiv. destruct (zfix _ _ _ _ _) as [[m' e'] ab].
  sstep H. apply sat_ret_inv in H. rewrite <- H. reflexivity.
Qed.

End Ops.
(** The quotient as a real number. *)
Lemma div_value x y : zm y <> 0 -> zwf (E:=E) (M:=M) x -> zwf (E:=E) (M:=M) y ->
  (zmag (M:=M) x / zmag (M:=M) y
   = (IZR (div_q M x y) + IZR (div_r M x y) / IZR (zm y)) * bpow radix2 (ze x - ze y - (M + 2)))%R.
Proof.
  intros Hy0 Wx Wy. destruct (fmt_M (E:=E) (M:=M)) as [HM [HM1 HM2]].
  destruct (div_bounds x y Wx Wy) as (B1 & B2 & B3 & B4 & B5 & _).
  assert (Hyy : div_y M y = zm y) by (unfold div_y; destruct (Z.eqb_spec (zm y) 0); [lia|reflexivity]).
  rewrite Hyy in *.
  assert (HyR : (IZR (zm y) <> 0)%R) by (apply not_0_IZR; lia).
  unfold zmag.
  pose proof (bpow_gt_0 radix2 (ze y - M)) as Hb1.
  assert (HB : (IZR (zm x) * bpow radix2 (M + 2) = IZR (div_q M x y) * IZR (zm y) + IZR (div_r M x y))%R).
  { rewrite <- IZR_pow2 by lia. rewrite <- !mult_IZR, <- plus_IZR. f_equal. exact B4. }
  replace (bpow radix2 (ze x - M))
    with (bpow radix2 (ze x - ze y - (M + 2)) * bpow radix2 (M + 2) * bpow radix2 (ze y - M))%R
    by (rewrite <- !bpow_plus; f_equal; ring).
  replace (IZR (div_q M x y) + IZR (div_r M x y) / IZR (zm y))%R
    with ((IZR (div_q M x y) * IZR (zm y) + IZR (div_r M x y)) / IZR (zm y))%R by (field; exact HyR).
  rewrite <- HB. field. split; lra.
Qed.

Lemma div_zr_nonneg_e x y : zwf (E:=E) (M:=M) x -> zwf (E:=E) (M:=M) y -> zm x <> 0 ->
  2 - emax <= div_e M x y -> 2 ^ M <= div_zr E M x y <= 2 ^ (M + 1).
Proof.
  intros Wx Wy H0 He. exps E M. destruct (fmt_M (E:=E) (M:=M)) as [HM [HM1 HM2]].
  destruct (div_bounds x y Wx Wy) as (B1 & B2 & B3 & B4 & B5 & B6 & B7 & B8 & B9 & B10 & _).
  unfold div_zr.
  destruct (div_n_range x y Wx Wy) as [Hn|Hn].
  - exfalso. specialize (B8 H0). unfold div_n in Hn. destruct (div_msb M x y); lia.
  - destruct (zround_range (E:=E) (M:=M) (div_n M x y) (M + 3)
       (zshift (E:=E) (div_e M x y) (M + 2)) (div_r M x y =? 0) ltac:(lia)) as [[_ Hs]|Hz];
      [replace (M + 3 - 1) with (M + 2) by lia; exact Hn|unfold zshift; lia| |exact Hz].
    unfold zshift in Hs. lia.
Qed.

Lemma div_zr_0 x y : zwf (E:=E) (M:=M) x -> zwf (E:=E) (M:=M) y -> zm x = 0 ->
  div_zr E M x y = 0 /\ div_e M x y = ze x - ze y - 1.
Proof.
  intros Wx Wy H0. exps E M. destruct (fmt_M (E:=E) (M:=M)) as [HM [HM1 HM2]].
  destruct (div_bounds x y Wx Wy) as (B1 & B2 & B3 & B4 & B5 & B6 & B7 & B8 & B9 & B10 & _).
  specialize (B7 H0). unfold div_zr, div_n, div_e, div_msb. rewrite B7.
  destruct (Z.leb_spec (2 ^ (M + 2)) 0); [lia|]. rewrite Z.mul_0_r.
  rewrite zround_0 by (unfold zshift; lia). cbn [Z.b2z]. lia.
Qed.

Lemma div_rounded x y : zwf (E:=E) (M:=M) x -> zwf (E:=E) (M:=M) y -> 2 ^ M <= zm y ->
  Generic_fmt.round radix2 (FLT_exp (Spec.emin E M) (Spec.prec M)) ZnearestE
    (zmag (M:=M) x / zmag (M:=M) y)
  = (IZR (div_zr E M x y) * bpow radix2 (div_e M x y - M))%R.
Proof.
  intros Wx Wy Hym. destruct (fmt_M (E:=E) (M:=M)) as [HM [HM1 HM2]]. exps E M.
  assert (Hym0 : zm y <> 0) by lia. pose proof (zmag_pos (E:=E) (M:=M) y ltac:(lia)) as Hyp.
  destruct (Z.eq_dec (zm x) 0) as [H0|H0].
        -- destruct (div_zr_0 x y Wx Wy H0) as [-> _]. rewrite Rmult_0_l.
           unfold zmag at 1. rewrite H0.
           replace (0 * bpow radix2 (ze x - M) / zmag (M:=M) y)%R with 0%R by (field; lra).
           apply rnd_0.
        -- destruct (div_bounds x y Wx Wy) as (B1 & B2 & B3 & B4 & B5 & B6 & B7 & B8 & B9 & B10 & _).
           specialize (B8 H0).
           set (L := if div_msb M x y then M + 3 else M + 2).
           set (g := ze x - ze y - (M + 2)).
           assert (He : div_e M x y = g + L - 1).
           { unfold div_e, g, L. destruct (div_msb M x y); cbn [Z.b2z]; ring. }
           assert (Hzr : div_zr E M x y = zround M (div_q M x y) L
                     (zshift (E:=E) (div_e M x y) (M + 2)) (div_r M x y =? 0)).
           { unfold div_zr, div_n, L. destruct (div_msb M x y); [reflexivity|].
             replace (M + 3) with (M + 2 + 1) by ring. apply zround_double; [lia|lia|].
             unfold zshift. clear - HM. Lia.lia. }
           rewrite Hzr, He.
           pose proof (div_value x y Hym0 Wx Wy) as Hval. fold g in Hval.
           pose proof (bpow_gt_0 radix2 g) as Hg.
           assert (Hyy : div_y M y = zm y).
           { unfold div_y; destruct (Z.eqb_spec (zm y) 0); [lia|reflexivity]. }
           rewrite Hyy in B5.
           assert (HyR : (0 < IZR (zm y))%R) by (apply IZR_lt; lia).
           assert (Hr0 : (0 <= IZR (div_r M x y) / IZR (zm y) < 1)%R).
           { assert (0 <= IZR (div_r M x y) < IZR (zm y))%R by (split; [apply IZR_le|apply IZR_lt]; lia).
             split; [apply Rmult_le_pos; [lra|]; left; apply Rinv_0_lt_compat; lra|].
             apply Rmult_lt_reg_r with (IZR (zm y)); [exact HyR|]. field_simplify; lra. }
           apply round_core.
           ++ pose proof (pow_pos (M + 1) ltac:(lia)). clear - B8 H. lia.
           ++ unfold L. clear. destruct (div_msb M x y); lia.
           ++ unfold L, div_msb. clear - B6 B8 B9.
              destruct (Z.leb_spec (2 ^ (M + 2)) (div_q M x y)).
              ** replace (M + 3 - 1) with (M + 2) by ring. lia.
              ** replace (M + 2 - 1) with (M + 1) by ring. lia.
           ++ rewrite Hval, plus_IZR. split.
              ** apply Rmult_le_compat_r; lra.
              ** apply Rmult_lt_compat_r; lra.
           ++ intros Hh. apply Z.eqb_eq in Hh. rewrite Hval, Hh.
              replace (0 / IZR (zm y))%R with 0%R by (field; lra). ring.
           ++ intros Hh. apply Z.eqb_neq in Hh. rewrite Hval.
              apply Rmult_lt_compat_r; [exact Hg|].
              assert (0 < IZR (div_r M x y) / IZR (zm y))%R.
              { apply Rmult_lt_0_compat; [apply IZR_lt; clear - Hh B5; lia|].
                apply Rinv_0_lt_compat; exact HyR. }
              lra.
           ++ clear - HM. lia.
           ++ left. clear. lia.
Qed.

Lemma div_spec x y fx fy pos : zrep E M x fx -> zrep E M y fy ->
  fix_pos_ok (E:=E) (M:=M) (div_zr E M x y) (div_e M x y) pos ->
  zrep E M (zdiv E M x y pos) (ieee_div E M fx fy) \/
  (is_finite fx = true /\ is_finite_strict fy = true /\ pos = false /\
   div_e M x y + Z.b2z (div_zr E M x y =? 2 ^ (M + 1)) = emax /\
   ieee_div E M fx fy = B754_infinity (xorb (zs x) (zs y)) /\
   malformed (E:=E) (M:=M) (xorb (zs x) (zs y)) (zdiv E M x y pos)).
Proof.
  intros Hx Hy Hpos.
  pose proof (zrep_zwf _ _ Hx) as Wx. pose proof (zrep_zwf _ _ Hy) as Wy.
  exps E M. destruct (fmt_M (E:=E) (M:=M)) as [HM [HM1 HM2]].
  destruct fy as [sy|sy| |sy my ey Hby].
  - (* y = 0 *)
    left. cbn in Hy. unfold zdiv, zfix.
    assert (Ey : zm y = 0 /\ za y = false /\ ze y = emin - 1 /\ zs y = sy) by (subst y; auto).
    destruct Ey as (Ym & Ya & Ye & Ys). rewrite Ya, Ym. simpl (0 =? 0).
    rewrite !orb_true_r, orb_false_r.
    destruct (Z.eq_dec (zm x) 0) as [H0|H0].
    + destruct (div_zr_0 x y Wx Wy H0) as [-> _]. simpl (0 =? 0).
      assert (Hn : ieee_div E M fx (B754_zero sy) = B754_nan).
      { destruct fx as [sx|sx| |sx mx ex Hbx]; try reflexivity.
        - cbn in Hx. subst x. cbn in H0. lia.
        - destruct (zrep_finite _ _ _ _ _ Hx) as (_ & (_ & Hf & _) & _). lia. }
      rewrite Hn. cbn. eauto.
    + assert (He : 2 - emax <= div_e M x y).
      { unfold div_e. rewrite Ye. destruct Wx as [Wx1 _].
        destruct (div_msb M x y); cbn [Z.b2z]; lia. }
      pose proof (div_zr_nonneg_e x y Wx Wy H0 He) as Hz.
      destruct (Z.eqb_spec (div_zr E M x y) 0); [lia|].
      assert (Hn : ieee_div E M fx (B754_zero sy) = B754_infinity (xorb (zs x) (zs y))).
      { destruct fx as [sx|sx| |sx mx ex Hbx].
        - cbn in Hx. subst x. cbn in H0. lia.
        - cbn in Hx. subst x. rewrite Ys. reflexivity.
        - cbn in Hx. destruct Hx as [? ->]. cbn in H0. lia.
        - destruct (zrep_finite _ _ _ _ _ Hx) as (-> & _). rewrite Ys. reflexivity. }
      rewrite Hn. reflexivity.
  - (* y infinite *)
    left. cbn in Hy. unfold zdiv, zfix.
    assert (Ey : zm y = 2 ^ M /\ za y = true /\ ze y = emax /\ zs y = sy) by (subst y; auto).
    destruct Ey as (Ym & Ya & Ye & Ys). rewrite Ya, Ym.
    destruct (Z.eqb_spec (2 ^ M) 0); [lia|]. rewrite !orb_true_r, orb_false_r.
    destruct (is_finite fx) eqn:Fx.
    + destruct (zrep_B2R x fx Hx Fx) as (_ & Sx & Ax & _).
      destruct Hpos as [_ Hpos].
      assert (He : div_e M x y <= -1).
      { unfold div_e. rewrite Ye. destruct Wx as [_ Wx]. rewrite Ax in Wx.
        destruct (div_msb M x y); cbn [Z.b2z]; lia. }
      rewrite Hpos by (destruct (_ =? _); cbn [Z.b2z]; lia).
      rewrite Ax. cbn [orb]. rewrite Hex3.
      assert (Hn : ieee_div E M fx (B754_infinity sy) = B754_zero (xorb (zs x) (zs y))).
      { rewrite <- Sx, Ys. destruct fx as [sx|sx| |sx mx ex Hbx]; try discriminate; reflexivity. }
      rewrite Hn. reflexivity.
    + assert (Ax : za x = true).
      { destruct fx; try discriminate; cbn in Hx; [subst x|destruct Hx as [? ->]]; reflexivity. }
      rewrite Ax, orb_true_r.
      assert (Hn : ieee_div E M fx (B754_infinity sy) = B754_nan).
      { destruct fx as [sx|sx| |sx mx ex Hbx]; try discriminate; reflexivity. }
      rewrite Hn. cbn. eauto.
  - (* y NaN *)
    left. cbn in Hy. destruct Hy as [sy Hy]. unfold zdiv, zfix.
    assert (Ey : zm y = 0 /\ za y = true) by (subst y; auto). destruct Ey as (Ym & Ya).
    rewrite Ya, Ym. simpl (0 =? 0). rewrite !orb_true_r.
    assert (Hn : ieee_div E M fx B754_nan = B754_nan) by (destruct fx; reflexivity).
    rewrite Hn. cbn. eauto.
  - (* y finite, non-zero *)
    destruct (zrep_finite _ _ _ _ _ Hy) as (Sy & (Ay & Hym & Hye) & _).
    set (fy := B754_finite sy my ey Hby) in *.
    assert (Fy : is_finite fy = true) by reflexivity.
    pose proof (zrep_B2R y fy Hy Fy) as (Vy & Sy' & _ & _).
    assert (Hym0 : zm y <> 0) by lia.
    destruct (is_finite fx) eqn:Fx.
    + pose proof (zrep_B2R x fx Hx Fx) as (Vx & Sx & Ax & Cx).
      pose proof (zmag_pos y ltac:(lia)) as Hyp.
      assert (Hop : op_result (ieee_div E M fx fy) (xorb (zs x) (zs y)) (B2R fx / B2R fy)).
      { unfold op_result, ieee_div.
        assert (Hny : (B2R fy <> 0)%R).
        { rewrite Vy. destruct (zs y); simpl; lra. }
        pose proof (Bdiv_correct (Spec.prec M) (Spec.emax E) _ _ mode_NE fx fy Hny) as HB.
        change (Generic_fmt.round radix2 (SpecFloat.fexp (Spec.prec M) (Spec.emax E)) (round_mode mode_NE)
          (B2R fx / B2R fy)) with
          (Generic_fmt.round radix2 (FLT_exp (Spec.emin E M) (Spec.prec M)) ZnearestE (B2R fx / B2R fy)) in HB.
        destruct (Rlt_bool _ _).
        - destruct HB as (B1 & B2 & B3). rewrite Fx in B2. split; [exact B1|].
          split; [exact B2|]. rewrite <- Sx, <- Sy'. apply B3.
          destruct (Bdiv mode_NE fx fy); try reflexivity; discriminate.
        - rewrite <- Sx, <- Sy'. exact HB. }
      rewrite Vx, Vy in Hop.
      replace (sgn (zs x) * zmag (M:=M) x / (sgn (zs y) * zmag (M:=M) y))%R
        with (sgn (xorb (zs x) (zs y)) * (zmag (M:=M) x / zmag (M:=M) y))%R in Hop.
      2:{ rewrite sgn_xor. destruct (zs x), (zs y); simpl; field; lra. }
      assert (Hout : zdiv E M x y pos = fix_out (E:=E) (M:=M) (xorb (zs x) (zs y)) (div_zr E M x y)
                       (div_e M x y) false pos).
      { unfold zdiv, fix_out. rewrite Ax, Ay, orb_false_r.
        destruct (Z.eqb_spec (zm y) 0); [lia|]. reflexivity. }
      rewrite Hout.
      destruct (fix_spec (E:=E) (M:=M) (ieee_div E M fx fy) (xorb (zs x) (zs y))
                (zmag (M:=M) x / zmag (M:=M) y) (div_zr E M x y) (div_e M x y) pos) as [HL|HR];
        [exact Hop| | |exact Hpos|left; exact HL|right].
      * apply div_rounded; [assumption|assumption|lia].
      * destruct (Z.eq_dec (zm x) 0) as [H0|H0].
        -- destruct (div_zr_0 x y Wx Wy H0) as [-> ->]. left. split; [reflexivity|].
           destruct Wx as [_ Wx]. rewrite Ax in Wx. clear - Wx H0 Hye Hex4 Hex8 Hex10 HM1. lia.
        -- destruct (div_n_range x y Wx Wy) as [Hn|Hn].
           { destruct (div_bounds x y Wx Wy) as (B1 & B2 & B3 & B4 & B5 & B6 & B7 & B8 & B9 & B10 & _).
             exfalso. specialize (B8 H0). unfold div_n in Hn. clear - Hn B8 HM1 HM2.
             destruct (div_msb M x y); lia. }
           unfold div_zr.
           destruct (zround_range (E:=E) (M:=M) (div_n M x y) (M + 3)
             (zshift (E:=E) (div_e M x y) (M + 2)) (div_r M x y =? 0) ltac:(lia)) as [[Hz Hs]|Hz].
           ++ replace (M + 3 - 1) with (M + 2) by ring. exact Hn.
           ++ unfold zshift. clear - HM. Lia.lia.
           ++ left. split; [exact Hz|]. unfold zshift in Hs. clear - Hs Hex2 Hex8 HM. lia.
           ++ right. exact Hz.
      * destruct HR as (R1 & R2 & R3 & R4). auto 10.
    + left. assert (Ax : za x = true).
      { destruct fx; try discriminate; cbn in Hx; [subst x|destruct Hx as [? ->]]; reflexivity. }
      unfold zdiv, zfix. rewrite Ax, Ay. cbn [orb]. rewrite !orb_true_r, orb_false_r.
      destruct fx as [sx|sx| |sx mx ex Hbx]; try discriminate.
      * cbn in Hx.
        assert (He : 2 - emax <= div_e M x y).
        { unfold div_e. subst x. cbn [ze]. destruct (div_msb M _ y); cbn [Z.b2z]; lia. }
        assert (H0 : zm x <> 0) by (subst x; cbn; lia).
        pose proof (div_zr_nonneg_e x y Wx Wy H0 He) as Hz.
        destruct (Z.eqb_spec (div_zr E M x y) 0); [lia|].
        rewrite Sy. subst x. reflexivity.
      * cbn in Hx. destruct Hx as [s ->].
        destruct (div_zr_0 _ y Wx Wy eq_refl) as [-> _]. cbn. eauto.
Qed.

Theorem div_complete x y (fx fy : fmt E M) : represents x fx -> represents y fy ->
  exists r, exec b (Div E M x y) = Some r /\ represents r (ieee_div E M fx fy).
Proof.
  intros [zx [-> Hx]] [zy [-> Hy]].
  eexists. split; [exact (exec_Div zx zy (zrep_zwf _ _ Hx) (zrep_zwf _ _ Hy))|].
  eexists. split; [reflexivity|].
  destruct (div_spec zx zy fx fy _ Hx Hy (honest_pos_ok _ _ _ _)) as [H|(_ & _ & H & H' & _)];
    [exact H|].
  unfold honest_pos in H. exps E M. rewrite H', Hex1 in H. Lia.lia.
Qed.

End Div.
