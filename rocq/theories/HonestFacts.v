(** The repository's prover at every range-check width: the sines, and the
    location circuit without hints.  Nothing here needs the width to divide the
    size of the table of powers of two. *)
From Coq Require Import ZArith Reals Lra Lia Bool List.
From Flocq Require Import Core BinarySingleNaN.
From Verif Require Import Field FieldFacts Circuit CircuitFacts RangeCheck RangeFacts Gadget
  GadgetFacts Util FloatModel Tactics RoundFacts Spec RoundCore RepFacts MulFacts DivFacts
  AddFacts AddSpec Forge CompFacts NewFacts CmpFacts EqFacts Outcomes CircuitSpec Expr ExprFacts
  Math MathSpec ValueFacts MathFacts ErrorFacts SinFacts SinError SinAccuracy Witness Loc2Index ScaleFacts
  ClosestFacts LocCircuitFacts HexFacts WrapperFacts.
Import ListNotations.
Local Open Scope Z_scope.

Section HonestSin.
Context {MOD : Modulus} {E M b : Z} {HP : Params E M b} {HF : Format E M}.
#[local] Instance Wn : Width b (4 * M + 44) := params_width E M b HP.
#[local] Instance Bn : BigMod := width_big b _ _.
Notation fmt := (Spec.fmt E M).
Notation emax := (Spec.emax E).
Notation rne := (Spec.rne E M).
Notation valued := (ValueFacts.valued (E:=E) (M:=M)).
Notation gives := (gives (b:=b)).
Hypothesis HE8 : 8 <= E.
Hypothesis HM23 : 23 <= M.

Lemma not_anyone : Honest = Anyone -> pow2_size E M mod b = 0.
Proof. discriminate. Qed.

Lemma taylor_honest xs q : valued xs q -> (Rabs q <= bpow radix2 4)%R ->
  forall n i ret term vr vt, 1 <= i -> i + Z.of_nat n <= 31 ->
  valued ret vr -> valued term vt ->
  (Rabs vr <= bpow radix2 (2 * i))%R -> (Rabs vt <= bpow radix2 (2 * i))%R ->
  gives Honest (taylor_loop E M xs n i ret term) (fun r => valued r (rounded_taylor E M q n i vr vt)).
Proof.
  intros Hxs Hq. pose proof (emax_128 (E:=E) HE8) as He.
  pose proof (emin_neg (E:=E) (M:=M) HE8 HM23) as Hm.
  induction n as [|n IH]; intros i ret term vr vt Hi Hin Hr Ht Br Bt;
    cbn [taylor_loop rounded_taylor]; [exists ret; auto|].
  set (D := 2 * i * (2 * i + 1)). assert (HD : 4 <= D < 4096) by (unfold D; nia).
  assert (BR : (Rabs (rne (if Z.even i then vr - vt else vr + vt)) <= bpow radix2 (2 * i + 1))%R).
  { apply rne_bound; [|lia]. destruct (Z.even i); [apply bnd_sub|apply bnd_add]; assumption. }
  assert (BN : (Rabs (rne (vt * q)) <= bpow radix2 (2 * i + 4))%R).
  { apply rne_bound; [|lia]. apply bnd_mul; assumption. }
  assert (BT : (Rabs (rne (rne (vt * q) / IZR D)) <= bpow radix2 (2 * i + 2))%R).
  { apply rne_bound; [|lia]. apply bnd_div; [|lia]. replace (2 * i + 2 + 2) with (2 * i + 4) by lia.
    exact BN. }
  assert (Hvr : (Rabs vr < bpow radix2 (emax - 1))%R).
  { eapply Rle_lt_trans; [exact Br|]. apply bpow_lt. lia. }
  apply (gives_bind Honest _ _ (fun r => valued r (rne (if Z.even i then vr - vt else vr + vt)))).
  { assert (HF1 : fits (E:=E) (rne (if Z.even i then vr - vt else vr + vt)))
      by (eapply fits_bpow; [exact BR|lia]).
    destruct (Z.even i); [apply gives_sub|apply gives_add]; try assumption; apply not_anyone. }
  intros ret' Hr'. apply (gives_bind Honest _ _ (fun r => valued r (rne (vt * q)))).
  { apply gives_mul; try assumption; [apply not_anyone|]. eapply fits_bpow; [exact BN|lia]. }
  intros nom Hnom. apply (gives_bind Honest _ _ (fun r => valued r (rne (rne (vt * q) / IZR D)))).
  { apply gives_div; try assumption; [apply not_anyone|..].
    - apply int_bits_valued; [|apply (M_lt_emax HM23)]. fold D. split; [lia|].
      apply Z.lt_le_trans with (2 ^ 12); [lia|]. apply Z.pow_le_mono_r; lia.
    - apply IZR_neq. lia.
    - eapply fits_bpow; [exact BT|lia]. }
  intros term' Ht'. apply IH; try assumption; try lia.
  - eapply bnd_weaken; [exact BR|lia].
  - eapply bnd_weaken; [exact BT|lia].
Qed.

Section Sin.
Variables pi halfPi : Z.
Hypothesis Hpi : 0 <= pi < 2 ^ (E + M + 1).
Hypothesis Hhp : 0 <= halfPi < 2 ^ (E + M + 1).
Notation fpi := (of_bits E M pi).
Notation fhp := (of_bits E M halfPi).
Hypothesis Fpi : is_finite fpi = true.
Hypothesis Fhp : is_finite fhp = true.
Hypothesis Bpi : (Rabs (B2R fpi) <= bpow radix2 2)%R.
Hypothesis Ppi : (0 <= B2R fpi)%R.
Hypothesis Php : (0 <= B2R fhp)%R.

Theorem sin_honest x (fx : fmt) : represents x fx -> is_finite fx = true ->
  (Rabs (B2R fx) <= bpow radix2 2)%R ->
  exists r (f : fmt), exec b (SinTaylor E M pi halfPi x) = Some r /\
    represents r f /\ is_finite f = true /\ Bsign f = Bsign fx /\
    Rabs (B2R f) = Rabs (rounded_sin E M (B2R fpi) (B2R fhp) (B2R fx)).
Proof.
  intros Hx Fx Bx. pose proof (emax_128 (E:=E) HE8) as He.
  pose proof (emin_neg (E:=E) (M:=M) HE8 HM23) as Hm.
  pose proof (newconst_spec pi Hpi) as Cpi. pose proof (newconst_spec halfPi Hhp) as Chp.
  destruct (compare_circ_spec (b:=b) OpGt x _ fx fhp Hx Chp) as [G1 _].
  cbn [compare_circ ieee_compare] in G1.
  assert (Hlt : ieee_lt E M fhp fx = Rlt_bool (B2R fhp) (B2R fx)).
  { unfold ieee_lt. apply Bltb_correct; assumption. }
  set (c := ieee_lt E M fhp fx) in *.
  assert (BS : (Rabs (rne (B2R fpi - B2R fx)) <= bpow radix2 3)%R)
    by (apply rne_bound; [apply (bnd_sub _ _ 2); assumption|lia]).
  assert (VS : gives Honest (Sub E M (NewConstant E M pi) x)
    (fun r => valued r (rne (B2R fpi - B2R fx)))).
  { apply gives_sub; try assumption; try (apply represents_valued; assumption); [apply not_anyone|..].
    - eapply fits_bpow; [exact BS|lia].
    - eapply Rle_lt_trans; [exact Bpi|]. apply bpow_lt. lia. }
  set (t := (if Rlt_bool (B2R fhp) (B2R fx) then Rabs (rne (B2R fpi - B2R fx)) else Rabs (B2R fx))%R).
  assert (HT : forall y, valued y (rne (B2R fpi - B2R fx)) ->
    valued (mkF (emb 0) (if c then Exponent y else Exponent x)
              (if c then Mantissa y else Mantissa x) (emb 0)) t).
  { intros y (fy & Hy & Fy & Vy). pose proof (select_abs c y x fy fx Hy Fy Hx Fx) as HS.
    eexists. split; [exact HS|]. unfold ieee_abs. rewrite is_finite_Babs, B2R_Babs.
    unfold t. rewrite <- Hlt. destruct c; [rewrite Vy|]; auto. }
  assert (BT : (Rabs t <= bpow radix2 2)%R).
  { unfold t. case Rlt_bool_spec; intros Hc; rewrite Rabs_Rabsolu; [|exact Bx].
    apply rne_bound; [|lia]. apply Rabs_le. apply Rabs_le_inv in Bpi. apply Rabs_le_inv in Bx. lra. }
  assert (BQ : (Rabs (rne (t * t)) <= bpow radix2 4)%R)
    by (apply rne_bound; [apply (bnd_mul _ _ 2 2); assumption|lia]).
  destruct VS as (y & Hy & Vy). pose proof (HT y Vy) as Ht.
  assert (VQ : gives Honest (Mul E M (mkF (emb 0) (if c then Exponent y else Exponent x)
      (if c then Mantissa y else Mantissa x) (emb 0)) (mkF (emb 0) (if c then Exponent y else Exponent x)
      (if c then Mantissa y else Mantissa x) (emb 0))) (fun r => valued r (rne (t * t)))).
  { apply gives_mul; try assumption; [apply not_anyone|]. eapply fits_bpow; [exact BQ|lia]. }
  destruct VQ as (q & Hq & Vq).
  destruct (taylor_honest q (rne (t * t)) Vq BQ 15 1 (NewConstant E M 0) _ 0 t ltac:(lia) ltac:(lia)
    zero_valued Ht ltac:(rewrite Rabs_R0; apply bpow_ge_0) BT) as (l & Hl & f & Hf & Ff & Vf).
  pose proof (sign_wire x fx Hx ltac:(destruct fx; try discriminate; reflexivity)) as Hsx.
  exists (mkF (Sign x) (Exponent l) (Mantissa l) (IsAbnormal l)), (with_sign E M (Bsign fx) f).
  destruct (with_sign_B2R (Bsign fx) f Ff) as (W1 & W2 & W3).
  split.
  - unfold SinTaylor. cbv zeta. rewrite (exec_bind_eq _ _ _ _ G1), (exec_bind_eq _ _ _ _ Hy).
    rewrite (exec_bind_eq _ _ _ _ (exec_select _ _ _ _)), (exec_bind_eq _ _ _ _ (exec_select _ _ _ _)).
    rewrite (exec_bind_eq _ _ _ _ Hq), (exec_bind_eq _ _ _ _ Hl). reflexivity.
  - rewrite Hsx. split; [apply with_sign_spec, Hf|]. split; [exact W1|]. split; [exact W2|].
    unfold rounded_sin. fold t. rewrite W3, sgn_abs, Rabs_Rabsolu, Vf. reflexivity.
Qed.
End Sin.
End HonestSin.

(** ** The 32-bit circuit *)
Section HonestWrapper.
Context {MOD : Modulus} {b : Z} {HP : Params 8 23 b}.
#[local] Instance Wn' : Width b (4 * 23 + 44) := params_width 8 23 b HP.
#[local] Instance Bn' : BigMod := width_big b _ _.
Notation fmt := (fmt 8 23).
Notation P := (B2R (of_bits 8 23 pi_32)).
Notation H := (B2R (of_bits 8 23 half_pi_32)).
Notation D := (B2R (of_bits 8 23 double_pi_32)).

Lemma params_8 : Params 8 23 8.
Proof. destruct HP. constructor; try assumption; lia. Qed.

(** The honest sine does not depend on the width. *)
Lemma sin_width x (fx : fmt) : represents x fx -> is_finite fx = true -> (Rabs (B2R fx) <= 4)%R ->
  exec b (SinTaylor32 x) = exec 8 (SinTaylor32 x).
Proof.
  intros Rx Fx Hv. pose proof params_8 as HP8.
  assert (B4 : bpow radix2 2 = 4%R) by (simpl; lra). rewrite <- B4 in Hv.
  assert (S2 : (Rabs P <= bpow radix2 2)%R) by (rewrite B4; apply Rabs_le; rewrite pi32_R; lra).
  destruct (sin_honest (b:=b) (E:=8) (M:=23) ltac:(lia) ltac:(lia) pi_32 half_pi_32 pi32_ok half32_ok pi32_fin
    half32_fin S2 ltac:(rewrite pi32_R; lra) ltac:(rewrite half32_R; lra) x fx Rx Fx Hv)
    as (r & f & Hr & Rf & Ff & Sf & Vf).
  destruct (sin_honest (b:=8) (E:=8) (M:=23) ltac:(lia) ltac:(lia) pi_32 half_pi_32 pi32_ok half32_ok pi32_fin
    half32_fin S2 ltac:(rewrite pi32_R; lra) ltac:(rewrite half32_R; lra) x fx Rx Fx Hv)
    as (r' & g & Hr' & Rg & Fg & Sg & Vg).
  unfold SinTaylor32. rewrite Hr, Hr'.
  assert (Q : g = f).
  { apply B2R_Bsign_inj; try assumption; [|congruence].
    rewrite (signed_value g), (signed_value f), Sg, Sf, Vg, Vf. reflexivity. }
  subst g. rewrite (represents_unique r f Rf (finite_not_nan _ Ff)).
  rewrite (represents_unique r' f Rg (finite_not_nan _ Ff)). reflexivity.
Qed.

Lemma exec_add_wires x y (fx fy : fmt) : represents x fx -> represents y fy ->
  (B2R fx + B2R fy <> 0)%R -> is_finite (ieee_add 8 23 fx fy) = true ->
  exec b (Add 8 23 x y) = Some (wires (ieee_add 8 23 fx fy)).
Proof.
  intros Hx Hy Hn Hf. destruct (add_complete x y fx fy Hx Hy) as (r & G & H1 & _). rewrite G. f_equal.
  apply represents_unique; [|apply finite_not_nan, Hf]. apply H1.
  intros (_ & _ & Hv & _). apply Hn. rewrite Hv. ring.
Qed.

Lemma exec_sub_wires x y (fx fy : fmt) : represents x fx -> represents y fy ->
  (B2R fx - B2R fy <> 0)%R -> is_finite (ieee_sub 8 23 fx fy) = true ->
  exec b (Sub 8 23 x y) = Some (wires (ieee_sub 8 23 fx fy)).
Proof.
  intros Hx Hy Hn Hf. unfold Sub. rewrite minus_plus_opp in *.
  apply (exec_add_wires x (Neg y) fx (ieee_neg 8 23 fy) Hx (neg_spec _ _ Hy)); [|exact Hf].
  unfold ieee_neg. rewrite B2R_Bopp. exact Hn.
Qed.

Theorem wrapper_honest Lat Lng : 0 <= Lat < modulus -> 0 <= Lng < modulus ->
  0 <= Lat < 2 ^ 32 -> 0 <= Lng < 2 ^ 32 ->
  let fl := of_bits 8 23 Lat in let fg := of_bits 8 23 Lng in
  is_finite fl = true -> is_finite fg = true ->
  (- H < B2R fl <= H)%R -> (- P <= B2R fg <= P)%R -> B2R fg <> (- H)%R ->
  forall sl cl sg cg : fmt, computed (b:=8) fl fg sl cl sg cg ->
  computed (b:=b) fl fg sl cl sg cg /\
  forall K faces res I J K_,
    (exec b (loc2Index32CircuitWrapper K faces Lat Lng res I J K_) = Some tt <-> res <= 15 /\
     exec b (locate 8 23 K faces (wires fg) (wires cl) (wires cg) (wires sl) (wires sg) res I J K_) = Some tt).
Proof.
  intros Ml Mg Hl Hg fl fg Fl Fg Vl Vg Hn sl cl sg cg (C1 & C2 & C3 & C4).
  pose proof pi32_fin as Fp. pose proof half32_fin as Fh. pose proof double32_fin as Fd.
  assert (EP : P = (13176795 / 4194304)%R) by exact pi32_R.
  assert (EH : H = (13176795 / 8388608)%R) by exact half32_R.
  assert (ED : D = (13176795 / 2097152)%R) by exact double32_R.
  assert (Bt : (Rabs (B2R fl + H) <= 8)%R) by (apply Rabs_le; lra).
  destruct (add_fin fl (of_bits 8 23 half_pi_32) Fl Fh (rne_fits _ Bt)) as [Ft Vt].
  assert (Bm : (Rabs (B2R fg + H) <= 8)%R) by (apply Rabs_le; lra).
  destruct (add_fin fg (of_bits 8 23 half_pi_32) Fg Fh (rne_fits _ Bm)) as [Fm Vm].
  pose proof (rne_8 _ Bt) as Et. rewrite <- Vt in Et. apply Rabs_le_inv in Et.
  pose proof (rne_8 _ Bm) as Em. rewrite <- Vm in Em. apply Rabs_le_inv in Em.
  assert (Bs : (Rabs (B2R (ieee_add 8 23 fg (of_bits 8 23 half_pi_32)) - D) <= 8)%R)
    by (apply Rabs_le; lra).
  destruct (sub_fin _ (of_bits 8 23 double_pi_32) Fm Fd (rne_fits _ Bs)) as [Fs Vs].
  pose proof (rne_8 _ Bs) as Es. rewrite <- Vs in Es. apply Rabs_le_inv in Es.
  unfold turned in C4. cbv zeta in C4.
  set (term := ieee_add 8 23 fl (of_bits 8 23 half_pi_32)) in *.
  set (tmp := ieee_add 8 23 fg (of_bits 8 23 half_pi_32)) in *.
  set (shifted := ieee_sub 8 23 tmp (of_bits 8 23 double_pi_32)) in *.
  set (c := ieee_lt 8 23 (of_bits 8 23 pi_32) tmp) in *.
  assert (Hc : c = Rlt_bool P (B2R tmp)) by (unfold c, ieee_lt; apply Bltb_correct; assumption).
  assert (Farg : is_finite (if c then shifted else tmp) = true) by (destruct c; assumption).
  assert (Barg : (Rabs (B2R (if c then shifted else tmp)) <= 4)%R).
  { apply Rabs_le. revert Hc. case Rlt_bool_spec; intros Hcmp ->; lra. }
  rewrite <- sin_width with (fx:=fl) in C1 by (try apply wires_represents; try apply Rabs_le; try assumption; lra).
  rewrite <- sin_width with (fx:=term) in C2 by (try apply wires_represents; try apply Rabs_le; try assumption; lra).
  rewrite <- sin_width with (fx:=fg) in C3 by (try apply wires_represents; try apply Rabs_le; try assumption; lra).
  rewrite <- sin_width with (fx:=if c then shifted else tmp) in C4
    by (try apply wires_represents; assumption).
  split; [exact (conj C1 (conj C2 (conj C3 C4)))|]. intros K faces res I J K_.
  pose proof (newconst_spec (E:=8) (M:=23) Lat Hl) as Rl. pose proof (newconst_spec (E:=8) (M:=23) Lng Hg) as Rg.
  pose proof (lt_false _ fl half32_fin Fl (proj2 Vl)) as B1.
  pose proof (lt_false _ fg pi32_fin Fg (proj2 Vg)) as B2.
  unfold loc2Index32CircuitWrapper.
  rewrite (new_exec_step (E:=8) (M:=23) Lat _ _ Ml), (new_exec_step (E:=8) (M:=23) Lng _ _ Mg).
  rewrite (exec_bounds _ _ fl fg res _ _ Rl Rg B1 B2). cbv zeta.
  rewrite (represents_unique _ fl Rl (finite_not_nan _ Fl)), (represents_unique _ fg Rg (finite_not_nan _ Fg)).
  assert (A1 : exec b (Add 8 23 (wires fl) (NewConstant 8 23 half_pi_32)) = Some (wires term))
    by (apply exec_add_wires; [apply wires_represents|apply newconst_spec, half32_ok|lra|exact Ft]).
  assert (A2 : exec b (Add 8 23 (wires fg) (NewConstant 8 23 half_pi_32)) = Some (wires tmp)).
  { apply exec_add_wires; [apply wires_represents|apply newconst_spec, half32_ok| |exact Fm].
    intros Q. apply Hn. lra. }
  assert (A3 : exec b (Sub 8 23 (wires tmp) (NewConstant 8 23 double_pi_32)) = Some (wires shifted))
    by (apply exec_sub_wires; [apply wires_represents|apply newconst_spec, double32_ok|lra|exact Fs]).
  rewrite (exec_bind_eq b _ _ _ A1), (exec_bind_eq b _ _ _ C2), (exec_bind_eq b _ _ _ A2).
  rewrite (fixes_exec _ _ _ (fixes_gt (b:=b) _ _ tmp _ (wires_represents tmp) (newconst_spec _ pi32_ok))).
  rewrite (exec_bind_eq b _ _ _ A3).
  fold c.
  do 3 rewrite (fixes_exec _ _ _ (fixes_select c _ _)).
  replace (mkF (if c then Sign (wires shifted) else Sign (wires tmp))
    (if c then Exponent (wires shifted) else Exponent (wires tmp))
    (if c then Mantissa (wires shifted) else Mantissa (wires tmp)) (emb 0)) with (wires (if c then shifted else tmp))
    by (destruct c; symmetry; apply wires_finite; assumption).
  rewrite (exec_bind_eq b _ _ _ C4), (exec_bind_eq b _ _ _ C3), (exec_bind_eq b _ _ _ C1).
  intuition.
Qed.
End HonestWrapper.
