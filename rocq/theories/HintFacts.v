(** The hint-based location circuits and a prover whose library functions are
    accurate. *)
From Coq Require Import ZArith Reals Lra Lia Bool List.
From Flocq Require Import Core Calc.Operations BinarySingleNaN.
From Verif Require Import Field FieldFacts Circuit CircuitFacts RangeCheck RangeFacts Gadget
  GadgetFacts Util FloatModel Tactics RoundFacts Spec RoundCore RepFacts MulFacts
  AddFacts AddSpec Forge CompFacts NewFacts CmpFacts EqFacts Outcomes Circuits CircuitSpec Expr ExprFacts
  Math MathSpec ValueFacts ErrorFacts SinFacts SinError SinAccuracy Loc2Index ScaleFacts
  ClosestFacts LocCircuitFacts HexFacts WrapperFacts PipeFacts HexCell TableFacts FixSin Angles PlaneError.
Import ListNotations.
Local Open Scope Z_scope.

Section Exec.
Context {MOD : Modulus} {E M b : Z} {HP : Params E M b} {HF : Format E M}.
#[local] Instance Wn : Width b (4 * M + 44) := params_width E M b HP.
#[local] Instance Bn : BigMod := width_big b _ _.
Notation fmt := (fmt E M).
Notation datum p := (of_bits E M p).

Lemma hint_float_exec h i s e m a : h i = Some s -> h (i + 1)%nat = Some e -> h (i + 2)%nat = Some m -> h (i + 3)%nat = Some a ->
  exec b (hint_float h i) = Some (mkF (emb s) (emb e) (emb m) (emb a)).
Proof. intros H1 H2 H3 H4. unfold hint_float, hint1. cbn. rewrite H1, H2, H3, H4. reflexivity. Qed.

Lemma precompute_exec trig v pa pb pg pd : 0 <= v < 2 ^ (E + M + 1) -> is_nan (datum v) = false ->
  trig v = [pa; pb; pg; pd] ->
  exec b (precompute E M (PrecomputeHint E M trig v)) =
  Some (NewConstant E M pa, NewConstant E M pb, NewConstant E M pg, NewConstant E M pd).
Proof.
  intros Hv N HT. destruct (valueof_spec v Hv) as (w & Hw & _ & _ & Hvw). rewrite (Hvw N) in Hw.
  assert (Z0 : 0 <= 0 < 2 ^ (E + M + 1)) by (split; [lia|apply Z.pow_pos_nonneg; destruct (fmt_M (E:=E) (M:=M)); pose proof (f_E (E:=E) (M:=M)); lia]).
  assert (HH : forall i, PrecomputeHint E M trig v i = nth_error (flat_map (fun p => let c := ComponentsOf p E M in [co_s c; co_e c; co_m c; co_a c]) [pa; pb; pg; pd]) i).
  { intros i. unfold PrecomputeHint. rewrite Hw, HT. reflexivity. }
  unfold precompute. destruct (newfloat_complete (b:=b) 0 Z0) as [N0 _].
  do 4 rewrite (exec_bind_eq _ _ _ _ N0).
  rewrite (exec_bind_eq _ _ _ _ (hint_float_exec _ 0 _ _ _ _ (HH _) (HH _) (HH _) (HH _))).
  rewrite (exec_bind_eq _ _ _ _ (hint_float_exec _ 4 _ _ _ _ (HH _) (HH _) (HH _) (HH _))).
  rewrite (exec_bind_eq _ _ _ _ (hint_float_exec _ 8 _ _ _ _ (HH _) (HH _) (HH _) (HH _))).
  rewrite (exec_bind_eq _ _ _ _ (hint_float_exec _ 12 _ _ _ _ (HH _) (HH _) (HH _) (HH _))).
  reflexivity.
Qed.

Lemma exec_unit {A} (c : circ unit) (k : unit -> circ A) u : 
  exec b (bind c k) = Some u <-> exec b c = Some tt /\ exec b (k tt) = Some u.
Proof. rewrite exec_bind. destruct (exec b c) as [[]|]; intuition discriminate. Qed.

(** Conditions on IEEE data the three comparisons stand for. *)
Definition decides (cmp : FloatVar -> FloatVar -> circ unit) (P : fmt -> fmt -> Prop) : Prop :=
  forall x y fx fy, represents x fx -> represents y fy -> (exec b (cmp x y) = Some tt <-> P fx fy).

Definition half_cos (g d : fmt) : fmt := ieee_sub E M (ieee_mul E M d d) (ieee_mul E M g g).
Definition passes (P1 P2 P3 : fmt -> fmt -> Prop) (a be g d : fmt) : Prop :=
  P1 (ieee_add E M (ieee_mul E M g g) (ieee_mul E M d d)) (datum (int_bits E M 1)) /\
  P2 (ieee_mul E M a d) g /\
  P3 (ieee_mul E M (datum (int_bits E M 2)) (ieee_mul E M g d)) be.

Lemma checks_exec cmp1 cmp2 cmp3 (P1 P2 P3 : fmt -> fmt -> Prop) al be ga de (a c g d : fmt) :
  decides cmp1 P1 -> decides cmp2 P2 -> decides cmp3 P3 ->
  represents al a -> represents be c -> represents ga g -> represents de d ->
  0 <= int_bits E M 1 < 2 ^ (E + M + 1) -> 0 <= int_bits E M 2 < 2 ^ (E + M + 1) ->
  (Rabs (B2R (ieee_mul E M d d)) < bpow radix2 (emax E - 1))%R ->
  exists r, represents r (half_cos g d) /\
  forall A (k : FloatVar -> circ A) u,
    exec b (bind (trig_checks E M cmp1 cmp2 cmp3 al be ga de) k) = Some u <->
    passes P1 P2 P3 a c g d /\ exec b (k r) = Some u.
Proof.
  intros D1 D2 D3 Ra Rb Rg Rd I1 I2 Hs. pose proof (newconst_spec (E:=E) (M:=M) _ I1) as C1. pose proof (newconst_spec (E:=E) (M:=M) _ I2) as C2.
  destruct (mul_complete (b:=b) de de _ _ Rd Rd) as (r1 & E1 & R1).
  destruct (mul_complete (b:=b) ga ga _ _ Rg Rg) as (r2 & E2 & R2).
  destruct (add_runs (b:=b) r2 r1 _ _ R2 R1) as (r3 & E3 & R3).
  rewrite (honest_sum_ieee _ _ (nonneg_no_cancel _ _ (square_nonneg _) (square_nonneg _))) in R3.
  destruct (mul_complete (b:=b) al de _ _ Ra Rd) as (r4 & E4 & R4).
  destruct (mul_complete (b:=b) ga de _ _ Rg Rd) as (r5 & E5 & R5).
  destruct (mul_complete (b:=b) _ r5 _ _ C2 R5) as (r6 & E6 & R6).
  destruct (sub_runs (b:=b) r1 r2 _ _ R1 R2) as (r7 & E7 & R7).
  rewrite (honest_diff_ieee _ _ (small_no_cancel _ _ Hs)) in R7.
  exists r7. split; [exact R7|]. intros A k u. unfold trig_checks, passes.
  rewrite <- (D1 _ _ _ _ R3 C1), <- (D2 _ _ _ _ R4 Rg), <- (D3 _ _ _ _ R6 Rb).
  rewrite exec_bind.
  rewrite (exec_bind_eq _ _ _ _ E1), (exec_bind_eq _ _ _ _ E2), (exec_bind_eq _ _ _ _ E3).
  rewrite exec_bind. destruct (exec b (cmp1 r3 _)) as [[]|] eqn:X1; [|intuition discriminate].
  rewrite (exec_bind_eq _ _ _ _ E4).
  rewrite exec_bind. destruct (exec b (cmp2 r4 _)) as [[]|] eqn:X2; [|intuition discriminate].
  rewrite (exec_bind_eq _ _ _ _ E5), (exec_bind_eq _ _ _ _ E6).
  rewrite exec_bind. destruct (exec b (cmp3 r6 _)) as [[]|] eqn:X3; [|intuition discriminate].
  rewrite (exec_bind_eq _ _ _ _ E1), (exec_bind_eq _ _ _ _ E2), E7. intuition.
Qed.
End Exec.

(** ** Values *)
Section Values.
Context {E M : Z} {HF : Format E M}.
Context (HE8 : 8 <= E) (HM23 : 23 <= M).
Notation fmt := (Spec.fmt E M).
Notation rne := (Spec.rne E M).
Notation u := (unit_ro M).
Notation eta := (half_min E M).
Notation dl := (4 * unit_ro M)%R.
Notation app := (app dl).

(** [f] is what an accurate library returns for [v] at the angle [ang]: the
    error is at most 8 units of roundoff (4 units in the last place), or 4 times
    half the smallest positive datum; the sign is that of [v], or of the angle
    if [v] is 0. *)
Definition lib (ang f : fmt) (v : R) : Prop :=
  is_finite f = true /\ (Rabs (B2R f - v) <= 8 * u * Rabs v + 4 * eta)%R /\
  Bsign f = (if Req_bool v 0 then Bsign ang else Rlt_bool v 0).

(** The four values the hint is to compute. *)
Definition accurate (ang a be g d : fmt) : Prop :=
  let x := B2R ang in
  lib ang a (tan (x / 2)) /\ lib ang be (sin x) /\ lib ang g (sin (x / 2)) /\ lib ang d (cos (x / 2)).

Let U0 : (0 < u)%R := u_pos (M:=M).
Lemma u_small' : (u <= 1 / 40000)%R.
Proof.
  apply Rle_trans with (bpow radix2 (-24)); [apply bpow_le; unfold prec; lia|].
  change (bpow radix2 (-24)) with (/ 16777216)%R. lra.
Qed.
Lemma dl_ok : (u <= dl / 4)%R. Proof. lra. Qed.
Lemma dl_le : (dl <= 1 / 10000)%R. Proof. pose proof u_small'. lra. Qed.

Lemma lib_app ang f v : lib ang f v -> (Rabs v <= 1)%R -> app f v (201 / 100).
Proof.
  intros (F & H & _) V. split; [exact F|]. pose proof (eta_u3 (M:=M) HE8) as E3. pose proof u_small' as S.
  assert (u * u * u <= u)%R by (assert (u * u <= 1)%R by nra; nra).
  assert (8 * u * Rabs v <= 8 * u)%R by nra. 
  assert (u * u * u <= u / 1000)%R by (assert (u * u <= 1/1000)%R by nra; nra). lra.
Qed.

Lemma within_intro (f g : fmt) (t : Z) v k : Bsign f = Bsign g -> app f v k -> app g v k -> (0 <= k <= 10)%R ->
  is_finite (of_bits E M t) = true -> (1 <= B2R (of_bits E M t))%R -> ieee_within E M f g t.
Proof.
  intros S [F A] [G B] K Ft Vt. right. split; [exact S|]. pose proof dl_le as DL.
  pose proof (app_sub HE8 HM23 dl dl_ok dl_le f g v v k k 0 (2 * k + 1) (conj F A) (conj G B)
    ltac:(rewrite Rminus_eq_0, Rabs_R0; lra) ltac:(lra) ltac:(lra) ltac:(lra) ltac:(lra)) as (h & Hh & [Fh Ah]).
  apply keep_some in Hh as [-> _]. rewrite Rminus_eq_0, Rminus_0_r in Ah.
  rewrite ieee_le_R; [|unfold ieee_abs; rewrite is_finite_Babs; exact Fh|exact Ft].
  apply Rle_bool_true. unfold ieee_abs. rewrite B2R_Babs. assert ((2 * k + 1) * dl <= 1)%R by nra. lra.
Qed.

Lemma mul_sign (f g : fmt) : is_finite (ieee_mul E M f g) = true -> Bsign (ieee_mul E M f g) = xorb (Bsign f) (Bsign g).
Proof.
  intros F. unfold ieee_mul in *. pose proof (Bmult_correct _ _ (fmt_prec_gt_0 E M) (fmt_prec_lt_emax E M) mode_NE f g) as C.
  destruct Rlt_bool.
  - destruct C as (_ & _ & C). apply C. destruct Bmult; try reflexivity; discriminate F.
  - exfalso. destruct Bmult; try discriminate F; cbn in C; unfold binary_overflow in C; cbn in C; discriminate C.
Qed.

Lemma pos_sign (f : fmt) : (0 < B2R f)%R -> Bsign f = false.
Proof.
  destruct f as [[]|[]| |[] m e B]; cbn; intros H; try lra; try reflexivity.
  exfalso. assert (F2R (Float radix2 (Z.neg m) e) < 0)%R by (apply F2R_lt_0; cbn; lia). lra.
Qed.

Lemma eta_top (a : fmt) : (eta * Rabs (B2R a) <= 4 * u)%R.
Proof.
  pose proof (abs_B2R_lt_emax _ _ a) as L. pose proof (eta_pos (E:=E) (M:=M)) as E0.
  apply Rle_trans with (eta * bpow radix2 (emax E))%R; [apply Rmult_le_compat_l; lra|].
  unfold half_min, unit_ro. change 4%R with (bpow radix2 2). rewrite <- !bpow_plus. apply bpow_le.
  unfold emin, prec, emax. lia.
Qed.

(** [tan], [sin] and [cos] of the half angle, and the sine. *)
Section Angle.
Variables (ang a be g d one two : fmt).
Hypothesis HA : accurate ang a be g d.
Let x : R := B2R ang.
Let s : R := sin (x / 2).
Let c : R := cos (x / 2).
Hypothesis Hc : c <> 0%R.
Hypothesis H1 : is_finite one = true /\ B2R one = 1%R.
Hypothesis H2 : is_finite two = true /\ B2R two = 2%R.

Notation mul := (ieee_mul E M).

Lemma s_1 : (Rabs s <= 1)%R. Proof. apply Rabs_le, SIN_bound. Qed.
Lemma c_1 : (Rabs c <= 1)%R. Proof. apply Rabs_le, COS_bound. Qed.
Lemma sin_x : (sin x = 2 * (s * c))%R.
Proof. unfold s, c. replace x with (2 * (x / 2))%R at 1 by field. rewrite sin_2a. ring. Qed.
Lemma cos_x : (cos x = c * c - s * s)%R.
Proof. unfold s, c. replace x with (2 * (x / 2))%R at 1 by field. rewrite cos_2a. ring. Qed.
Lemma sc_1 : (s * s + c * c = 1)%R.
Proof. unfold s, c. pose proof (sin2_cos2 (x / 2)) as H. unfold Rsqr in H. exact H. Qed.

Lemma g_app : app g s (201 / 100).
Proof. destruct HA as (_ & _ & A & _). exact (lib_app _ _ _ A s_1). Qed.
Lemma d_app : app d c (201 / 100).
Proof. destruct HA as (_ & _ & _ & A). exact (lib_app _ _ _ A c_1). Qed.
Lemma be_app : app be (sin x) (201 / 100).
Proof. destruct HA as (_ & A & _). apply (lib_app _ _ _ A), Rabs_le, SIN_bound. Qed.

Lemma app_mul1 f h v w : app f v (201 / 100) -> app h w (201 / 100) -> (Rabs v <= 1)%R -> (Rabs w <= 1)%R ->
  app (mul f h) (v * w) (43 / 10).
Proof.
  intros A B V W. destruct (app_mul HE8 HM23 dl dl_ok dl_le f h v w (201/100) (201/100) 1 1 (43 / 10) A B V W ltac:(lra) ltac:(lra) ltac:(lra) ltac:(lra)) as (q & Q & R).
  apply keep_some in Q as [-> _]. exact R.
Qed.

Lemma sum_app : app (ieee_add E M (mul g g) (mul d d)) 1 (89 / 10).
Proof.
  pose proof (app_mul1 g g s s g_app g_app s_1 s_1) as A. pose proof (app_mul1 d d c c d_app d_app c_1 c_1) as B.
  destruct (app_add HE8 HM23 dl dl_ok dl_le _ _ _ _ _ _ 1 (89 / 10) A B ltac:(rewrite sc_1, Rabs_R1; lra) ltac:(lra) ltac:(lra) ltac:(lra) ltac:(lra)) as (q & Q & R).
  apply keep_some in Q as [-> _]. rewrite sc_1 in R. exact R.
Qed.

Lemma cos_app : app (half_cos (E:=E) (M:=M) g d) (cos x) (89 / 10).
Proof.
  pose proof (app_mul1 g g s s g_app g_app s_1 s_1) as A. pose proof (app_mul1 d d c c d_app d_app c_1 c_1) as B.
  destruct (app_sub HE8 HM23 dl dl_ok dl_le _ _ _ _ _ _ 1 (89 / 10) B A ltac:(rewrite <- cos_x; apply Rabs_le, COS_bound) ltac:(lra) ltac:(lra) ltac:(lra) ltac:(lra)) as (q & Q & R).
  apply keep_some in Q as [-> _]. rewrite <- cos_x in R. exact R.
Qed.

Lemma dbl_app : app (mul two (mul g d)) (sin x) (94 / 10).
Proof.
  pose proof (app_mul1 g d s c g_app d_app s_1 c_1) as A.
  assert (T : app two 2 0) by (destruct H2 as [F V]; split; [exact F|rewrite V, Rminus_eq_0, Rabs_R0; lra]).
  assert (B : (Rabs (s * c) <= 1 / 2)%R).
  { apply Rabs_le. pose proof sc_1 as Q. clearbody s c. clear - Q. pose proof (Rle_0_sqr (s - c)) as X. pose proof (Rle_0_sqr (s + c)) as Y. unfold Rsqr in *. lra. }
  destruct (app_mul HE8 HM23 dl dl_ok dl_le _ _ _ _ _ _ 2 (1 / 2) (94 / 10) T A ltac:(rewrite Rabs_pos_eq; lra) B ltac:(lra) ltac:(lra) ltac:(lra) ltac:(lra)) as (q & Q & R).
  apply keep_some in Q as [-> _]. rewrite <- sin_x in R. exact R.
Qed.

Lemma ad_app : app (mul a d) s (87 / 10).
Proof.
  destruct HA as ((Fa & Aa & _) & _ & _ & (Fd & Ad & _)). fold x in Aa, Ad. fold c in Ad.
  assert (HT : (tan (x / 2) * c = s)%R) by (unfold tan; fold s c; field; exact Hc).
  set (t := tan (x / 2)) in *. pose proof s_1 as S1. pose proof c_1 as C1. pose proof (eta_top a) as ET.
  pose proof u_small' as US. pose proof (eta_pos (E:=E) (M:=M)) as E0.
  assert (E1 : (eta <= u / 100)%R).
  { pose proof (eta_u3 (M:=M) HE8). assert (u * u <= 1)%R by nra. nra. }
  set (A := B2R a) in *. set (D := B2R d) in *.
  assert (X1 : (Rabs ((A - t) * c) <= 8 * u + 4 * eta)%R).
  { rewrite Rabs_mult. apply Rle_trans with ((8 * u * Rabs t + 4 * eta) * Rabs c)%R.
    - apply Rmult_le_compat_r; [apply Rabs_pos|exact Aa].
    - assert (Rabs t * Rabs c <= 1)%R by (rewrite <- Rabs_mult, HT; exact S1). pose proof (Rabs_pos c).
      replace ((8 * u * Rabs t + 4 * eta) * Rabs c)%R with (8 * u * (Rabs t * Rabs c) + 4 * eta * Rabs c)%R by ring. nra. }
  assert (X2 : (Rabs (A * c) <= 101 / 100)%R).
  { replace (A * c)%R with ((A - t) * c + s)%R by (rewrite <- HT; ring). eapply Rle_trans; [apply Rabs_triang|]. lra. }
  assert (X3 : (Rabs (A * (D - c)) <= 8 * u * (101 / 100) + 16 * u)%R).
  { rewrite Rabs_mult. apply Rle_trans with (Rabs A * (8 * u * Rabs c + 4 * eta))%R.
    - apply Rmult_le_compat_l; [apply Rabs_pos|exact Ad].
    - rewrite Rabs_mult in X2. replace (Rabs A * (8 * u * Rabs c + 4 * eta))%R with (8 * u * (Rabs A * Rabs c) + 4 * (eta * Rabs A))%R by ring. nra. }
  assert (X : (Rabs (A * D - s) <= 84 / 10 * dl)%R).
  { replace (A * D - s)%R with ((A - t) * c + A * (D - c))%R by (rewrite <- HT; ring).
    eapply Rle_trans; [apply Rabs_triang|]. lra. }
  destruct (round_app HE8 HM23 dl dl_ok dl_le (A * D) s (84 / 10) 1 (87 / 10) X S1 ltac:(lra) ltac:(lra) ltac:(lra)) as [F V].
  destruct (mul_fin a d Fa Fd F) as [F' V']. split; [exact F'|]. rewrite V'. exact V.
Qed.

Lemma d_sign : Bsign d = Rlt_bool c 0.
Proof. destruct HA as (_ & _ & _ & (_ & _ & S)). fold x c in S. rewrite S, Req_bool_false by exact Hc. reflexivity. Qed.

Hypothesis Hs : s = 0%R -> (0 < c)%R.

Lemma sign_prod v w k : (0 < k)%R -> (w <> 0)%R -> (v = 0 -> 0 < w)%R ->
  xorb (if Req_bool v 0 then Bsign ang else Rlt_bool v 0) (Rlt_bool w 0) =
  (if Req_bool (k * (v * w)) 0 then Bsign ang else Rlt_bool (k * (v * w)) 0).
Proof.
  intros K W V. destruct (Req_bool_spec v 0) as [Z|Z].
  - rewrite Z, Rmult_0_l, Rmult_0_r, Req_bool_true by reflexivity. rewrite Rlt_bool_false by (specialize (V Z); lra).
    destruct Bsign; reflexivity.
  - rewrite (Req_bool_false (k * (v * w))) by (apply Rmult_integral_contrapositive_currified; [lra|apply Rmult_integral_contrapositive_currified; assumption]).
    destruct (Rlt_bool_spec v 0), (Rlt_bool_spec w 0); symmetry; cbn [xorb negb].
    + apply Rlt_bool_false. assert (0 < v * w)%R by nra. nra.
    + apply Rlt_bool_true. assert (v * w < 0)%R by nra. nra.
    + apply Rlt_bool_true. assert (v * w < 0)%R by nra. nra.
    + apply Rlt_bool_false. assert (0 < v * w)%R by nra. nra.
Qed.

Lemma ad_sign : Bsign (mul a d) = Bsign g.
Proof.
  rewrite (mul_sign a d (proj1 ad_app)), d_sign.
  destruct HA as ((_ & _ & Sa) & _ & (_ & _ & Sg) & _). fold x in Sa, Sg. fold s in Sg. rewrite Sa, Sg.
  assert (HT : (tan (x / 2) * c = s)%R) by (unfold tan; fold s c; field; exact Hc).
  rewrite (sign_prod _ c 1 ltac:(lra) Hc), Rmult_1_l, HT; [reflexivity|].
  intros T. apply Hs. rewrite <- HT, T. ring.
Qed.

Lemma dbl_sign : Bsign (mul two (mul g d)) = Bsign be.
Proof.
  rewrite (mul_sign two _ (proj1 dbl_app)), (mul_sign g d (proj1 (app_mul1 g d s c g_app d_app s_1 c_1))), d_sign.
  rewrite (pos_sign two) by (rewrite (proj2 H2); lra).
  destruct HA as (_ & (_ & _ & Sb) & (_ & _ & Sg) & _). fold x in Sb, Sg. fold s in Sg. rewrite Sb, Sg, sin_x.
  rewrite (sign_prod s c 2 ltac:(lra) Hc Hs). apply xorb_false_l.
Qed.

Lemma sum_sign : Bsign (ieee_add E M (mul g g) (mul d d)) = false.
Proof.
  apply pos_sign. destruct sum_app as [_ A]. pose proof dl_le. apply Rabs_le_inv in A. nra.
Qed.

Lemma checks_hold t : is_finite (of_bits E M t) = true -> (1 <= B2R (of_bits E M t))%R ->
  ieee_within E M (ieee_add E M (mul g g) (mul d d)) one t /\
  ieee_within E M (mul a d) g t /\
  ieee_within E M (mul two (mul g d)) be t.
Proof.
  intros F V.
  assert (W : forall (f : fmt) v k, app f v k -> (k <= 94 / 10)%R -> app f v (94 / 10)).
  { intros f v k A K. exact (app_weaken dl dl_ok f v k _ A K). }
  split; [|split].
  - apply (within_intro _ _ t 1 (94 / 10)); [rewrite sum_sign; symmetry; apply pos_sign; rewrite (proj2 H1); lra|exact (W _ _ _ sum_app ltac:(lra))| |lra|exact F|exact V].
    split; [exact (proj1 H1)|rewrite (proj2 H1), Rminus_eq_0, Rabs_R0; pose proof U0; lra].
  - apply (within_intro _ _ t s (94 / 10)); [exact ad_sign|exact (W _ _ _ ad_app ltac:(lra))|exact (W _ _ _ g_app ltac:(lra))|lra|exact F|exact V].
  - apply (within_intro _ _ t (sin x) (94 / 10)); [exact dbl_sign|exact dbl_app|exact (W _ _ _ be_app ltac:(lra))|lra|exact F|exact V].
Qed.
End Angle.

(** Angles up to 3.2 other than [PI] up to the sign. *)
Lemma half_angle x : (Rabs x <= 32 / 10)%R -> Rabs x <> PI -> cos (x / 2) <> 0%R /\ (sin (x / 2) = 0%R -> (0 < cos (x / 2))%R).
Proof.
  intros H N. pose proof PI_4 as P4. pose proof PI2_3_2 as P3. unfold PI2 in P3.
  assert (C : cos (x / 2) = cos (Rabs x / 2)).
  { unfold Rabs. destruct Rcase_abs; [|reflexivity]. rewrite <- (cos_neg (x / 2)). f_equal. field. }
  assert (S : sin (x / 2) = 0%R -> sin (Rabs x / 2) = 0%R).
  { unfold Rabs. destruct Rcase_abs; [|auto]. intros Z. replace (- x / 2)%R with (- (x / 2))%R by field. rewrite sin_neg, Z. ring. }
  rewrite C. pose proof (Rabs_pos x) as P. set (y := Rabs x) in *. clearbody y. split.
  - intros Z. destruct (Rle_lt_dec (y / 2) (PI / 2)) as [L|L].
    + destruct L as [L|L]; [|apply N; lra]. pose proof (cos_gt_0 (y / 2) ltac:(lra) L). lra.
    + pose proof (cos_lt_0 (y / 2) L ltac:(lra)). lra.
  - intros Z. apply S in Z. destruct P as [P|P].
    + pose proof (sin_gt_0 (y / 2) ltac:(lra) ltac:(lra)). lra.
    + rewrite <- P. replace (0 / 2)%R with 0%R by field. rewrite cos_0. lra.
Qed.
End Values.

(** ** The circuits *)
Section HintCircuit.
Context {MOD : Modulus} {E M b : Z} {HP : Params E M b} {HF : Format E M}.
Context (HE8 : 8 <= E) (HM23 : 23 <= M).
#[local] Instance Wn2 : Width b (4 * M + 44) := params_width E M b HP.
#[local] Instance Bn2 : BigMod := width_big b _ _.
Notation fmt := (Spec.fmt E M).
Notation datum p := (of_bits E M p).
Notation ok p := (0 <= p < 2 ^ (E + M + 1)).

(** The hint's list for the bit pattern [v]. *)
Definition hints (trig : Z -> list Z) (v pa pb pg pd : Z) : Prop :=
  trig v = [pa; pb; pg; pd] /\ ok pa /\ ok pb /\ ok pg /\ ok pd.

Lemma no_eq : exec b (assert_eq (emb (Z.b2z true)) (emb 0)) = None.
Proof.
  destruct (exec b (assert_eq (emb (Z.b2z true)) (emb 0))) as [[]|] eqn:Q; [|reflexivity].
  apply exec_sat, sat_assert_eq in Q. change 0 with (Z.b2z false) in Q. apply b2z_inj in Q. discriminate Q.
Qed.

Lemma bounds_exec {A} pi half lat lng (fa fn : fmt) res (k : circ A) v : represents lat fa -> represents lng fn ->
  ok pi -> ok half ->
  (exec b (bounds E M pi half lat lng res ;;; k) = Some v <->
   (ieee_lt E M (datum half) fa = false /\ ieee_lt E M (datum pi) fn = false /\ res <= 15) /\ exec b k = Some v).
Proof.
  intros Ha Hn Op Oh.
  assert (Q : exec b (bounds E M pi half lat lng res) =
    if ieee_lt E M (datum half) fa then None else if ieee_lt E M (datum pi) fn then None else exec b (assert_le_const res 15)).
  { unfold bounds.
    rewrite (fixes_exec _ _ _ (fixes_gt (b:=b) lat _ fa _ Ha (newconst_spec _ Oh))).
    destruct (ieee_lt E M (datum half) fa).
    - rewrite exec_bind, no_eq. reflexivity.
    - rewrite (exec_bind_eq b _ _ tt (exec_assert_eq b (emb 0))).
      rewrite (fixes_exec _ _ _ (fixes_gt (b:=b) lng _ fn _ Hn (newconst_spec _ Op))).
      destruct (ieee_lt E M (datum pi) fn).
      + rewrite exec_bind, no_eq. reflexivity.
      + rewrite (exec_bind_eq b _ _ tt (exec_assert_eq b (emb 0))). reflexivity. }
  rewrite exec_bind, Q. unfold assert_le_const.
  destruct (ieee_lt E M (datum half) fa); [intuition discriminate|].
  destruct (ieee_lt E M (datum pi) fn); [intuition discriminate|].
  destruct (Z.leb_spec res 15) as [Hr|Hr].
  - rewrite exec_assert by reflexivity. intuition.
  - split; [discriminate|lia].
Qed.

(** One coordinate: sine and cosine are [64 u] off. *)
Definition off64 (f : fmt) (v : R) : Prop := is_finite f = true /\ (Rabs (B2R f - v) <= 64 * unit_ro M)%R.

Lemma hint_circuit_exec c1 c2 c3 c1' c2' c3' (P1 P2 P3 P1' P2' P3' : fmt -> fmt -> Prop) trig Lat Lng
    pa pb pg pd qa qb qg qd :
  decides (b:=b) c1 P1 -> decides (b:=b) c2 P2 -> decides (b:=b) c3 P3 ->
  decides (b:=b) c1' P1' -> decides (b:=b) c2' P2' -> decides (b:=b) c3' P3' ->
  ok Lat -> ok Lng -> is_finite (datum Lat) = true -> is_finite (datum Lng) = true ->
  hints trig Lat pa pb pg pd -> hints trig Lng qa qb qg qd ->
  accurate (datum Lat) (datum pa) (datum pb) (datum pg) (datum pd) ->
  accurate (datum Lng) (datum qa) (datum qb) (datum qg) (datum qd) ->
  exists cl cg, represents cl (half_cos (datum pg) (datum pd)) /\ represents cg (half_cos (datum qg) (datum qd)) /\
  off64 (datum pb) (sin (B2R (datum Lat))) /\ off64 (half_cos (datum pg) (datum pd)) (cos (B2R (datum Lat))) /\
  off64 (datum qb) (sin (B2R (datum Lng))) /\ off64 (half_cos (datum qg) (datum qd)) (cos (B2R (datum Lng))) /\
  (forall K faces lng res I J K_, exec b (hint_circuit E M K faces [c1; c2; c3] [c1'; c2'; c3']
     (PrecomputeHint E M trig Lat) (PrecomputeHint E M trig Lng) lng res I J K_) = Some tt <->
   (passes P1 P2 P3 (datum pa) (datum pb) (datum pg) (datum pd) /\
    passes P1' P2' P3' (datum qa) (datum qb) (datum qg) (datum qd)) /\
   exec b (locate E M K faces lng cl cg (NewConstant E M pb) (NewConstant E M qb) res I J K_) = Some tt).
Proof.
  intros D1 D2 D3 D1' D2' D3' Hl Hg Fl Fg (T & Oa & Ob & Og & Od) (T' & Oa' & Ob' & Og' & Od') HA HA'.
  assert (N : forall f : fmt, is_finite f = true -> is_nan f = false) by (intros [| | |]; easy).
  assert (HM : M < 2 ^ (E - 1)) by (pose proof (f_2M (E:=E) (M:=M)); lia).
  assert (H4 : 2 ^ 2 <= 2 ^ (M + 1)) by (apply Z.pow_le_mono_r; lia). change (2 ^ 2) with 4 in H4.
  assert (I1 : ok (int_bits E M 1)) by (exact (proj1 (int_bits_range 1 ltac:(lia) HM))).
  assert (I2 : ok (int_bits E M 2)) by (exact (proj1 (int_bits_range 2 ltac:(lia) HM))).
  assert (S : forall ang a be g d : fmt, accurate ang a be g d -> (Rabs (B2R (ieee_mul E M d d)) < bpow radix2 (emax E - 1))%R).
  { intros ang a be g d H. pose proof (d_app HE8 HM23 _ _ _ _ _ H) as A.
    pose proof (app_mul1 HE8 HM23 d d _ _ A A (c_1 ang) (c_1 ang)) as [_ B].
    apply Rlt_le_trans with (bpow radix2 2); [|apply bpow_le; assert (2 ^ (8 - 1) <= 2 ^ (E - 1)) by (apply Z.pow_le_mono_r; lia); change (2 ^ (8 - 1)) with 128 in *; unfold emax; lia].
    pose proof (c_1 ang) as C. pose proof (dl_le HM23) as L. set (c := cos (B2R ang / 2)) in *.
    assert (Rabs (c * c) <= 1)%R by (rewrite Rabs_mult; pose proof (Rabs_pos c); nra).
    replace (B2R (ieee_mul E M d d)) with ((B2R (ieee_mul E M d d) - c * c) + c * c)%R by ring.
    eapply Rle_lt_trans; [apply Rabs_triang|]. change (bpow radix2 2) with 4%R. lra. }
  destruct (checks_exec c1 c2 c3 P1 P2 P3 _ _ _ _ _ _ _ _ D1 D2 D3 (newconst_spec _ Oa) (newconst_spec _ Ob) (newconst_spec _ Og) (newconst_spec _ Od) I1 I2 (S _ _ _ _ _ HA)) as (cl & Rl & XL).
  destruct (checks_exec c1' c2' c3' P1' P2' P3' _ _ _ _ _ _ _ _ D1' D2' D3' (newconst_spec _ Oa') (newconst_spec _ Ob') (newconst_spec _ Og') (newconst_spec _ Od') I1 I2 (S _ _ _ _ _ HA')) as (cg & Rg & XG).
  exists cl, cg. do 2 (split; [assumption|]).
  assert (W : forall f v k, app (4 * unit_ro M) f v k -> (k <= 16)%R -> off64 f v).
  { intros f v k A K0. destruct (app_weaken _ (dl_ok (M:=M)) f v k 16 A K0) as [F B]. split; [exact F|lra]. }
  split; [exact (W _ _ _ (be_app HE8 HM23 _ _ _ _ _ HA) ltac:(lra))|].
  split; [exact (W _ _ _ (cos_app HE8 HM23 _ _ _ _ _ HA) ltac:(lra))|].
  split; [exact (W _ _ _ (be_app HE8 HM23 _ _ _ _ _ HA') ltac:(lra))|].
  split; [exact (W _ _ _ (cos_app HE8 HM23 _ _ _ _ _ HA') ltac:(lra))|].
  intros K faces lng res I J K_. unfold hint_circuit.
  rewrite (exec_bind_eq _ _ _ _ (precompute_exec trig Lat _ _ _ _ Hl (N _ Fl) T)).
  rewrite (exec_bind_eq _ _ _ _ (precompute_exec trig Lng _ _ _ _ Hg (N _ Fg) T')).
  cbv zeta. cbn [nth]. rewrite XL, XG. tauto.
Qed.

(** No datum is [PI]. *)
Lemma not_pi (f : fmt) m : (IZR m < PI * bpow radix2 (M - 1) < IZR (m + 1))%R -> Rabs (B2R f) <> PI.
Proof.
  intros [L U] Q.
  assert (G : generic_format radix2 (FLT_exp (emin E M) (prec M)) PI) by (rewrite <- Q; apply generic_format_abs, generic_format_B2R).
  assert (MG : mag radix2 PI = 2 :> Z).
  { apply mag_unique. rewrite Rabs_pos_eq by (pose proof PI_RGT_0; lra). pose proof PI_4. pose proof PI2_3_2. unfold PI2 in *.
    change (bpow radix2 (2 - 1)) with 2%R. change (bpow radix2 2) with 4%R. split; [lra|].
    pose proof pi_bounds. lra. }
  unfold generic_format, F2R, scaled_mantissa, cexp in G. rewrite MG in G. cbn [Fnum Fexp] in G.
  assert (X : FLT_exp (emin E M) (prec M) 2 = - (M - 1)).
  { unfold FLT_exp, emin, emax, prec. pose proof (f_2M (E:=E) (M:=M)). lia. }
  rewrite X in G. set (k := Ztrunc _) in G. rewrite G in L, U. rewrite Rmult_assoc, <- bpow_plus in L, U.
  replace (- (M - 1) + (M - 1)) with 0 in L, U by lia. cbn [bpow] in L, U. rewrite Rmult_1_r in L, U.
  apply lt_IZR in L, U. lia.
Qed.
End HintCircuit.

(** ** Checking given values *)
Section Check.
Context {E M : Z} {HF : Format E M}.
Notation fmt := (Spec.fmt E M).
Notation val p := (B2R (of_bits E M p)).

Definition slk : flt := Float radix2 1 (-66).

(** [y] approximates a positive value up to [slk]. *)
Definition libb (p : Z) (y : flt) : bool :=
  is_finite (of_bits E M p) && negb (Bsign (of_bits E M p)) && ltf (Fplus slk slk) y &&
  ltf (Fplus (Fabs (Fminus (fv (E:=E) (M:=M) p) y)) slk) (Fmult (Float radix2 1 (2 - prec M)) y).
Lemma libb_spec ang p y v : libb p y = true -> (Rabs (F2R y - v) <= bpow radix2 (-66))%R -> lib ang (of_bits E M p) v.
Proof.
  intros H D. apply andb_prop in H as [H H4]. apply andb_prop in H as [H H3]. apply andb_prop in H as [H1 H2].
  apply ltf_spec in H3, H4. rewrite F2R_plus in H3. rewrite F2R_plus, F2R_abs, F2R_minus, F2R_mult in H4. unfold slk in H3, H4. rewrite F2R_bpow in H3. rewrite !F2R_bpow in H4.
  rewrite fv_val in H4. unfold TableFacts.val in H4. set (s := bpow radix2 (-66)) in *.
  assert (S0 : (0 < s)%R) by apply bpow_gt_0. apply Rabs_le_inv in D.
  assert (V : (0 < v)%R) by lra. pose proof (eta_pos (E:=E) (M:=M)) as E0. pose proof (u_pos (M:=M)) as U0.
  replace (bpow radix2 (2 - prec M)) with (4 * unit_ro M)%R in H4
    by (unfold unit_ro; change 4%R with (bpow radix2 2); rewrite <- bpow_plus; f_equal; lia).
  split; [exact H1|]. split.
  - rewrite (Rabs_pos_eq v) by lra. replace (val p - v)%R with ((val p - F2R y) + (F2R y - v))%R by ring.
    eapply Rle_trans; [apply Rabs_triang|]. assert (Rabs (F2R y - v) <= s)%R by (apply Rabs_le; lra).
    assert (4 * unit_ro M * F2R y <= 8 * unit_ro M * v)%R by nra. lra.
  - rewrite Req_bool_false by lra. rewrite Rlt_bool_false by lra. apply negb_true_iff, H2.
Qed.

Lemma tan_near T C S (s c : R) e : (0 < e <= 1 / 100)%R -> (Rabs (C - c) <= e)%R -> (Rabs (S - s) <= e)%R -> (Rabs (T * C - S) <= e)%R ->
  (Rabs T <= 2)%R -> (1 / 2 <= C)%R -> (Rabs (T - s / c) <= 16 * e)%R.
Proof.
  intros E0 HC HS HT H2 H1. apply Rabs_le_inv in HC. assert (c0 : (1 / 4 <= c)%R) by lra.
  replace (T - s / c)%R with ((T * c - s) / c)%R by (field; lra).
  assert (N : (Rabs (T * c - s) <= 4 * e)%R).
  { replace (T * c - s)%R with ((T * C - S) + T * (c - C) + (S - s))%R by ring.
    assert (Rabs (T * (c - C)) <= 2 * e)%R.
    { rewrite Rabs_mult. apply Rmult_le_compat; try apply Rabs_pos; [exact H2|]. apply Rabs_le; lra. }
    eapply Rle_trans; [apply Rabs_triang|]. pose proof (Rabs_triang (T * C - S) (T * (c - C))). lra. }
  unfold Rdiv. rewrite Rabs_mult, (Rabs_pos_eq (/ c)) by (left; apply Rinv_0_lt_compat; lra).
  assert (/ c <= 4)%R by (replace 4%R with (/ (1 / 4))%R by field; apply Rinv_le; lra).
  assert (0 < / c)%R by (apply Rinv_0_lt_compat; lra). pose proof (Rabs_pos (T * c - s)). nra.
Qed.

(** Half of an angle, and the tangent from sine and cosine. *)
Definition halff (x : flt) : flt := Float radix2 (Fnum x) (Fexp x - 1).
Definition quot (S C : flt) : flt := Float radix2 (Fnum S * 2 ^ (200 + Fexp S - Fexp C) / Fnum C) (-200).
Definition tan_of (h : flt) : flt := quot (sin_of h) (cos_of h).
Definition tan_ok (h : flt) : bool :=
  angle_ok h && ltf (Fabs (Fminus (Fmult (tan_of h) (cos_of h)) (sin_of h))) (Float radix2 1 (-70)) &&
  ltf (Fabs (tan_of h)) (Float radix2 2 0) && ltf (Float radix2 1 (-1)) (cos_of h).
Lemma halff_val x : F2R (halff x) = (F2R x / 2)%R.
Proof. unfold halff, F2R. cbn [Fnum Fexp]. unfold Zminus. rewrite bpow_plus. change (bpow radix2 (-(1))) with (/ 2)%R. field. Qed.
Lemma tan_of_near h : tan_ok h = true -> (Rabs (F2R (tan_of h) - tan (F2R h)) <= bpow radix2 (-66))%R.
Proof.
  intros H. apply andb_prop in H as [H H4]. apply andb_prop in H as [H H3]. apply andb_prop in H as [H1 H2].
  apply ltf_spec in H2, H3, H4. rewrite F2R_abs, F2R_minus, F2R_mult, F2R_bpow in H2. rewrite F2R_abs in H3. rewrite F2R_bpow in H4.
  change (F2R (Float radix2 2 0)) with (2 * 1)%R in H3. change (bpow radix2 (-1)) with (/ 2)%R in H4.
  replace (bpow radix2 (-66)) with (16 * bpow radix2 (-70))%R by (change 16%R with (bpow radix2 4); rewrite <- bpow_plus; reflexivity).
  apply (tan_near _ _ _ (sin (F2R h)) (cos (F2R h)) (bpow radix2 (-70)) ltac:(split; [apply bpow_gt_0|apply Rle_trans with (bpow radix2 (-7)); [apply bpow_le; lia|change (bpow radix2 (-7)) with (/ 128)%R; lra]])
    (cos_of_near h H1) (sin_of_near h H1)); lra.
Qed.

(** The values for the angle with pattern [p]. *)
Definition accurateb (p pa pb pg pd : Z) : bool :=
  let x := fv (E:=E) (M:=M) p in let h := halff x in
  angle_ok x && tan_ok h && libb pa (tan_of h) && libb pb (sin_of x) && libb pg (sin_of h) && libb pd (cos_of h).
Lemma near_weaken a v : (Rabs (a - v) <= bpow radix2 (-70))%R -> (Rabs (a - v) <= bpow radix2 (-66))%R.
Proof. intros H. eapply Rle_trans; [exact H|apply bpow_le; lia]. Qed.
Lemma accurateb_spec p pa pb pg pd : accurateb p pa pb pg pd = true ->
  accurate (of_bits E M p) (of_bits E M pa) (of_bits E M pb) (of_bits E M pg) (of_bits E M pd).
Proof.
  intros H. unfold accurateb in H. apply andb_prop in H as [H H6]. apply andb_prop in H as [H H5]. apply andb_prop in H as [H H4].
  apply andb_prop in H as [H H3]. apply andb_prop in H as [H1 H2].
  assert (A : angle_ok (halff (fv (E:=E) (M:=M) p)) = true) by (unfold tan_ok in H2; apply andb_prop in H2 as [H2 _]; apply andb_prop in H2 as [H2 _]; apply andb_prop in H2 as [H2 _]; exact H2).
  assert (V : B2R (of_bits E M p) = F2R (fv (E:=E) (M:=M) p)) by (symmetry; apply fv_val).
  unfold accurate. rewrite V, <- halff_val.
  split; [exact (libb_spec _ _ _ _ H3 (tan_of_near _ H2))|].
  split; [exact (libb_spec _ _ _ _ H4 (near_weaken _ _ (sin_of_near _ H1)))|].
  split; [exact (libb_spec _ _ _ _ H5 (near_weaken _ _ (sin_of_near _ A)))|exact (libb_spec _ _ _ _ H6 (near_weaken _ _ (cos_of_near _ A)))].
Qed.
(** Correct rounding of the three values of the half angle. *)
Definition roundedb (p pa pg pd : Z) : bool :=
  let h := halff (fv (E:=E) (M:=M) p) in
  tan_ok h && rneb (E:=E) (M:=M) slk (fv (E:=E) (M:=M) pa) (tan_of h) && datb (E:=E) (M:=M) pg (sin_of h) && datb (E:=E) (M:=M) pd (cos_of h).
Definition rounded_hint (p pa pg pd : Z) : Prop :=
  let x := B2R (of_bits E M p) in
  B2R (of_bits E M pa) = rne E M (tan (x / 2)) /\ B2R (of_bits E M pg) = rne E M (sin (x / 2)) /\ B2R (of_bits E M pd) = rne E M (cos (x / 2)).
Lemma roundedb_spec p pa pg pd : roundedb p pa pg pd = true -> rounded_hint p pa pg pd.
Proof.
  intros H. unfold roundedb in H. apply andb_prop in H as [H H4]. apply andb_prop in H as [H H3]. apply andb_prop in H as [H1 H2].
  assert (A : angle_ok (halff (fv (E:=E) (M:=M) p)) = true) by (unfold tan_ok in H1; apply andb_prop in H1 as [H1 _]; apply andb_prop in H1 as [H1 _]; apply andb_prop in H1 as [H1 _]; exact H1).
  assert (V : B2R (of_bits E M p) = F2R (fv (E:=E) (M:=M) p)) by (symmetry; apply fv_val).
  unfold rounded_hint. rewrite V, <- halff_val. split; [|split].
  - assert (D : (Rabs (F2R (tan_of (halff (fv (E:=E) (M:=M) p))) - tan (F2R (halff (fv (E:=E) (M:=M) p)))) <= F2R slk)%R)
      by (unfold slk; rewrite F2R_bpow; exact (tan_of_near _ H1)).
    rewrite (rneb_spec _ _ _ _ H2 D). symmetry. apply fv_val.
  - exact (datb_spec _ _ _ H3 (sin_of_near _ A)).
  - exact (datb_spec _ _ _ H4 (cos_of_near _ A)).
Qed.
End Check.
