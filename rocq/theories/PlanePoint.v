(** The point in the plane of the face: IEEE arithmetic against the gnomonic
    projection. *)
From Coq Require Import ZArith Reals Lra Lia Bool List.
From Flocq Require Import Core BinarySingleNaN.
From Verif Require Import FloatModel Spec MathSpec ValueFacts SinFacts HexFacts PipeFacts ErrorFacts SinError HexCell
  Loc2Index ClosestFacts PlaneError.
Import ListNotations.
Local Open Scope Z_scope.

Local Notation "x <-- o ;; k" := (obind o (fun x => k)) (at level 61, o at next level, right associativity).

Section Point.
Context {E M : Z} {HF : Format E M}.
Context (HE8 : 8 <= E) (HM23 : 23 <= M).
Notation fmt := (Spec.fmt E M).
Notation rne := (Spec.rne E M).
Notation u := (unit_ro M).
Notation eta := (half_min E M).
Variable dl : R.
Hypothesis Hu : (u <= dl / 4)%R.
Hypothesis Hdl : (dl <= 1 / 10000)%R.
Notation app := (app (E:=E) (M:=M) dl).
Let dl0 : (0 < dl)%R := dl_pos dl Hu.

Lemma rne_nonneg e : (0 <= e)%R -> (0 <= rne e)%R.
Proof.
  intros H. unfold Spec.rne. apply round_ge_generic; [apply FLT_exp_valid, (fmt_prec_gt_0 E M)|apply valid_rnd_N| |exact H].
  apply generic_format_0.
Qed.

Lemma sqrt_fin (f : fmt) : is_finite f = true -> (0 <= B2R f)%R -> (B2R f <= bpow radix2 28)%R ->
  o_sqrt f = Some (ieee_sqrt E M f) /\ is_finite (ieee_sqrt E M f) = true /\ B2R (ieee_sqrt E M f) = rne (sqrt (B2R f)).
Proof.
  intros F P L.
  destruct (Bsqrt_correct _ _ (fmt_prec_gt_0 E M) (fmt_prec_lt_emax E M) mode_NE f) as (V & Fi & _).
  assert (F' : is_finite (ieee_sqrt E M f) = true).
  { unfold ieee_sqrt. rewrite Fi. destruct f as [[]|[]| |[] m e B]; try reflexivity; try discriminate.
    exfalso. change (0 <= F2R (Float radix2 (Z.neg m) e))%R in P.
    assert (F2R (Float radix2 (Z.neg m) e) < 0)%R by (apply F2R_lt_0; reflexivity). lra. }
  split; [|split; [exact F'|exact V]]. unfold o_sqrt, keep.
  rewrite (small_intro _ 29 F'); [reflexivity| |lia|exact HE8].
  unfold ieee_sqrt. rewrite V. change (Rabs (rne (sqrt (B2R f))) < bpow radix2 29)%R.
  eapply Rle_lt_trans; [apply (bnd_rne HE8 HM23 _ 28); [|lia]|apply bpow_lt; lia].
  rewrite Rabs_pos_eq by apply sqrt_pos. 
  replace (bpow radix2 28) with (sqrt (bpow radix2 28 * bpow radix2 28)) by (apply sqrt_square, bpow_ge_0).
  apply sqrt_le_1_alt. eapply Rle_trans; [exact L|].
  change (bpow radix2 28) with (IZR (2 ^ 28)). change (2 ^ 28) with 268435456. lra.
Qed.

(** Exact results of the operations on data known to be small. *)
Lemma keep_exact (h : fmt) e : is_finite h = true -> B2R h = rne e -> (Rabs e <= bpow radix2 28)%R -> keep h = Some h.
Proof.
  intros F V L. unfold keep. rewrite (small_intro h 29); [reflexivity|exact F| |lia|exact HE8].
  rewrite V. eapply Rle_lt_trans; [apply (bnd_rne HE8 HM23 _ 28); [exact L|lia]|apply bpow_lt; lia].
Qed.

Lemma exact_mul (f g : fmt) : is_finite f = true -> is_finite g = true -> (Rabs (B2R f * B2R g) <= bpow radix2 28)%R ->
  exists h, o_mul f g = Some h /\ is_finite h = true /\ B2R h = rne (B2R f * B2R g).
Proof.
  intros Ff Fg L. destruct (mul_fin f g Ff Fg) as [F V]; [apply (fits_40 HE8 HM23 _ 28); [exact L|lia]|].
  exists (ieee_mul E M f g). split; [exact (keep_exact _ _ F V L)|auto].
Qed.

Lemma exact_add (f g : fmt) : is_finite f = true -> is_finite g = true -> (Rabs (B2R f + B2R g) <= bpow radix2 28)%R ->
  exists h, o_add f g = Some h /\ is_finite h = true /\ B2R h = rne (B2R f + B2R g).
Proof.
  intros Ff Fg L. destruct (add_fin f g Ff Fg) as [F V]; [apply (fits_40 HE8 HM23 _ 28); [exact L|lia]|].
  exists (ieee_add E M f g). split; [exact (keep_exact _ _ F V L)|auto].
Qed.

Lemma unit_le s c : (s * s + c * c = 1)%R -> (Rabs s <= 1)%R /\ (Rabs c <= 1)%R.
Proof. intros H. split; apply Rabs_le; nra. Qed.

Ltac num := simpl pow; lra.
Ltac step L h Hh := let e := fresh "e" in destruct L as (h & e & Hh); rewrite e; clear e; cbn [obind].

(** [x] and [y], the components of the point to the north and to the east. *)
Section Direction.
Variables SL CL SG CG F1 F2 F3 F4 : R.
Hypothesis U1 : (SL * SL + CL * CL = 1)%R.
Hypothesis U2 : (SG * SG + CG * CG = 1)%R.
Hypothesis U3 : (F1 * F1 + F2 * F2 = 1)%R.
Hypothesis U4 : (F3 * F3 + F4 * F4 = 1)%R.
Definition northc : R := (F2 * SL - F1 * CL * (CG * F4 + SG * F3))%R.
Definition eastc : R := (CL * (SG * F4 - CG * F3))%R.
Definition upc : R := (F1 * SL + F2 * CL * (CG * F4 + SG * F3))%R.

Lemma components : (northc * northc + eastc * eastc + upc * upc = 1)%R.
Proof.
  unfold northc, eastc, upc.
  set (P := (CG * F4 + SG * F3)%R). set (Q := (SG * F4 - CG * F3)%R).
  assert (PQ : (P * P + Q * Q = 1)%R).
  { unfold P, Q. replace ((CG * F4 + SG * F3) * (CG * F4 + SG * F3) + (SG * F4 - CG * F3) * (SG * F4 - CG * F3))%R
      with ((SG * SG + CG * CG) * (F3 * F3 + F4 * F4))%R by ring. rewrite U2, U4. ring. }
  replace ((F2 * SL - F1 * CL * P) * (F2 * SL - F1 * CL * P) + CL * Q * (CL * Q) +
    (F1 * SL + F2 * CL * P) * (F1 * SL + F2 * CL * P))%R
    with ((F1 * F1 + F2 * F2) * (SL * SL + CL * CL * (P * P)) + CL * CL * (Q * Q))%R by ring.
  rewrite U3. replace (1 * (SL * SL + CL * CL * (P * P)) + CL * CL * (Q * Q))%R
    with (SL * SL + CL * CL * (P * P + Q * Q))%R by ring. rewrite PQ, Rmult_1_r. exact U1.
Qed.

Variables sl cl sg cg a1 a2 a3 a4 : fmt.
Hypothesis Asl : app sl SL 1.
Hypothesis Acl : app cl CL 1.
Hypothesis Asg : app sg SG 1.
Hypothesis Acg : app cg CG 1.
Hypothesis Aa1 : app a1 F1 1.
Hypothesis Aa2 : app a2 F2 1.
Hypothesis Aa3 : app a3 F3 1.
Hypothesis Aa4 : app a4 F4 1.

Lemma mul_units (f g : fmt) v w : app f v 1 -> app g w 1 -> (Rabs v <= 1)%R -> (Rabs w <= 1)%R ->
  exists h, o_mul f g = Some h /\ app h (v * w) (228 / 100).
Proof. intros. apply (app_mul HE8 HM23 dl Hu Hdl f g v w 1 1 1 1); try assumption; num. Qed.

Lemma direction (cont : fmt -> fmt -> option (fmt * fmt)) (Q : fmt * fmt -> Prop) :
  (forall x y, app x northc (993 / 100) -> app y eastc (61 / 10) -> exists r, cont x y = Some r /\ Q r) ->
  exists r, (
    a <-- o_mul sg a4 ;; b <-- o_mul cg a3 ;; d <-- o_sub a b ;; y <-- o_mul cl d ;;
    e <-- o_mul a2 sl ;; g <-- o_mul a1 cl ;; h <-- o_mul cg a4 ;; i <-- o_mul sg a3 ;;
    j <-- o_add h i ;; l <-- o_mul g j ;; x <-- o_sub e l ;; cont x y) = Some r /\ Q r.
Proof.
  intros Hc. destruct (unit_le _ _ U1) as [B1 B2], (unit_le _ _ U2) as [B3 B4],
    (unit_le _ _ U3) as [B5 B6], (unit_le _ _ U4) as [B7 B8].
  assert (BQ : (Rabs (SG * F4 - CG * F3) <= 1)%R /\ (Rabs (CG * F4 + SG * F3) <= 1)%R).
  { apply unit_le. replace ((SG * F4 - CG * F3) * (SG * F4 - CG * F3) + (CG * F4 + SG * F3) * (CG * F4 + SG * F3))%R
      with ((SG * SG + CG * CG) * (F3 * F3 + F4 * F4))%R by ring. rewrite U2, U4. ring. }
  destruct BQ as [BQ BP].
  assert (BX : (Rabs northc <= 1)%R).
  { pose proof components. assert (0 <= eastc * eastc)%R by apply Rle_0_sqr.
    assert (0 <= upc * upc)%R by apply Rle_0_sqr. apply Rabs_le. nra. }
  step (mul_units sg a4 _ _ Asg Aa4 B3 B8) a Ha.
  step (mul_units cg a3 _ _ Acg Aa3 B4 B7) b Hb.
  step (app_sub HE8 HM23 dl Hu Hdl a b _ _ _ _ 1 (483 / 100) Ha Hb BQ ltac:(lra) ltac:(lra) ltac:(num) ltac:(num)) d Hd.
  step (app_mul HE8 HM23 dl Hu Hdl cl d _ _ _ _ 1 1 (61 / 10) Acl Hd B2 BQ ltac:(lra) ltac:(lra) ltac:(num) ltac:(num)) y Hy.
  step (mul_units a2 sl _ _ Aa2 Asl B6 B1) e He.
  step (mul_units a1 cl _ _ Aa1 Acl B5 B2) g Hg.
  step (mul_units cg a4 _ _ Acg Aa4 B4 B8) h Hh.
  step (mul_units sg a3 _ _ Asg Aa3 B3 B7) i Hi.
  step (app_add HE8 HM23 dl Hu Hdl h i _ _ _ _ 1 (483 / 100) Hh Hi BP ltac:(lra) ltac:(lra) ltac:(num) ltac:(num)) j Hj.
  assert (B9 : (Rabs (F1 * CL) <= 1)%R).
  { rewrite Rabs_mult. pose proof (Rabs_pos F1). pose proof (Rabs_pos CL). nra. }
  step (app_mul HE8 HM23 dl Hu Hdl g j _ _ _ _ 1 1 (738 / 100) Hg Hj B9 BP ltac:(lra) ltac:(lra) ltac:(num) ltac:(num)) l Hl.
  step (app_sub HE8 HM23 dl Hu Hdl e l _ _ _ _ 1 (993 / 100) He Hl BX ltac:(lra) ltac:(lra) ltac:(num) ltac:(num)) x Hx.
  exact (Hc x y Hx Hy).
Qed.
End Direction.

(** Unit vectors in the directions of [v] and of an approximation. *)
Lemma unit_near x y x' y' N N' e : (0 < N)%R -> (0 < N')%R ->
  N = norm3 x y 0 -> N' = norm3 x' y' 0 -> (norm3 (x' - x) (y' - y) 0 <= e)%R ->
  (norm3 (x' / N' - x / N) (y' / N' - y / N) 0 <= 2 * e / N)%R.
Proof.
  intros P P' HN HN' He.
  assert (T : (Rabs (N' - N) <= e)%R).
  { rewrite HN, HN'. eapply Rle_trans; [apply norm3_near|]. rewrite Rminus_eq_0. exact He. }
  assert (E0 : (0 <= e)%R) by (pose proof (norm3_pos (x' - x) (y' - y) 0); lra).
  pose proof (norm3_triangle ((x' - x) / N) ((y' - y) / N) 0 (x' / N' * ((N - N') / N)) (y' / N' * ((N - N') / N)) 0) as H.
  replace ((x' - x) / N + x' / N' * ((N - N') / N))%R with (x' / N' - x / N)%R in H by (field; lra).
  replace ((y' - y) / N + y' / N' * ((N - N') / N))%R with (y' / N' - y / N)%R in H by (field; lra).
  rewrite Rplus_0_r in H. eapply Rle_trans; [exact H|].
  assert (S : forall a b k, norm3 (a * k) (b * k) 0 = (norm3 a b 0 * Rabs k)%R).
  { intros a b k. unfold norm3. replace (a * k * (a * k) + b * k * (b * k) + 0 * 0)%R with ((a * a + b * b + 0 * 0) * (k * k))%R by ring.
    rewrite sqrt_mult_alt by nra. f_equal. apply sqrt_Rsqr_abs. }
  unfold Rdiv at 1 2. rewrite S, (S (x' / N')%R (y' / N')%R).
  assert (S1 : norm3 (x' / N') (y' / N') 0 = 1%R).
  { unfold Rdiv. rewrite S, <- HN'. rewrite Rabs_pos_eq by (apply Rlt_le, Rinv_0_lt_compat; exact P'). field. lra. }
  rewrite S1, Rmult_1_l. unfold Rdiv. rewrite !Rabs_mult.
  rewrite (Rabs_pos_eq (/ N)) by (apply Rlt_le, Rinv_0_lt_compat; exact P).
  rewrite (Rabs_minus_sym N N').
  assert (0 < / N)%R by (apply Rinv_0_lt_compat; exact P). nra.
Qed.

Section Axis.
Variables SA CA X Y N SF BR : R.
Hypothesis U : (SA * SA + CA * CA = 1)%R.
Hypothesis HN : N = norm3 X Y 0.
Hypothesis NL : (18 * dl <= N)%R.
Hypothesis NU : (N <= 1)%R.
Hypothesis HS : (1 <= SF <= 3000000)%R.
(** The radius: at most [2178/1000 SF], and at most [BR] times the norm. *)
Variable RR : R.
Hypothesis HR : (0 <= RR <= 218 / 100 * SF)%R.
Hypothesis HRN : (RR <= BR * N)%R.
Variables x y a5 a6 r : fmt.
Hypothesis Ax : app x X (993 / 100).
Hypothesis Ay : app y Y (61 / 10).
Hypothesis A5 : app a5 SA 1.
Hypothesis A6 : app a6 CA 1.
Hypothesis Ar : app r RR (56 * SF).

Let Nh := norm3 (B2R x) (B2R y) 0.

Lemma direction_near : (norm3 (B2R x - X) (B2R y - Y) 0 <= 117 / 10 * dl)%R.
Proof.
  destruct Ax as [_ Hx], Ay as [_ Hy].
  apply (norm3_le _ _ _ (993 / 100 * dl) (61 / 10 * dl) 0); [exact Hx|exact Hy|rewrite Rabs_R0; lra|lra|nra].
Qed.

Lemma Nh_near : (Rabs (Nh - N) <= 117 / 10 * dl)%R.
Proof.
  rewrite HN. eapply Rle_trans; [apply norm3_near|]. rewrite Rminus_eq_0. exact direction_near.
Qed.

Lemma Nh_range : (6 * dl <= Nh <= 1002 / 1000)%R.
Proof. pose proof Nh_near as H. apply Rabs_le_inv in H. lra. Qed.


Lemma x_le_Nh : (Rabs (B2R x) <= Nh)%R /\ (Rabs (B2R y) <= Nh)%R.
Proof.
  pose proof (norm3_pos (B2R x) (B2R y) 0) as P. pose proof (norm3_sqr (B2R x) (B2R y) 0) as S. fold Nh in P, S.
  split; apply le_sqr; try exact P; rewrite S, <- Rabs_mult, Rabs_pos_eq by apply Rle_0_sqr;
    [pose proof (Rle_0_sqr (B2R y))|pose proof (Rle_0_sqr (B2R x))]; unfold Rsqr in *; lra.
Qed.

(** The quotients by the computed norm. *)
Lemma quotient (f z : fmt) : is_finite f = true -> (Rabs (B2R f) <= Nh)%R -> is_finite z = true ->
  (Rabs (B2R z - Nh) <= 303 / 100 * u * Nh)%R ->
  exists h, o_div f z = Some h /\ app h (B2R f / Nh) (103 / 100).
Proof.
  intros Ff Lf Fz Hz. pose proof Nh_range as [L1 L2].
  pose proof (u_pos (M:=M)) as U0. pose proof (u_small HM23) as US.
  assert (N0 : (0 < Nh)%R) by lra.
  assert (UN : (u * Nh <= Nh / 10000000)%R) by nra.
  assert (Z0 : (999 / 1000 * Nh <= B2R z)%R) by (apply Rabs_le_inv in Hz; lra).
  assert (Zp : (0 < B2R z)%R) by lra.
  assert (Q1 : (Rabs (B2R f / Nh) <= 1)%R).
  { unfold Rdiv. rewrite Rabs_mult, (Rabs_pos_eq (/ Nh)) by (apply Rlt_le, Rinv_0_lt_compat; exact N0).
    apply Rmult_le_reg_r with Nh; [exact N0|]. rewrite Rmult_assoc, Rinv_l by lra. lra. }
  assert (Q2 : (Rabs (B2R f / B2R z - B2R f / Nh) <= 304 / 100 * u)%R).
  { replace (B2R f / B2R z - B2R f / Nh)%R with (B2R f / Nh * ((Nh - B2R z) / B2R z))%R by (field; lra).
    rewrite Rabs_mult. apply Rle_trans with (1 * (304 / 100 * u))%R; [|lra].
    apply Rmult_le_compat; auto using Rabs_pos.
    unfold Rdiv. rewrite Rabs_mult, (Rabs_pos_eq (/ B2R z)) by (apply Rlt_le, Rinv_0_lt_compat; exact Zp).
    rewrite Rabs_minus_sym. apply Rmult_le_reg_r with (B2R z); [exact Zp|].
    rewrite Rmult_assoc, Rinv_l by lra. rewrite Rmult_1_r. eapply Rle_trans; [exact Hz|].
    assert (u * (303 / 100 * Nh) <= u * (304 / 100 * B2R z))%R by (apply Rmult_le_compat_l; lra). lra. }
  assert (Q3 : (Rabs (B2R f / B2R z - B2R f / Nh) <= 76 / 100 * dl)%R) by lra.
  destruct (round_app HE8 HM23 dl Hu Hdl (B2R f / B2R z) (B2R f / Nh) (76 / 100) 1 (103 / 100) Q3 Q1)
    as [R1 _]; [lra|num|num|].
  destruct (div_fin f z Ff ltac:(lra) R1) as [D1 D2]. exists (ieee_div E M f z).
  apply (app_keep_op HE8 HM23 dl Hu Hdl _ (B2R f / B2R z) (B2R f / Nh) (76 / 100) 1); try assumption; try num.
Qed.

Definition along_x : R := (CA * X + SA * Y)%R.
Definition along_y : R := (SA * X - CA * Y)%R.

(** The rest of [h3_point]. *)
Lemma axis_point : exists hx hy, (
    xx <-- o_mul x x ;; yy <-- o_mul y y ;; s <-- o_add xx yy ;; z <-- o_sqrt s ;;
    sinP <-- o_div y z ;; cosP <-- o_div x z ;;
    m <-- o_mul a5 cosP ;; n <-- o_mul a6 sinP ;; sn <-- o_sub m n ;;
    o <-- o_mul a6 cosP ;; p <-- o_mul a5 sinP ;; cs <-- o_add o p ;;
    hx <-- o_mul cs r ;; hy <-- o_mul sn r ;; Some (hx, hy)) = Some (hx, hy) /\
  app hx (along_x / N * RR) (68 * SF + 234 / 10 * BR) /\
  app hy (along_y / N * RR) (68 * SF + 234 / 10 * BR).
Proof.
  pose proof Nh_range as [L1 L2]. destruct x_le_Nh as [Lx Ly].
  pose proof (u_pos (M:=M)) as U0. pose proof (u_small HM23) as US. pose proof (eta_pos (E:=E) (M:=M)) as E0.
  pose proof (eta_u3 HE8) as E3.
  destruct Ax as [Fx Vx], Ay as [Fy Vy].

  assert (sq : forall v, (Rabs v <= Nh -> 0 <= v * v <= 2)%R).
  { intros v Lv. apply Rabs_le_inv in Lv. split; [apply Rle_0_sqr|nra]. }
  assert (p28 : bpow radix2 28 = 268435456%R) by reflexivity.
  assert (Sx := sq _ Lx). assert (Sy := sq _ Ly).
  destruct (exact_mul x x) as (xx & -> & Fxx & Vxx); [assumption..|rewrite p28, Rabs_pos_eq; lra|]. cbn [obind].
  destruct (exact_mul y y) as (yy & -> & Fyy & Vyy); [assumption..|rewrite p28, Rabs_pos_eq; lra|]. cbn [obind].
  destruct (rel_square HM23 (B2R x)) as [_ Qx]. destruct (rel_square HM23 (B2R y)) as [_ Qy].
  rewrite <- Vxx in Qx. rewrite <- Vyy in Qy. apply Rabs_le_inv in Qx. apply Rabs_le_inv in Qy.
  assert (eta <= 1)%R.
  { pose proof (eta_small (E:=E) (M:=M) HE8). lra. }
  assert (u * (B2R x * B2R x) <= u * 2)%R by (apply Rmult_le_compat_l; lra).
  assert (u * (B2R y * B2R y) <= u * 2)%R by (apply Rmult_le_compat_l; lra).
  destruct (exact_add xx yy) as (s & -> & Fs & Vs); [assumption..|rewrite p28; apply Rabs_le; lra|]. cbn [obind].
  pose proof (rel_sum2 HM23 (B2R x) (B2R y)) as Qs. rewrite <- Vxx, <- Vyy, <- Vs in Qs.
  assert (NN : (B2R x * B2R x + B2R y * B2R y = Nh * Nh)%R) by (unfold Nh; rewrite norm3_sqr; ring).
  rewrite NN in Qs. destruct Qs as [_ Qs].
  assert (N24 : (24 * u <= Nh)%R) by lra.
  assert (NU2 : (u * u <= Nh * Nh / 576)%R).
  { assert (24 * u * (24 * u) <= Nh * Nh)%R by (apply Rmult_le_compat; lra). lra. }
  assert (E4 : (302 / 100 * eta <= 7 / 1000 * u * (Nh * Nh))%R).
  { assert (u * (u * u) <= u * (Nh * Nh / 576))%R by (apply Rmult_le_compat_l; lra). 
    assert (0 <= u * (Nh * Nh))%R by (apply Rmult_le_pos; [lra|apply Rle_0_sqr]). lra. }
  assert (UNN : (0 <= u * (Nh * Nh))%R) by (apply Rmult_le_pos; [lra|apply Rle_0_sqr]).
  assert (Qs2 : (Rabs (B2R s - Nh * Nh) <= 201 / 100 * u * (Nh * Nh) + 0 * 0)%R) by lra.
  assert (UN2 : (u * (Nh * Nh) <= 1 / 10000000 * (Nh * Nh))%R) by (apply Rmult_le_compat_r; [apply Rle_0_sqr|lra]).
  assert (N2 : (0 < Nh * Nh <= 2)%R) by (clear - L1 L2 dl0; nra).
  assert (S0 : (0 <= B2R s <= 3)%R) by (apply Rabs_le_inv in Qs2; lra).
  apply sqrt_near in Qs2; [|lra..].
  destruct (sqrt_fin s Fs) as (-> & Fz & Vz); [lra|rewrite p28; lra|]. cbn [obind].
  set (z := ieee_sqrt E M s) in *.
  assert (Zq : (Rabs (B2R z - Nh) <= 303 / 100 * u * Nh)%R).
  { destruct (rne_err (sqrt (B2R s))) as (t & w & T & W & Er). rewrite Vz, Er.
    replace (sqrt (B2R s) * (1 + t) + w - Nh)%R with (sqrt (B2R s) - Nh + sqrt (B2R s) * t + w)%R by ring.
    eapply Rle_trans; [apply Rabs_triang|]. eapply Rle_trans; [apply Rplus_le_compat_r, Rabs_triang|].
    rewrite Rabs_mult, (Rabs_pos_eq (sqrt _)) by apply sqrt_pos.
    assert (UN : (0 <= u * Nh <= Nh / 10000000)%R) by (clear - U0 US L1 dl0; split; nra).
    assert (Sq : (sqrt (B2R s) <= 1001 / 1000 * Nh)%R) by (apply Rabs_le_inv in Qs2; lra).
    assert (sqrt (B2R s) * Rabs t <= 1001 / 1000 * Nh * u)%R by (apply Rmult_le_compat; auto using Rabs_pos, sqrt_pos).
    assert (u * (u * u) <= u * (Nh * Nh / 576))%R by (apply Rmult_le_compat_l; lra).
    assert (u * (Nh * Nh) <= u * Nh * 2)%R by (rewrite <- Rmult_assoc; apply Rmult_le_compat_l; lra).
    lra. }
  step (quotient y z Fy Ly Fz Zq) sinP HsP. step (quotient x z Fx Lx Fz Zq) cosP HcP.
  set (ex := (B2R x / Nh)%R) in *. set (ey := (B2R y / Nh)%R) in *.
  assert (N0 : (0 < Nh)%R) by lra.
  assert (Ue : (ex * ex + ey * ey = 1)%R).
  { unfold ex, ey. replace (B2R x / Nh * (B2R x / Nh) + B2R y / Nh * (B2R y / Nh))%R
      with ((B2R x * B2R x + B2R y * B2R y) / (Nh * Nh))%R by (field; lra). rewrite NN. field. lra. }
  destruct (unit_le _ _ Ue) as [Bx By]. destruct (unit_le _ _ U) as [BS BC].
  assert (BB : (Rabs (SA * ex - CA * ey) <= 1)%R /\ (Rabs (CA * ex + SA * ey) <= 1)%R).
  { apply unit_le. replace ((SA * ex - CA * ey) * (SA * ex - CA * ey) + (CA * ex + SA * ey) * (CA * ex + SA * ey))%R
      with ((SA * SA + CA * CA) * (ex * ex + ey * ey))%R by ring. rewrite U, Ue. ring. }
  destruct BB as [B1 B2].
  assert (mu : forall f g v w, app f v 1 -> app g w (103 / 100) -> (Rabs v <= 1)%R -> (Rabs w <= 1)%R ->
    exists h, o_mul f g = Some h /\ app h (v * w) (23 / 10)).
  { intros. apply (app_mul HE8 HM23 dl Hu Hdl f g v w 1 (103 / 100) 1 1); try assumption; num. }
  step (mu a5 cosP _ _ A5 HcP BS Bx) m Hm.
  step (mu a6 sinP _ _ A6 HsP BC By) n Hn.
  step (app_sub HE8 HM23 dl Hu Hdl m n _ _ _ _ 1 (487 / 100) Hm Hn B1 ltac:(lra) ltac:(lra) ltac:(num) ltac:(num)) sn Hsn.
  step (mu a6 cosP _ _ A6 HcP BC Bx) o Ho.
  step (mu a5 sinP _ _ A5 HsP BS By) p Hp.
  step (app_add HE8 HM23 dl Hu Hdl o p _ _ _ _ 1 (487 / 100) Ho Hp B2 ltac:(lra) ltac:(lra) ltac:(num) ltac:(num)) cs Hcs.
  assert (BR' : (Rabs RR <= 218 / 100 * SF)%R) by (rewrite Rabs_pos_eq; lra).
  step (app_mul HE8 HM23 dl Hu Hdl cs r _ _ _ _ 1 (218 / 100 * SF) (68 * SF) Hcs Ar B2 BR' ltac:(lra) ltac:(lra) ltac:(num) ltac:(num)) hx Hhx.
  step (app_mul HE8 HM23 dl Hu Hdl sn r _ _ _ _ 1 (218 / 100 * SF) (68 * SF) Hsn Ar B1 BR' ltac:(lra) ltac:(lra) ltac:(num) ltac:(num)) hy Hhy.
  exists hx, hy. split; [reflexivity|].
  assert (NP : (0 < N)%R) by lra.
  pose proof (unit_near X Y (B2R x) (B2R y) N Nh _ NP N0 HN eq_refl direction_near) as UN.
  fold ex ey in UN. set (gx := (ex - X / N)%R) in *. set (gy := (ey - Y / N)%R) in *.
  pose proof (norm3_sqr gx gy 0) as G2. set (G := norm3 gx gy 0) in *.
  assert (G0 : (0 <= G)%R) by apply norm3_pos.
  assert (RG : (RR * G <= 234 / 10 * BR * dl)%R).
  { apply Rle_trans with (RR * (2 * (117 / 10 * dl) / N))%R; [apply Rmult_le_compat_l; lra|].
    replace (RR * (2 * (117 / 10 * dl) / N))%R with (RR / N * (234 / 10 * dl))%R by (field; lra).
    assert (RR / N <= BR)%R.
    { apply Rmult_le_reg_r with N; [exact NP|]. unfold Rdiv. rewrite Rmult_assoc, Rinv_l, Rmult_1_r by lra. exact HRN. }
    apply Rle_trans with (BR * (234 / 10 * dl))%R; [apply Rmult_le_compat_r; lra|lra]. }
  assert (comb : forall a b, (a * a + b * b = 1)%R -> (Rabs ((a * gx + b * gy) * RR) <= 234 / 10 * BR * dl)%R).
  { intros a b Ha. rewrite Rabs_mult, (Rabs_pos_eq RR) by lra. eapply Rle_trans; [|exact RG].
    rewrite Rmult_comm. apply Rmult_le_compat_l; [lra|]. apply le_sqr; [exact G0|].
    rewrite <- Rabs_mult, Rabs_pos_eq by apply Rle_0_sqr. rewrite G2.
    assert (Hx0 : (0 <= (a * gy - b * gx) * (a * gy - b * gx))%R) by apply Rle_0_sqr.
    replace (gx * gx + gy * gy + 0 * 0)%R with ((a * a + b * b) * (gx * gx + gy * gy))%R by (rewrite Ha; ring). clear - Hx0. lra. }
  assert (fin : forall h v w, app h v (68 * SF) -> (Rabs (v - w) <= 234 / 10 * BR * dl)%R -> app h w (68 * SF + 234 / 10 * BR)).
  { intros h v w [Fh Vh] Hw. split; [exact Fh|].
    replace (B2R h - w)%R with (B2R h - v + (v - w))%R by ring. eapply Rle_trans; [apply Rabs_triang|]. lra. }
  split; eapply fin; try eassumption.
  - replace ((CA * ex + SA * ey) * RR - along_x / N * RR)%R with ((CA * gx + SA * gy) * RR)%R
      by (unfold along_x, gx, gy; field; lra). apply comb. lra.
  - replace ((SA * ex - CA * ey) * RR - along_y / N * RR)%R with ((SA * gx + - CA * gy) * RR)%R
      by (unfold along_y, gx, gy; field; lra). apply comb. lra.
Qed.

End Axis.
(** ** The distance to the centre of a face *)
Section Distance.
Variables F1 F2 F3 F4 SL CL SG CG : R.
Hypothesis U1 : (SL * SL + CL * CL = 1)%R.
Hypothesis U2 : (SG * SG + CG * CG = 1)%R.
Hypothesis U3 : (F1 * F1 + F2 * F2 = 1)%R.
Hypothesis U4 : (F3 * F3 + F4 * F4 = 1)%R.
Definition chordc : R := norm3 (F2 * F4 - CL * CG) (F2 * F3 - CL * SG) (F1 - SL).

Lemma chord_up : (chordc * chordc = 2 - 2 * upc SL CL SG CG F1 F2 F3 F4)%R.
Proof.
  unfold chordc. rewrite norm3_sqr. unfold upc.
  replace ((F2 * F4 - CL * CG) * (F2 * F4 - CL * CG) + (F2 * F3 - CL * SG) * (F2 * F3 - CL * SG) + (F1 - SL) * (F1 - SL))%R
    with (F2 * F2 * (F3 * F3 + F4 * F4) + F1 * F1 + CL * CL * (SG * SG + CG * CG) + SL * SL
      - 2 * (F1 * SL + F2 * CL * (CG * F4 + SG * F3)))%R by ring.
  rewrite U2, U4. lra.
Qed.

Lemma chord_le_2 : (0 <= chordc <= 2)%R.
Proof.
  split; [apply norm3_pos|]. pose proof chord_up as H. pose proof (components _ _ _ _ _ _ _ _ U1 U2 U3 U4) as C.
  set (w := upc SL CL SG CG F1 F2 F3 F4) in *.
  assert (0 <= northc SL CL SG CG F1 F2 F3 F4 * northc SL CL SG CG F1 F2 F3 F4)%R by apply Rle_0_sqr.
  assert (0 <= eastc CL SG CG F3 F4 * eastc CL SG CG F3 F4)%R by apply Rle_0_sqr.
  assert (-1 <= w)%R by (clear - H0 H1 C; nra). apply le_sqr; [lra|]. lra.
Qed.

Variables sl cl sg cg : fmt.
Hypothesis Asl : app sl SL 1.
Hypothesis Acl : app cl CL 1.
Hypothesis Asg : app sg SG 1.
Hypothesis Acg : app cg CG 1.
Variable f : face.
Hypothesis Hcx : app (of_bits E M (centre_x f)) (F2 * F4) 1.
Hypothesis Hcy : app (of_bits E M (centre_y f)) (F2 * F3) 1.
Hypothesis Hcz : app (of_bits E M (centre_z f)) F1 1.

Lemma distance_near : let d := ieee_distance f (ieee_mul E M cl cg) (ieee_mul E M cl sg) sl in
  is_finite d = true /\ (0 <= B2R d <= 5)%R /\ (Rabs (sqrt (B2R d) - chordc) <= 75 / 10 * dl)%R.
Proof.
  cbv zeta. unfold ieee_distance. destruct (unit_le _ _ U1) as [B1 B2], (unit_le _ _ U2) as [B3 B4],
    (unit_le _ _ U3) as [B5 B6], (unit_le _ _ U4) as [B7 B8].
  pose proof (u_pos (M:=M)) as U0. pose proof (u_small HM23) as US. pose proof (eta_pos (E:=E) (M:=M)) as E0.
  assert (pr : forall a b, (Rabs a <= 1 -> Rabs b <= 1 -> Rabs (a * b) <= 1)%R).
  { intros a b Ha Hb. rewrite Rabs_mult. pose proof (Rabs_pos a). pose proof (Rabs_pos b). nra. }
  assert (mi : forall a b, (Rabs a <= 1 -> Rabs b <= 1 -> Rabs (a - b) <= 2)%R).
  { intros a b Ha Hb. apply Rabs_le. apply Rabs_le_inv in Ha. apply Rabs_le_inv in Hb. lra. }
  destruct (mul_units cl cg _ _ Acl Acg B2 B4) as (x & Ex & Hx). apply keep_some in Ex as [Ex _].
  destruct (mul_units cl sg _ _ Acl Asg B2 B3) as (y & Ey & Hy). apply keep_some in Ey as [Ey _].
  destruct (app_sub HE8 HM23 dl Hu Hdl _ _ _ _ _ _ 2 (38 / 10) Hcx Hx
    (mi _ _ (pr _ _ B6 B8) (pr _ _ B2 B4)) ltac:(lra) ltac:(lra) ltac:(num) ltac:(num)) as (dx & Edx & Hdx).
  apply keep_some in Edx as [Edx _].
  destruct (app_sub HE8 HM23 dl Hu Hdl _ _ _ _ _ _ 2 (38 / 10) Hcy Hy
    (mi _ _ (pr _ _ B6 B7) (pr _ _ B2 B3)) ltac:(lra) ltac:(lra) ltac:(num) ltac:(num)) as (dy & Edy & Hdy).
  apply keep_some in Edy as [Edy _].
  destruct (app_sub HE8 HM23 dl Hu Hdl _ _ _ _ _ _ 2 (252 / 100) Hcz Asl
    (mi _ _ B5 B1) ltac:(lra) ltac:(lra) ltac:(num) ltac:(num)) as (dz & Edz & Hdz).
  apply keep_some in Edz as [Edz _].
  rewrite <- Ex, <- Ey, <- Edx, <- Edy, <- Edz. clear Edx Edy Edz.
  destruct Hdx as [Fdx Vdx], Hdy as [Fdy Vdy], Hdz as [Fdz Vdz].
  set (Nh := norm3 (B2R dx) (B2R dy) (B2R dz)).
  assert (NN : (Rabs (Nh - chordc) <= 594 / 100 * dl)%R).
  { unfold Nh, chordc. eapply Rle_trans; [apply norm3_near|].
    apply (norm3_le _ _ _ (38 / 10 * dl) (38 / 10 * dl) (252 / 100 * dl)); [assumption..|lra|].
    clear - dl0. nra. }
  pose proof chord_le_2 as [C0 C2].
  assert (N2 : (0 <= Nh <= 2001 / 1000)%R) by (split; [apply norm3_pos|apply Rabs_le_inv in NN; lra]).
  assert (NS : (B2R dx * B2R dx + B2R dy * B2R dy + B2R dz * B2R dz = Nh * Nh)%R) by (symmetry; apply norm3_sqr).
  assert (NSq : (0 <= Nh * Nh <= 401 / 100)%R) by (clear - N2; split; nra).
  assert (Sx : (0 <= B2R dx * B2R dx)%R) by apply Rle_0_sqr.
  assert (Sy : (0 <= B2R dy * B2R dy)%R) by apply Rle_0_sqr.
  assert (Sz : (0 <= B2R dz * B2R dz)%R) by apply Rle_0_sqr.
  assert (p28 : bpow radix2 28 = 268435456%R) by reflexivity.
  pose proof (eta_small (E:=E) (M:=M) HE8) as ES.
  assert (sq : forall g : fmt, is_finite g = true -> (B2R g * B2R g <= 401 / 100)%R ->
    exists h, ieee_mul E M g g = h /\ is_finite h = true /\ B2R h = rne (B2R g * B2R g) /\ (0 <= B2R h <= 402 / 100)%R).
  { intros g Fg Lg. assert (0 <= B2R g * B2R g)%R by apply Rle_0_sqr.
    destruct (exact_mul g g Fg Fg) as (h & Eh & Fh & Vh); [rewrite p28, Rabs_pos_eq; lra|].
    apply keep_some in Eh as [-> _]. eexists. split; [reflexivity|]. split; [exact Fh|]. split; [exact Vh|].
    split; [rewrite Vh; apply rne_nonneg; assumption|].
    destruct (rel_square HM23 (E:=E) (B2R g)) as [_ Q]. rewrite <- Vh in Q. apply Rabs_le_inv in Q.
    assert (u * (B2R g * B2R g) <= u * 5)%R by (apply Rmult_le_compat_l; lra). lra. }
  destruct (sq dx Fdx ltac:(lra)) as (xx & Exx & Fxx & Vxx & Rxx).
  destruct (sq dy Fdy ltac:(lra)) as (yy & Eyy & Fyy & Vyy & Ryy).
  destruct (sq dz Fdz ltac:(lra)) as (zz & Ezz & Fzz & Vzz & Rzz).
  rewrite Exx, Eyy, Ezz. clear Exx Eyy Ezz.
  destruct (exact_add xx yy Fxx Fyy) as (s & Es & Fs & Vs); [rewrite p28, Rabs_pos_eq; lra|].
  apply keep_some in Es as [Es _]. rewrite <- Es.
  destruct (rel_sum2 HM23 (E:=E) (B2R dx) (B2R dy)) as [_ Q2]. rewrite <- Vxx, <- Vyy, <- Vs in Q2.
  assert (R2 : (0 <= B2R s <= 5)%R).
  { split; [rewrite Vs; apply rne_nonneg; lra|]. apply Rabs_le_inv in Q2.
    assert (u * (B2R dx * B2R dx + B2R dy * B2R dy) <= u * 5)%R by (apply Rmult_le_compat_l; lra). lra. }
  destruct (exact_add s zz Fs Fzz) as (d' & Ed & Fd & Vd); [rewrite p28, Rabs_pos_eq; lra|].
  apply keep_some in Ed as [Ed _]. rewrite <- Ed.
  pose proof (rel_sum3 HM23 (E:=E) (B2R dx) (B2R dy) (B2R dz)) as Q3. rewrite <- Vxx, <- Vyy, <- Vs, <- Vzz, <- Vd in Q3.
  rewrite NS in Q3. split; [exact Fd|].
  assert (D0 : (0 <= B2R d' <= 5)%R).
  { split; [rewrite Vd; apply rne_nonneg; lra|]. destruct Q3 as [_ Q3]. apply Rabs_le_inv in Q3.
    assert (u * (Nh * Nh) <= u * 5)%R by (apply Rmult_le_compat_l; lra). lra. }
  split; [exact D0|]. apply (rel_sqrt HE8 HM23) in Q3; [|lra..].
  replace (sqrt (B2R d') - chordc)%R with (sqrt (B2R d') - Nh + (Nh - chordc))%R by ring.
  eapply Rle_trans; [apply Rabs_triang|].
  assert (u * Nh <= u * (2001 / 1000))%R by (apply Rmult_le_compat_l; lra). lra.
Qed.
End Distance.

(** ** The radius *)
Section Radius.
Variables rho U SF : R.
Hypothesis Hrho : (20 * dl <= rho <= 68 / 100)%R.
Hypothesis HU : (3819 / 10000 <= U <= 382 / 1000)%R.
Hypothesis HS : (1 <= SF <= 3000000)%R.
Variables d unit scale : fmt.
Hypothesis Fd : is_finite d = true.
Hypothesis Hd0 : (0 <= B2R d)%R.
Hypothesis Hd : (Rabs (sqrt (B2R d) - rho) <= 75 / 10 * dl)%R.
Hypothesis Hunit : app unit U 1.
Hypothesis Hscale : app scale SF SF.
Definition tangent : R := (rho * sqrt (4 - rho * rho) / (2 - rho * rho))%R.

Lemma rho_sqr : (0 < rho /\ 0 <= rho * rho <= 4624 / 10000)%R.
Proof. split; [lra|]. split; nra. Qed.

Lemma root_bounds : (188 / 100 <= sqrt (4 - rho * rho) <= 2)%R.
Proof.
  destruct rho_sqr as [_ R2]. split.
  - rewrite <- (sqrt_square (188 / 100)) by lra. apply sqrt_le_1_alt. lra.
  - rewrite <- (sqrt_square 2) by lra. apply sqrt_le_1_alt. lra.
Qed.

Lemma tangent_bounds : (0 <= tangent <= 832 / 1000)%R.
Proof.
  destruct rho_sqr as [R0 R2]. pose proof root_bounds as RB. unfold tangent.
  assert (S0 : (0 <= rho * sqrt (4 - rho * rho))%R) by (apply Rmult_le_pos; lra).
  assert (S1 : (rho * sqrt (4 - rho * rho) <= 12791 / 10000)%R).
  { apply le_sqr; [lra|].
    replace (rho * sqrt (4 - rho * rho) * (rho * sqrt (4 - rho * rho)))%R
      with (rho * rho * (sqrt (4 - rho * rho) * sqrt (4 - rho * rho)))%R by ring.
    rewrite sqrt_sqrt by lra. clear - R2. nra. }
  split.
  - apply Rmult_le_pos; [exact S0|]. apply Rlt_le, Rinv_0_lt_compat. lra.
  - apply Rmult_le_reg_r with (2 - rho * rho)%R; [lra|]. unfold Rdiv. rewrite Rmult_assoc, Rinv_l by lra. lra.
Qed.

Lemma radius_near : exists r, h3_radius unit scale d = Some r /\ app r (tangent / U * SF) (56 * SF).
Proof.
  destruct rho_sqr as [R0 R2]. pose proof root_bounds as RB. pose proof tangent_bounds as TB.
  pose proof (u_pos (M:=M)) as U0. pose proof (u_small HM23) as US. pose proof (eta_pos (E:=E) (M:=M)) as E0.
  set (sd := sqrt (B2R d)) in *. assert (SD : (sd * sd = B2R d)%R) by (apply sqrt_sqrt; exact Hd0).
  assert (S0 : (0 <= sd)%R) by apply sqrt_pos.
  assert (SU : (sd <= 6808 / 10000)%R) by (apply Rabs_le_inv in Hd; lra).
  assert (Hdd : (Rabs (B2R d - rho * rho) <= 103 / 10 * dl)%R).
  { rewrite <- SD. replace (sd * sd - rho * rho)%R with ((sd - rho) * (sd + rho))%R by ring.
    rewrite Rabs_mult, (Rabs_pos_eq (sd + rho)) by lra.
    apply Rle_trans with (75 / 10 * dl * (1361 / 1000))%R; [apply Rmult_le_compat; auto using Rabs_pos; lra|lra]. }
  assert (Ad : app d (rho * rho) (103 / 10)) by (split; assumption).
  assert (Dd : (B2R d <= 464 / 1000)%R) by (apply Rabs_le_inv in Hdd; lra).
  assert (A4 : app (of_int 4) 4 0).
  { destruct (of_int_small HE8 HM23 2 ltac:(lia)) as [F V]. change (2 ^ 2) with 4 in F, V. split; [exact F|].
    rewrite V, Rminus_eq_0, Rabs_R0. lra. }
  assert (A2 : app (of_int 2) 2 0).
  { destruct (of_int_small HE8 HM23 1 ltac:(lia)) as [F V]. change (2 ^ 1) with 2 in F, V. split; [exact F|].
    rewrite V, Rminus_eq_0, Rabs_R0. lra. }
  unfold h3_radius.
  step (app_sub HE8 HM23 dl Hu Hdl _ _ _ _ _ _ 4 (114 / 10) A4 Ad ltac:(rewrite Rabs_pos_eq; lra)
    ltac:(lra) ltac:(lra) ltac:(num) ltac:(num)) a Ha.
  destruct Ha as [Fa Va].
  assert (Ra : (3536 / 1000 <= B2R a <= 4002 / 1000)%R) by (apply Rabs_le_inv in Va; lra).
  set (ra := sqrt (B2R a)). assert (RA : (ra * ra = B2R a)%R) by (apply sqrt_sqrt; lra).
  assert (Rr : (188 / 100 <= ra <= 2001 / 1000)%R).
  { split; [rewrite <- (sqrt_square (188 / 100)) by lra|rewrite <- (sqrt_square (2001 / 1000)) by lra];
      apply sqrt_le_1_alt; lra. }
  set (ro := sqrt (4 - rho * rho)) in *. assert (RO : (ro * ro = 4 - rho * rho)%R) by (apply sqrt_sqrt; lra).
  assert (Hra : (Rabs (ra - ro) <= 304 / 100 * dl)%R).
  { assert (Rabs (ra - ro) * (ra + ro) <= 114 / 10 * dl)%R.
    { rewrite <- (Rabs_pos_eq (ra + ro)) by lra. rewrite <- Rabs_mult.
      replace ((ra - ro) * (ra + ro))%R with (B2R a - (4 - rho * rho))%R by (rewrite <- RA, <- RO; ring). exact Va. }
    pose proof (Rabs_pos (ra - ro)). 
    assert (Rabs (ra - ro) * (376 / 100) <= Rabs (ra - ro) * (ra + ro))%R by (apply Rmult_le_compat_l; lra). lra. }
  assert (p28 : bpow radix2 28 = 268435456%R) by reflexivity.
  assert (PA : (0 <= B2R a * B2R d <= 4002 / 1000 * (464 / 1000))%R)
    by (split; [apply Rmult_le_pos; lra|apply Rmult_le_compat; lra]).
  destruct (exact_mul a d Fa Fd) as (n & -> & Fn & Vn); [rewrite p28, Rabs_pos_eq; lra|]. cbn [obind].
  step (app_sub HE8 HM23 dl Hu Hdl _ _ _ _ _ _ 2 (1085 / 100) A2 Ad ltac:(rewrite Rabs_pos_eq; lra)
    ltac:(lra) ltac:(lra) ltac:(num) ltac:(num)) t Ht.
  assert (Qn : rel (1001 / 1000 * u) eta (B2R n) (ra * sd * (ra * sd))).
  { rewrite Vn. replace (ra * sd * (ra * sd))%R with (B2R a * B2R d)%R by (rewrite <- RA, <- SD; ring).
    assert (H : rel 0 0 (B2R a * B2R d) (B2R a * B2R d)) by (split; [lra|rewrite Rminus_eq_0, Rabs_R0; lra]).
    apply (rel_round HM23 (E:=E)) in H; [|lra..]. eapply rel_weaken; [exact H|lra..]. }
  assert (N0 : (0 <= B2R n <= 3)%R).
  { split; [rewrite Vn; apply rne_nonneg; lra|]. destruct Qn as [_ Q]. apply Rabs_le_inv in Q.
    pose proof (eta_small (E:=E) (M:=M) HE8) as ES.
    replace (ra * sd * (ra * sd))%R with (B2R a * B2R d)%R in Q by (rewrite <- RA, <- SD; ring).
    assert (u * (B2R a * B2R d) <= u * 2)%R by (apply Rmult_le_compat_l; lra). lra. }
  assert (RS : (0 <= ra * sd <= 1364 / 1000)%R).
  { split; [apply Rmult_le_pos; lra|]. apply Rle_trans with (2001 / 1000 * (6808 / 10000))%R; [apply Rmult_le_compat; lra|lra]. }
  apply (rel_sqrt HE8 HM23) in Qn; [|lra..].
  assert (Hs : (Rabs (sqrt (B2R n) - rho * ro) <= 175 / 10 * dl)%R).
  { replace (sqrt (B2R n) - rho * ro)%R with (sqrt (B2R n) - ra * sd + (ra * (sd - rho) + rho * (ra - ro)))%R by ring.
    eapply Rle_trans; [apply Rabs_triang|]. eapply Rle_trans; [apply Rplus_le_compat_l, Rabs_triang|].
    rewrite !Rabs_mult, (Rabs_pos_eq ra), (Rabs_pos_eq rho) by lra.
    assert (ra * Rabs (sd - rho) <= 2001 / 1000 * (75 / 10 * dl))%R by (apply Rmult_le_compat; auto using Rabs_pos; lra).
    assert (rho * Rabs (ra - ro) <= 68 / 100 * (304 / 100 * dl))%R by (apply Rmult_le_compat; auto using Rabs_pos; lra).
    assert (u * (ra * sd) <= u * (1364 / 1000))%R by (apply Rmult_le_compat_l; lra). lra. }
  destruct (sqrt_fin n Fn) as (-> & Fs & Vs); [lra|rewrite p28; lra|]. cbn [obind].
  set (s := ieee_sqrt E M n) in *.
  assert (S1 : (Rabs (rho * ro) <= 136 / 100)%R).
  { rewrite Rabs_pos_eq by (apply Rmult_le_pos; lra).
    apply Rle_trans with (68 / 100 * 2)%R; [apply Rmult_le_compat; lra|lra]. }
  destruct (app_keep_op HE8 HM23 dl Hu Hdl s _ (rho * ro) (175 / 10) (136 / 100) 18 Fs Vs Hs S1) as [_ As]; [num..|].
  assert (TQ : (rho * ro / (2 - rho * rho) = tangent)%R) by reflexivity.
  step (app_div HE8 HM23 dl Hu Hdl s t _ _ _ _ (15376 / 10000) (832 / 1000) (179 / 10) As Ht ltac:(lra)
    ltac:(rewrite Rabs_pos_eq; lra) ltac:(rewrite TQ, Rabs_pos_eq; lra) ltac:(lra) ltac:(lra) ltac:(num) ltac:(num)) q Hq.
  rewrite TQ in Hq.
  assert (TU : (0 <= tangent / U <= 218 / 100)%R).
  { split; [apply Rmult_le_pos; [lra|apply Rlt_le, Rinv_0_lt_compat; lra]|].
    apply Rmult_le_reg_r with U; [lra|]. unfold Rdiv. rewrite Rmult_assoc, Rinv_l by lra. lra. }
  step (app_div HE8 HM23 dl Hu Hdl q unit _ _ _ _ (3819 / 10000) (218 / 100) (532 / 10) Hq Hunit ltac:(lra)
    ltac:(rewrite Rabs_pos_eq; lra) ltac:(rewrite Rabs_pos_eq; lra) ltac:(lra) ltac:(lra) ltac:(num) ltac:(num)) r Hr.
  apply (app_mul HE8 HM23 dl Hu Hdl r scale _ _ (532 / 10) SF (218 / 100) SF (56 * SF) Hr Hscale);
    [rewrite Rabs_pos_eq; lra|rewrite Rabs_pos_eq; lra|lra|lra|num|num].
Qed.
End Radius.
End Point.
