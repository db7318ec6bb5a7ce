(** hex2dToCoordIJK: the rounding of H3's [_hex2dToCoordIJK]. *)
From Coq Require Import ZArith Reals Lra Lia Bool List.
From Flocq Require Import Core BinarySingleNaN.
From Verif Require Import Field FieldFacts Circuit CircuitFacts RangeCheck RangeFacts Gadget
  GadgetFacts Util FloatModel Tactics RoundFacts Spec RoundCore RepFacts MulFacts DivFacts
  SqrtFacts AddFacts AddSpec Forge CompFacts NewFacts CmpFacts TruncFacts TruncSpec ToIntFacts
  EqFacts Outcomes CircuitSpec Expr ExprFacts ValueFacts Math SinFacts Loc2Index NormFacts
  ClosestFacts.
Import ListNotations.
Local Open Scope Z_scope.

(** ** Specification: coordijk.c of the H3 library, in IEEE arithmetic *)
Section HexSpec.
Context {E M : Z} {HF : Format E M}.
Notation fmt := (Spec.fmt E M).

(** Conversion of an integer to the format. *)
Definition of_int (n : Z) : fmt :=
  binary_normalize _ _ (fmt_prec_gt_0 E M) (fmt_prec_lt_emax E M) mode_NE n 0 false.

(** The region tests: [m1], [m2] the integer parts, [r1], [r2] the fractions. *)
Definition h3_region (half third two_thirds : fmt) (m1 m2 : Z) (r1 r2 : fmt) : Z * Z :=
  let lt := ieee_lt E M in
  let le := ieee_le E M in
  let one := of_int 1 in
  let two := of_int 2 in
  if lt r1 half then
    if lt r1 third then
      (m1, if lt r2 (ieee_div E M (ieee_add E M one r1) two) then m2 else m2 + 1)
    else
      (if le (ieee_sub E M one r1) r2 && lt r2 (ieee_mul E M two r1) then m1 + 1 else m1,
       if lt r2 (ieee_sub E M one r1) then m2 else m2 + 1)
  else
    if lt r1 two_thirds then
      (if lt (ieee_sub E M (ieee_mul E M two r1) one) r2 && lt r2 (ieee_sub E M one r1)
       then m1 else m1 + 1,
       if lt r2 (ieee_sub E M one r1) then m2 else m2 + 1)
    else
      (m1 + 1, if lt r2 (ieee_div E M r1 two) then m2 else m2 + 1).

(** Folding over the axes: [xneg] and [yneg] say that the point lies to the
    left of and below the axes. *)
Definition h3_fold (xneg yneg : bool) (c : Z * Z) : Z * Z * Z :=
  let '(i, j) := c in
  let i := if xneg then
      if Z.even j then i - 2 * (i - j / 2) else i - (2 * (i - (j + 1) / 2) + 1)
    else i in
  if yneg then (i - (2 * j + 1) / 2, -1 * j, 0) else (i, j, 0).

(** The two skewed coordinates of a point. *)
Definition h3_x2 (sin60 y : fmt) : fmt := ieee_div E M (ieee_abs E M y) sin60.
Definition h3_x1 (sin60 x y : fmt) : fmt :=
  ieee_add E M (ieee_abs E M x) (ieee_div E M (h3_x2 sin60 y) (of_int 2)).

(** With the integer parts [m1] and [m2] as parameters. *)
Definition h3_hex2d_with (half third two_thirds sin60 : fmt) (m1 m2 : Z) (x y : fmt) : Z * Z * Z :=
  let r1 := ieee_sub E M (h3_x1 sin60 x y) (of_int m1) in
  let r2 := ieee_sub E M (h3_x2 sin60 y) (of_int m2) in
  let zero := B754_zero false in
  h3_normalize (h3_fold (ieee_lt E M x zero) (ieee_lt E M y zero)
    (h3_region half third two_thirds m1 m2 r1 r2)).

(** The conversion to an integer in C truncates. *)
Definition h3_hex2d (half third two_thirds sin60 x y : fmt) : Z * Z * Z :=
  h3_hex2d_with half third two_thirds sin60
    (Btrunc (h3_x1 sin60 x y)) (Btrunc (h3_x2 sin60 y)) x y.

(** What a prover can choose as integer part: the true one, or 0 in [1,2). *)
Definition int_part (f : fmt) (n : Z) : Prop :=
  n = Btrunc f \/ (in_1_2 E M f /\ n = 0).

(** The constants: finite, of about the right size. *)
Definition hex_constants (half third two_thirds sin60 : fmt) : Prop :=
  is_finite half = true /\ is_finite third = true /\ is_finite two_thirds = true /\
  is_finite sin60 = true /\
  (/ 2 <= B2R half <= 3 / 4)%R /\ (/ 2 <= B2R two_thirds <= 3 / 4)%R /\ (/ 2 <= B2R sin60 <= 1)%R.

End HexSpec.

(** ** Both views of a circuit at once *)
Section HexFacts.
Context {MOD : Modulus} {E M b : Z} {HP : Params E M b} {HF : Format E M}.
#[local] Instance Wn : Width b (4 * M + 44) := params_width E M b HP.
#[local] Instance Bn : BigMod := width_big b _ _.
Notation fmt := (Spec.fmt E M).
Notation emax := (Spec.emax E).
Notation rne := (Spec.rne E M).
Notation valued := (ValueFacts.valued (E:=E) (M:=M)).
Notation fits := (ValueFacts.fits (E:=E)).

(** The run of the repository's prover gives a result with [P]; every accepted
    result has [P]; some accepted result has [P]. *)
Inductive view := Honest | Anyone | Someone.
Definition gives (h : view) {A} (c : circ A) (P : A -> Prop) : Prop :=
  match h with
  | Honest => exists r, exec b c = Some r /\ P r
  | Anyone => forall r, sat b c r -> P r
  | Someone => exists r, sat b c r /\ P r
  end.

Lemma gives_bind h {A B} (c : circ A) (k : A -> circ B) P Q :
  gives h c P -> (forall x, P x -> gives h (k x) Q) -> gives h (bind c k) Q.
Proof.
  destruct h; cbn [gives]; intros Hc Hk.
  - destruct Hc as (x & Hx & Px). destruct (Hk x Px) as (r & Hr & Qr). exists r. split; [|exact Qr].
    rewrite (exec_bind_eq _ _ _ _ Hx). exact Hr.
  - intros r Hr. apply sat_bind in Hr. destruct Hr as [x [Hx Hr]]. exact (Hk x (Hc x Hx) r Hr).
  - destruct Hc as (x & Hx & Px). destruct (Hk x Px) as (r & Hr & Qr). exists r. split; [|exact Qr].
    apply sat_bind. exists x. auto.
Qed.

Lemma gives_weaken h {A} (c : circ A) (P Q : A -> Prop) : gives h c P -> (forall r, P r -> Q r) -> gives h c Q.
Proof.
  destruct h; cbn [gives]; intros Hc Hk; [|auto|]; destruct Hc as (x & Hx & Px); exists x; auto.
Qed.

Variable h : view.
Hypothesis Hd : h = Anyone -> pow2_size E M mod b = 0.

Lemma gives_intro {A} (c : circ A) P : (exists r, exec b c = Some r /\ P r) ->
  (h = Anyone -> forall r, sat b c r -> P r) -> gives h c P.
Proof.
  intros H1 H2. destruct h; cbn [gives]; [exact H1|exact (H2 eq_refl)|].
  destruct H1 as (r & H & Pr). exists r. split; [apply exec_sat, H|exact Pr].
Qed.

Lemma gives_value c v : (exists r, exec b c = Some r /\ valued r v) ->
  (pow2_size E M mod b = 0 -> value_of (E:=E) (M:=M) (b:=b) c v) -> gives h c (fun r => valued r v).
Proof. intros H1 H2. apply gives_intro; [exact H1|]. intros Ha. exact (proj2 (H2 (Hd Ha))). Qed.

Lemma gives_mul x y u v : valued x u -> valued y v -> fits (rne (u * v)) ->
  gives h (Mul E M x y) (fun r => valued r (rne (u * v))).
Proof.
  intros Hx Hy Hf. apply gives_value; [|intros D; apply mul_value; assumption].
  destruct Hx as (fx & Hx & Fx & <-), Hy as (fy & Hy & Fy & <-).
  destruct (mul_complete x y fx fy Hx Hy) as (r & H & Hr). exists r. split; [exact H|].
  destruct (mul_fin fx fy Fx Fy Hf) as [V1 V2]. exists (ieee_mul E M fx fy). auto.
Qed.

Lemma gives_div x y u v : valued x u -> valued y v -> v <> 0%R -> fits (rne (u / v)) ->
  gives h (Div E M x y) (fun r => valued r (rne (u / v))).
Proof.
  intros Hx Hy Hn Hf. apply gives_value; [|intros D; apply div_value; assumption].
  destruct Hx as (fx & Hx & Fx & <-), Hy as (fy & Hy & Fy & <-).
  destruct (div_complete x y fx fy Hx Hy) as (r & H & Hr). exists r. split; [exact H|].
  destruct (div_fin fx fy Fx Hn Hf) as [V1 V2]. exists (ieee_div E M fx fy). auto.
Qed.

Lemma gives_add x y u v : valued x u -> valued y v -> fits (rne (u + v)) ->
  (Rabs u < bpow radix2 (emax - 1))%R ->
  gives h (Add E M x y) (fun r => valued r (rne (u + v))).
Proof.
  intros Hx Hy Hf Hb. apply gives_value; [|intros D; apply add_value; assumption].
  destruct Hx as (fx & Hx & Fx & <-), Hy as (fy & Hy & Fy & <-).
  destruct (add_complete x y fx fy Hx Hy) as (r & H & Hr & _). exists r. split; [exact H|].
  destruct (add_fin fx fy Fx Fy Hf) as [V1 V2]. exists (ieee_add E M fx fy). split; [|auto].
  apply Hr, small_no_cancel, Hb.
Qed.

Lemma gives_sub x y u v : valued x u -> valued y v -> fits (rne (u - v)) ->
  (Rabs u < bpow radix2 (emax - 1))%R ->
  gives h (Sub E M x y) (fun r => valued r (rne (u - v))).
Proof.
  intros Hx Hy Hf Hb. unfold Sub. apply (gives_add x (Neg y) u (- v)); auto using neg_valued.
Qed.

(** The integer parts within the prover's reach, and the choice of the prover:
    in the third view [n0]. *)
Definition floor_int_of (v : R) (n : Z) : Prop := n = Zfloor v \/ ((1 <= v < 2)%R /\ n = 0).
Definition floor_choice (n0 : Z) (v : R) (n : Z) : Prop :=
  match h with Honest => n = Zfloor v | Anyone => floor_int_of v n | Someone => n = n0 end.

Lemma nonneg_sign (fx : fmt) : is_finite fx = true -> (0 < B2R fx)%R -> Bsign fx = false.
Proof.
  destruct fx as [s|s| |s m e Hb]; try discriminate; intros _ Hv; cbn [B2R Bsign] in *; [lra|].
  destruct s; [|reflexivity]. exfalso. unfold F2R in Hv. cbn [Fnum Fexp] in Hv.
  pose proof (bpow_gt_0 radix2 e).
  assert (IZR (SpecFloat.cond_Zopp true (Z.pos m)) < 0)%R by (apply IZR_lt; cbn; lia). nra.
Qed.

Lemma gives_floor n0 x v : valued x v -> (0 <= v)%R -> (h = Someone -> floor_int_of v n0) ->
  gives h (Floor E M x) (fun r => exists n, floor_choice n0 v n /\ valued r (IZR n)).
Proof.
  intros (fx & Hx & Fx & <-) Hv Hn0.
  assert (Hfl : is_finite (ieee_floor E M fx) = true /\ B2R (ieee_floor E M fx) = IZR (Zfloor (B2R fx))).
  { destruct (nearbyint_value mode_DN fx) as [N1 N2]. unfold ieee_floor. rewrite N1. split; [exact Fx|].
    exact (N2 Fx). }
  destruct Hfl as [Fl Vl]. unfold floor_choice.
  assert (HF1 : (1 <= B2R fx < 2)%R -> Bsign fx = false /\ in_1_2 E M fx).
  { intros H. split; [apply nonneg_sign; [exact Fx|lra]|]. split; [exact Fx|].
    rewrite Rabs_pos_eq by exact Hv. exact H. }
  destruct (floor_complete x fx Hx) as (r0 & H1 & H2). destruct h eqn:Eh; cbn [gives].
  - exists r0. split; [exact H1|]. exists (Zfloor (B2R fx)). split; [reflexivity|].
    exists (ieee_floor E M fx). auto.
  - intros r Hr. destruct (floor_sound x fx r (Hd eq_refl) Hx Hr) as [H|[[_ H12] H]].
    + exists (Zfloor (B2R fx)). split; [left; reflexivity|]. exists (ieee_floor E M fx). auto.
    + rewrite Rabs_pos_eq in H12 by exact Hv. exists 0. split; [right; auto|].
      rewrite (proj1 (HF1 H12)) in H. exists (B754_zero false). auto.
  - destruct (Hn0 eq_refl) as [->|[H12 ->]].
    + exists r0. split; [apply exec_sat, H1|]. eexists. split; [reflexivity|].
      exists (ieee_floor E M fx). auto.
    + destruct (HF1 H12) as [Hs Hi]. destruct (floor_forgery x fx Hx Hi) as (r & Hr & Hf).
      rewrite Hs in Hf. exists r. split; [exact Hr|]. eexists. split; [reflexivity|].
      exists (B754_zero false). auto.
Qed.

Lemma gives_toint x n : valued x (IZR n) -> Z.abs n < 2 ^ (M + E + 1) ->
  gives h (ToInt E M x) (fun r => r = emb n).
Proof.
  intros (fx & Hx & Fx & Vx) Hn. apply gives_intro.
  - exists (emb n). split; [|reflexivity]. exact (toint_complete x fx n Hx Fx Vx Hn).
  - intros Ha r Hr. exact (proj2 (toint_sound_integral x fx n r (Hd Ha) Hx Fx Vx Hr)).
Qed.

Lemma gives_lt x y u v : valued x u -> valued y v ->
  gives h (IsLt E M x y) (fun r => r = emb (Z.b2z (Rlt_bool u v))).
Proof.
  intros (fx & Hx & Fx & <-) (fy & Hy & Fy & <-). rewrite <- (Bltb_correct _ _ _ _ Fx Fy).
  apply gives_intro.
  - eexists. split; [exact (proj1 (cmp_complete x y fx fy Hx Hy))|reflexivity].
  - intros _ r. exact (proj1 (cmp_sound x y fx fy r Hx Hy)).
Qed.

Lemma gives_le x y u v : valued x u -> valued y v ->
  gives h (IsLe E M x y) (fun r => r = emb (Z.b2z (Rle_bool u v))).
Proof.
  intros (fx & Hx & Fx & <-) (fy & Hy & Fy & <-). rewrite <- (Bleb_correct _ _ _ _ Fx Fy).
  apply gives_intro.
  - eexists. split; [exact (proj1 (proj2 (cmp_complete x y fx fy Hx Hy)))|reflexivity].
  - intros _ r. exact (proj1 (proj2 (cmp_sound x y fx fy r Hx Hy))).
Qed.

Lemma gives_gt x y u v : valued x u -> valued y v ->
  gives h (IsGt E M x y) (fun r => r = emb (Z.b2z (Rlt_bool v u))).
Proof. intros Hx Hy. exact (gives_lt y x v u Hy Hx). Qed.

Lemma gives_select (c : bool) x y : gives h (select (emb (Z.b2z c)) x y) (fun r => r = if c then x else y).
Proof.
  apply gives_intro.
  - eexists. split; [apply exec_select|reflexivity].
  - intros _ r. apply sat_sel.
Qed.

Lemma gives_select_emb (c : bool) x y :
  gives h (select (emb (Z.b2z c)) (emb x) (emb y)) (fun r => r = emb (if c then x else y)).
Proof. rewrite <- if_emb. apply gives_select. Qed.

Lemma gives_select_b2z (c d e : bool) :
  gives h (select (emb (Z.b2z c)) (emb (Z.b2z d)) (emb (Z.b2z e)))
    (fun r => r = emb (Z.b2z (if c then d else e))).
Proof. rewrite <- if_b2z. apply gives_select. Qed.

Lemma gives_pos x y : - 2 ^ 32 < x - y < 2 ^ 32 ->
  gives h (IsPositive (fsub (emb x) (emb y)) 32)
    (fun r => exists c, r = emb (Z.b2z c) /\ (c = true -> y <= x) /\ (c = false -> x <= y)).
Proof.
  intros H. destruct (fmt_M (E:=E) (M:=M)) as [HM _]. params.
  apply gives_intro.
  - eexists. split; [apply exec_pos_diff; lia|]. eexists. split; [reflexivity|]. lia.
  - intros _ r. apply sat_pos_diff; try lia.
    pose proof (Z.pow_le_mono_r 2 32 (4 * M + 44 - 1) ltac:(lia) ltac:(lia)). lia.
Qed.

Lemma gives_normalize si i sj j sk k :
  0 <= i < 2 ^ 31 -> 0 <= j < 2 ^ 31 -> 0 <= k < 2 ^ 31 ->
  gives h (NormalizeIJK (emb (Z.b2z si)) (emb i) (emb (Z.b2z sj)) (emb j) (emb (Z.b2z sk)) (emb k))
    (fun r => r = embed3 (h3_normalize (signed si i, signed sj j, signed sk k))).
Proof.
  intros Hi Hj Hk. destruct (fmt_M (E:=E) (M:=M)) as [HM _]. params.
  apply gives_intro.
  - eexists. split; [apply normalize_complete; try assumption; lia|reflexivity].
  - pose proof (Z.pow_le_mono_r 2 31 (4 * M + 44 - 4) ltac:(lia) ltac:(lia)).
    intros _ r. apply normalize_sound; lia.
Qed.

(** ** The circuit, on real values *)
Definition region_real (half third two_thirds : R) (m1 m2 : Z) (r1 r2 : R) : Z * Z :=
  let d := rne (r1 + r1) in
  let om := rne (1 - r1) in
  (if Rlt_bool r1 half then
     if Rlt_bool r1 third then m1
     else if Rle_bool om r2 then if Rlt_bool r2 d then m1 + 1 else m1 else m1
   else if Rlt_bool r1 two_thirds then
     if Rlt_bool (rne (d - 1)) r2 then if Rlt_bool r2 om then m1 else m1 + 1 else m1 + 1
   else m1 + 1,
   if Rlt_bool r1 half then
     if Rlt_bool r1 third then (if Rlt_bool r2 (rne (rne (r1 + 1) / 2)) then m2 else m2 + 1)
     else (if Rlt_bool r2 om then m2 else m2 + 1)
   else if Rlt_bool r1 two_thirds then (if Rlt_bool r2 om then m2 else m2 + 1)
   else (if Rlt_bool r2 (rne (r1 / 2)) then m2 else m2 + 1)).

Definition fold_signs (sx sy : bool) (c : Z * Z) : Z * Z * Z :=
  let '(i, j) := c in
  let i := if sx then j - i else i in
  if sy then (i - j, - j, 0) else (i, j, 0).

Context (HE8 : 8 <= E) (HM23 : 23 <= M).

Section Hex.
Variable K : constants.
Hypothesis Hpat : Forall (fun p => 0 <= p < 2 ^ (E + M + 1)) [k_half K; k_third K; k_two_thirds K; k_sin60 K].
Notation cst p := (of_bits E M p).
Hypothesis Hcst : hex_constants (cst (k_half K)) (cst (k_third K)) (cst (k_two_thirds K)) (cst (k_sin60 K)).

Definition hex_x2 (y : R) : R := rne (Rabs y / B2R (cst (k_sin60 K))).
Definition hex_x1 (x y : R) : R := rne (Rabs x + rne (hex_x2 y / 2)).

Lemma rne_nonneg v : (0 <= v)%R -> (0 <= rne v)%R.
Proof.
  intros H. unfold Spec.rne. pose proof (fmt_prec_gt_0 E M).
  rewrite <- (round_0 radix2 (FLT_exp (emin E M) (prec M)) ZnearestE).
  apply round_le; try typeclasses eauto. exact H.
Qed.

Lemma emin_le k : -10 <= k -> emin E M <= k.
Proof. pose proof (emax_128 HE8). unfold emin, prec. lia. Qed.

Lemma bnd_rne v k : (Rabs v <= bpow radix2 k)%R -> -10 <= k -> (Rabs (rne v) <= bpow radix2 k)%R.
Proof. intros H Hk. apply rne_bound; [exact H|apply emin_le, Hk]. Qed.

Lemma fits_40 v k : (Rabs v <= bpow radix2 k)%R -> -10 <= k <= 40 -> fits (rne v).
Proof.
  intros H Hk. apply (fits_bpow _ k); [apply bnd_rne; [exact H|lia]|]. pose proof (emax_128 HE8). lia.
Qed.

Lemma small_40 v k : (Rabs v <= bpow radix2 k)%R -> k <= 40 -> (Rabs v < bpow radix2 (emax - 1))%R.
Proof.
  intros H Hk. eapply Rle_lt_trans; [exact H|]. apply bpow_lt. pose proof (emax_128 HE8). lia.
Qed.

Lemma small_emax v k : (Rabs v <= bpow radix2 k)%R -> k <= 40 -> (Rabs v < bpow radix2 emax)%R.
Proof.
  intros H Hk. eapply Rle_lt_trans; [exact H|]. apply bpow_lt. pose proof (emax_128 HE8). lia.
Qed.

Lemma half_bnd v k : (Rabs v <= bpow radix2 (k + 1))%R -> (Rabs (v / 2) <= bpow radix2 k)%R.
Proof.
  intros H. rewrite bpow_plus in H. change (bpow radix2 1) with 2%R in H.
  unfold Rdiv. rewrite Rabs_mult, (Rabs_pos_eq (/ 2)) by lra. lra.
Qed.

Lemma x2_bound y : (Rabs y <= bpow radix2 29)%R ->
  (Rabs (Rabs y / B2R (cst (k_sin60 K))) <= bpow radix2 30)%R /\ (0 <= hex_x2 y <= bpow radix2 30)%R.
Proof.
  intros Hy. destruct Hcst as (_ & _ & _ & _ & _ & _ & Hs). set (s := B2R (cst (k_sin60 K))) in *.
  assert (H1 : (0 <= Rabs y / s)%R).
  { apply Rmult_le_pos; [apply Rabs_pos|apply Rlt_le, Rinv_0_lt_compat; lra]. }
  assert (H2 : (Rabs (Rabs y / s) <= bpow radix2 30)%R).
  { rewrite Rabs_pos_eq by exact H1. change 30 with (29 + 1). rewrite bpow_plus. change (bpow radix2 1) with 2%R.
    apply Rmult_le_compat; [apply Rabs_pos|apply Rlt_le, Rinv_0_lt_compat; lra|exact Hy|].
    apply Rmult_le_reg_r with s; [lra|]. rewrite Rinv_l by lra. lra. }
  split; [exact H2|]. unfold hex_x2. fold s. pose proof (bnd_rne _ 30 H2 ltac:(lia)) as H3.
  pose proof (rne_nonneg _ H1) as H4. rewrite Rabs_pos_eq in H3 by exact H4. split; assumption.
Qed.

Lemma x1_bound x y : (Rabs x <= bpow radix2 29)%R -> (Rabs y <= bpow radix2 29)%R ->
  (Rabs (hex_x2 y / 2) <= bpow radix2 29)%R /\
  (Rabs (Rabs x + rne (hex_x2 y / 2)) <= bpow radix2 30)%R /\ (0 <= hex_x1 x y <= bpow radix2 30)%R.
Proof.
  intros Hx Hy. destruct (x2_bound y Hy) as [_ [H1 H2]].
  assert (H3 : (Rabs (hex_x2 y / 2) <= bpow radix2 29)%R) by (apply half_bnd; rewrite Rabs_pos_eq; assumption).
  split; [exact H3|]. pose proof (bnd_rne _ 29 H3 ltac:(lia)) as H4.
  assert (H5 : (0 <= rne (hex_x2 y / 2))%R) by (apply rne_nonneg; lra).
  assert (H6 : (Rabs (Rabs x + rne (hex_x2 y / 2)) <= bpow radix2 30)%R).
  { change 30 with (29 + 1). apply bnd_add; [rewrite Rabs_Rabsolu; exact Hx|exact H4]. }
  split; [exact H6|]. unfold hex_x1. pose proof (bnd_rne _ 30 H6 ltac:(lia)) as H7.
  assert (H8 : (0 <= rne (Rabs x + rne (hex_x2 y / 2)))%R) by (apply rne_nonneg; pose proof (Rabs_pos x); lra).
  rewrite Rabs_pos_eq in H7 by exact H8. split; assumption.
Qed.

Lemma choice_int n0 v n : (h = Someone -> floor_int_of v n0) -> floor_choice n0 v n -> floor_int_of v n.
Proof.
  unfold floor_choice. destruct h; intros H; [intros ->; left; reflexivity|auto|].
  intros ->. exact (H eq_refl).
Qed.

Lemma choice_bound v n : (0 <= v <= bpow radix2 30)%R -> floor_int_of v n -> 0 <= n <= 2 ^ 30.
Proof.
  intros [H0 H1] [->|[_ ->]]; [|lia]. pose proof (Zfloor_lb v) as L. pose proof (Zfloor_ub v) as U.
  split.
  - apply Z.lt_succ_r. apply lt_IZR. unfold Z.succ. rewrite plus_IZR. lra.
  - apply le_IZR. rewrite IZR_pow2 by lia. lra.
Qed.

Lemma const_valued p : In p [k_half K; k_third K; k_two_thirds K; k_sin60 K] ->
  is_finite (cst p) = true -> valued (NewConstant E M p) (B2R (cst p)).
Proof.
  intros Hp Hf. rewrite Forall_forall in Hpat. apply represents_valued; [|exact Hf].
  apply newconst_spec. exact (Hpat p Hp).
Qed.

Lemma int_valued n : 0 < n <= 4 -> valued (NewConstant E M (int_bits E M n)) (IZR n).
Proof.
  intros Hn. apply int_bits_valued; [|exact (M_lt_emax HM23)].
  pose proof (Z.pow_le_mono_r 2 3 (M + 1) ltac:(lia) ltac:(lia)). change (2 ^ 3) with 8 in *. lia.
Qed.

Theorem hex_gives n1 n2 x y (fx fy : fmt) : represents x fx -> represents y fy ->
  is_finite fx = true -> is_finite fy = true ->
  (Rabs (B2R fx) <= bpow radix2 29)%R -> (Rabs (B2R fy) <= bpow radix2 29)%R ->
  (h = Someone -> floor_int_of (hex_x1 (B2R fx) (B2R fy)) n1) ->
  (h = Someone -> floor_int_of (hex_x2 (B2R fy)) n2) ->
  gives h (hex2dToCoordIJK E M K x y) (fun r => exists m1 m2,
    let x1 := hex_x1 (B2R fx) (B2R fy) in
    let x2 := hex_x2 (B2R fy) in
    floor_choice n1 x1 m1 /\ floor_choice n2 x2 m2 /\
    r = embed3 (h3_normalize (fold_signs (Bsign fx) (Bsign fy)
      (region_real (B2R (cst (k_half K))) (B2R (cst (k_third K))) (B2R (cst (k_two_thirds K)))
        m1 m2 (rne (x1 - IZR m1)) (rne (x2 - IZR m2)))))).
Proof.
  intros Hx Hy Fx Fy Bx By Hn1 Hn2.
  destruct (x2_bound _ By) as [P2 Q2]. destruct (x1_bound _ _ Bx By) as (PT & P1 & Q1).
  set (x1 := hex_x1 (B2R fx) (B2R fy)) in *. set (x2 := hex_x2 (B2R fy)) in *. cbv zeta.
  pose proof Hcst as (Fh & Ft & Ftt & Fs & Vh & Vtt & Vs).
  pose proof (const_valued (k_half K) ltac:(cbn; auto) Fh) as Ch.
  pose proof (const_valued (k_third K) ltac:(cbn; auto) Ft) as Ct.
  pose proof (const_valued (k_two_thirds K) ltac:(cbn; auto) Ftt) as Ctt.
  pose proof (const_valued (k_sin60 K) ltac:(cbn; auto) Fs) as Cs.
  set (vh := B2R (cst (k_half K))) in *. set (vt := B2R (cst (k_third K))) in *.
  set (vtt := B2R (cst (k_two_thirds K))) in *.
  pose proof (int_valued 1 ltac:(lia)) as C1. pose proof (int_valued 2 ltac:(lia)) as C2.
  pose proof (represents_valued x fx Hx Fx) as Vx. pose proof (represents_valued y fy Hy Fy) as Vy.
  assert (Sx : Sign x = emb (Z.b2z (Bsign fx))) by (apply (sign_wire x fx Hx); destruct fx; easy).
  assert (Sy : Sign y = emb (Z.b2z (Bsign fy))) by (apply (sign_wire y fy Hy); destruct fy; easy).
  unfold hex2dToCoordIJK. cbv zeta. rewrite Sx, Sy. clear Sx Sy.
  eapply gives_bind; [apply (gives_div _ _ _ _ (abs_valued _ _ Vy) Cs);
    [lra|exact (fits_40 _ 30 P2 ltac:(lia))]|]. cbv beta. intros wx2 V2.
  change (valued wx2 x2) in V2.
  eapply gives_bind; [apply (gives_div _ _ _ _ V2 C2); [lra|exact (fits_40 _ 29 PT ltac:(lia))]|].
  cbv beta. intros wt VT.
  eapply gives_bind; [apply (gives_add _ _ _ _ (abs_valued _ _ Vx) VT);
    [exact (fits_40 _ 30 P1 ltac:(lia))|apply (small_40 _ 29); [rewrite Rabs_Rabsolu; exact Bx|lia]]|].
  cbv beta. intros wx1 V1. change (valued wx1 x1) in V1.
  eapply gives_bind; [exact (gives_floor n1 _ _ V1 (proj1 Q1) Hn1)|]. cbv beta. intros wm1 (m1 & N1 & W1).
  eapply gives_bind; [exact (gives_floor n2 _ _ V2 (proj1 Q2) Hn2)|]. cbv beta. intros wm2 (m2 & N2 & W2).
  pose proof (choice_bound _ _ Q1 (choice_int _ _ _ Hn1 N1)) as B1.
  pose proof (choice_bound _ _ Q2 (choice_int _ _ _ Hn2 N2)) as B2.
  assert (HT : 2 ^ 30 < 2 ^ (M + E + 1)) by (apply Z.pow_lt_mono_r; lia).
  eapply gives_bind; [apply (gives_toint _ _ W1); lia|]. cbv beta. intros ? ->.
  eapply gives_bind; [apply (gives_toint _ _ W2); lia|]. cbv beta. intros ? ->.
  assert (D1 : (Rabs (x1 - IZR m1) <= bpow radix2 31)%R).
  { change 31 with (30 + 1). apply bnd_sub; rewrite Rabs_pos_eq; try apply Q1; try (apply IZR_le; lia).
    rewrite <- IZR_pow2 by lia. apply IZR_le; lia. }
  assert (D2 : (Rabs (x2 - IZR m2) <= bpow radix2 31)%R).
  { change 31 with (30 + 1). apply bnd_sub; rewrite Rabs_pos_eq; try apply Q2; try (apply IZR_le; lia).
    rewrite <- IZR_pow2 by lia. apply IZR_le; lia. }
  eapply gives_bind; [apply (gives_sub _ _ _ _ V1 W1);
    [exact (fits_40 _ 31 D1 ltac:(lia))|apply (small_40 _ 30); [rewrite Rabs_pos_eq; apply Q1|lia]]|].
  cbv beta. intros wr1 R1.
  eapply gives_bind; [apply (gives_sub _ _ _ _ V2 W2);
    [exact (fits_40 _ 31 D2 ltac:(lia))|apply (small_40 _ 30); [rewrite Rabs_pos_eq; apply Q2|lia]]|].
  cbv beta. intros wr2 R2.
  pose proof (bnd_rne _ 31 D1 ltac:(lia)) as E1. pose proof (bnd_rne _ 31 D2 ltac:(lia)) as E2.
  set (r1 := rne (x1 - IZR m1)) in *. set (r2 := rne (x2 - IZR m2)) in *.
  assert (One : forall k, 0 <= k -> (Rabs 1 <= bpow radix2 k)%R).
  { intros k Hk. rewrite Rabs_pos_eq by lra. change 1%R with (bpow radix2 0). apply bpow_le, Hk. }
  pose proof (bnd_add r1 r1 31 E1 E1) as DD. cbn [Z.add] in DD. change (31 + 1) with 32 in DD.
  eapply gives_bind; [apply (gives_add _ _ _ _ R1 R1);
    [exact (fits_40 _ 32 DD ltac:(lia))|apply (small_40 _ 31); [exact E1|lia]]|].
  cbv beta. intros wd RD. pose proof (bnd_rne _ 32 DD ltac:(lia)) as ED.
  eapply gives_bind; [exact (gives_lt _ _ _ _ R1 Ch)|]. cbv beta. intros ? ->.
  eapply gives_bind; [exact (gives_lt _ _ _ _ R1 Ct)|]. cbv beta. intros ? ->.
  eapply gives_bind; [exact (gives_lt _ _ _ _ R1 Ctt)|]. cbv beta. intros ? ->.
  pose proof (bnd_sub 1 r1 31 (One 31 ltac:(lia)) E1) as DO. change (31 + 1) with 32 in DO.
  eapply gives_bind; [apply (gives_sub _ _ _ _ C1 R1);
    [exact (fits_40 _ 32 DO ltac:(lia))|apply (small_40 _ 31); [apply One; lia|lia]]|].
  cbv beta. intros wo RO. pose proof (bnd_rne _ 32 DO ltac:(lia)) as EO.
  eapply gives_bind; [exact (gives_le _ _ _ _ RO R2)|]. cbv beta. intros ? ->.
  eapply gives_bind; [exact (gives_gt _ _ _ _ RD R2)|]. cbv beta. intros ? ->.
  pose proof (bnd_sub _ 1 32 ED (One 32 ltac:(lia))) as DM. change (32 + 1) with 33 in DM.
  eapply gives_bind; [apply (gives_sub _ _ _ _ RD C1);
    [exact (fits_40 _ 33 DM ltac:(lia))|apply (small_40 _ 32); [exact ED|lia]]|].
  cbv beta. intros wdm RM.
  eapply gives_bind; [exact (gives_gt _ _ _ _ R2 RM)|]. cbv beta. intros ? ->.
  eapply gives_bind; [exact (gives_gt _ _ _ _ RO R2)|]. cbv beta. intros ? ->.
  rewrite !fadd_emb.
  do 7 (eapply gives_bind; [apply gives_select_emb|]; cbv beta; intros ? ->).
  pose proof (bnd_add r1 1 31 E1 (One 31 ltac:(lia))) as DP. change (31 + 1) with 32 in DP.
  eapply gives_bind; [apply (gives_add _ _ _ _ R1 C1);
    [exact (fits_40 _ 32 DP ltac:(lia))|apply (small_40 _ 31); [exact E1|lia]]|].
  cbv beta. intros wp RP. pose proof (bnd_rne _ 32 DP ltac:(lia)) as EP.
  eapply gives_bind; [apply (gives_div _ _ _ _ RP C2);
    [lra|exact (fits_40 _ 31 (half_bnd _ 31 EP) ltac:(lia))]|]. cbv beta. intros wpa RPA.
  eapply gives_bind; [apply (gives_div _ _ _ _ R1 C2);
    [lra|exact (fits_40 _ 30 (half_bnd _ 30 E1) ltac:(lia))]|]. cbv beta. intros wpb RPB.
  eapply gives_bind; [exact (gives_gt _ _ _ _ RPA R2)|]. cbv beta. intros ? ->.
  eapply gives_bind; [exact (gives_gt _ _ _ _ RO R2)|]. cbv beta. intros ? ->.
  eapply gives_bind; [exact (gives_gt _ _ _ _ RPB R2)|]. cbv beta. intros ? ->.
  do 7 (eapply gives_bind; [apply gives_select_emb|]; cbv beta; intros ? ->).
  (* the fold *)
  match goal with |- gives _ (bind (IsPositive (fsub (emb ?i) (emb ?j)) _) _) _ =>
    assert (Hreg : region_real vh vt vtt m1 m2 r1 r2 = (i, j)) by reflexivity;
    set (ic := i) in *; set (jc := j) in * end.
  assert (Hic : m1 <= ic <= m1 + 1)
    by (unfold ic; repeat match goal with |- context [if ?c then _ else _] => destruct c end; lia).
  assert (Hjc : m2 <= jc <= m2 + 1)
    by (unfold jc; repeat match goal with |- context [if ?c then _ else _] => destruct c end; lia).
  clearbody ic jc. change (2 ^ 30) with 1073741824 in *.
  assert (P32 : 2 ^ 32 = 4294967296) by reflexivity. assert (P31 : 2 ^ 31 = 2147483648) by reflexivity.
  eapply gives_bind; [apply gives_pos; lia|]. cbv beta. intros ? (g & -> & G1 & G2).
  rewrite not_emb, !fsub_emb.
  change (emb 1) with (emb (Z.b2z true)). change (emb 0) with (emb (Z.b2z false)).
  do 3 (eapply gives_bind; [apply gives_select_b2z|]; cbv beta; intros ? ->).
  do 5 (eapply gives_bind; [apply gives_select_emb|]; cbv beta; intros ? ->).
  change (emb (Z.b2z false)) with (emb 0) at 2.
  set (sx := Bsign fx). set (sy := Bsign fy).
  set (neg := if sx then if sy then true else g else _). set (mag := if sx then if sy then ic else _ else _).
  assert (Hmag : 0 <= mag < 2 ^ 31) by (unfold mag; destruct sx, sy, g; intuition lia).
  assert (Hfold : fold_signs sx sy (ic, jc) = (signed neg mag, signed sy jc, 0)).
  { unfold fold_signs, signed, neg, mag. destruct sx, sy, g; cbn [negb]; repeat f_equal; intuition lia. }
  assert (Hj31 : 0 <= jc < 2 ^ 31) by (clear - Hjc B2 P31; lia).
  pose proof (gives_normalize neg mag sy jc false 0 Hmag Hj31 ltac:(clear - P31; lia)) as HN.
  apply (gives_weaken h _ _ _ HN). intros r ->. exists m1, m2. split; [exact N1|].
  split; [exact N2|]. fold r1 r2. rewrite Hreg, Hfold. reflexivity.
Qed.


(** ** The specification on real values *)
Lemma of_int_val n : generic_format radix2 (FLT_exp (emin E M) (prec M)) (IZR n) ->
  (Rabs (IZR n) <= bpow radix2 40)%R ->
  is_finite (of_int (E:=E) (M:=M) n) = true /\ B2R (of_int (E:=E) (M:=M) n) = IZR n.
Proof.
  intros Hg Hn.
  pose proof (binary_normalize_correct _ _ (fmt_prec_gt_0 E M) (fmt_prec_lt_emax E M) mode_NE n 0 false) as C.
  assert (Hv : F2R (Float radix2 n 0) = IZR n) by (unfold F2R; cbn; ring).
  cbv zeta in C. rewrite Hv in C. assert (Hr : Generic_fmt.round radix2 (SpecFloat.fexp (prec M) emax) (round_mode mode_NE) (IZR n) = IZR n).
  { apply round_generic; [apply valid_rnd_N|exact Hg]. }
  rewrite Hr, Rlt_bool_true in C by exact (small_emax _ _ Hn ltac:(lia)).
  destruct C as (C1 & C2 & _). split; assumption.
Qed.

Lemma of_int_small k : 0 <= k <= 40 ->
  is_finite (of_int (E:=E) (M:=M) (2 ^ k)) = true /\ B2R (of_int (E:=E) (M:=M) (2 ^ k)) = IZR (2 ^ k).
Proof.
  intros Hk. apply of_int_val; rewrite IZR_pow2 by lia.
  - apply generic_format_FLT_bpow; [apply (fmt_prec_gt_0 E M)|apply emin_le; lia].
  - rewrite Rabs_pos_eq by apply bpow_ge_0. apply bpow_le; lia.
Qed.

Lemma sub_fin (fx fy : fmt) : is_finite fx = true -> is_finite fy = true ->
  fits (rne (B2R fx - B2R fy)) ->
  is_finite (ieee_sub E M fx fy) = true /\ B2R (ieee_sub E M fx fy) = rne (B2R fx - B2R fy).
Proof.
  intros F1 F2 H. rewrite minus_plus_opp. destruct (neg_fin fy F2) as [N1 N2].
  destruct (add_fin fx (ieee_neg E M fy) F1 N2) as [A1 A2]; rewrite N1 in *; [exact H|]. auto.
Qed.

Lemma ieee_lt_R (f g : fmt) : is_finite f = true -> is_finite g = true ->
  ieee_lt E M f g = Rlt_bool (B2R f) (B2R g).
Proof. apply Bltb_correct. Qed.
Lemma ieee_le_R (f g : fmt) : is_finite f = true -> is_finite g = true ->
  ieee_le E M f g = Rle_bool (B2R f) (B2R g).
Proof. apply Bleb_correct. Qed.

Lemma region_spec (half third tt : fmt) m1 m2 (f1 f2 : fmt) :
  is_finite half = true -> is_finite third = true -> is_finite tt = true ->
  is_finite f1 = true -> is_finite f2 = true -> (Rabs (B2R f1) <= bpow radix2 31)%R ->
  h3_region half third tt m1 m2 f1 f2 =
  region_real (B2R half) (B2R third) (B2R tt) m1 m2 (B2R f1) (B2R f2).
Proof.
  intros Fh Ft Ftt F1 F2 B1. unfold h3_region, region_real. cbv zeta.
  destruct (of_int_small 0 ltac:(lia)) as [Fo Vo]. destruct (of_int_small 1 ltac:(lia)) as [Fw Vw].
  change (2 ^ 0) with 1 in *. change (2 ^ 1) with 2 in *.
  assert (One : forall k, 0 <= k -> (Rabs 1 <= bpow radix2 k)%R).
  { intros k Hk. rewrite Rabs_pos_eq by lra. change 1%R with (bpow radix2 0). apply bpow_le, Hk. }
  pose proof (bnd_add _ _ 31 B1 B1) as DD. change (31 + 1) with 32 in DD.
  pose proof (bnd_sub 1 _ 31 (One 31 ltac:(lia)) B1) as DO. change (31 + 1) with 32 in DO.
  pose proof (bnd_add 1 _ 31 (One 31 ltac:(lia)) B1) as DP. change (31 + 1) with 32 in DP.
  pose proof (bnd_rne _ 32 DD ltac:(lia)) as ED. pose proof (bnd_rne _ 32 DP ltac:(lia)) as EP.
  pose proof (bnd_sub _ 1 32 ED (One 32 ltac:(lia))) as DM. change (32 + 1) with 33 in DM.
  destruct (mul_fin (of_int 2) f1 Fw F1) as [Md Vd]; rewrite Vw, double in *;
    [exact (fits_40 _ 32 DD ltac:(lia))|].
  destruct (sub_fin (of_int 1) f1 Fo F1) as [Mo Vom]; rewrite Vo in *; [exact (fits_40 _ 32 DO ltac:(lia))|].
  destruct (sub_fin _ (of_int 1) Md Fo) as [Mm Vm]; rewrite Vd, Vo in *; [exact (fits_40 _ 33 DM ltac:(lia))|].
  destruct (add_fin (of_int 1) f1 Fo F1) as [Mp Vp]; rewrite Vo in *; [exact (fits_40 _ 32 DP ltac:(lia))|].
  destruct (div_fin _ (of_int 2) Mp) as [Ma Va]; rewrite ?Vp, ?Vw in *;
    [lra|exact (fits_40 _ 31 (half_bnd _ 31 EP) ltac:(lia))|].
  destruct (div_fin f1 (of_int 2) F1) as [Mb Vb]; rewrite ?Vw in *;
    [lra|exact (fits_40 _ 30 (half_bnd _ 30 B1) ltac:(lia))|].
  rewrite !ieee_lt_R, ieee_le_R, Va, Vb, Vm, Vom, Vd by assumption.
  rewrite (Rplus_comm 1 (B2R f1)).
  repeat match goal with |- context [Rlt_bool ?u ?v] => destruct (Rlt_bool u v)
    | |- context [Rle_bool ?u ?v] => destruct (Rle_bool u v) end; reflexivity.
Qed.

Lemma fold_spec sx sy i j : 0 <= j -> h3_fold sx sy (i, j) = fold_signs sx sy (i, j).
Proof.
  intros Hj. unfold h3_fold, fold_signs.
  assert (Hi : (if Z.even j then i - 2 * (i - j / 2) else i - (2 * (i - (j + 1) / 2) + 1)) = j - i).
  { destruct (Z.even j) eqn:He.
    - apply Z.even_spec in He. destruct He as [k ->]. rewrite (Z.mul_comm 2 k), Z.div_mul by lia. lia.
    - assert (Ho : Z.odd j = true) by (rewrite <- Z.negb_even, He; reflexivity).
      apply Z.odd_spec in Ho. destruct Ho as [k ->].
      replace (2 * k + 1 + 1) with ((k + 1) * 2) by lia. rewrite Z.div_mul by lia. lia. }
  rewrite Hi. replace ((2 * j + 1) / 2) with j by (apply Z.div_unique with 1; lia).
  destruct sx, sy; repeat f_equal; lia.
Qed.

Lemma fold_zero sx sy sy' i : fold_signs sx sy (i, 0) = fold_signs sx sy' (i, 0).
Proof. unfold fold_signs. rewrite !Z.sub_0_r. destruct sy, sy'; reflexivity. Qed.

Lemma btrunc_floor (f : fmt) : (0 <= B2R f)%R -> Btrunc f = Zfloor (B2R f).
Proof.
  intros H. apply eq_IZR. rewrite (Btrunc_correct _ _ (fmt_prec_lt_emax E M)), (round_FIX0 Ztrunc).
  rewrite Ztrunc_floor by exact H. reflexivity.
Qed.

Lemma sign_lt (f : fmt) : is_finite f = true -> f <> B754_zero true -> ieee_lt E M f (B754_zero false) = Bsign f.
Proof. destruct f as [[|]|s| |[|] m e H]; try discriminate; try reflexivity; congruence. Qed.

Lemma rne_ge v w : generic_format radix2 (FLT_exp (emin E M) (prec M)) w -> (w <= v)%R -> (w <= rne v)%R.
Proof.
  intros Hg Hw. unfold Spec.rne. pose proof (fmt_prec_gt_0 E M).
  apply round_ge_generic; try typeclasses eauto; assumption.
Qed.

Lemma rne_ge_bpow v k : -10 <= k -> (bpow radix2 k <= v)%R -> (bpow radix2 k <= rne v)%R.
Proof.
  intros Hk. apply rne_ge. apply generic_format_FLT_bpow; [apply (fmt_prec_gt_0 E M)|apply emin_le, Hk].
Qed.

Lemma x2_spec (fy : fmt) : is_finite fy = true -> (Rabs (B2R fy) <= bpow radix2 29)%R ->
  is_finite (h3_x2 (cst (k_sin60 K)) fy) = true /\ B2R (h3_x2 (cst (k_sin60 K)) fy) = hex_x2 (B2R fy).
Proof.
  intros Fy By. destruct (x2_bound _ By) as [P2 Q2]. pose proof Hcst as (_ & _ & _ & _ & _ & _ & Vs).
  unfold h3_x2, hex_x2. 
  assert (Ha : B2R (ieee_abs E M fy) = Rabs (B2R fy)) by apply B2R_Babs.
  destruct (div_fin (ieee_abs E M fy) (cst (k_sin60 K))) as [A1 A2]; rewrite ?Ha in *.
  - unfold ieee_abs. rewrite is_finite_Babs. exact Fy.
  - lra.
  - exact (fits_40 _ 30 P2 ltac:(lia)).
  - auto.
Qed.

Lemma x1_spec (fx fy : fmt) : is_finite fx = true -> is_finite fy = true ->
  (Rabs (B2R fx) <= bpow radix2 29)%R -> (Rabs (B2R fy) <= bpow radix2 29)%R ->
  is_finite (h3_x1 (cst (k_sin60 K)) fx fy) = true /\
  B2R (h3_x1 (cst (k_sin60 K)) fx fy) = hex_x1 (B2R fx) (B2R fy).
Proof.
  intros Fx Fy Bx By. destruct (x1_bound _ _ Bx By) as (PT & P1 & Q1). 
  destruct (x2_spec fy Fy By) as [F2 V2]. unfold h3_x1, hex_x1.
  destruct (of_int_small 1 ltac:(lia)) as [Fw Vw]. change (2 ^ 1) with 2 in *.
  destruct (div_fin _ (of_int 2) F2) as [D1 D2]; rewrite ?V2, ?Vw in *;
    [lra|exact (fits_40 _ 29 PT ltac:(lia))|].
  assert (Ha : B2R (ieee_abs E M fx) = Rabs (B2R fx)) by apply B2R_Babs.
  destruct (add_fin (ieee_abs E M fx) _ ltac:(unfold ieee_abs; rewrite is_finite_Babs; exact Fx) D1) as [A1 A2];
    rewrite ?Ha, ?D2 in *; [exact (fits_40 _ 30 P1 ltac:(lia))|auto].
Qed.

(** An integer part of a datum is a datum. *)
Lemma int_part_real (f : fmt) n : is_finite f = true -> (0 <= B2R f)%R ->
  int_part f n <-> floor_int_of (B2R f) n.
Proof.
  intros Ff Hf. unfold int_part, floor_int_of. rewrite (btrunc_floor f Hf).
  unfold in_1_2. rewrite Rabs_pos_eq by exact Hf. tauto.
Qed.

Lemma int_part_format (f : fmt) n : is_finite f = true -> floor_int_of (B2R f) n ->
  generic_format radix2 (FLT_exp (emin E M) (prec M)) (IZR n).
Proof.
  intros Ff [->|[_ ->]]; [|apply generic_format_0].
  destruct (nearbyint_value mode_DN f) as [N1 N2]. cbn [round_mode] in N2. rewrite <- (N2 Ff).
  apply generic_format_B2R.
Qed.

Lemma frac_spec (f : fmt) n : is_finite f = true -> (0 <= B2R f <= bpow radix2 30)%R ->
  floor_int_of (B2R f) n ->
  is_finite (ieee_sub E M f (of_int n)) = true /\
  B2R (ieee_sub E M f (of_int n)) = rne (B2R f - IZR n) /\
  (0 <= rne (B2R f - IZR n))%R /\ (Rabs (rne (B2R f - IZR n)) <= bpow radix2 31)%R.
Proof.
  intros Ff Bf Hn. pose proof (choice_bound _ _ Bf Hn) as Bn.
  assert (Bi : (Rabs (IZR n) <= bpow radix2 30)%R).
  { rewrite Rabs_pos_eq by (apply IZR_le; lia). rewrite <- IZR_pow2 by lia. apply IZR_le; lia. }
  assert (D : (Rabs (B2R f - IZR n) <= bpow radix2 31)%R).
  { change 31 with (30 + 1). apply bnd_sub; [|exact Bi]. rewrite Rabs_pos_eq; apply Bf. }
  destruct (of_int_val n (int_part_format f n Ff Hn)) as [Fn Vn].
  { eapply bnd_weaken; [exact Bi|lia]. }
  destruct (sub_fin f (of_int n) Ff Fn) as [S1 S2]; rewrite ?Vn in *; [exact (fits_40 _ 31 D ltac:(lia))|].
  split; [exact S1|]. split; [exact S2|]. split; [|apply bnd_rne; [exact D|lia]].
  apply rne_nonneg. destruct Hn as [->|[H ->]]; [pose proof (Zfloor_lb (B2R f))|]; lra.
Qed.

Lemma region_zero vt m1 r1 : (0 <= r1)%R ->
  snd (region_real (B2R (cst (k_half K))) vt (B2R (cst (k_two_thirds K))) m1 0 r1 0) = 0.
Proof.
  intros Hr. pose proof Hcst as (_ & _ & _ & _ & Vh & Vtt & _). unfold region_real. cbn [snd].
  assert (P2 : bpow radix2 (-2) = (/ 4)%R) by reflexivity. assert (P1 : bpow radix2 (-1) = (/ 2)%R) by reflexivity.
  pose proof (rne_ge_bpow (1 - r1) (-2) ltac:(lia)) as H1. pose proof (rne_ge_bpow (r1 / 2) (-2) ltac:(lia)) as H2.
  pose proof (rne_ge_bpow (r1 + 1) 0 ltac:(lia)) as H3. change (bpow radix2 0) with 1%R in H3.
  pose proof (rne_ge_bpow (rne (r1 + 1) / 2) (-1) ltac:(lia)) as H4. rewrite P2 in *. rewrite P1 in *.
  specialize (H3 ltac:(lra)). specialize (H4 ltac:(lra)).
  case (Rlt_bool_spec r1 (B2R (cst (k_half K)))); intros A1.
  - destruct (Rlt_bool r1 vt); rewrite Rlt_bool_true by lra; reflexivity.
  - case (Rlt_bool_spec r1 (B2R (cst (k_two_thirds K)))); intros A2; rewrite Rlt_bool_true by lra; reflexivity.
Qed.

Theorem hex_spec n1 n2 x y (fx fy : fmt) : represents x fx -> represents y fy ->
  is_finite fx = true -> is_finite fy = true -> fx <> B754_zero true ->
  (Rabs (B2R fx) <= bpow radix2 29)%R -> (Rabs (B2R fy) <= bpow radix2 29)%R ->
  let x1 := h3_x1 (cst (k_sin60 K)) fx fy in
  let x2 := h3_x2 (cst (k_sin60 K)) fy in
  (h = Someone -> int_part x1 n1 /\ int_part x2 n2) ->
  gives h (hex2dToCoordIJK E M K x y) (fun r => exists m1 m2,
    match h with
    | Honest => m1 = Btrunc x1 /\ m2 = Btrunc x2
    | Anyone => int_part x1 m1 /\ int_part x2 m2
    | Someone => m1 = n1 /\ m2 = n2
    end /\
    r = embed3 (h3_hex2d_with (cst (k_half K)) (cst (k_third K)) (cst (k_two_thirds K)) (cst (k_sin60 K))
      m1 m2 fx fy)).
Proof.
  intros Hx Hy Fx Fy Nx Bx By x1 x2 Hn. pose proof Hcst as (Fh & Ft & Ftt & Fs & _).
  destruct (x2_bound _ By) as [_ Q2]. destruct (x1_bound _ _ Bx By) as (_ & _ & Q1).
  destruct (x2_spec fy Fy By) as [F2 V2]. destruct (x1_spec fx fy Fx Fy Bx By) as [F1 V1].
  fold x2 in F2, V2. fold x1 in F1, V1. rewrite <- V1 in Q1. rewrite <- V2 in Q2.
  assert (I1 : forall n, int_part x1 n <-> floor_int_of (B2R x1) n) by (intros; apply int_part_real; [exact F1|apply Q1]).
  assert (I2 : forall n, int_part x2 n <-> floor_int_of (B2R x2) n) by (intros; apply int_part_real; [exact F2|apply Q2]).
  pose proof (hex_gives n1 n2 x y fx fy Hx Hy Fx Fy Bx By) as HG. cbv zeta in HG. rewrite <- V1, <- V2 in HG.
  specialize (HG ltac:(intros Hs; apply I1, Hn, Hs) ltac:(intros Hs; apply I2, Hn, Hs)).
  apply (gives_weaken h _ _ _ HG). intros r (m1 & m2 & C1 & C2 & ->). exists m1, m2.
  assert (J1 : floor_int_of (B2R x1) m1).
  { apply (choice_int n1); [|exact C1]. intros Hs. apply I1, Hn, Hs. }
  assert (J2 : floor_int_of (B2R x2) m2).
  { apply (choice_int n2); [|exact C2]. intros Hs. apply I2, Hn, Hs. }
  split.
  { unfold floor_choice in C1, C2. destruct h.
    - rewrite !btrunc_floor by (apply Q1 || apply Q2). auto.
    - rewrite I1, I2. auto.
    - auto. }
  destruct (frac_spec x1 m1 F1 Q1 J1) as (G1 & W1 & N1 & B1).
  destruct (frac_spec x2 m2 F2 Q2 J2) as (G2 & W2 & N2 & B2).
  unfold h3_hex2d_with. fold x1 x2.
  rewrite region_spec by (try assumption; rewrite W1; exact B1). rewrite W1, W2.
  rewrite (sign_lt fx Fx Nx). do 2 f_equal.
  destruct (region_real (B2R (cst (k_half K))) (B2R (cst (k_third K))) (B2R (cst (k_two_thirds K)))
    m1 m2 (rne (B2R x1 - IZR m1)) (rne (B2R x2 - IZR m2))) as [i j] eqn:Hreg.
  pose proof (choice_bound _ _ Q2 J2) as Bm2.
  assert (Hj : m2 <= j).
  { assert (Hj : j = snd (region_real (B2R (cst (k_half K))) (B2R (cst (k_third K)))
      (B2R (cst (k_two_thirds K))) m1 m2 (rne (B2R x1 - IZR m1)) (rne (B2R x2 - IZR m2)))) by (rewrite Hreg; reflexivity).
    rewrite Hj. unfold region_real. cbn [snd].
    repeat match goal with |- context [if ?c then _ else _] => destruct c end; lia. }
  rewrite fold_spec by lia.
  destruct (Req_dec (B2R fy) 0) as [Hz|Hz].
  - assert (Z2 : B2R x2 = 0%R).
    { rewrite V2. unfold hex_x2. rewrite Hz, Rabs_R0. unfold Rdiv. rewrite Rmult_0_l.
      unfold Spec.rne. apply round_0. apply valid_rnd_N. }
    assert (Zm : m2 = 0).
    { destruct J2 as [->|[J _]]; [rewrite Z2; apply (Zfloor_IZR 0)|rewrite Z2 in J; lra]. }
    subst m2. rewrite Z2 in Hreg. replace (0 - 0)%R with 0%R in Hreg by ring.
    replace (rne 0) with 0%R in Hreg by (unfold Spec.rne; symmetry; apply round_0, valid_rnd_N).
    pose proof (region_zero (B2R (cst (k_third K))) m1 _ N1) as HZ. rewrite Hreg in HZ. cbn [snd] in HZ.
    subst j. apply fold_zero.
  - rewrite (sign_lt fy Fy); [reflexivity|]. intros ->. apply Hz. reflexivity.
Qed.

End Hex.
End HexFacts.
