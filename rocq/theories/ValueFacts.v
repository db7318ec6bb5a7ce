(** Values of accepted results: as long as nothing overflows, the real value of
    a result is the rounded exact one whatever the prover does; only the sign of
    a zero is left to them. *)
From Coq Require Import ZArith Reals Lra Lia Bool List.
From Flocq Require Import Core BinarySingleNaN.
From Verif Require Import Field FieldFacts Circuit CircuitFacts RangeCheck RangeFacts Gadget
  GadgetFacts Util FloatModel Tactics RoundFacts Spec RoundCore RepFacts MulFacts DivFacts
  SqrtFacts AddFacts AddSpec Forge CompFacts NewFacts CmpFacts TruncFacts TruncSpec ToIntFacts
  EqFacts Outcomes CircuitSpec Expr ExprFacts.
Import ListNotations.
Local Open Scope Z_scope.

Section ValueFacts.
Context {MOD : Modulus} {E M b : Z} {HP : Params E M b} {HF : Format E M}.
#[local] Instance Wn : Width b (4 * M + 44) := params_width E M b HP.
#[local] Instance Bn : BigMod := width_big b _ _.
Notation fmt := (Spec.fmt E M).
Notation emax := (Spec.emax E).
Notation rne := (Spec.rne E M).

(** [x] stands for a finite datum of value [v]. *)
Definition valued (x : FloatVar) (v : R) : Prop :=
  exists f : fmt, represents x f /\ is_finite f = true /\ B2R f = v.

Lemma represents_valued x (f : fmt) : represents x f -> is_finite f = true -> valued x (B2R f).
Proof. intros H Hf. exists f. auto. Qed.

Definition fits (v : R) : Prop := (Rabs v < bpow radix2 emax)%R.

Lemma rne_bound v k : (Rabs v <= bpow radix2 k)%R -> emin E M <= k -> (Rabs (rne v) <= bpow radix2 k)%R.
Proof.
  intros H Hk. unfold Spec.rne. pose proof (fmt_prec_gt_0 E M).
  apply abs_round_le_generic; auto with typeclass_instances.
  - apply generic_format_FLT_bpow; [apply (fmt_prec_gt_0 E M)|exact Hk].
Qed.

Lemma fits_bpow v k : (Rabs v <= bpow radix2 k)%R -> k < emax -> fits v.
Proof. intros H Hk. eapply Rle_lt_trans; [exact H|]. apply bpow_lt. exact Hk. Qed.

Lemma mul_fin (fx fy : fmt) : is_finite fx = true -> is_finite fy = true ->
  fits (rne (B2R fx * B2R fy)) ->
  is_finite (ieee_mul E M fx fy) = true /\ B2R (ieee_mul E M fx fy) = rne (B2R fx * B2R fy).
Proof.
  intros F1 F2 H. pose proof (Bmult_correct _ _ _ _ mode_NE fx fy) as C.
  rewrite Rlt_bool_true in C by exact H. destruct C as (C1 & C2 & _).
  split; [unfold ieee_mul; rewrite C2, F1, F2; reflexivity|exact C1].
Qed.

Lemma div_fin (fx fy : fmt) : is_finite fx = true -> B2R fy <> 0%R ->
  fits (rne (B2R fx / B2R fy)) ->
  is_finite (ieee_div E M fx fy) = true /\ B2R (ieee_div E M fx fy) = rne (B2R fx / B2R fy).
Proof.
  intros F1 F2 H. pose proof (Bdiv_correct _ _ _ _ mode_NE fx fy F2) as C.
  rewrite Rlt_bool_true in C by exact H. destruct C as (C1 & C2 & _).
  split; [unfold ieee_div; rewrite C2; exact F1|exact C1].
Qed.

Lemma add_fin (fx fy : fmt) : is_finite fx = true -> is_finite fy = true ->
  fits (rne (B2R fx + B2R fy)) ->
  is_finite (ieee_add E M fx fy) = true /\ B2R (ieee_add E M fx fy) = rne (B2R fx + B2R fy).
Proof.
  intros F1 F2 H. pose proof (Bplus_correct _ _ _ _ mode_NE fx fy F1 F2) as C.
  rewrite Rlt_bool_true in C by exact H. destruct C as (C1 & C2 & _).
  split; [exact C2|exact C1].
Qed.

Lemma neg_fin (fy : fmt) : is_finite fy = true -> B2R (ieee_neg E M fy) = (- B2R fy)%R /\
  is_finite (ieee_neg E M fy) = true.
Proof. intros F. split; [apply B2R_Bopp|]. unfold ieee_neg. rewrite is_finite_Bopp. exact F. Qed.

Lemma neg_valued x v : valued x v -> valued (Neg x) (- v).
Proof.
  intros (f & H & F & <-). destruct (neg_fin f F) as [N1 N2].
  exists (ieee_neg E M f). split; [apply neg_spec, H|]. auto.
Qed.

Lemma abs_valued x v : valued x v -> valued (FAbs x) (Rabs v).
Proof.
  intros (f & H & F & <-). exists (ieee_abs E M f). split; [apply abs_spec, H|].
  unfold ieee_abs. rewrite is_finite_Babs, B2R_Babs. auto.
Qed.

(** Every accepted result, and that of the repository's prover exists. *)
Definition value_of (c : circ FloatVar) (v : R) : Prop :=
  (exists r, exec b c = Some r) /\ forall r, sat b c r -> valued r v.

Lemma mul_value x y u v : pow2_size E M mod b = 0 -> valued x u -> valued y v ->
  fits (rne (u * v)) -> value_of (Mul E M x y) (rne (u * v)).
Proof.
  intros Hd (fx & Hx & Fx & <-) (fy & Hy & Fy & <-) Hf. split.
  - destruct (mul_complete x y fx fy Hx Hy) as (r & H & _). exists r. exact H.
  - intros r Hr. destruct (mul_fin fx fy Fx Fy Hf) as [V1 V2].
    exists (ieee_mul E M fx fy). split; [|split; assumption].
    apply (mul_safe x y fx fy r Hd Hx Hy); [intros _ _; exact V1|exact Hr].
Qed.

Lemma div_value x y u v : pow2_size E M mod b = 0 -> valued x u -> valued y v -> v <> 0%R ->
  fits (rne (u / v)) -> value_of (Div E M x y) (rne (u / v)).
Proof.
  intros Hd (fx & Hx & Fx & <-) (fy & Hy & Fy & <-) Hn Hf. split.
  - destruct (div_complete x y fx fy Hx Hy) as (r & H & _). exists r. exact H.
  - intros r Hr. destruct (div_fin fx fy Fx Hn Hf) as [V1 V2].
    exists (ieee_div E M fx fy). split; [|split; assumption].
    apply (div_safe x y fx fy r Hd Hx Hy); [intros _ _; exact V1|exact Hr].
Qed.

Lemma add_value x y u v : pow2_size E M mod b = 0 -> valued x u -> valued y v ->
  fits (rne (u + v)) -> (Rabs u < bpow radix2 (emax - 1))%R ->
  value_of (Add E M x y) (rne (u + v)).
Proof.
  intros Hd (fx & Hx & Fx & <-) (fy & Hy & Fy & <-) Hf Hb. split.
  - destruct (add_complete x y fx fy Hx Hy) as (r & H & _). exists r. exact H.
  - intros r Hr. destruct (add_fin fx fy Fx Fy Hf) as [V1 V2].
    destruct (add_bounded x y fx fy r Hd Hx Hy ltac:(intros _ _; exact V1) Hr)
      as (f & H & [->|[(C1 & C2 & C3 & C4) [[s ->]|[C _]]]]).
    + exists (ieee_add E M fx fy). auto.
    + exists (B754_zero s). split; [exact H|]. split; [reflexivity|]. cbn [B2R].
      rewrite C4. replace (- B2R fy + B2R fy)%R with 0%R by ring. unfold Spec.rne. 
      symmetry. apply round_0. apply valid_rnd_N.
    + lra.
Qed.

Lemma sub_value x y u v : pow2_size E M mod b = 0 -> valued x u -> valued y v ->
  fits (rne (u - v)) -> (Rabs u < bpow radix2 (emax - 1))%R ->
  value_of (Sub E M x y) (rne (u - v)).
Proof.
  intros Hd Hx Hy Hf Hb. unfold Sub.
  apply (add_value x (Neg y) u (- v) Hd Hx (neg_valued _ _ Hy) Hf Hb).
Qed.

Lemma value_bind {A} (c : circ FloatVar) v (k : FloatVar -> circ A) r :
  value_of c v -> sat b (bind c k) r -> exists x, valued x v /\ sat b (k x) r.
Proof.
  intros [_ H] Hs. apply sat_bind in Hs. destruct Hs as [x [Hx Hs]]. exists x. auto.
Qed.

Lemma value_bind_exec {A} (c : circ FloatVar) v (k : FloatVar -> circ A) :
  value_of c v -> (forall x, valued x v -> exists r, exec b (k x) = Some r) ->
  exists r, exec b (bind c k) = Some r.
Proof.
  intros [[x Hx] H] Hk. rewrite (exec_bind_eq _ _ _ _ Hx). apply Hk, H, exec_sat, Hx.
Qed.

Lemma value_of_bind (c : circ FloatVar) v (k : FloatVar -> circ FloatVar) w :
  value_of c v -> (forall x, valued x v -> value_of (k x) w) -> value_of (bind c k) w.
Proof.
  intros Hc Hk. split.
  - apply (value_bind_exec _ _ _ Hc). intros x Hx. exact (proj1 (Hk x Hx)).
  - intros r Hr. destruct (value_bind _ _ _ _ Hc Hr) as (x & Hx & Hs). exact (proj2 (Hk x Hx) r Hs).
Qed.

Lemma value_of_ret x v : valued x v -> value_of (Ret x) v.
Proof.
  intros H. split; [exists x; reflexivity|]. intros r Hr. apply sat_ret_inv in Hr. subst r. exact H.
Qed.

End ValueFacts.
