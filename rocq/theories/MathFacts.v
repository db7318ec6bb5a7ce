(** Polynomial evaluation. *)
From Coq Require Import ZArith Reals Lra Lia Bool List.
From Flocq Require Import Core BinarySingleNaN.
From Verif Require Import Field FieldFacts Circuit CircuitFacts RangeCheck RangeFacts Gadget
  GadgetFacts Util FloatModel Tactics RoundFacts Spec RoundCore RepFacts MulFacts DivFacts
  AddFacts AddSpec Forge CompFacts NewFacts CmpFacts EqFacts Outcomes CircuitSpec Expr ExprFacts ValueFacts
  Math MathSpec.
Import ListNotations.
Local Open Scope Z_scope.

Section MathFacts.
Context {MOD : Modulus} {E M b : Z} {HP : Params E M b} {HF : Format E M}.
#[local] Instance Wn : Width b (4 * M + 44) := params_width E M b HP.
#[local] Instance Bn : BigMod := width_big b _ _.
Notation fmt := (Spec.fmt E M).
Notation emax := (Spec.emax E).
Notation rne := (Spec.rne E M).

Lemma zero_bits : 0 <= 0 < 2 ^ (E + M + 1).
Proof. destruct (fmt_M (E:=E) (M:=M)) as [HM _]. pose proof (fmt_ew E M). split; [lia|].
  apply Z.pow_pos_nonneg; lia. Qed.

Lemma zero_spec : represents (NewConstant E M 0) (B754_zero false : fmt).
Proof.
  pose proof (newconst_spec 0 zero_bits) as H.
  pose proof (zcomps_spec (E:=E) (M:=M) 0 zero_bits) as Hz.
  destruct (fmt_M (E:=E) (M:=M)) as [HM [HM1 HM2]]. pose proof (fmt_ew E M) as HE.
  assert (HE1 : 0 < 2 ^ E) by (apply Z.pow_pos_nonneg; lia).
  assert (HE2 : 0 < 2 ^ (E + M)) by (apply Z.pow_pos_nonneg; lia).
  assert (Hc : zcomps E M 0 = mkZ false (emin E M - 1) 0 false).
  { unfold zcomps, bsgn, bexp, bman. rewrite Z.div_0_l, !Z.mod_0_l by lia.
    rewrite (proj2 (Z.leb_gt _ _) HE2). cbn [Z.eqb]. unfold nshift. cbn [Z.eqb].
    f_equal. unfold Spec.emin, prec. lia. }
  rewrite Hc in Hz. rewrite <- (zrep_inj _ _ (B754_zero false) Hz eq_refl). exact H.
Qed.

Lemma zero_valued : valued (E:=E) (M:=M) (NewConstant E M 0) 0.
Proof. exists (B754_zero false). split; [exact zero_spec|]. split; reflexivity. Qed.

(** ** The repository's prover *)

Definition honest_horner (p : list fmt) (x : fmt) : fmt :=
  fold_right (fun c acc => honest_sum (ieee_mul E M acc x) c) (B754_zero false) p.

Lemma honest_horner_ieee p x : horner_no_max_cancel E M p x ->
  honest_horner p x = ieee_horner E M p x.
Proof.
  induction p as [|c p IH]; cbn [horner_no_max_cancel]; [reflexivity|].
  intros [H1 H2]. unfold honest_horner, ieee_horner in *. cbn [fold_right]. rewrite (IH H1).
  apply honest_sum_ieee. exact H2.
Qed.

Lemma runs_bind (c : circ FloatVar) (f : fmt) (k : FloatVar -> circ FloatVar) (g : fmt) :
  runs (b:=b) c f -> (forall x, represents x f -> runs (b:=b) (k x) g) ->
  runs (b:=b) (bind c k) g.
Proof.
  intros (r & H1 & H2) Hk. destruct (Hk r H2) as (r' & H3 & H4). exists r'.
  rewrite (exec_bind_eq _ _ _ _ H1). auto.
Qed.

Lemma eval_runs p at_ (fp : list fmt) (fa : fmt) : Forall2 represents p fp -> represents at_ fa ->
  runs (b:=b) (Eval E M p at_) (honest_horner fp fa).
Proof.
  intros Hp Ha. induction Hp as [|c fc p fp Hc Hp IH].
  - exists (NewConstant E M 0). split; [reflexivity|exact zero_spec].
  - cbn [Eval]. unfold honest_horner. cbn [fold_right]. fold (honest_horner fp fa).
    apply (runs_bind _ _ _ _ IH). intros x Hx.
    apply (runs_bind _ (ieee_mul E M (honest_horner fp fa) fa)).
    + exact (mul_complete x at_ _ fa Hx Ha).
    + intros y Hy. apply add_runs; assumption.
Qed.

Theorem eval_complete p at_ (fp : list fmt) (fa : fmt) : Forall2 represents p fp ->
  represents at_ fa -> horner_no_max_cancel E M fp fa ->
  exists r, exec b (Eval E M p at_) = Some r /\ represents r (ieee_horner E M fp fa).
Proof. intros Hp Ha Hn. rewrite <- (honest_horner_ieee _ _ Hn). apply eval_runs; assumption. Qed.

(** ** Any prover *)

Theorem eval_value p at_ (vp : list R) (va : R) : pow2_size E M mod b = 0 ->
  Forall2 (valued (E:=E) (M:=M)) p vp -> valued (E:=E) (M:=M) at_ va -> horner_fits E M vp va ->
  value_of (E:=E) (M:=M) (b:=b) (Eval E M p at_) (rounded_horner E M vp va).
Proof.
  intros Hd Hp Ha. induction Hp as [|c vc p vp Hc Hp IH]; cbn [horner_fits].
  - intros _. cbn [Eval]. unfold rounded_horner. cbn [fold_right]. apply value_of_ret, zero_valued.
  - intros (H1 & H2 & H3). cbn [Eval]. apply (value_of_bind _ _ _ _ (IH H1)). intros x Hx.
    unfold rounded_horner. cbn [fold_right]. fold (rounded_horner E M vp va).
    apply (value_of_bind _ (rne (rounded_horner E M vp va * va))).
    + apply mul_value; try assumption. eapply Rlt_trans; [exact H2|]. apply bpow_lt. lia.
    + intros y Hy. apply add_value; assumption.
Qed.

(** ** EvalK *)

Definition ceq {A} (c d : circ A) : Prop :=
  (forall r, sat b c r <-> sat b d r) /\ exec b c = exec b d.

Lemma ceq_refl {A} (c : circ A) : ceq c c.
Proof. split; [intros r; tauto|reflexivity]. Qed.
Lemma ceq_trans {A} (c d e : circ A) : ceq c d -> ceq d e -> ceq c e.
Proof. intros [H1 H2] [H3 H4]. split; [intros r; rewrite H1; apply H3|congruence]. Qed.
Lemma ceq_sym {A} (c d : circ A) : ceq c d -> ceq d c.
Proof. intros [H1 H2]. split; [intros r; symmetry; apply H1|congruence]. Qed.
Lemma ceq_bind {A B} (c d : circ A) (f g : A -> circ B) : ceq c d ->
  (forall x, ceq (f x) (g x)) -> ceq (bind c f) (bind d g).
Proof.
  intros [H1 H2] H. split.
  - intros r. rewrite !sat_bind. split; intros [x [Hx Hr]]; exists x;
      (split; [apply H1, Hx|apply (proj1 (H x)), Hr]).
  - rewrite !exec_bind, H2. destruct (exec b d) as [x|]; [apply (proj2 (H x))|reflexivity].
Qed.
Lemma ceq_assoc {A B C} (c : circ A) (f : A -> circ B) (g : B -> circ C) :
  ceq (bind (bind c f) g) (bind c (fun x => bind (f x) g)).
Proof.
  split.
  - intros r. rewrite !sat_bind. split.
    + intros [y [Hy Hr]]. apply sat_bind in Hy. destruct Hy as [x [Hx Hy]]. exists x.
      split; [exact Hx|]. apply sat_bind. exists y. auto.
    + intros [x [Hx Hr]]. apply sat_bind in Hr. destruct Hr as [y [Hy Hr]]. exists y.
      split; [apply sat_bind; exists x; auto|exact Hr].
  - rewrite !exec_bind. destruct (exec b c) as [x|]; [rewrite !exec_bind|]; reflexivity.
Qed.

Fixpoint horner_from (at_ q : FloatVar) (p : list FloatVar) : circ FloatVar :=
  match p with
  | [] => Ret q
  | c :: p' => t <- Mul E M q at_ ;; q <- Add E M t c ;; horner_from at_ q p'
  end.

Lemma evalk_loop_one at_ p q :
  ceq (evalk_loop E M at_ p [q]) (bind (horner_from at_ q p) (fun r => Ret [r])).
Proof.
  revert q. induction p as [|c p IH]; intros q; cbn [evalk_loop horner_from]; [apply ceq_refl|].
  unfold evalk_step. cbn [evalk_rest].
  eapply ceq_trans; [apply ceq_assoc|]. eapply ceq_trans; [|apply ceq_sym, ceq_assoc].
  apply ceq_bind; [apply ceq_refl|]. intros t.
  eapply ceq_trans; [apply ceq_assoc|]. eapply ceq_trans; [|apply ceq_sym, ceq_assoc].
  apply ceq_bind; [apply ceq_refl|]. intros q'. cbn [bind]. apply IH.
Qed.

Lemma horner_from_snoc at_ q p c :
  ceq (horner_from at_ q (p ++ [c]))
      (bind (horner_from at_ q p) (fun r => t <- Mul E M r at_ ;; Add E M t c)).
Proof.
  revert q. induction p as [|d p IH]; intros q; cbn [app horner_from].
  - cbn [bind]. apply ceq_bind; [apply ceq_refl|]. intros t. 
    split; [intros r; rewrite sat_bind; split|].
    + intros [x [Hx Hr]]. apply sat_ret_inv in Hr. subst x. exact Hx.
    + intros Hr. exists r. split; [exact Hr|]. apply sat_ret. reflexivity.
    + rewrite exec_bind. destruct (exec b _); reflexivity.
  - eapply ceq_trans; [|apply ceq_sym, ceq_assoc]. apply ceq_bind; [apply ceq_refl|]. intros t.
    eapply ceq_trans; [|apply ceq_sym, ceq_assoc]. apply ceq_bind; [apply ceq_refl|]. intros q'.
    apply IH.
Qed.

Lemma eval_rev at_ p : ceq (horner_from at_ (NewConstant E M 0) p) (Eval E M (rev p) at_).
Proof.
  induction p as [|c p IH] using rev_ind; [apply ceq_refl|].
  rewrite rev_app_distr. cbn [rev app Eval].
  eapply ceq_trans; [apply horner_from_snoc|]. apply ceq_bind; [exact IH|].
  intros x. apply ceq_refl.
Qed.

Theorem evalk_one p at_ : ceq (EvalK E M p at_ 1) (Eval E M (rev p) at_).
Proof.
  eapply ceq_trans; [|apply eval_rev]. unfold EvalK. cbn [repeat].
  eapply ceq_trans; [apply ceq_bind; [apply evalk_loop_one|intros l; apply ceq_refl]|].
  eapply ceq_trans; [apply ceq_assoc|]. cbn [bind add_all].
  split; [intros r; rewrite sat_bind; split|].
  - intros [x [Hx Hr]]. apply sat_ret_inv in Hr. subst x. exact Hx.
  - intros Hr. exists r. split; [exact Hr|]. apply sat_ret. reflexivity.
  - rewrite exec_bind. destruct (exec b _); reflexivity.
Qed.

End MathFacts.
