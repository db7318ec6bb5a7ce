(** k-fold Horner is not polynomial evaluation: at the point 1, the constant
    polynomial 1 evaluates to [k]. *)
From Coq Require Import ZArith Reals Lra Lia Bool List.
From Flocq Require Import Core BinarySingleNaN.
From Verif Require Import Field FieldFacts Circuit CircuitFacts RangeCheck RangeFacts Gadget
  GadgetFacts FloatModel RoundFacts Spec RepFacts ValueFacts Math MathSpec MathFacts.
Import ListNotations.
Local Open Scope Z_scope.

Section EvalK.
Context {MOD : Modulus} {E M b : Z} {HP : Params E M b} {HF : Format E M}.
#[local] Instance Wn : Width b (4 * M + 44) := params_width E M b HP.
#[local] Instance Bn : BigMod := width_big b _ _.
Notation fmt := (Spec.fmt E M).
Notation emax := (Spec.emax E).
Notation rne := (Spec.rne E M).
Notation valued := (valued (E:=E) (M:=M)).
Notation value_of := (value_of (E:=E) (M:=M) (b:=b)).
Hypothesis Dd : pow2_size E M mod b = 0.

Lemma rne_int n : 0 <= n <= 2 ^ (M + 1) -> emin E M <= 0 -> rne (IZR n) = IZR n.
Proof.
  intros Hn He. destruct (fmt_M (E:=E) (M:=M)) as [HM [HM1 HM2]].
  unfold Spec.rne. apply round_generic; [apply valid_rnd_N|].
  destruct (Z.eq_dec n (2 ^ (M + 1))) as [->|Hne].
  - change 2 with (radix_val radix2). rewrite IZR_Zpower by lia.
    apply generic_format_bpow. unfold FLT_exp. unfold Spec.emin, prec in *. lia.
  - apply generic_format_FLT. exists (Float radix2 n 0).
    + unfold F2R. cbn. ring.
    + cbn [Fnum]. rewrite Z.abs_eq by lia. unfold prec. change (Zpower radix2 (M + 1)) with (2 ^ (M + 1)). lia.
    + cbn [Fexp]. exact He.
Qed.

Hypothesis Hrange : M + 2 < emax - 1.

Lemma emin_neg0 : emin E M <= 0.
Proof. destruct (fmt_M (E:=E) (M:=M)) as [HM _]. unfold emin, prec. lia. Qed.

Lemma int_fits n : 0 <= n <= 2 ^ (M + 1) -> (Rabs (IZR n) < bpow radix2 (emax - 1))%R.
Proof.
  intros Hn. destruct (fmt_M (E:=E) (M:=M)) as [HM _].
  apply Rle_lt_trans with (bpow radix2 (M + 1)); [|apply bpow_lt; lia].
  rewrite <- IZR_Zpower by lia. rewrite Rabs_pos_eq by (apply IZR_le; lia). apply IZR_le, Hn.
Qed.
Lemma int_fits' n : 0 <= n <= 2 ^ (M + 1) -> (Rabs (IZR n) < bpow radix2 emax)%R.
Proof. intros Hn. eapply Rlt_trans; [apply int_fits, Hn|apply bpow_lt; lia]. Qed.

Lemma p1 : 2 <= 2 ^ (M + 1).
Proof.
  destruct (fmt_M (E:=E) (M:=M)) as [HM _]. change 2 with (2 ^ 1) at 1. apply Z.pow_le_mono_r; lia.
Qed.

Lemma int_mul x y m n : 0 <= m * n <= 2 ^ (M + 1) -> valued x (IZR m) -> valued y (IZR n) ->
  value_of (Mul E M x y) (IZR (m * n)).
Proof.
  intros H Hx Hy. rewrite <- (rne_int (m * n) H emin_neg0) at 1. rewrite mult_IZR.
  apply mul_value; try assumption. unfold fits. rewrite <- mult_IZR, rne_int by (assumption || apply emin_neg0).
  apply int_fits', H.
Qed.
Lemma int_add x y m n : 0 <= m <= 2 ^ (M + 1) -> 0 <= m + n <= 2 ^ (M + 1) ->
  valued x (IZR m) -> valued y (IZR n) -> value_of (Add E M x y) (IZR (m + n)).
Proof.
  intros Hm H Hx Hy. rewrite <- (rne_int (m + n) H emin_neg0) at 1. rewrite plus_IZR.
  apply add_value; try assumption.
  - unfold fits. rewrite <- plus_IZR, rne_int by (assumption || apply emin_neg0). apply int_fits', H.
  - apply int_fits, Hm.
Qed.

Definition values_of (c : circ (list FloatVar)) (vs : list Z) : Prop :=
  (exists r, exec b c = Some r) /\ forall r, sat b c r -> Forall2 valued r (map IZR vs).

Lemma values_bind c v k vs : value_of c v -> (forall x, valued x v -> values_of (k x) vs) ->
  values_of (bind c k) vs.
Proof.
  intros Hc Hk. split.
  - apply (value_bind_exec _ _ _ Hc). intros x Hx. exact (proj1 (Hk x Hx)).
  - intros r Hr. destruct (value_bind _ _ _ _ Hc Hr) as (x & Hx & Hs). exact (proj2 (Hk x Hx) r Hs).
Qed.

Lemma evalk_rest_ones at_ prev n parts : valued at_ 1 -> valued prev 1 ->
  Forall2 valued parts (map IZR (repeat 0 n)) ->
  values_of (evalk_rest E M at_ prev parts) (repeat 1 n).
Proof.
  pose proof p1 as Hp. intros Ha. revert prev parts. induction n as [|n IH]; intros prev parts Hq Hf;
    cbn [repeat map] in *; inversion Hf as [|q0 v0 l v1 Hq0 Hl0]; subst; cbn [evalk_rest].
  - split; [exists []; reflexivity|]. intros r Hr. apply sat_ret_inv in Hr. subst r. constructor.
  - apply (values_bind _ 0); [exact (int_mul _ _ 0 1 ltac:(lia) Hq0 Ha)|]. intros t Ht.
    apply (values_bind _ 1); [exact (int_mul _ _ 1 1 ltac:(lia) Hq Ha)|]. intros u Hu.
    apply (values_bind _ 1); [exact (int_add _ _ 0 1 ltac:(lia) ltac:(lia) Ht Hu)|]. intros q Hq'.
    destruct (IH q l Hq' Hl0) as [[r' Hx] Hs]. split.
    + rewrite (exec_bind_eq _ _ _ _ Hx). eexists. reflexivity.
    + intros r Hr. apply sat_bind in Hr. destruct Hr as [l' [Hl Hr]]. apply sat_ret_inv in Hr. subst r.
      constructor; [exact Hq'|]. apply Hs, Hl.
Qed.

Lemma add_all_ones n : forall parts acc m, 0 <= m -> m + Z.of_nat n <= 2 ^ (M + 1) ->
  valued acc (IZR m) -> Forall2 valued parts (map IZR (repeat 1 n)) ->
  value_of (add_all E M acc parts) (IZR (m + Z.of_nat n)).
Proof.
  induction n as [|n IH]; intros parts acc m Hm Hn Ha Hf; cbn [repeat map] in *; inversion Hf; subst;
    cbn [add_all].
  - apply value_of_ret. rewrite Z.add_0_r. exact Ha.
  - apply (value_of_bind _ (IZR (m + 1))); [apply int_add; try assumption; lia|].
    intros z Hz. replace (m + Z.of_nat (S n)) with (m + 1 + Z.of_nat n) by lia.
    apply IH; try assumption; lia.
Qed.

Theorem evalk_ones one at_ k : (1 <= k)%nat -> Z.of_nat k <= 2 ^ (M + 1) ->
  valued one 1 -> valued at_ 1 ->
  value_of (EvalK E M [one] at_ k) (IZR (Z.of_nat k)).
Proof.
  pose proof p1 as Hp. intros H1 Hk Ho Ha. destruct k as [|k]; [lia|]. unfold EvalK. cbn [repeat evalk_loop evalk_step].
  assert (Hz : Forall2 valued (repeat (NewConstant E M 0) k) (map IZR (repeat 0 k))).
  { clear - HP HF. induction k; cbn [repeat map]; constructor; [apply zero_valued|assumption]. }
  assert (HL : values_of (parts <- (t <- Mul E M (NewConstant E M 0) at_ ;; q <- Add E M t one ;;
       rest <- evalk_rest E M at_ q (repeat (NewConstant E M 0) k) ;; Ret (q :: rest)) ;; Ret parts)
       (1 :: repeat 1 k)).
  { assert (H0 : values_of (t <- Mul E M (NewConstant E M 0) at_ ;; q <- Add E M t one ;;
       rest <- evalk_rest E M at_ q (repeat (NewConstant E M 0) k) ;; Ret (q :: rest)) (1 :: repeat 1 k)).
    { apply (values_bind _ 0); [exact (int_mul _ _ 0 1 ltac:(lia) zero_valued Ha)|]. intros t Ht.
      apply (values_bind _ 1); [exact (int_add _ _ 0 1 ltac:(lia) ltac:(lia) Ht Ho)|]. intros q Hq.
      destruct (evalk_rest_ones at_ q k _ Ha Hq Hz) as [[r' Hx] Hs]. split.
      + rewrite (exec_bind_eq _ _ _ _ Hx). eexists. reflexivity.
      + intros r Hr. apply sat_bind in Hr. destruct Hr as [l' [Hl Hr]]. apply sat_ret_inv in Hr. subst r.
        cbn [map]. constructor; [exact Hq|]. apply Hs, Hl. }
    destruct H0 as [[r Hr] Hs]. split.
    - rewrite (exec_bind_eq _ _ _ _ Hr). eexists. reflexivity.
    - intros r' Hr'. apply sat_bind in Hr'. destruct Hr' as [l' [Hl Hr']]. apply sat_ret_inv in Hr'. subst r'.
      apply Hs, Hl. }
  assert (HK : forall l, Forall2 valued l (map IZR (1 :: repeat 1 k)) ->
    value_of (match l with [] => assert false ;;; Ret (NewConstant E M 0) | q :: rest => add_all E M q rest end)
      (IZR (Z.of_nat (S k)))).
  { intros l Hl. cbn [map] in Hl. inversion Hl; subst.
    replace (Z.of_nat (S k)) with (1 + Z.of_nat k) by lia. apply add_all_ones; try assumption; lia. }
  destruct HL as [[l Hl] Hs]. split.
  - rewrite (exec_bind_eq _ _ _ _ Hl). apply HK, Hs, exec_sat, Hl.
  - intros r Hr. apply sat_bind in Hr. destruct Hr as [l' [Hl' Hr]]. exact (proj2 (HK l' (Hs l' Hl')) r Hr).
Qed.

End EvalK.
