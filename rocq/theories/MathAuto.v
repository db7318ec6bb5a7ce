(** What the test circuits of math/ fix about the expected value: its magnitude. *)
From Coq Require Import ZArith Reals Lra Lia Bool List.
From Flocq Require Import Core BinarySingleNaN.
From Verif Require Import Field FieldFacts Circuit CircuitFacts RangeCheck RangeFacts Gadget
  GadgetFacts FloatModel RoundFacts Spec RepFacts Forge CompFacts NewFacts EqFacts CircuitSpec Math
  MathSpec ValueFacts MathFacts ErrorFacts SinFacts.
Import ListNotations.
Local Open Scope Z_scope.

Section Magnitude.
Context {MOD : Modulus} {E M b : Z} {HP : Params E M b} {HF : Format E M}.
#[local] Instance Wn : Width b (4 * M + 44) := params_width E M b HP.
#[local] Instance Bn : BigMod := width_big b _ _.
Notation fmt := (Spec.fmt E M).

Lemma abs_inj (f g : fmt) : is_finite f = true -> is_finite g = true ->
  Rabs (B2R g) = Rabs (B2R f) -> ieee_abs E M g = ieee_abs E M f.
Proof.
  intros Ff Fg H. unfold ieee_abs. apply B2R_Bsign_inj; rewrite ?is_finite_Babs, ?B2R_Babs; auto.
  rewrite !Bsign_Babs by (destruct f, g; try discriminate; reflexivity). reflexivity.
Qed.

Lemma same_magnitude r z (f g : fmt) : represents r f -> represents z g -> is_finite f = true ->
  (Exponent r = Exponent z /\ Mantissa r = Mantissa z <->
   is_finite g = true /\ Rabs (B2R g) = Rabs (B2R f)).
Proof.
  intros Hr Hz Ff. exps E M. destruct (fmt_M (E:=E) (M:=M)) as [HM [HM1 HM2]]. params.
  destruct (small_pow (E:=E) (M:=M) (b:=b)) as (Hs1 & _ & _ & _ & _ & _ & Hs7 & _).
  pose proof (finite_not_abnormal r f Hr Ff) as Ar.
  split.
  - intros [He Hm].
    assert (Fg : is_finite g = true).
    { destruct Hr as (u & -> & Hu), Hz as (w & -> & Hw). cbn [embF Exponent] in He.
      pose proof (zrep_zwf _ _ Hu) as [Wu _]. pose proof (zrep_zwf _ _ Hw) as [Ww _].
      assert (Hee : ze u = ze w) by (apply emb_inj; [exact He|lia]).
      assert (Hlt : ze u < emax E).
      { destruct (zrep_B2R u f Hu Ff) as (_ & _ & _ & [Hf|[_ Hf]]); [|lia].
        destruct Hf as (_ & _ & Hf). lia. }
      destruct g as [s|s| |s m e H]; try reflexivity; cbn [zrep] in Hw.
      - subst w. cbn in Hee. lia.
      - destruct Hw as [s ->]. cbn in Hee. lia. }
    split; [exact Fg|].
    pose proof (finite_not_abnormal z g Hz Fg) as Az.
    pose proof (abs_spec r f Hr) as H1. pose proof (abs_spec z g Hz) as H2.
    assert (HE : FAbs r = FAbs z) by (unfold FAbs; congruence).
    rewrite HE in H1. pose proof (represents_inj _ _ _ H1 H2) as H.
    rewrite <- !B2R_Babs. unfold ieee_abs in H. rewrite H. reflexivity.
  - intros [Fg V]. pose proof (abs_inj f g Ff Fg V) as H.
    pose proof (abs_spec r f Hr) as H1. pose proof (abs_spec z g Hz) as H2. rewrite H in H2.
    destruct H1 as (u & Eu & Hu), H2 as (w & Ew & Hw).
    assert (u = w).
    { apply (zrep_fun u w (ieee_abs E M f)); auto. unfold ieee_abs. rewrite is_nan_Babs.
      destruct f; try discriminate; reflexivity. }
    subst w. rewrite <- Ew in Eu. unfold FAbs in Eu. injection Eu as E1 E2 E3. auto.
Qed.
End Magnitude.

Section FunctionCircuits.
Context {MOD : Modulus} {b : Z} {HP : Params 11 52 b}.
#[local] Instance Wf : Width b (4 * 52 + 44) := params_width 11 52 b HP.
#[local] Instance Bf : BigMod := width_big b _ _.
Notation fmt := (Spec.fmt 11 52).


Lemma function_sat op X Z : 0 <= X < modulus -> 0 <= Z < modulus ->
  (sat b (function_circuit op X Z) tt <->
   0 <= X < 2 ^ 64 /\ 0 <= Z < 2 ^ 64 /\
   exists r, sat b (op (NewConstant 11 52 X)) r /\
     Exponent r = Exponent (NewConstant 11 52 Z) /\ Mantissa r = Mantissa (NewConstant 11 52 Z)).
Proof.
  intros HX HZ. unfold function_circuit. rewrite (new_step _ _ _ HX), (new_step _ _ _ HZ), sat_bind.
  change (2 ^ (11 + 52 + 1)) with (2 ^ 64).
  split; intros (H1 & H2 & r & Hr & H3); split; auto; split; auto; exists r; (split; [exact Hr|]).
  - apply sat_bind in H3. destruct H3 as (u & H3 & H4). apply sat_assert_eq in H3, H4. tauto.
  - apply sat_bind. exists tt. split; apply sat_assert_eq; tauto.
Qed.

Lemma function_sound op X Z (P : fmt -> Prop) : 0 <= X < modulus -> 0 <= Z < modulus ->
  (0 <= X < 2 ^ 64 -> forall r, sat b (op (NewConstant 11 52 X)) r ->
    exists f : fmt, represents r f /\ is_finite f = true /\ P f) ->
  sat b (function_circuit op X Z) tt ->
  0 <= Z < 2 ^ 64 /\ is_finite (of_bits 11 52 Z) = true /\
  exists f, P f /\ Rabs (B2R (of_bits 11 52 Z)) = Rabs (B2R f).
Proof.
  intros HX HZ Ho Hs. apply (function_sat op X Z HX HZ) in Hs.
  destruct Hs as (RX & RZ & r & Hr & He & Hm). destruct (Ho RX r Hr) as (f & Rf & Ff & Pf).
  split; [exact RZ|].
  pose proof (newconst_spec (E:=11) (M:=52) Z RZ) as Rz.
  destruct (proj1 (same_magnitude (b:=b) r _ f _ Rf Rz Ff) (conj He Hm)) as [F1 F2].
  split; [exact F1|]. exists f. auto.
Qed.

Lemma function_complete op X : 0 <= X < 2 ^ 64 ->
  (exists r, exec b (op (NewConstant 11 52 X)) = Some r) ->
  (forall r, sat b (op (NewConstant 11 52 X)) r ->
    exists f : fmt, represents r f /\ is_finite f = true) ->
  exists Z, 0 <= Z < 2 ^ 64 /\ sat b (function_circuit op X Z) tt.
Proof.
  intros RX [r Hr] Ho. apply exec_sat in Hr. destruct (Ho r Hr) as (f & Rf & Ff).
  destruct (of_bits_surj f) as (Z & RZ & HZ). change (2 ^ (11 + 52 + 1)) with (2 ^ 64) in RZ.
  exists Z. split; [exact RZ|]. destruct (new_pows (E:=11) (M:=52) (b:=b)) as (P1 & _).
  change (2 ^ (11 + 52 + 1)) with (2 ^ 64) in P1.
  apply function_sat; [lia|lia|]. split; [exact RX|]. split; [exact RZ|]. exists r. split; [exact Hr|].
  pose proof (newconst_spec (E:=11) (M:=52) Z RZ) as Rz. rewrite HZ in Rz.
  apply (same_magnitude (b:=b) r _ f f Rf Rz Ff). auto.
Qed.
End FunctionCircuits.

(** ** Polynomials with small integer coefficients *)

Section Polynomials.
Context {MOD : Modulus} {b : Z} {HP : Params 11 52 b}.
#[local] Instance Wp : Width b (4 * 52 + 44) := params_width 11 52 b HP.
#[local] Instance Bp : BigMod := width_big b _ _.
Notation rne := (Spec.rne 11 52).

Lemma horner_range p x k : 0 <= k -> (Rabs x <= bpow radix2 k)%R ->
  Forall (fun c => (Rabs c <= bpow radix2 4)%R) p ->
  Z.of_nat (length p) * (k + 1) + 4 < 1023 ->
  (Rabs (rounded_horner 11 52 p x) <= bpow radix2 (Z.of_nat (length p) * (k + 1) + 4))%R /\
  horner_fits 11 52 p x.
Proof.
  intros Hk Hx. induction p as [|c p IH]; intros Hp Hl.
  - split; [cbn [rounded_horner fold_right]; rewrite Rabs_R0; apply bpow_ge_0|exact I].
  - inversion_clear Hp as [|? ? Hc Hp']. cbn [length] in *. rewrite Nat2Z.inj_succ in *.
    set (n := Z.of_nat (length p)) in *. assert (Hn : 0 <= n) by (unfold n; lia).
    assert (He : emin 11 52 <= 0) by (vm_compute; congruence).
    destruct (IH Hp' ltac:(lia)) as [B F]. unfold rounded_horner. cbn [fold_right horner_fits].
    fold (rounded_horner 11 52 p x). set (a := rounded_horner 11 52 p x) in *.
    assert (BT : (Rabs (rne (a * x)) <= bpow radix2 (n * (k + 1) + 4 + k))%R).
    { apply rne_bound; [|nia]. apply bnd_mul; assumption. }
    assert (BS : (Rabs (rne (rne (a * x) + c)) <= bpow radix2 (Z.succ n * (k + 1) + 4))%R).
    { replace (Z.succ n * (k + 1) + 4) with ((n * (k + 1) + 4 + k) + 1) by lia.
      apply rne_bound; [|nia]. apply bnd_add; [exact BT|]. eapply Rle_trans; [exact Hc|].
      apply bpow_le. nia. }
    split; [exact BS|]. split; [exact F|]. change (emax 11) with 1024. split.
    + eapply Rle_lt_trans; [exact BT|]. apply bpow_lt. lia.
    + eapply Rle_lt_trans; [exact BS|]. apply bpow_lt. lia.
Qed.

Definition constant (n : Z) : FloatVar := NewConstant 11 52 (int_bits 11 52 n).

Lemma constants_valued cs : Forall (fun n => 0 < n < 16) cs ->
  Forall2 (valued (E:=11) (M:=52)) (map constant cs) (map IZR cs) /\
  Forall (fun c => (Rabs c <= bpow radix2 4)%R) (map IZR cs) /\
  Forall (in_format (E:=11) (M:=52)) (map IZR cs).
Proof.
  induction 1 as [|n cs Hn _ (I1 & I2 & I3)]; cbn [map]; [auto|].
  assert (V : valued (E:=11) (M:=52) (constant n) (IZR n)).
  { apply int_bits_valued; [|reflexivity]. split; [lia|]. apply Z.lt_trans with 16; [lia|reflexivity]. }
  split; [constructor; [exact V|exact I1]|]. split; constructor; auto.
  - change (bpow radix2 4) with 16%R. rewrite <- abs_IZR. apply IZR_le. lia.
  - destruct V as (f & _ & _ & <-). apply B2R_in_format.
Qed.

(** [Eval] on such a list, within the range where nothing overflows. *)
Lemma small_horner cs x vx k : pow2_size 11 52 mod b = 0 -> Forall (fun n => 0 < n < 16) cs ->
  0 <= k -> Z.of_nat (length cs) * (k + 1) + 4 < 1023 ->
  valued (E:=11) (M:=52) x vx -> (Rabs vx <= bpow radix2 k)%R ->
  (exists r, exec b (Eval 11 52 (map constant cs) x) = Some r) /\
  (forall r, sat b (Eval 11 52 (map constant cs) x) r ->
   exists f : fmt 11 52, represents r f /\ is_finite f = true /\
     B2R f = rounded_horner 11 52 (map IZR cs) vx) /\
  (Rabs (rounded_horner 11 52 (map IZR cs) vx - poly (map IZR cs) vx)
   <= horner_error 11 52 (map IZR cs) vx)%R.
Proof.
  intros Hd Hcs Hk Hl Hx Bx. destruct (constants_valued cs Hcs) as (H1 & H2 & H3).
  destruct (horner_range (map IZR cs) vx k Hk Bx H2) as [_ HF]; [rewrite map_length; exact Hl|].
  destruct (eval_value (map constant cs) x (map IZR cs) vx Hd H1 Hx HF) as [X S].
  split; [exact X|]. split; [exact S|]. apply horner_error_bound, H3.
Qed.

End Polynomials.
