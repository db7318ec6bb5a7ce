(** The arithmetic circuits accept exactly the specified bit patterns. *)
From Coq Require Import ZArith Reals Lra Lia Bool List.
From Flocq Require Import Core BinarySingleNaN.
From Verif Require Import Field FieldFacts Circuit CircuitFacts RangeCheck RangeFacts Gadget
  GadgetFacts Util FloatModel Tactics RoundFacts Spec RoundCore RepFacts MulFacts DivFacts
  SqrtFacts AddFacts AddSpec Forge CompFacts NewFacts CmpFacts TruncFacts TruncSpec ToIntFacts
  EqFacts Outcomes Circuits.
Import ListNotations.
Local Open Scope Z_scope.

Section CircuitSpec.
Context {MOD : Modulus} {E M b : Z} {HP : Params E M b} {HF : Format E M}.
#[local] Instance Wn : Width b (4 * M + 44) := params_width E M b HP.
#[local] Instance Bn : BigMod := width_big b _ _.

(** Wires with the reserved exponent but without the abnormal flag. *)
Definition junk (r : FloatVar) : Prop :=
  exists s m, 2 ^ M <= m < 2 ^ (M + 1) /\ r = embF (mkZ s (emax E) m false).

Lemma overflow_junk s v r : overflow_wires E M s v r -> junk r.
Proof. intros (m & Hm & _ & ->). exists s, m. split; [exact Hm|reflexivity]. Qed.

(** Wires that [AssertIsEqual] matches with no datum. *)
Definition inert (r : FloatVar) : Prop :=
  forall y (f : fmt E M) u, represents y f -> ~ sat b (AssertIsEqual r y) u.

Lemma junk_no_datum r (f : fmt E M) : junk r -> ~ represents r f.
Proof. intros (s & m & Hm & ->). apply (malformed_no_datum (b:=b) s m Hm). Qed.

Lemma junk_not_equal r y (f : fmt E M) u : junk r -> represents y f ->
  ~ sat b (AssertIsEqual r y) u.
Proof.
  intros (s & m & Hm & ->) [w [-> Hw]] H. unfold AssertIsEqual in H.
  apply sat_bind in H. destruct H as [n [_ H]].
  apply sat_bind in H. destruct H as [[] [_ H]].
  apply sat_bind in H. destruct H as [[] [He H]]. apply sat_assert_eq in He.
  apply sat_bind in H. destruct H as [[] [Hm' H]]. apply sat_assert_eq in Hm'.
  apply sat_assert_eq in H. cbn [embF Exponent Mantissa IsAbnormal ze zm za] in *.
  apply (malformed_no_datum (b:=b) (zs w) m Hm f). exists w. split; [|exact Hw].
  unfold embF. cbn [zs ze zm za]. rewrite Hm', H. f_equal.
  rewrite fsub_emb in He. unfold emb in *. 
  assert (Hp : 2 < modulus) by exact Bn.
  rewrite Z.mod_0_l in He by lia.
  apply Z.mod_divide in He; [|lia]. destruct He as [k Hk].
  replace (emax E) with (ze w + k * modulus) by lia. apply Z_mod_plus_full.
Qed.

Lemma overflow_inert s v r : overflow_wires E M s v r -> inert r.
Proof. intros H y f u. apply junk_not_equal. exact (overflow_junk s v r H). Qed.

Lemma datum_not_inert r (f : fmt E M) : represents r f -> ~ inert r.
Proof.
  intros Hr H. apply (H r f tt Hr). apply (eq_spec r r f f Hr Hr). reflexivity.
Qed.

(** ** The circuits with one or two operands *)

Lemma new_step {A} v (k : FloatVar -> circ A) u : 0 <= v < modulus ->
  (sat b (x <- NewFloat E M v ;; k x) u <->
   0 <= v < 2 ^ (E + M + 1) /\ sat b (k (NewConstant E M v)) u).
Proof.
  intros Hv. rewrite sat_bind. split.
  - intros [x [Hx H]]. apply (newfloat_sound v x Hv) in Hx. destruct Hx as [H1 ->]. tauto.
  - intros [H1 H]. eexists. split; [|exact H]. apply (newfloat_sound v _ Hv). tauto.
Qed.

Lemma new_exec_step {A} v (k : FloatVar -> circ A) u : 0 <= v < modulus ->
  (exec b (x <- NewFloat E M v ;; k x) = Some u <->
   0 <= v < 2 ^ (E + M + 1) /\ exec b (k (NewConstant E M v)) = Some u).
Proof.
  intros Hv. rewrite exec_bind. destruct (Z.lt_ge_cases v (2 ^ (E + M + 1))) as [H|H].
  - rewrite (proj1 (newfloat_complete v (conj (proj1 Hv) H))). intuition lia.
  - rewrite (proj1 (newfloat_rejects (b:=b) v (conj H (proj2 Hv)))). split; [discriminate|lia].
Qed.

(** The results of a circuit are the data in [P], or malformed. *)
Definition yields (c : circ FloatVar) (P : fmt E M -> Prop) : Prop :=
  (forall r, sat b c r -> inert r \/ exists f, represents r f /\ P f) /\
  (forall f, P f -> exists r, sat b c r /\ represents r f).

Definition runs (c : circ FloatVar) (f : fmt E M) : Prop :=
  exists r, exec b c = Some r /\ represents r f.

Lemma check_step c P z (f : fmt E M) : yields c P -> represents z f ->
  (sat b (r <- c ;; AssertIsEqual r z) tt <-> P f).
Proof.
  intros [H1 H2] Hz. rewrite sat_bind. split.
  - intros [r [Hr H]]. destruct (H1 r Hr) as [J|[g [Hg HPg]]].
    + destruct (J z f tt Hz H).
    + apply (eq_spec r z g f Hg Hz) in H. subst g. exact HPg.
  - intros HPf. destruct (H2 f HPf) as [r [Hr Hf]]. exists r. split; [exact Hr|].
    apply (eq_spec r z f f Hf Hz). reflexivity.
Qed.

Lemma check_exec_step c g z (f : fmt E M) : runs c g -> represents z f ->
  (exec b (r <- c ;; AssertIsEqual r z) = Some tt <-> f = g).
Proof.
  intros (r & H1 & H2) Hz. rewrite (exec_bind_eq _ _ _ _ H1).
  rewrite (proj2 (eq_spec r z g f H2 Hz)). split; congruence.
Qed.

Definition pattern (v : Z) : Prop := 0 <= v < 2 ^ (E + M + 1).

Lemma unary_sat op (P : fmt E M -> fmt E M -> Prop) X Y :
  0 <= X < modulus -> 0 <= Y < modulus ->
  (forall x fx, represents x fx -> yields (op x) (P fx)) ->
  (sat b (unary_circuit E M op X Y) tt <->
   pattern X /\ pattern Y /\ P (of_bits E M X) (of_bits E M Y)).
Proof.
  intros HX HY H. unfold unary_circuit. rewrite (new_step X _ _ HX), (new_step Y _ _ HY).
  unfold pattern. split; intros (H1 & H2 & H3); (split; [exact H1|]; split; [exact H2|]).
  - apply (check_step _ _ _ _ (H _ _ (newconst_spec X H1)) (newconst_spec Y H2)). exact H3.
  - apply (check_step _ _ _ _ (H _ _ (newconst_spec X H1)) (newconst_spec Y H2)). exact H3.
Qed.

Lemma binary_sat op (P : fmt E M -> fmt E M -> fmt E M -> Prop) X Y Z :
  0 <= X < modulus -> 0 <= Y < modulus -> 0 <= Z < modulus ->
  (forall x y fx fy, represents x fx -> represents y fy -> yields (op x y) (P fx fy)) ->
  (sat b (binary_circuit E M op X Y Z) tt <->
   pattern X /\ pattern Y /\ pattern Z /\ P (of_bits E M X) (of_bits E M Y) (of_bits E M Z)).
Proof.
  intros HX HY HZ H. unfold binary_circuit.
  rewrite (new_step X _ _ HX), (new_step Y _ _ HY), (new_step Z _ _ HZ). unfold pattern.
  split; intros (H1 & H2 & H3 & H4); (split; [exact H1|]; split; [exact H2|]; split; [exact H3|]);
  apply (check_step _ _ _ _ (H _ _ _ _ (newconst_spec X H1) (newconst_spec Y H2))
           (newconst_spec Z H3)); exact H4.
Qed.

Lemma unary_exec op (h : fmt E M -> fmt E M) X Y :
  0 <= X < modulus -> 0 <= Y < modulus ->
  (forall x fx, represents x fx -> runs (op x) (h fx)) ->
  (exec b (unary_circuit E M op X Y) = Some tt <->
   pattern X /\ pattern Y /\ of_bits E M Y = h (of_bits E M X)).
Proof.
  intros HX HY H. unfold unary_circuit.
  rewrite (new_exec_step X _ _ HX), (new_exec_step Y _ _ HY). unfold pattern.
  split; intros (H1 & H2 & H3); (split; [exact H1|]; split; [exact H2|]);
  apply (check_exec_step _ _ _ _ (H _ _ (newconst_spec X H1)) (newconst_spec Y H2)); exact H3.
Qed.

Lemma binary_exec op (h : fmt E M -> fmt E M -> fmt E M) X Y Z :
  0 <= X < modulus -> 0 <= Y < modulus -> 0 <= Z < modulus ->
  (forall x y fx fy, represents x fx -> represents y fy -> runs (op x y) (h fx fy)) ->
  (exec b (binary_circuit E M op X Y Z) = Some tt <->
   pattern X /\ pattern Y /\ pattern Z /\ of_bits E M Z = h (of_bits E M X) (of_bits E M Y)).
Proof.
  intros HX HY HZ H. unfold binary_circuit.
  rewrite (new_exec_step X _ _ HX), (new_exec_step Y _ _ HY), (new_exec_step Z _ _ HZ).
  unfold pattern.
  split; intros (H1 & H2 & H3 & H4); (split; [exact H1|]; split; [exact H2|]; split; [exact H3|]);
  apply (check_exec_step _ _ _ _ (H _ _ _ _ (newconst_spec X H1) (newconst_spec Y H2))
           (newconst_spec Z H3)); exact H4.
Qed.

(** ** The operations *)

Lemma honest_yields c (f : fmt E M) : runs c f ->
  (forall r, sat b c r -> inert r \/ represents r f) -> yields c (fun g => g = f).
Proof.
  intros (r0 & H1 & H2) H. split.
  - intros r Hr. destruct (H r Hr) as [J|J]; [left; exact J|right; exists f; tauto].
  - intros g ->. exists r0. split; [apply exec_sat, H1|exact H2].
Qed.

Lemma mul_yields x y (fx fy : fmt E M) : pow2_size E M mod b = 0 ->
  represents x fx -> represents y fy ->
  yields (Mul E M x y) (fun f => f = ieee_mul E M fx fy).
Proof.
  intros Hd Hx Hy. apply honest_yields; [apply mul_complete; assumption|].
  intros r Hr. destruct (mul_sound_exact x y fx fy r Hd Hx Hy Hr) as [H|(_ & _ & H)];
    [right; exact H|left; exact (overflow_inert _ _ _ H)].
Qed.

Lemma div_yields x y (fx fy : fmt E M) : pow2_size E M mod b = 0 ->
  represents x fx -> represents y fy ->
  yields (Div E M x y) (fun f => f = ieee_div E M fx fy).
Proof.
  intros Hd Hx Hy. apply honest_yields; [apply div_complete; assumption|].
  intros r Hr. destruct (div_sound_exact x y fx fy r Hd Hx Hy Hr) as [H|(_ & _ & H)];
    [right; exact H|left; exact (overflow_inert _ _ _ H)].
Qed.

Lemma sqrt_yields x (fx : fmt E M) : pow2_size E M mod b = 0 -> represents x fx ->
  yields (Sqrt E M x) (fun f => f = ieee_sqrt E M fx).
Proof.
  intros Hd Hx. apply honest_yields; [apply sqrt_complete; assumption|].
  intros r Hr. right. exact (sqrt_sound x fx r Hd Hx Hr).
Qed.

Lemma max_cancelb_spec (fx fy : fmt E M) :
  if max_cancelb fx fy then max_cancel E M fx fy else ~ max_cancel E M fx fy.
Proof.
  unfold max_cancelb, max_cancel.
  destruct (is_finite fx); cbn [andb]; [|intros [F _]; discriminate].
  destruct (is_finite fy); cbn [andb]; [|intros (_ & F & _); discriminate].
  case Req_bool_spec; intros Hv; cbn [andb]; [|intros (_ & _ & Hv' & _); contradiction].
  case Rle_bool_spec; intros Hm; [repeat split; assumption|].
  intros (_ & _ & _ & Hm'). lra.
Qed.

Lemma opposite_sign (fx fy : fmt E M) : is_finite fx = true -> is_finite fy = true ->
  B2R fx = (- B2R fy)%R -> B2R fx <> 0%R -> Bsign fx <> Bsign fy.
Proof.
  assert (HS : forall (s : bool) m e, (if s then F2R (Float radix2 (cond_Zopp s (Zpos m)) e) < 0
    else 0 < F2R (Float radix2 (cond_Zopp s (Zpos m)) e))%R).
  { intros s m e. destruct s; [apply F2R_lt_0|apply F2R_gt_0]; cbn; lia. }
  destruct fx as [sx|sx| |sx mx ex Hx], fy as [sy|sy| |sy my ey Hy]; try discriminate;
    cbn [B2R Bsign]; intros _ _ Hv Hn; try (exfalso; lra).
  intros ->. pose proof (HS sy mx ex). pose proof (HS sy my ey). destruct sy; lra.
Qed.

Lemma zero_datum (f : fmt E M) : is_finite f = true -> B2R f = 0%R -> exists s, f = B754_zero s.
Proof.
  destruct f as [s|s| |s m e H]; try discriminate; intros _ Hz; [exists s; reflexivity|].
  cbn [B2R] in Hz. apply eq_0_F2R in Hz. destruct s; discriminate.
Qed.

Lemma max_cancel_zero (fx fy : fmt E M) : max_cancel E M fx fy ->
  Bsign fx <> Bsign fy /\ exists s, ieee_add E M fx fy = B754_zero s.
Proof.
  intros (Fx & Fy & Hv & Hm). split.
  - apply opposite_sign; try assumption. intros H0. rewrite H0, Rabs_R0 in Hm.
    pose proof (bpow_gt_0 radix2 (emax E - 1)). lra.
  - pose proof (Bplus_correct _ _ _ _ mode_NE fx fy Fx Fy) as H.
    replace (B2R fx + B2R fy)%R with 0%R in H by lra.
    rewrite round_0, Rabs_R0, Rlt_bool_true in H by (try apply bpow_gt_0; auto with typeclass_instances).
    destruct H as (H1 & H2 & _). apply zero_datum; assumption.
Qed.

Lemma add_runs x y (fx fy : fmt E M) : represents x fx -> represents y fy ->
  runs (Add E M x y) (honest_sum fx fy).
Proof.
  intros Hx Hy. destruct (add_complete x y fx fy Hx Hy) as (r & H1 & H2 & H3).
  exists r. split; [exact H1|]. unfold honest_sum. pose proof (max_cancelb_spec fx fy) as H.
  destruct (max_cancelb fx fy); auto.
Qed.

Lemma sub_runs x y (fx fy : fmt E M) : represents x fx -> represents y fy ->
  runs (Sub E M x y) (honest_diff fx fy).
Proof.
  intros Hx Hy. destruct (sub_complete x y fx fy Hx Hy) as (r & H1 & H2 & H3).
  exists r. split; [exact H1|]. unfold honest_diff.
  pose proof (max_cancelb_spec fx (ieee_neg E M fy)) as H.
  destruct (max_cancelb fx (ieee_neg E M fy)); auto.
Qed.

(** Soundness of addition up to wires equal to no datum suffices. *)
Lemma add_yields_inert x y (fx fy : fmt E M) : represents x fx -> represents y fy ->
  (forall r, sat b (Add E M x y) r -> inert r \/
    (represents r (ieee_add E M fx fy) \/
     (is_finite fx = true /\ is_finite fy = true /\
      (overflow_wires E M (Bsign fx) (B2R fx + B2R fy) r \/
       (Bsign fx <> Bsign fy /\ B2R fx = (- B2R fy)%R /\
        (represents (E:=E) (M:=M) r (B754_zero true) \/
         ((bpow radix2 (emax E - 1) <= Rabs (B2R fx))%R /\
          exists s, represents (E:=E) (M:=M) r (B754_infinity s)))))))) ->
  yields (Add E M x y) (sum_outcome fx fy).
Proof.
  intros Hx Hy Hsound. split.
  - intros r Hr.
    destruct (Hsound r Hr)
      as [H|[H|(Fx & Fy & [H|(Hs & Hv & [H|(Hm & s & H)])])]].
    + left. exact H.
    + right. exists (ieee_add E M fx fy). split; [exact H|left; reflexivity].
    + left. exact (overflow_inert _ _ _ H).
    + right. exists (B754_zero true). split; [exact H|]. right. split; [repeat split; assumption|].
      left. exists true. reflexivity.
    + right. exists (B754_infinity s). split; [exact H|]. right. split; [repeat split; assumption|].
      right. split; [exact Hm|]. exists s. reflexivity.
  - intros f [->|[(Fx & Fy & Hs & Hv) [[s ->]|[Hm [s ->]]]]].
    + pose proof (max_cancelb_spec fx fy) as H.
      destruct (max_cancelb fx fy) eqn:Hc.
      * destruct (max_cancel_zero fx fy H) as [Hs [s Hz]]. destruct H as (Fx & Fy & Hv & _).
        rewrite Hz. exact (proj1 (add_cancel_forgery x y fx fy s Hx Hy Fx Fy Hs Hv)).
      * destruct (add_runs x y fx fy Hx Hy) as (r & H1 & H2). unfold honest_sum in H2.
        rewrite Hc in H2. exists r. split; [apply exec_sat, H1|exact H2].
    + exact (proj1 (add_cancel_forgery x y fx fy s Hx Hy Fx Fy Hs Hv)).
    + exact (proj2 (add_cancel_forgery x y fx fy s Hx Hy Fx Fy Hs Hv) Hm).
Qed.

Lemma add_yields x y (fx fy : fmt E M) : pow2_size E M mod b = 0 ->
  represents x fx -> represents y fy -> yields (Add E M x y) (sum_outcome fx fy).
Proof.
  intros Hd Hx Hy. apply add_yields_inert; [exact Hx|exact Hy|]. intros r Hr. right.
  exact (add_sound_exact x y fx fy r Hd Hx Hy Hr).
Qed.

Lemma sub_yields x y (fx fy : fmt E M) : pow2_size E M mod b = 0 ->
  represents x fx -> represents y fy -> yields (Sub E M x y) (diff_outcome fx fy).
Proof.
  intros Hd Hx Hy. 
  destruct (add_yields x (Neg y) fx (ieee_neg E M fy) Hd Hx (neg_spec y fy Hy)) as [H1 H2].
  split.
  - intros r Hr. unfold diff_outcome. rewrite minus_plus_opp. exact (H1 r Hr).
  - intros f Hf. unfold diff_outcome in Hf. rewrite minus_plus_opp in Hf. exact (H2 f Hf).
Qed.

Lemma trunc_yields x (fx : fmt E M) : pow2_size E M mod b = 0 -> represents x fx ->
  yields (Trunc E M x) (trunc_outcome fx).
Proof.
  intros Hd Hx. split.
  - intros r Hr. right.
    destruct (trunc_sound x fx r Hd Hx Hr) as [H|[Hi H]]; eexists; (split; [exact H|]).
    + left. reflexivity.
    + right. split; [exact Hi|reflexivity].
  - intros f [->|[Hi ->]].
    + destruct (trunc_complete x fx Hx) as (r & H1 & H2). exists r. split; [apply exec_sat, H1|exact H2].
    + exact (trunc_forgery x fx Hx Hi).
Qed.

Lemma floor_yields x (fx : fmt E M) : pow2_size E M mod b = 0 -> represents x fx ->
  yields (Floor E M x) (floor_outcome fx).
Proof.
  intros Hd Hx. split.
  - intros r Hr. right.
    destruct (floor_sound x fx r Hd Hx Hr) as [H|[Hi H]]; eexists; (split; [exact H|]).
    + left. reflexivity.
    + right. split; [exact Hi|reflexivity].
  - intros f [->|[Hi ->]].
    + destruct (floor_complete x fx Hx) as (r & H1 & H2). exists r. split; [apply exec_sat, H1|exact H2].
    + exact (floor_forgery x fx Hx Hi).
Qed.

Lemma ceil_yields x (fx : fmt E M) : pow2_size E M mod b = 0 -> represents x fx ->
  yields (Ceil E M x) (ceil_outcome fx).
Proof.
  intros Hd Hx. split.
  - intros r Hr. right.
    destruct (ceil_sound x fx r Hd Hx Hr) as [H|[Hi H]]; eexists; (split; [exact H|]).
    + left. reflexivity.
    + right. split; [exact Hi|reflexivity].
  - intros f [->|[Hi ->]].
    + destruct (ceil_complete x fx Hx) as (r & H1 & H2). exists r. split; [apply exec_sat, H1|exact H2].
    + exact (ceil_forgery x fx Hx Hi).
Qed.

(** ** Comparison, allocation and conversion *)

Lemma comparison_sat op (h : fmt E M -> fmt E M -> bool) X Y Z :
  0 <= X < modulus -> 0 <= Y < modulus ->
  (forall x y fx fy, represents x fx -> represents y fy ->
     exec b (op x y) = Some (emb (Z.b2z (h fx fy))) /\
     forall r, sat b (op x y) r -> r = emb (Z.b2z (h fx fy))) ->
  let ok := pattern X /\ pattern Y /\ Z = Z.b2z (h (of_bits E M X) (of_bits E M Y)) in
  (sat b (comparison_circuit E M op X Y Z) tt <-> ok) /\
  (exec b (comparison_circuit E M op X Y Z) = Some tt <-> ok).
Proof.
  intros HX HY H ok. subst ok. unfold comparison_circuit.
  rewrite (new_step X _ _ HX), (new_step Y _ _ HY).
  rewrite (new_exec_step X _ _ HX), (new_exec_step Y _ _ HY). unfold pattern.
  split; split; intros (H1 & H2 & H3); (split; [exact H1|]; split; [exact H2|]);
    destruct (H _ _ _ _ (newconst_spec X H1) (newconst_spec Y H2)) as [K1 K2].
  - apply sat_bind in H3. destruct H3 as [[] [_ H3]]. apply sat_bind in H3.
    destruct H3 as [r [Hr H3]]. apply K2 in Hr. apply sat_assert_eq in H3. subst r.
    rewrite emb_b2z in H3. symmetry. exact H3.
  - apply exec_sat. rewrite H3, <- emb_b2z.
    rewrite (exec_bind_eq _ _ _ _ (exec_assert_bool _ _)), (exec_bind_eq _ _ _ _ K1).
    apply exec_assert_eq.
  - apply exec_bind_inv in H3. destruct H3 as [[] [_ H3]].
    rewrite (exec_bind_eq _ _ _ _ K1) in H3. rewrite exec_assert_eqb in H3.
    destruct (Z.eqb_spec (emb (Z.b2z (h (of_bits E M X) (of_bits E M Y)))) Z); [|discriminate].
    rewrite emb_b2z in e. symmetry. exact e.
  - rewrite H3, <- emb_b2z.
    rewrite (exec_bind_eq _ _ _ _ (exec_assert_bool _ _)), (exec_bind_eq _ _ _ _ K1).
    apply exec_assert_eq.
Qed.

Lemma allocation_sat X y : 0 <= X < modulus -> pattern y ->
  let ok := pattern X /\ of_bits E M X = of_bits E M y in
  (sat b (allocation_circuit E M X y) tt <-> ok) /\
  (exec b (allocation_circuit E M X y) = Some tt <-> ok).
Proof.
  intros HX Hy ok. subst ok. unfold allocation_circuit, pattern in *.
  rewrite (new_step X _ _ HX), (new_exec_step X _ _ HX).
  split; split; intros (H1 & H2); (split; [exact H1|]);
  destruct (eq_spec _ _ _ _ (newconst_spec X H1) (newconst_spec y Hy)) as [S1 S2];
  (apply S1; exact H2) || (apply S2; exact H2).
Qed.

(** [I] relates a datum to the integers the rounding can produce from it. *)
Lemma conversion_sat op (P : fmt E M -> fmt E M -> Prop) (I : fmt E M -> Z -> Prop) X Y :
  0 <= X < modulus -> pow2_size E M mod b = 0 ->
  (forall x fx, represents x fx -> yields (op x) (P fx)) ->
  (forall x (fx : fmt E M) r, represents x fx -> sat b (op x) r -> ~ inert r) ->
  (forall fx f, P fx f -> is_finite f = is_finite fx /\
     (is_finite fx = true -> exists n, B2R f = IZR n /\ I fx n)) ->
  (forall fx n, is_finite fx = true -> I fx n -> exists f, P fx f /\ B2R f = IZR n) ->
  (sat b (conversion_circuit E M op X Y) tt <->
   pattern X /\ is_finite (of_bits E M X) = true /\
   exists n, I (of_bits E M X) n /\ Z.abs n < 2 ^ (M + E + 1) /\ Y = emb n).
Proof.
  intros HX Hd H HJ HI HIP. unfold conversion_circuit. rewrite (new_step X _ _ HX). unfold pattern.
  split.
  - intros [H1 H2]. split; [exact H1|]. pose proof (newconst_spec X H1) as HXr.
    apply sat_bind in H2. destruct H2 as [r [Hr H2]].
    apply sat_bind in H2. destruct H2 as [n [Hn H2]]. apply sat_assert_eq in H2. subst Y.
    destruct (proj1 (H _ _ HXr) r Hr) as [J|[f [Hf HPf]]]; [destruct (HJ _ _ _ HXr Hr J)|].
    destruct (toint_sound r f n Hd Hf Hn) as (Ff & _).
    destruct (HI _ _ HPf) as [Hfin Hint]. rewrite <- Hfin. split; [exact Ff|].
    destruct (Hint (eq_trans (eq_sym Hfin) Ff)) as [k [Hk1 Hk2]].
    destruct (toint_sound_integral r f k n Hd Hf Ff Hk1 Hn) as [Hb Hr'].
    exists k. auto.
  - intros (H1 & Fx & n & Hn & Hb & ->). split; [exact H1|]. pose proof (newconst_spec X H1) as HXr.
    destruct (HIP _ n Fx Hn) as [f [HPf Hfn]].
    destruct (proj2 (H _ _ HXr) f HPf) as [r [Hr Hf]].
    apply sat_bind. exists r. split; [exact Hr|]. apply sat_bind. exists (emb n).
    split; [|apply sat_assert_eq; reflexivity]. apply exec_sat.
    apply (toint_complete r f n Hf); [|exact Hfn|exact Hb].
    rewrite (proj1 (HI _ _ HPf)). exact Fx.
Qed.

Lemma conversion_exec op (h : fmt E M -> fmt E M) X n : pattern X ->
  (forall x fx, represents x fx -> runs (op x) (h fx)) ->
  is_finite (h (of_bits E M X)) = true -> B2R (h (of_bits E M X)) = IZR n ->
  Z.abs n < 2 ^ (M + E + 1) ->
  exec b (conversion_circuit E M op X (emb n)) = Some tt.
Proof.
  intros HX H Fh Bh Hn. unfold conversion_circuit.
  rewrite (exec_bind_eq _ _ _ _ (proj1 (newfloat_complete X HX))).
  destruct (H _ _ (newconst_spec X HX)) as (r & H1 & H2).
  rewrite (exec_bind_eq _ _ _ _ H1).
  rewrite (exec_bind_eq _ _ _ _ (toint_complete r _ n H2 Fh Bh Hn)).
  apply exec_assert_eq.
Qed.

(** *** Values of the rounded data *)

Lemma trunc_not_inert x (fx : fmt E M) r : pow2_size E M mod b = 0 -> represents x fx ->
  sat b (Trunc E M x) r -> ~ inert r.
Proof.
  intros Hd Hx Hr J. destruct (trunc_sound x fx r Hd Hx Hr) as [H|[_ H]];
    exact (datum_not_inert _ _ H J).
Qed.
Lemma floor_not_inert x (fx : fmt E M) r : pow2_size E M mod b = 0 -> represents x fx ->
  sat b (Floor E M x) r -> ~ inert r.
Proof.
  intros Hd Hx Hr J. destruct (floor_sound x fx r Hd Hx Hr) as [H|[_ H]];
    exact (datum_not_inert _ _ H J).
Qed.
Lemma ceil_not_inert x (fx : fmt E M) r : pow2_size E M mod b = 0 -> represents x fx ->
  sat b (Ceil E M x) r -> ~ inert r.
Proof.
  intros Hd Hx Hr J. destruct (ceil_sound x fx r Hd Hx Hr) as [H|[_ H]];
    exact (datum_not_inert _ _ H J).
Qed.

Lemma nearbyint_value md (fx : fmt E M) : is_finite (Bnearbyint md fx) = is_finite fx /\
  (is_finite fx = true -> B2R (Bnearbyint md fx) = IZR (round_mode md (B2R fx))).
Proof.
  split; [apply Bnearbyint_correct|]. intros Fx. apply (nearby_facts md fx Fx).
Qed.

Lemma one_value : B2R (ieee_one E M) = 1%R /\ is_finite (ieee_one E M) = true /\
  B2R (ieee_neg E M (ieee_one E M)) = (-1)%R /\ is_finite (ieee_neg E M (ieee_one E M)) = true.
Proof.
  unfold ieee_one, ieee_neg. rewrite B2R_Bopp, is_finite_Bopp, Bone_correct, is_finite_Bone.
  repeat split; lra.
Qed.

Lemma trunc_values (fx f : fmt E M) : trunc_outcome fx f -> is_finite f = is_finite fx /\
  (is_finite fx = true -> exists n, B2R f = IZR n /\ trunc_int fx n).
Proof.
  destruct (nearbyint_value mode_ZR fx) as [N1 N2]. intros [->|[[Fx Hi] ->]].
  - split; [exact N1|]. intros Fx. exists (Ztrunc (B2R fx)). split; [exact (N2 Fx)|left; reflexivity].
  - split; [rewrite Fx; reflexivity|]. intros _. exists 0. split; [reflexivity|].
    right. split; [split; assumption|reflexivity].
Qed.
Lemma trunc_ints (fx : fmt E M) n : is_finite fx = true -> trunc_int fx n ->
  exists f, trunc_outcome fx f /\ B2R f = IZR n.
Proof.
  intros Fx [->|[Hi ->]].
  - exists (ieee_trunc E M fx). split; [left; reflexivity|apply (nearbyint_value mode_ZR fx), Fx].
  - eexists. split; [right; split; [exact Hi|reflexivity]|reflexivity].
Qed.

Lemma floor_values (fx f : fmt E M) : floor_outcome fx f -> is_finite f = is_finite fx /\
  (is_finite fx = true -> exists n, B2R f = IZR n /\ floor_int fx n).
Proof.
  destruct (nearbyint_value mode_DN fx) as [N1 N2]. destruct one_value as (_ & _ & V1 & V2).
  intros [->|[[Fx Hi] ->]].
  - split; [exact N1|]. intros Fx. exists (Zfloor (B2R fx)). split; [exact (N2 Fx)|left; reflexivity].
  - split; [rewrite Fx; destruct (Bsign fx); [exact V2|reflexivity]|]. intros _.
    exists (if Bsign fx then -1 else 0). split; [destruct (Bsign fx); [exact V1|reflexivity]|].
    right. split; [split; assumption|reflexivity].
Qed.
Lemma floor_ints (fx : fmt E M) n : is_finite fx = true -> floor_int fx n ->
  exists f, floor_outcome fx f /\ B2R f = IZR n.
Proof.
  destruct one_value as (_ & _ & V1 & V2). intros Fx [->|[Hi ->]].
  - exists (ieee_floor E M fx). split; [left; reflexivity|apply (nearbyint_value mode_DN fx), Fx].
  - eexists. split; [right; split; [exact Hi|reflexivity]|].
    destruct (Bsign fx); [exact V1|reflexivity].
Qed.

Lemma ceil_values (fx f : fmt E M) : ceil_outcome fx f -> is_finite f = is_finite fx /\
  (is_finite fx = true -> exists n, B2R f = IZR n /\ ceil_int fx n).
Proof.
  destruct (nearbyint_value mode_UP fx) as [N1 N2]. destruct one_value as (V1 & V2 & _).
  intros [->|[[Fx Hi] ->]].
  - split; [exact N1|]. intros Fx. exists (Zceil (B2R fx)). split; [exact (N2 Fx)|left; reflexivity].
  - split; [rewrite Fx; destruct (Bsign fx); [reflexivity|exact V2]|]. intros _.
    exists (if Bsign fx then 0 else 1). split; [destruct (Bsign fx); [reflexivity|exact V1]|].
    right. split; [split; assumption|reflexivity].
Qed.
Lemma ceil_ints (fx : fmt E M) n : is_finite fx = true -> ceil_int fx n ->
  exists f, ceil_outcome fx f /\ B2R f = IZR n.
Proof.
  destruct one_value as (V1 & V2 & _). intros Fx [->|[Hi ->]].
  - exists (ieee_ceil E M fx). split; [left; reflexivity|apply (nearbyint_value mode_UP fx), Fx].
  - eexists. split; [right; split; [exact Hi|reflexivity]|].
    destruct (Bsign fx); [reflexivity|exact V1].
Qed.

(** ** The repository's circuits *)

Section Operands.
Variables X Y Z : Z.
Hypotheses (HX : 0 <= X < modulus) (HY : 0 <= Y < modulus) (HZ : 0 <= Z < modulus).
Notation fX := (of_bits E M X).
Notation fY := (of_bits E M Y).
Notation fZ := (of_bits E M Z).

Theorem circuit_mul :
  (exec b (binary_circuit E M (Mul E M) X Y Z) = Some tt <->
   pattern X /\ pattern Y /\ pattern Z /\ fZ = ieee_mul E M fX fY) /\
  (pow2_size E M mod b = 0 ->
   (sat b (binary_circuit E M (Mul E M) X Y Z) tt <->
    pattern X /\ pattern Y /\ pattern Z /\ fZ = ieee_mul E M fX fY)).
Proof.
  split.
  - apply binary_exec; try assumption. intros x y fx fy. apply mul_complete.
  - intros Hd. apply (binary_sat _ (fun fx fy f => f = ieee_mul E M fx fy)); try assumption.
    intros x y fx fy. apply mul_yields, Hd.
Qed.

Theorem circuit_div :
  (exec b (binary_circuit E M (Div E M) X Y Z) = Some tt <->
   pattern X /\ pattern Y /\ pattern Z /\ fZ = ieee_div E M fX fY) /\
  (pow2_size E M mod b = 0 ->
   (sat b (binary_circuit E M (Div E M) X Y Z) tt <->
    pattern X /\ pattern Y /\ pattern Z /\ fZ = ieee_div E M fX fY)).
Proof.
  split.
  - apply binary_exec; try assumption. intros x y fx fy. apply div_complete.
  - intros Hd. apply (binary_sat _ (fun fx fy f => f = ieee_div E M fx fy)); try assumption.
    intros x y fx fy. apply div_yields, Hd.
Qed.

Theorem circuit_add :
  (exec b (binary_circuit E M (Add E M) X Y Z) = Some tt <->
   pattern X /\ pattern Y /\ pattern Z /\ fZ = honest_sum fX fY) /\
  (pow2_size E M mod b = 0 ->
   (sat b (binary_circuit E M (Add E M) X Y Z) tt <->
    pattern X /\ pattern Y /\ pattern Z /\ sum_outcome fX fY fZ)).
Proof.
  split.
  - apply binary_exec; try assumption. exact add_runs.
  - intros Hd. apply binary_sat; try assumption. intros x y fx fy. apply add_yields, Hd.
Qed.

Theorem circuit_sub :
  (exec b (binary_circuit E M (Sub E M) X Y Z) = Some tt <->
   pattern X /\ pattern Y /\ pattern Z /\ fZ = honest_diff fX fY) /\
  (pow2_size E M mod b = 0 ->
   (sat b (binary_circuit E M (Sub E M) X Y Z) tt <->
    pattern X /\ pattern Y /\ pattern Z /\ diff_outcome fX fY fZ)).
Proof.
  split.
  - apply binary_exec; try assumption. exact sub_runs.
  - intros Hd. apply binary_sat; try assumption. intros x y fx fy. apply sub_yields, Hd.
Qed.

Theorem circuit_sqrt :
  (exec b (unary_circuit E M (Sqrt E M) X Y) = Some tt <->
   pattern X /\ pattern Y /\ fY = ieee_sqrt E M fX) /\
  (pow2_size E M mod b = 0 ->
   (sat b (unary_circuit E M (Sqrt E M) X Y) tt <->
    pattern X /\ pattern Y /\ fY = ieee_sqrt E M fX)).
Proof.
  split.
  - apply unary_exec; try assumption. exact sqrt_complete.
  - intros Hd. apply (unary_sat _ (fun fx f => f = ieee_sqrt E M fx)); try assumption.
    intros x fx. apply sqrt_yields, Hd.
Qed.

Theorem circuit_trunc :
  (exec b (unary_circuit E M (Trunc E M) X Y) = Some tt <->
   pattern X /\ pattern Y /\ fY = ieee_trunc E M fX) /\
  (pow2_size E M mod b = 0 ->
   (sat b (unary_circuit E M (Trunc E M) X Y) tt <->
    pattern X /\ pattern Y /\ trunc_outcome fX fY)).
Proof.
  split.
  - apply unary_exec; try assumption. exact trunc_complete.
  - intros Hd. apply unary_sat; try assumption. intros x fx. apply trunc_yields, Hd.
Qed.

Theorem circuit_floor :
  (exec b (unary_circuit E M (Floor E M) X Y) = Some tt <->
   pattern X /\ pattern Y /\ fY = ieee_floor E M fX) /\
  (pow2_size E M mod b = 0 ->
   (sat b (unary_circuit E M (Floor E M) X Y) tt <->
    pattern X /\ pattern Y /\ floor_outcome fX fY)).
Proof.
  split.
  - apply unary_exec; try assumption. exact floor_complete.
  - intros Hd. apply unary_sat; try assumption. intros x fx. apply floor_yields, Hd.
Qed.

Theorem circuit_ceil :
  (exec b (unary_circuit E M (Ceil E M) X Y) = Some tt <->
   pattern X /\ pattern Y /\ fY = ieee_ceil E M fX) /\
  (pow2_size E M mod b = 0 ->
   (sat b (unary_circuit E M (Ceil E M) X Y) tt <->
    pattern X /\ pattern Y /\ ceil_outcome fX fY)).
Proof.
  split.
  - apply unary_exec; try assumption. exact ceil_complete.
  - intros Hd. apply unary_sat; try assumption. intros x fx. apply ceil_yields, Hd.
Qed.

(** For every base width. *)
Theorem circuit_lt :
  let ok := pattern X /\ pattern Y /\ Z = Z.b2z (ieee_lt E M fX fY) in
  (sat b (comparison_circuit E M (IsLt E M) X Y Z) tt <-> ok) /\
  (exec b (comparison_circuit E M (IsLt E M) X Y Z) = Some tt <-> ok).
Proof.
  apply comparison_sat; try assumption. intros x y fx fy Hx Hy.
  destruct (cmp_complete x y fx fy Hx Hy) as (C & _ & _ & _). split; [exact C|]. intros r.
  destruct (cmp_sound x y fx fy r Hx Hy) as (D & _ & _ & _). exact D.
Qed.
Theorem circuit_le :
  let ok := pattern X /\ pattern Y /\ Z = Z.b2z (ieee_le E M fX fY) in
  (sat b (comparison_circuit E M (IsLe E M) X Y Z) tt <-> ok) /\
  (exec b (comparison_circuit E M (IsLe E M) X Y Z) = Some tt <-> ok).
Proof.
  apply comparison_sat; try assumption. intros x y fx fy Hx Hy.
  destruct (cmp_complete x y fx fy Hx Hy) as (_ & C & _ & _). split; [exact C|]. intros r.
  destruct (cmp_sound x y fx fy r Hx Hy) as (_ & D & _ & _). exact D.
Qed.
Theorem circuit_gt :
  let ok := pattern X /\ pattern Y /\ Z = Z.b2z (ieee_lt E M fY fX) in
  (sat b (comparison_circuit E M (IsGt E M) X Y Z) tt <-> ok) /\
  (exec b (comparison_circuit E M (IsGt E M) X Y Z) = Some tt <-> ok).
Proof.
  apply (comparison_sat _ (fun fx fy => ieee_lt E M fy fx)); try assumption.
  intros x y fx fy Hx Hy.
  destruct (cmp_complete x y fx fy Hx Hy) as (_ & _ & C & _). split; [exact C|]. intros r.
  destruct (cmp_sound x y fx fy r Hx Hy) as (_ & _ & D & _). exact D.
Qed.
Theorem circuit_ge :
  let ok := pattern X /\ pattern Y /\ Z = Z.b2z (ieee_le E M fY fX) in
  (sat b (comparison_circuit E M (IsGe E M) X Y Z) tt <-> ok) /\
  (exec b (comparison_circuit E M (IsGe E M) X Y Z) = Some tt <-> ok).
Proof.
  apply (comparison_sat _ (fun fx fy => ieee_le E M fy fx)); try assumption.
  intros x y fx fy Hx Hy.
  destruct (cmp_complete x y fx fy Hx Hy) as (_ & _ & _ & C). split; [exact C|]. intros r.
  destruct (cmp_sound x y fx fy r Hx Hy) as (_ & _ & _ & D). exact D.
Qed.

Theorem circuit_to_int_trunc : pow2_size E M mod b = 0 ->
  (sat b (conversion_circuit E M (Trunc E M) X Y) tt <->
   pattern X /\ is_finite fX = true /\
   exists n, trunc_int fX n /\ Z.abs n < 2 ^ (M + E + 1) /\ Y = emb n).
Proof.
  intros Hd. apply (conversion_sat _ trunc_outcome); try assumption.
  - intros x fx. apply trunc_yields, Hd.
  - intros x fx r. apply trunc_not_inert, Hd.
  - exact trunc_values.
  - exact trunc_ints.
Qed.
Theorem circuit_to_int_floor : pow2_size E M mod b = 0 ->
  (sat b (conversion_circuit E M (Floor E M) X Y) tt <->
   pattern X /\ is_finite fX = true /\
   exists n, floor_int fX n /\ Z.abs n < 2 ^ (M + E + 1) /\ Y = emb n).
Proof.
  intros Hd. apply (conversion_sat _ floor_outcome); try assumption.
  - intros x fx. apply floor_yields, Hd.
  - intros x fx r. apply floor_not_inert, Hd.
  - exact floor_values.
  - exact floor_ints.
Qed.
Theorem circuit_to_int_ceil : pow2_size E M mod b = 0 ->
  (sat b (conversion_circuit E M (Ceil E M) X Y) tt <->
   pattern X /\ is_finite fX = true /\
   exists n, ceil_int fX n /\ Z.abs n < 2 ^ (M + E + 1) /\ Y = emb n).
Proof.
  intros Hd. apply (conversion_sat _ ceil_outcome); try assumption.
  - intros x fx. apply ceil_yields, Hd.
  - intros x fx r. apply ceil_not_inert, Hd.
  - exact ceil_values.
  - exact ceil_ints.
Qed.

End Operands.

Theorem circuit_to_int_exec X n : pattern X -> is_finite (of_bits E M X) = true ->
  Z.abs n < 2 ^ (M + E + 1) ->
  (n = Ztrunc (B2R (of_bits E M X)) ->
   exec b (conversion_circuit E M (Trunc E M) X (emb n)) = Some tt) /\
  (n = Zfloor (B2R (of_bits E M X)) ->
   exec b (conversion_circuit E M (Floor E M) X (emb n)) = Some tt) /\
  (n = Zceil (B2R (of_bits E M X)) ->
   exec b (conversion_circuit E M (Ceil E M) X (emb n)) = Some tt).
Proof.
  intros HX Fx Hn.
  split; [|split]; intros Hv.
  - apply (conversion_exec _ (ieee_trunc E M)); try assumption; [exact trunc_complete| |];
    destruct (nearbyint_value mode_ZR (of_bits E M X)) as [N1 N2];
    [exact (eq_trans N1 Fx)|subst n; exact (N2 Fx)].
  - apply (conversion_exec _ (ieee_floor E M)); try assumption; [exact floor_complete| |];
    destruct (nearbyint_value mode_DN (of_bits E M X)) as [N1 N2];
    [exact (eq_trans N1 Fx)|subst n; exact (N2 Fx)].
  - apply (conversion_exec _ (ieee_ceil E M)); try assumption; [exact ceil_complete| |];
    destruct (nearbyint_value mode_UP (of_bits E M X)) as [N1 N2];
    [exact (eq_trans N1 Fx)|subst n; exact (N2 Fx)].
Qed.

End CircuitSpec.
