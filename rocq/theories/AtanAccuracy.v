(** The arctangent gadgets: every accepted result is close to the angle. *)
From Coq Require Import ZArith Reals Lra Lia Bool List.
From Flocq Require Import Core BinarySingleNaN.
From Verif Require Import Field FieldFacts Circuit CircuitFacts RangeCheck RangeFacts Gadget
  GadgetFacts Util FloatModel Tactics RoundFacts Spec RoundCore RepFacts MulFacts DivFacts
  AddFacts AddSpec Forge CompFacts NewFacts CmpFacts EqFacts Outcomes CircuitSpec Expr ExprFacts
  ValueFacts Math MathSpec MathFacts ErrorFacts SinFacts SinError SinAccuracy Witness ScaleFacts AtanPoly AtanFacts.
Import ListNotations.
Local Open Scope Z_scope.

(** ** Real numbers *)

(** [t] is the direction of the point [(x, y)]. *)
Definition direction (y x t : R) : Prop :=
  (- PI <= t <= PI)%R /\
  (x = sqrt (x * x + y * y) * cos t)%R /\ (y = sqrt (x * x + y * y) * sin t)%R.

Lemma direction_right y x : (0 < x)%R -> direction y x (atan (y / x)).
Proof.
  intros Hx. set (z := (y / x)%R). assert (Hy : y = (z * x)%R) by (unfold z; field; lra).
  pose proof (atan_bound z) as B. pose proof PI_RGT_0 as HPI. unfold direction.
  split; [lra|]. rewrite sin_atan, cos_atan. clearbody z. subst y.
  assert (S : (0 < sqrt (1 + z²))%R).
  { apply sqrt_lt_R0. pose proof (Rle_0_sqr z). lra. }
  replace (x * x + z * x * (z * x))%R with ((1 + z²) * (x * x))%R by (unfold Rsqr; ring).
  rewrite sqrt_mult_alt by (pose proof (Rle_0_sqr z); lra). rewrite sqrt_square by lra.
  split; field; lra.
Qed.

Lemma direction_left y x t : (x < 0)%R -> direction (- y) (- x) t ->
  (forall s, (s = 1 \/ s = -1)%R -> (- PI <= t + s * PI <= PI)%R -> direction y x (t + s * PI)).
Proof.
  intros Hx (_ & D2 & D3) s Hs Hr. split; [exact Hr|].
  replace (- x * - x + - y * - y)%R with (x * x + y * y)%R in D2, D3 by ring.
  assert (C : cos (t + s * PI) = (- cos t)%R).
  { destruct Hs as [-> | ->].
    - rewrite Rmult_1_l. apply neg_cos.
    - replace (t + -1 * PI)%R with (t - PI)%R by ring. rewrite cos_minus, cos_PI, sin_PI. ring. }
  assert (S : sin (t + s * PI) = (- sin t)%R).
  { destruct Hs as [-> | ->].
    - rewrite Rmult_1_l. apply neg_sin.
    - replace (t + -1 * PI)%R with (t - PI)%R by ring. rewrite sin_minus, cos_PI, sin_PI. ring. }
  rewrite C, S. split; lra.
Qed.

Section Error.
Context {E M : Z} {HF : Format E M}.
Notation rne := (Spec.rne E M).
Notation u := (unit_ro M).
Notation eta := (half_min E M).
Hypothesis Hm : emin E M <= 0.
Hypothesis Hu1 : (u <= / 1000)%R.
Hypothesis Heta1 : (eta <= / 1000)%R.

Lemma pow_upper (v : R) n : (0 <= v)%R -> (INR n * v <= 1)%R ->
  ((1 + v) ^ n <= 1 + INR n * v + (INR n * v) * (INR n * v))%R.
Proof.
  intros Hv. induction n as [|n IH]; intros Hn; [cbn; lra|].
  cbn [pow]. rewrite S_INR in *. pose proof (pos_INR n) as N0.
  assert (IH' := IH ltac:(nra)). set (k := INR n) in *.
  assert (K : (k * v <= 1)%R) by nra.
  eapply Rle_trans; [apply Rmult_le_compat_l; [lra|exact IH']|].
  assert (k * v * v <= v)%R by nra.
  assert (0 <= k * v)%R by nra.
  assert (k * v * (k * v) * v <= k * v * v)%R by nra. nra.
Qed.

(** Horner's rule on [0, 1]. *)
Lemma horner_unit p x (S : R) : Forall (in_format (E:=E) (M:=M)) p -> (0 <= x <= 1)%R ->
  (poly (map Rabs p) 1 <= S)%R -> let k := (2 * INR (length p) * u)%R in (k <= 1)%R ->
  (Rabs (rounded_horner E M p x - poly p x) <= (k + k * k) * S + eta * 3 * INR (length p))%R.
Proof.
  intros Hp Hx HS k Hk. eapply Rle_trans; [apply horner_error_bound, Hp|]. unfold horner_error. cbv zeta.
  pose proof (u_pos (M:=M)) as U0. pose proof (eta_pos (E:=E) (M:=M)) as E0.
  assert (HN : INR (2 * length p) = (2 * INR (length p))%R) by (rewrite mult_INR; reflexivity).
  pose proof (pow_upper u (2 * length p) ltac:(lra)) as PU. rewrite HN in PU. fold k in PU. specialize (PU Hk).
  pose proof (pow_u_ge (M:=M) (2 * length p)) as PL.
  rewrite (Rabs_pos_eq x) by lra.
  assert (Hmono : forall q : list R, Forall (Rle 0) q -> (0 <= poly q x <= poly q 1)%R).
  { intros q Hq. induction Hq as [|c q Hc Hq IH]; cbn [poly]; [lra|].
    assert (0 <= x * poly q x <= 1 * poly q 1)%R by nra. lra. }
  assert (HA : (0 <= poly (map Rabs p) x <= S)%R).
  { destruct (Hmono (map Rabs p)) as [A B].
    - apply Forall_forall. intros c Hc. apply in_map_iff in Hc. destruct Hc as (d & <- & _). apply Rabs_pos.
    - lra. }
  assert (HB : (0 <= poly (repeat 1 (length p)) x <= INR (length p))%R).
  { destruct (Hmono (repeat 1%R (length p))) as [A B].
    - apply Forall_forall. intros c Hc. apply repeat_spec in Hc. subst c. lra.
    - assert (Q : poly (repeat 1%R (length p)) 1 = INR (length p)).
      { clear. induction (length p) as [|n IH]; [reflexivity|]. rewrite S_INR. cbn [repeat poly]. lra. }
      lra. }
  assert (K0 : (0 <= k)%R) by (unfold k; pose proof (pos_INR (length p)); nra).
  apply Rplus_le_compat; [apply Rmult_le_compat; lra|].
  rewrite !Rmult_assoc. apply Rmult_le_compat_l; [lra|].
  apply Rmult_le_compat; nra.
Qed.

(** The whole function; [ea] bounds the error of the polynomial, [eh] that of its
    evaluation. *)
Variables (hp : R) (p : list R) (ea eh dh : R).
Hypothesis Hhp : (Rabs (hp - PI / 2) <= dh)%R.
Hypothesis Ha : forall x, (0 <= x <= 1)%R -> (Rabs (poly p x - atan x) <= ea)%R.
Hypothesis Hh : forall x, (0 <= x <= 1)%R -> (Rabs (rounded_horner E M p x - poly p x) <= eh)%R.
Hypothesis Hsmall : (ea + eh + dh <= / 100)%R.

Lemma rne_unit z : (Rabs z <= 1)%R -> (Rabs (rne z - z) <= u + eta)%R.
Proof.
  intros Hz. pose proof (rne_abs_err (E:=E) (M:=M) u eta ltac:(lra) ltac:(lra) z 1 Hz). lra.
Qed.

Lemma rne_ge1 z : (1 <= z)%R -> (1 <= rne z)%R.
Proof.
  intros Hz. unfold Spec.rne. pose proof (fmt_prec_gt_0 E M).
  apply round_ge_generic; auto with typeclass_instances.
  change 1%R with (bpow radix2 0). apply generic_format_FLT_bpow; [apply (fmt_prec_gt_0 E M)|exact Hm].
Qed.

Lemma rne_pos z : (0 <= z)%R -> (0 <= rne z)%R.
Proof.
  intros Hz. unfold Spec.rne. pose proof (fmt_prec_gt_0 E M).
  apply round_ge_generic; auto with typeclass_instances. apply generic_format_0.
Qed.

Lemma atan_recip a : (1 < a)%R -> atan (1 / a) = (PI / 2 - atan a)%R.
Proof. intros H. unfold Rdiv. rewrite Rmult_1_l. apply atan_inv. lra. Qed.

Lemma recip_unit a : (1 <= a)%R -> (0 <= 1 / a <= 1)%R.
Proof.
  intros H. unfold Rdiv. rewrite Rmult_1_l. split; [apply Rlt_le, Rinv_0_lt_compat; lra|].
  rewrite <- Rinv_1. apply Rinv_le; lra.
Qed.

Theorem rounded_atan_error v :
  (Rabs (rounded_atan E M hp p v - Rabs (atan v)) <= ea + eh + dh + 3 * u + 2 * eta)%R.
Proof.
  pose proof (u_pos (M:=M)) as U0. pose proof (eta_pos (E:=E) (M:=M)) as E0.
  assert (D0 : (0 <= dh)%R) by (eapply Rle_trans; [apply Rabs_pos|exact Hhp]).
  assert (H0 : forall x, (0 <= x <= 1)%R -> (Rabs (rounded_horner E M p x - atan x) <= ea + eh)%R).
  { intros x Hx. replace (rounded_horner E M p x - atan x)%R
      with ((rounded_horner E M p x - poly p x) + (poly p x - atan x))%R by ring.
    eapply Rle_trans; [apply Rabs_triang|]. pose proof (Ha x Hx). pose proof (Hh x Hx). lra. }
  rewrite <- atan_abs. unfold rounded_atan. pose proof (Rabs_pos v) as V0. set (a := Rabs v) in *.
  case Rlt_bool_spec; intros C.
  - destruct (recip_unit a ltac:(lra)) as [R0 R1].
    set (t := rne (1 / a)).
    assert (Ht : (Rabs (t - 1 / a) <= u + eta)%R) by (apply rne_unit, Rabs_le; lra).
    assert (Ht1 : (0 <= t <= 1)%R).
    { split; [apply rne_pos, R0|]. unfold t, Spec.rne. pose proof (fmt_prec_gt_0 E M).
      apply round_le_generic; auto with typeclass_instances.
      change 1%R with (bpow radix2 0). apply generic_format_FLT_bpow; [apply (fmt_prec_gt_0 E M)|exact Hm]. }
    pose proof (H0 t Ht1) as HQ. set (q := rounded_horner E M p t) in *.
    pose proof (atan_lip t (1 / a)) as HL. rewrite (atan_recip a C) in HL.
    assert (HD : (Rabs ((hp - q) - atan a) <= dh + (ea + eh) + (u + eta))%R).
    { apply Rabs_le. apply Rabs_le_inv in Hhp. apply Rabs_le_inv in HQ.
      assert (HL' := Rle_trans _ _ _ HL Ht). apply Rabs_le_inv in HL'. lra. }
    assert (HB : (Rabs (hp - q) <= 2)%R).
    { pose proof (atan_bound a) as B. pose proof (atan_pos a V0) as P. pose proof pi_bounds as PB.
      apply Rabs_le_inv in HD. apply Rabs_le. lra. }
    pose proof (rne_abs_err (E:=E) (M:=M) u eta ltac:(lra) ltac:(lra) (hp - q) 2 HB) as HR.
    apply Rabs_le. apply Rabs_le_inv in HR. apply Rabs_le_inv in HD. lra.
  - pose proof (H0 a (conj V0 C)). lra.
Qed.

(** Rounding the argument. *)
Lemma atan_rne_pos z : (0 <= z)%R -> (Rabs (atan (rne z) - atan z) <= u + eta)%R.
Proof.
  intros Hz. pose proof (u_pos (M:=M)) as U0. pose proof (eta_pos (E:=E) (M:=M)) as E0.
  destruct (Rle_lt_dec z 1) as [C|C].
  - eapply Rle_trans; [apply atan_lip|]. apply rne_unit, Rabs_le. lra.
  - set (q := rne z). pose proof (rne_ge1 z ltac:(lra)) as Q1. fold q in Q1.
    destruct (recip_unit q Q1) as [Q2 Q3]. destruct (recip_unit z ltac:(lra)) as [Z2 Z3].
    assert (A1 : atan q = (PI / 2 - atan (1 / q))%R).
    { unfold Rdiv at 2. rewrite Rmult_1_l, (atan_inv q) by lra. ring. }
    assert (A2 : atan z = (PI / 2 - atan (1 / z))%R) by (rewrite (atan_recip z C); ring).
    rewrite A1, A2. replace (PI / 2 - atan (1 / q) - (PI / 2 - atan (1 / z)))%R
      with (atan (1 / z) - atan (1 / q))%R by ring.
    eapply Rle_trans; [apply atan_lip|].
    replace (1 / z - 1 / q)%R with ((q - z) * ((1 / z) * (1 / q)))%R by (field; lra).
    pose proof (rne_abs_err (E:=E) (M:=M) u eta ltac:(lra) ltac:(lra) z z
      ltac:(rewrite Rabs_pos_eq; lra)) as HR. fold q in HR.
    rewrite Rabs_mult, (Rabs_pos_eq ((1 / z) * _)) by nra.
    apply Rle_trans with ((u * z + eta) * (1 / z))%R.
    + apply Rmult_le_compat; [apply Rabs_pos|nra|exact HR|nra].
    + replace ((u * z + eta) * (1 / z))%R with (u + eta * (1 / z))%R by (field; lra). nra.
Qed.

Lemma atan_rne z : (Rabs (atan (rne z) - atan z) <= u + eta)%R.
Proof.
  destruct (Rle_lt_dec 0 z) as [C|C]; [apply atan_rne_pos, C|].
  assert (H : rne z = (- rne (- z))%R).
  { unfold Spec.rne. rewrite round_NE_opp. ring. }
  rewrite H, atan_opp. rewrite <- (Ropp_involutive z) at 2. rewrite (atan_opp (- z)).
  replace (- atan (rne (- z)) - - atan (- z))%R with (- (atan (rne (- z)) - atan (- z)))%R by ring.
  rewrite Rabs_Ropp. apply atan_rne_pos. lra.
Qed.

End Error.

(** ** Constants as integers over a power of two *)

Definition numer {E M : Z} (s : Z) (f : fmt E M) : Z :=
  match f with
  | B754_finite sg m e _ => SpecFloat.cond_Zopp sg (Zpos m) * 2 ^ (e + s)
  | _ => 0
  end.
Definition exact_over {E M : Z} (s : Z) (f : fmt E M) : bool :=
  match f with
  | B754_finite _ _ e _ => - s <=? e
  | B754_zero _ => true
  | _ => false
  end.
Lemma numer_value {E M : Z} s (f : fmt E M) : 0 <= s -> exact_over s f = true ->
  is_finite f = true /\ B2R f = (IZR (numer s f) / IZR (2 ^ s))%R.
Proof.
  intros Hs. destruct f as [sg|sg| |sg m e B]; cbn [exact_over numer is_finite B2R]; try discriminate.
  - intros _. split; [reflexivity|]. unfold Rdiv. ring.
  - intros H. apply Z.leb_le in H. split; [reflexivity|]. unfold F2R. cbn [Fnum Fexp].
    rewrite mult_IZR, !(IZR_Zpower radix2) by lia. unfold Rdiv.
    rewrite Rmult_assoc, <- bpow_opp, <- bpow_plus. f_equal. f_equal. lia.
Qed.

Lemma poly_scale k (p : list Z) x : (k <> 0)%R ->
  poly (map (fun z => IZR z / k)%R p) x = (polyZ p x / k)%R.
Proof.
  intros Hk. induction p as [|c p IH]; cbn [map poly]; [unfold polyZ; cbn; field; exact Hk|].
  rewrite IH, polyZ_cons. field. exact Hk.
Qed.

Lemma polyZ_abs_one p : polyZ (map Z.abs p) 1 = IZR (psum p).
Proof.
  induction p as [|c p IH]; [reflexivity|]. cbn [map psum fold_right]. rewrite polyZ_cons, IH.
  fold (psum p). rewrite plus_IZR. ring.
Qed.

(** What a virtual-machine computation checks about a list of patterns, highest
    degree first. *)
Definition atan_table_ok (E M : Z) {HF : Format E M} (s : Z) (n : nat) (coefficient : list Z) (B S : Z) : bool :=
  let z := map (fun c => numer s (of_bits E M c)) (rev coefficient) in
  forallb (fun c => (0 <=? c) && (c <? 2 ^ (E + M + 1)) && exact_over s (of_bits E M c)
                    && (Z.abs (numer s (of_bits E M c)) <=? 4 * 2 ^ s)) coefficient
  && bounded_on_unit n (atan_defect s z) (B - Z.abs (hd 0 z))
  && (psum z <=? S * 2 ^ s) && (0 <=? s) && (0 <? Z.of_nat n).

Section Table.
Context {E M : Z} {HF : Format E M}.
Variables (s : Z) (n : nat) (coefficient : list Z) (B S : Z).
Hypothesis Hok : atan_table_ok E M s n coefficient B S = true.
Notation pR := (map (fun c => B2R (of_bits E M c)) (rev coefficient)).
Notation z := (map (fun c => numer s (of_bits E M c)) (rev coefficient)).

Lemma table_parts : 0 <= s /\ (0 < n)%nat /\ psum z <= S * 2 ^ s /\
  bounded_on_unit n (atan_defect s z) (B - Z.abs (hd 0 z)) = true /\
  forall c, In c coefficient -> 0 <= c < 2 ^ (E + M + 1) /\ exact_over s (of_bits E M c) = true /\
    Z.abs (numer s (of_bits E M c)) <= 4 * 2 ^ s.
Proof.
  unfold atan_table_ok in Hok. cbv zeta in Hok. rewrite !andb_true_iff in Hok.
  destruct Hok as ((((H1 & H2) & H3) & H4) & H5).
  apply Z.leb_le in H3, H4. apply Z.ltb_lt in H5. split; [exact H4|]. split; [lia|].
  split; [exact H3|]. split; [exact H2|].
  intros c Hc. rewrite forallb_forall in H1. specialize (H1 c Hc). rewrite !andb_true_iff in H1.
  destruct H1 as (((A1 & A2) & A3) & A4). apply Z.leb_le in A1, A4. apply Z.ltb_lt in A2. auto.
Qed.

Lemma table_values : 0 <= s -> pR = map (fun x => IZR x / IZR (2 ^ s))%R z.
Proof.
  intros Hs. destruct table_parts as (_ & _ & _ & _ & H). rewrite map_map. apply map_ext_in.
  intros c Hc. apply in_rev in Hc. apply numer_value; [exact Hs|]. apply H, Hc.
Qed.

Lemma table_range : Forall (fun c => 0 <= c < 2 ^ (E + M + 1)) coefficient.
Proof. apply Forall_forall. intros c Hc. destruct table_parts as (_ & _ & _ & _ & H). apply H, Hc. Qed.

Lemma table_finite : Forall (fun c => is_finite (of_bits E M c) = true /\
  (Rabs (B2R (of_bits E M c)) <= bpow radix2 2)%R) coefficient.
Proof.
  apply Forall_forall. intros c Hc. destruct table_parts as (Hs & _ & _ & _ & H).
  destruct (H c Hc) as (_ & X & A). destruct (numer_value s _ Hs X) as [F V]. split; [exact F|].
  assert (HS : (0 < IZR (2 ^ s))%R) by (apply IZR_lt, Z.pow_pos_nonneg; lia).
  rewrite V. unfold Rdiv. rewrite Rabs_mult, (Rabs_pos_eq (/ _)), <- abs_IZR
    by (apply Rlt_le, Rinv_0_lt_compat, HS).
  apply IZR_le in A. rewrite mult_IZR in A.
  apply Rmult_le_reg_r with (IZR (2 ^ s)); [exact HS|]. rewrite Rmult_assoc, Rinv_l, Rmult_1_r by lra.
  change (bpow radix2 2) with 4%R. exact A.
Qed.

Lemma table_format : Forall (in_format (E:=E) (M:=M)) pR.
Proof. apply Forall_forall. intros c Hc. apply in_map_iff in Hc. destruct Hc as (d & <- & _). apply B2R_in_format. Qed.

Lemma table_sum : (poly (map Rabs pR) 1 <= IZR S)%R.
Proof.
  destruct table_parts as (Hs & _ & H & _ & _). rewrite (table_values Hs).
  assert (HS : (0 < IZR (2 ^ s))%R) by (apply IZR_lt, Z.pow_pos_nonneg; lia).
  rewrite map_map.
  rewrite (map_ext _ (fun x => IZR (Z.abs x) / IZR (2 ^ s))%R).
  2:{ intros x. unfold Rdiv. rewrite Rabs_mult, (Rabs_pos_eq (/ _)), <- abs_IZR
        by (apply Rlt_le, Rinv_0_lt_compat, HS). reflexivity. }
  rewrite <- (map_map Z.abs (fun x => IZR x / IZR (2 ^ s))%R), poly_scale, polyZ_abs_one by lra.
  apply IZR_le in H. rewrite mult_IZR in H. unfold Rdiv.
  apply Rmult_le_reg_r with (IZR (2 ^ s)); [exact HS|]. rewrite Rmult_assoc, Rinv_l, Rmult_1_r by lra. exact H.
Qed.

Lemma table_error x : (0 <= x <= 1)%R -> (Rabs (poly pR x - atan x) <= IZR B / IZR (2 ^ s))%R.
Proof.
  intros Hx. destruct table_parts as (Hs & Hn & _ & H & _). rewrite (table_values Hs).
  assert (HS : (0 < IZR (2 ^ s))%R) by (apply IZR_lt, Z.pow_pos_nonneg; lia).
  rewrite poly_scale by lra.
  pose proof (atan_poly_error s z n _ x Hs Hn H Hx) as R.
  replace (Z.abs (hd 0 z) + (B - Z.abs (hd 0 z))) with B in R by ring. exact R.
Qed.
End Table.

(** ** The gadgets *)

Section Gadgets.
Context {MOD : Modulus} {E M b : Z} {HP : Params E M b} {HF : Format E M}.
#[local] Instance Wn : Width b (4 * M + 44) := params_width E M b HP.
#[local] Instance Bn : BigMod := width_big b _ _.
Notation fmt := (Spec.fmt E M).
Notation emax := (Spec.emax E).
Notation rne := (Spec.rne E M).
Notation u := (unit_ro M).
Notation eta := (half_min E M).
Notation valued := (valued (E:=E) (M:=M)).
Notation value_of := (value_of (E:=E) (M:=M) (b:=b)).

Hypothesis HE8 : 8 <= E.
Hypothesis HM23 : 23 <= M.
Hypothesis Hu1 : (u <= / 1000)%R.
Hypothesis Heta1 : (eta <= / 1000)%R.
Hypothesis Dd : pow2_size E M mod b = 0.

Variables halfPi one : Z.
Variable coefficient : list Z.
Hypothesis Hhp : 0 <= halfPi < 2 ^ (E + M + 1).
Hypothesis Hone : 0 <= one < 2 ^ (E + M + 1).
Notation fhp := (of_bits E M halfPi).
Notation fone := (of_bits E M one).
Hypothesis Fhp : is_finite fhp = true.
Hypothesis Fone : is_finite fone = true.
Hypothesis Vone : B2R fone = 1%R.
Variables (s : Z) (n : nat) (B S : Z).
Hypothesis Hok : atan_table_ok E M s n coefficient B S = true.
Hypothesis Hlen : Z.of_nat (length coefficient) <= 60.
Notation pR := (map (fun c => B2R (of_bits E M c)) (rev coefficient)).
Notation k := (2 * INR (length coefficient) * u)%R.
Hypothesis Hk : (k <= 1)%R.
Variable dh : R.
Hypothesis Hdh : (Rabs (B2R fhp - PI / 2) <= dh)%R.
Let ea := (IZR B / IZR (2 ^ s))%R.
Let eh := ((k + k * k) * IZR S + eta * 3 * INR (length coefficient))%R.
Hypothesis Hsmall : (ea + eh + dh <= / 100)%R.

Lemma div_represents x y (fx fy : fmt) r : pow2_size E M mod b = 0 -> represents x fx -> represents y fy ->
  is_finite fx = true -> B2R fy <> 0%R -> (Rabs (rne (B2R fx / B2R fy)) < bpow radix2 emax)%R ->
  sat b (Div E M x y) r -> represents r (ieee_div E M fx fy).
Proof.
  intros Hd Hx Hy Fx Ny Hf Hr. destruct (div_fin fx fy Fx Ny Hf) as [V1 V2].
  apply (div_safe x y fx fy r Hd Hx Hy); [intros _ _; exact V1|exact Hr].
Qed.

Lemma emin_le0 : emin E M <= 0.
Proof. exact (emin_neg (E:=E) (M:=M) HE8 HM23). Qed.

Lemma atan_error v :
  (Rabs (rounded_atan E M (B2R fhp) pR v - Rabs (atan v)) <= ea + eh + dh + 3 * u + 2 * eta)%R.
Proof.
  apply rounded_atan_error; try assumption.
  - apply emin_le0.
  - intros x Hx. exact (table_error s n coefficient B S Hok x Hx).
  - intros x Hx.
    pose proof (horner_unit pR x (IZR S) (table_format coefficient) Hx
      (table_sum s n coefficient B S Hok)) as H. cbv zeta in H.
    rewrite map_length, rev_length in H. exact (H Hk).
Qed.

(** One result for all provers, with the sign of the argument, and close. *)
Theorem atan_near x (fx : fmt) : represents x fx -> is_finite fx = true ->
  exists f : fmt, is_finite f = true /\
    exec b (AtanRemez E M halfPi one coefficient x) = Some (wires f) /\
    (forall r, sat b (AtanRemez E M halfPi one coefficient x) r -> r = wires f) /\
    Bsign f = Bsign fx /\
    (Rabs (B2R f - atan (B2R fx)) <= ea + eh + dh + 3 * u + 2 * eta)%R.
Proof.
  intros Hx Fx.
  assert (Bhp : (Rabs (B2R fhp) <= bpow radix2 2)%R).
  { change (bpow radix2 2) with 4%R. pose proof pi_bounds as PB. apply Rabs_le_inv in Hdh.
    assert (D : (dh <= / 100)%R).
    { assert (0 <= ea)%R.
      { eapply Rle_trans; [apply Rabs_pos|]. exact (table_error s n coefficient B S Hok 0 ltac:(lra)). }
      assert (0 <= eh)%R.
      { unfold eh. pose proof (u_pos (M:=M)). pose proof (eta_pos (E:=E) (M:=M)).
        pose proof (pos_INR (length coefficient)). assert (0 <= k)%R by nra.
        assert (0 <= IZR S)%R.
        { eapply Rle_trans; [|exact (table_sum s n coefficient B S Hok)].
          pose proof (poly_map_abs_pos pR 1) as Q. rewrite Rabs_R1 in Q. exact Q. }
        assert (0 <= k * k)%R by nra. nra. }
      lra. }
    apply Rabs_le. lra. }
  destruct (atan_sound HE8 HM23 halfPi one coefficient Hhp Hone (table_range s n coefficient B S Hok) Fhp Fone Vone
    (table_finite s n coefficient B S Hok) Bhp Hlen Dd x fx Hx Fx) as [H1 H2].
  destruct H1 as [r Hr]. destruct (H2 r (exec_sat _ _ _ Hr)) as (f & Rf & Ff & Sf & Vf).
  assert (Hu : forall r' (g : fmt), represents r' g -> is_finite g = true -> Bsign g = Bsign fx ->
    Rabs (B2R g) = Rabs (rounded_atan E M (B2R fhp) pR (B2R fx)) -> g = f).
  { intros r' g Rg Fg Sg Vg. apply B2R_Bsign_inj; try assumption; [|congruence].
    rewrite (signed_value g), (signed_value f), Sg, Sf, Vg, Vf. reflexivity. }
  exists f. split; [exact Ff|]. split.
  { rewrite Hr. f_equal. apply represents_unique; [exact Rf|apply finite_not_nan, Ff]. }
  split.
  { intros r' Hr'. destruct (H2 r' Hr') as (g & Rg & Fg & Sg & Vg).
    rewrite (Hu r' g Rg Fg Sg Vg) in Rg. apply represents_unique; [exact Rg|apply finite_not_nan, Ff]. }
  split; [exact Sf|].
  pose proof (atan_error (B2R fx)) as HE.
  assert (HA : atan (B2R fx) = ((if Bsign fx then -1 else 1) * Rabs (atan (B2R fx)))%R).
  { rewrite <- atan_abs, (signed_value fx) at 1. destruct (Bsign fx).
    - replace (-1 * Rabs (B2R fx))%R with (- Rabs (B2R fx))%R by ring. rewrite atan_opp. ring.
    - rewrite !Rmult_1_l. reflexivity. }
  rewrite (signed_value f), Sf, Vf, HA.
  set (w := rounded_atan E M (B2R fhp) pR (B2R fx)) in *. pose proof (Rabs_pos (atan (B2R fx))) as A0.
  set (t := Rabs (atan (B2R fx))) in *.
  assert (HM : (Rabs (Rabs w - t) <= Rabs (w - t))%R).
  { rewrite <- (Rabs_pos_eq t) at 1 by exact A0. apply Rabs_triang_inv2. }
  destruct (Bsign fx).
  - replace (-1 * Rabs w - -1 * t)%R with (- (Rabs w - t))%R by ring. rewrite Rabs_Ropp. lra.
  - rewrite !Rmult_1_l. lra.
Qed.

(** *** The angle of a point *)

Variable pi : Z.
Hypothesis Hpi : 0 <= pi < 2 ^ (E + M + 1).
Notation fpi := (of_bits E M pi).
Hypothesis Fpi : is_finite fpi = true.
Variable dpi : R.
Hypothesis Hdpi : (Rabs (B2R fpi - PI) <= dpi)%R.
Let e0 := (ea + eh + dh + 3 * u + 2 * eta)%R.
Hypothesis Hsmall2 : (e0 + dpi <= / 20)%R.

Theorem atan2_near y x (fy fx : fmt) : represents y fy -> represents x fx ->
  is_finite fy = true -> is_finite fx = true -> B2R fx <> 0%R ->
  (Rabs (rne (B2R fy / B2R fx)) < bpow radix2 emax)%R ->
  exists f : fmt, is_finite f = true /\
    exec b (Atan2 E M pi halfPi one coefficient y x) = Some (wires f) /\
    (forall r, sat b (Atan2 E M pi halfPi one coefficient y x) r -> r = wires f) /\
    exists t, direction (B2R fy) (B2R fx) t /\ (Rabs (B2R f - t) <= e0 + dpi + 6 * u + 2 * eta)%R.
Proof.
  intros Hy Hx Fy Fx Nx Hq. pose proof (emax_128 HE8) as He. pose proof emin_le0 as Hm.
  pose proof (u_pos (M:=M)) as U0. pose proof (eta_pos (E:=E) (M:=M)) as E0.
  pose proof pi_bounds as PB.
  assert (D0 : (0 <= dpi)%R) by (eapply Rle_trans; [apply Rabs_pos|exact Hdpi]).
  assert (P0 : (0 <= e0)%R) by (eapply Rle_trans; [apply Rabs_pos|exact (atan_error 0)]).
  pose proof (newconst_spec pi Hpi) as Cpi.
  pose proof (sign_wire x fx Hx (finite_not_nan _ Fx)) as Hsx.
  pose proof (sign_wire y fy Hy (finite_not_nan _ Fy)) as Hsy.
  set (z := (B2R fy / B2R fx)%R) in *.
  (* the quotient *)
  destruct (div_fin fy fx Fy Nx Hq) as [Fq Vq]. set (fq := ieee_div E M fy fx) in *. fold z in Vq.
  assert (XQ : exec b (Div E M y x) = Some (wires fq)).
  { destruct (div_complete (E:=E) (M:=M) (b:=b) y x fy fx Hy Hx) as (r & Hr & Rr). rewrite Hr. f_equal.
    apply represents_unique; [exact Rr|apply finite_not_nan, Fq]. }
  assert (SQ : forall r, sat b (Div E M y x) r -> r = wires fq).
  { intros r Hr. apply represents_unique; [|apply finite_not_nan, Fq].
    exact (div_represents y x fy fx r Dd Hy Hx Fy Nx Hq Hr). }
  (* its arctangent *)
  destruct (atan_near (wires fq) fq (wires_represents _) Fq) as (fa & Fa & XA & SA & _ & Va).
  fold e0 in Va. set (v := B2R fa) in *.
  assert (Nv : (Rabs (v - atan z) <= e0 + (u + eta))%R).
  { rewrite Vq in Va. pose proof (atan_rne (E:=E) (M:=M) Hm Hu1 Heta1 z) as HL.
    apply Rabs_le. apply Rabs_le_inv in Va. apply Rabs_le_inv in HL. lra. }
  pose proof (atan_bound z) as AB. pose proof Nv as Nv'. apply Rabs_le_inv in Nv'.
  pose proof Hdpi as Hdpi'. apply Rabs_le_inv in Hdpi'.
  assert (B3 : bpow radix2 3 = 8%R) by (simpl; lra).
  assert (B2 : bpow radix2 2 = 4%R) by (simpl; lra).
  assert (Hb : (Rabs v < bpow radix2 (emax - 1))%R).
  { apply Rle_lt_trans with (bpow radix2 2); [rewrite B2; apply Rabs_le; lra|]. apply bpow_lt. lia. }
  assert (Cv : valued (NewConstant E M pi) (B2R fpi)) by (apply represents_valued; assumption).
  assert (Vra : valued (wires fa) v) by (apply represents_valued; [apply wires_represents|exact Fa]).
  assert (V1 : value_of (Add E M (wires fa) (NewConstant E M pi)) (rne (v + B2R fpi))).
  { apply add_value; try assumption; apply (fits_bpow _ 3); try lia;
      apply rne_bound; try lia; rewrite B3; apply Rabs_le; lra. }
  assert (V2 : value_of (Sub E M (wires fa) (NewConstant E M pi)) (rne (v - B2R fpi))).
  { apply sub_value; try assumption; apply (fits_bpow _ 3); try lia;
      apply rne_bound; try lia; rewrite B3; apply Rabs_le; lra. }
  (* the angle *)
  set (cx := Bsign fx) in *. set (cy := Bsign fy) in *.
  set (vm := if cx then (if cy then rne (v - B2R fpi) else rne (v + B2R fpi)) else v).
  pose proof (signed_value fx) as Sx. fold cx in Sx. pose proof (signed_value fy) as Sy. fold cy in Sy.
  pose proof (Rabs_pos_lt _ Nx) as Ax. pose proof (Rabs_pos (B2R fy)) as Ay.
  assert (HT : (exists t, direction (B2R fy) (B2R fx) t /\ (Rabs (vm - t) <= e0 + dpi + 6 * u + 2 * eta)%R) /\
    (cx = true -> vm <> 0%R)).
  { unfold vm. destruct cx.
    - assert (Hneg : (B2R fx < 0)%R) by lra.
      assert (DR : direction (- B2R fy) (- B2R fx) (atan z)).
      { replace z with (- B2R fy / - B2R fx)%R by (unfold z; field; exact Nx).
        apply direction_right. lra. }
      assert (Sz : cy = true -> (0 <= atan z)%R).
      { intros C. apply atan_pos. unfold z. rewrite C in Sy.
        replace (B2R fy / B2R fx)%R with (Rabs (B2R fy) * / - B2R fx)%R by (rewrite Sy at 2; field; exact Nx).
        apply Rmult_le_pos; [exact Ay|]. apply Rlt_le, Rinv_0_lt_compat. lra. }
      assert (Sz' : cy = false -> (atan z <= 0)%R).
      { intros C. rewrite <- (Ropp_involutive (atan z)), <- atan_opp.
        assert (0 <= atan (- z))%R; [|lra]. apply atan_pos. unfold z. rewrite C in Sy.
        replace (- (B2R fy / B2R fx))%R with (Rabs (B2R fy) * / - B2R fx)%R by (rewrite Sy at 2; field; exact Nx).
        apply Rmult_le_pos; [exact Ay|]. apply Rlt_le, Rinv_0_lt_compat. lra. }
      destruct cy.
      + specialize (Sz eq_refl).
        assert (HB : (Rabs (v - B2R fpi) <= 5)%R) by (apply Rabs_le; lra).
        pose proof (rne_abs_err (E:=E) (M:=M) u eta ltac:(lra) ltac:(lra) _ _ HB) as HR.
        apply Rabs_le_inv in HR. split; [|intros _; lra].
        exists (atan z + -1 * PI)%R. split; [|apply Rabs_le; lra].
        apply (direction_left _ _ _ Hneg DR); [right; reflexivity|]. lra.
      + specialize (Sz' eq_refl).
        assert (HB : (Rabs (v + B2R fpi) <= 5)%R) by (apply Rabs_le; lra).
        pose proof (rne_abs_err (E:=E) (M:=M) u eta ltac:(lra) ltac:(lra) _ _ HB) as HR.
        apply Rabs_le_inv in HR. split; [|intros _; lra].
        exists (atan z + 1 * PI)%R. split; [|apply Rabs_le; lra].
        apply (direction_left _ _ _ Hneg DR); [left; reflexivity|]. lra.
    - split; [|discriminate]. exists (atan z). split; [apply direction_right; lra|]. apply Rabs_le. lra. }
  destruct HT as [HT Hnz].
  (* the selection *)
  set (out := fun ad sb : FloatVar =>
    let m := if cx then (if cy then sb else ad) else wires fa in
    mkF (Sign m) (Exponent m) (Mantissa m) (emb 0)).
  assert (HO : forall ad sb, valued ad (rne (v + B2R fpi)) -> valued sb (rne (v - B2R fpi)) ->
    exists f : fmt, represents (out ad sb) f /\ is_finite f = true /\ B2R f = vm /\
      (cx = false -> f = fa)).
  { intros ad sb Had Hsb. unfold out. cbv zeta. set (m := if cx then _ else _).
    assert (HV : exists f, represents m f /\ is_finite f = true /\ B2R f = vm /\ (cx = false -> f = fa)).
    { unfold m, vm. destruct cx.
      - destruct cy; [destruct Hsb as (f & F1 & F2 & F3)|destruct Had as (f & F1 & F2 & F3)];
          exists f; repeat split; try assumption; discriminate.
      - exists fa. repeat split; [apply wires_represents|exact Fa]. }
    destruct HV as (f & F1 & F2 & F3 & F4). exists f. split; [|auto].
    rewrite <- (finite_not_abnormal m f F1 F2). destruct m. exact F1. }
  assert (HU : forall f g : fmt, is_finite f = true -> is_finite g = true -> B2R f = vm -> B2R g = vm ->
    (cx = false -> f = fa) -> (cx = false -> g = fa) -> f = g).
  { intros f g F1 F2 V3 V4 C1 C2. destruct cx; [|rewrite C1, C2; reflexivity].
    specialize (Hnz eq_refl). apply B2R_Bsign_inj; try assumption; [congruence|].
    destruct (Rtotal_order vm 0) as [C|[C|C]]; [|contradiction|].
    - rewrite (sign_neg f), (sign_neg g) by lra. reflexivity.
    - rewrite (sign_pos f), (sign_pos g) by lra. reflexivity. }
  assert (HX : exists ad sb, valued ad (rne (v + B2R fpi)) /\ valued sb (rne (v - B2R fpi)) /\
    exec b (Atan2 E M pi halfPi one coefficient y x) = Some (out ad sb)).
  { destruct V1 as [[ad X1] V1]. destruct V2 as [[sb X2] V2]. exists ad, sb.
    split; [apply V1, exec_sat, X1|]. split; [apply V2, exec_sat, X2|].
    unfold Atan2. cbv zeta. rewrite Hsx, Hsy.
    rewrite (exec_bind_eq _ _ _ _ XQ), (exec_bind_eq _ _ _ _ XA), (exec_bind_eq _ _ _ _ X1), (exec_bind_eq _ _ _ _ X2).
    rewrite !(exec_bind_eq _ _ _ _ (exec_select _ _ _ _)). unfold out. destruct cx, cy; reflexivity. }
  destruct HX as (ad & sb & Had & Hsb & HX). destruct (HO ad sb Had Hsb) as (f & Rf & Ff & Vf & Cf).
  exists f. split; [exact Ff|]. split.
  { rewrite HX. f_equal. apply represents_unique; [exact Rf|apply finite_not_nan, Ff]. }
  split; [|rewrite Vf; exact HT].
  intros r Hr. unfold Atan2 in Hr. cbv zeta in Hr. rewrite Hsx, Hsy in Hr.
  apply sat_bind in Hr. destruct Hr as [q [Hq' Hr]]. apply SQ in Hq'. subst q.
  apply sat_bind in Hr. destruct Hr as [ra [Hra Hr]]. apply SA in Hra. subst ra.
  destruct (value_bind _ _ _ _ V1 Hr) as (ad' & Had' & Hr2). clear Hr.
  destruct (value_bind _ _ _ _ V2 Hr2) as (sb' & Hsb' & Hr). clear Hr2.
  do 6 (apply sat_bind in Hr; let w := fresh "w" in let Hw := fresh "Hw" in
        destruct Hr as [w [Hw Hr]]; apply sat_select_known in Hw; subst w).
  apply sat_ret_inv in Hr. destruct (HO ad' sb' Had' Hsb') as (g & Rg & Fg & Vg & Cg).
  rewrite (HU f g Ff Fg Vf Vg Cf Cg). apply represents_unique; [|apply finite_not_nan, Fg].
  replace r with (out ad' sb'); [exact Rg|]. rewrite <- Hr. unfold out. destruct cx, cy; reflexivity.
Qed.
End Gadgets.

(** ** The two formats *)

Section Atan64.
Context {MOD : Modulus} {b : Z} {HP : Params 11 52 b}.

Lemma table64 : atan_table_ok 11 52 120 128 atan_coeffs_64 (10 * 2 ^ 120 / 10 ^ 15) 13 = true.
Proof. vm_compute. reflexivity. Qed.
Lemma one64_value : B2SF (of_bits 11 52 one_64) = SpecFloat.S754_finite false 4503599627370496 (- (52)).
Proof. vm_compute. reflexivity. Qed.
Lemma one64_R : B2R (of_bits 11 52 one_64) = 1%R.
Proof. rewrite (proj1 (B2R_of_SF _ _ _ _ one64_value)). unfold F2R. cbn. lra. Qed.
Lemma u64 : unit_ro 52 = (/ 9007199254740992)%R.
Proof. reflexivity. Qed.
Lemma eta64 : (half_min 11 52 <= 1 / 1000000000000000000000000000000)%R.
Proof.
  eapply Rle_trans; [exact half_min64|]. apply (up_check 1 1 1000000000000000000000000000000); [lia|].
  vm_compute. congruence.
Qed.
Lemma half64_PI : (Rabs (B2R (of_bits 11 52 half_pi_64) - PI / 2) <= 7 / 100000000000000000)%R.
Proof. rewrite half64_R. pose proof pi_bounds. apply Rabs_le. lra. Qed.

Lemma ea64 : (IZR (10 * 2 ^ 120 / 10 ^ 15) / IZR (2 ^ 120) <= / 100000000000000)%R.
Proof.
  assert (H : (0 < IZR (2 ^ 120))%R) by (apply IZR_lt; reflexivity).
  apply Rmult_le_reg_r with (IZR (2 ^ 120)); [exact H|]. unfold Rdiv. rewrite Rmult_assoc, Rinv_l, Rmult_1_r by lra.
  apply Rmult_le_reg_l with 100000000000000%R; [lra|]. rewrite <- Rmult_assoc, Rinv_r, Rmult_1_l by lra.
  rewrite <- mult_IZR. apply IZR_le. vm_compute. congruence.
Qed.

Lemma len64 : INR (length atan_coeffs_64) = 25%R.
Proof. change (length atan_coeffs_64) with 25%nat. rewrite INR_IZR_INZ. reflexivity. Qed.

Theorem atan64_near x (fx : fmt 11 52) : pow2_size 11 52 mod b = 0 ->
  represents x fx -> is_finite fx = true ->
  exists f : fmt 11 52, is_finite f = true /\ exec b (AtanRemez64 x) = Some (wires f) /\
    (forall r, sat b (AtanRemez64 x) r -> r = wires f) /\ Bsign f = Bsign fx /\
    (Rabs (B2R f - atan (B2R fx)) <= / 10000000000000)%R.
Proof.
  intros Hd Hx Fx. pose proof u64 as U. pose proof eta64 as H. pose proof ea64 as A.
  pose proof (eta_pos (E:=11) (M:=52)) as H0.
  destruct (atan_near (E:=11) (M:=52) (b:=b) ltac:(lia) ltac:(lia) ltac:(rewrite U; lra) ltac:(lra) Hd
    half_pi_64 one_64 atan_coeffs_64 ltac:(vm_compute; intuition congruence) ltac:(vm_compute; intuition congruence)
    ltac:(vm_compute; reflexivity) ltac:(vm_compute; reflexivity) one64_R 120 128%nat _ 13 table64
    ltac:(vm_compute; congruence) ltac:(rewrite len64, U; lra) _ half64_PI
    ltac:(rewrite len64, U; lra) x fx Hx Fx) as (f & Ff & Xf & Rf & Sf & Vf).
  exists f. split; [exact Ff|]. split; [exact Xf|]. split; [exact Rf|]. split; [exact Sf|].
  rewrite len64, U in Vf. lra.
Qed.

Theorem atan2_64_near y x (fy fx : fmt 11 52) : pow2_size 11 52 mod b = 0 ->
  represents y fy -> represents x fx -> is_finite fy = true -> is_finite fx = true -> B2R fx <> 0%R ->
  (Rabs (rne 11 52 (B2R fy / B2R fx)) < bpow radix2 1024)%R ->
  exists f : fmt 11 52, is_finite f = true /\ exec b (Atan2_64 y x) = Some (wires f) /\
    (forall r, sat b (Atan2_64 y x) r -> r = wires f) /\
  exists t, direction (B2R fy) (B2R fx) t /\ (Rabs (B2R f - t) <= / 10000000000000)%R.
Proof.
  intros Hd Hy Hx Fy Fx Nx Hq. pose proof u64 as U. pose proof eta64 as H. pose proof ea64 as A.
  pose proof (eta_pos (E:=11) (M:=52)) as H0.
  assert (DP : (Rabs (B2R (of_bits 11 52 pi_64) - PI) <= 13 / 100000000000000000)%R)
    by (rewrite pi64_R; exact pi64_PI).
  destruct (atan2_near (E:=11) (M:=52) (b:=b) ltac:(lia) ltac:(lia) ltac:(rewrite U; lra) ltac:(lra) Hd
    half_pi_64 one_64 atan_coeffs_64 ltac:(vm_compute; intuition congruence) ltac:(vm_compute; intuition congruence)
    ltac:(vm_compute; reflexivity) ltac:(vm_compute; reflexivity) one64_R 120 128%nat _ 13 table64
    ltac:(vm_compute; congruence) ltac:(rewrite len64, U; lra) _ half64_PI
    ltac:(rewrite len64, U; lra) pi_64 ltac:(vm_compute; intuition congruence) ltac:(vm_compute; reflexivity)
    _ DP ltac:(rewrite len64, U; lra) y x fy fx Hy Hx Fy Fx Nx Hq) as (f & Ff & Xf & Rf & t & Dt & Vf).
  exists f. split; [exact Ff|]. split; [exact Xf|]. split; [exact Rf|]. exists t. split; [exact Dt|].
  rewrite len64, U in Vf. lra.
Qed.
End Atan64.

Section Atan32.
Context {MOD : Modulus} {b : Z} {HP : Params 8 23 b}.

Lemma table32 : atan_table_ok 8 23 60 320 atan_coeffs_32 (11 * 2 ^ 60 / 10 ^ 7) 3 = true.
Proof. vm_compute. reflexivity. Qed.
Lemma one32_value : B2SF (of_bits 8 23 one_32) = SpecFloat.S754_finite false 8388608 (- (23)).
Proof. vm_compute. reflexivity. Qed.
Lemma one32_R : B2R (of_bits 8 23 one_32) = 1%R.
Proof. rewrite (proj1 (B2R_of_SF _ _ _ _ one32_value)). unfold F2R. cbn. lra. Qed.
Lemma u32 : unit_ro 23 = (/ 16777216)%R.
Proof. reflexivity. Qed.
Lemma eta32 : (half_min 8 23 <= 1 / 1000000000000000000000000000000)%R.
Proof.
  apply Rle_trans with (bpow radix2 (- (140))); [apply bpow_le; vm_compute; congruence|].
  rewrite up_bpow by lia. apply (up_check _ 1 1000000000000000000000000000000); [lia|].
  vm_compute. congruence.
Qed.
Lemma half32_PI : (Rabs (B2R (of_bits 8 23 half_pi_32) - PI / 2) <= / 10000000)%R.
Proof.
  assert (V : B2SF (of_bits 8 23 half_pi_32) = SpecFloat.S754_finite false 13176795 (- (23)))
    by (vm_compute; reflexivity).
  rewrite (proj1 (B2R_of_SF _ _ _ _ V)). unfold F2R. cbn. pose proof pi_bounds. apply Rabs_le. lra.
Qed.
Lemma ea32 : (IZR (11 * 2 ^ 60 / 10 ^ 7) / IZR (2 ^ 60) <= 11 / 10000000)%R.
Proof.
  assert (H : (0 < IZR (2 ^ 60))%R) by (apply IZR_lt; reflexivity).
  apply Rmult_le_reg_r with (IZR (2 ^ 60)); [exact H|]. unfold Rdiv. rewrite Rmult_assoc, Rinv_l, Rmult_1_r by lra.
  apply Rmult_le_reg_l with 10000000%R; [lra|].
  replace (10000000 * (11 * / 10000000 * IZR (2 ^ 60)))%R with (11 * IZR (2 ^ 60))%R by field.
  rewrite <- !mult_IZR. apply IZR_le. vm_compute. congruence.
Qed.
Lemma len32 : INR (length atan_coeffs_32) = 11%R.
Proof. change (length atan_coeffs_32) with 11%nat. rewrite INR_IZR_INZ. reflexivity. Qed.

Theorem atan32_near x (fx : fmt 8 23) : pow2_size 8 23 mod b = 0 ->
  represents x fx -> is_finite fx = true ->
  exists f : fmt 8 23, is_finite f = true /\ exec b (AtanRemez32 x) = Some (wires f) /\
    (forall r, sat b (AtanRemez32 x) r -> r = wires f) /\ Bsign f = Bsign fx /\
    (Rabs (B2R f - atan (B2R fx)) <= 54 / 10000000)%R.
Proof.
  intros Hd Hx Fx. pose proof u32 as U. pose proof eta32 as H. pose proof ea32 as A.
  pose proof (eta_pos (E:=8) (M:=23)) as H0.
  destruct (atan_near (E:=8) (M:=23) (b:=b) ltac:(lia) ltac:(lia) ltac:(rewrite U; lra) ltac:(lra) Hd
    half_pi_32 one_32 atan_coeffs_32 ltac:(vm_compute; intuition congruence) ltac:(vm_compute; intuition congruence)
    ltac:(vm_compute; reflexivity) ltac:(vm_compute; reflexivity) one32_R 60 320%nat _ 3 table32
    ltac:(vm_compute; congruence) ltac:(rewrite len32, U; lra) _ half32_PI
    ltac:(rewrite len32, U; lra) x fx Hx Fx) as (f & Ff & Xf & Rf & Sf & Vf).
  exists f. split; [exact Ff|]. split; [exact Xf|]. split; [exact Rf|]. split; [exact Sf|].
  rewrite len32, U in Vf. lra.
Qed.
End Atan32.
