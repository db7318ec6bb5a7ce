(** Rounding errors. *)
From Coq Require Import ZArith Reals Lra Lia Bool List.
From Flocq Require Import Core BinarySingleNaN Relative Plus_error.
From Verif Require Import Spec MathSpec.
Import ListNotations.
Local Open Scope Z_scope.

Section ErrorFacts.
Context {E M : Z} {HF : Format E M}.
Notation fmt := (Spec.fmt E M).
Notation rne := (Spec.rne E M).
Notation u := (unit_ro M).
Notation eta := (half_min E M).
Notation fexp := (FLT_exp (emin E M) (prec M)).

Lemma u_pos : (0 < u)%R. Proof. apply bpow_gt_0. Qed.
Lemma eta_pos : (0 < eta)%R. Proof. apply bpow_gt_0. Qed.

Lemma u_ro_unit : (u_ro radix2 (prec M) / (1 + u_ro radix2 (prec M)) <= u)%R.
Proof.
  unfold u_ro, unit_ro. replace (- prec M + 1) with (1 + - prec M) by lia.
  rewrite bpow_plus. change (bpow radix2 1) with 2%R. set (v := bpow radix2 (- prec M)).
  assert (0 < v)%R by apply bpow_gt_0. replace (/ 2 * (2 * v))%R with v by field.
  apply Rmult_le_reg_r with (1 + v)%R; [lra|]. unfold Rdiv. rewrite Rmult_assoc, Rinv_l by lra. nra.
Qed.

Lemma rne_err v : exists d e, (Rabs d <= u)%R /\ (Rabs e <= eta)%R /\
  rne v = (v * (1 + d) + e)%R.
Proof.
  destruct (relative_error_N_FLT'_ex radix2 (emin E M) (prec M) (fmt_prec_gt_0 E M)
    (fun x => negb (Z.even x)) v) as (d & e & H1 & H2 & _ & H3).
  exists d, e. split; [eapply Rle_trans; [exact H1|apply u_ro_unit]|]. split; [|exact H3].
  eapply Rle_trans; [exact H2|]. unfold half_min. unfold Zminus. rewrite bpow_plus.
  assert (Hh : bpow radix2 (- (1)) = (/ 2)%R) by reflexivity. rewrite Hh. lra.
Qed.

Definition in_format (v : R) : Prop := generic_format radix2 fexp v.

Lemma rne_in_format v : in_format (rne v).
Proof. pose proof (fmt_prec_gt_0 E M). apply generic_format_round; auto with typeclass_instances. Qed.

Lemma B2R_in_format (f : fmt) : in_format (B2R f).
Proof. exact (generic_format_B2R _ _ f). Qed.

Lemma in_format_opp v : in_format v -> in_format (- v).
Proof. apply generic_format_opp. Qed.
Lemma in_format_0 : in_format 0.
Proof. apply generic_format_0. Qed.

Lemma rne_add_err v w : in_format v -> in_format w ->
  exists d, (Rabs d <= u)%R /\ rne (v + w) = ((v + w) * (1 + d))%R.
Proof.
  intros Hv Hw. destruct (FLT_plus_error_N_ex radix2 (emin E M) (prec M)
    (fun x => negb (Z.even x)) v w Hv Hw) as (d & H1 & H2).
  exists d. split; [eapply Rle_trans; [exact H1|apply u_ro_unit]|exact H2].
Qed.

Lemma poly_abs p x : (Rabs (poly p x) <= poly (map Rabs p) (Rabs x))%R.
Proof.
  induction p as [|c p IH]; cbn [poly map]; [rewrite Rabs_R0; lra|].
  eapply Rle_trans; [apply Rabs_triang|]. rewrite Rabs_mult.
  apply Rplus_le_compat_l, Rmult_le_compat_l; [apply Rabs_pos|exact IH].
Qed.

Lemma poly_pos p x : (0 <= x)%R -> Forall (Rle 0) p -> (0 <= poly p x)%R.
Proof.
  intros Hx H. induction H as [|c p Hc Hp IH]; cbn [poly]; [lra|]. nra.
Qed.

Lemma poly_map_abs_pos p x : (0 <= poly (map Rabs p) (Rabs x))%R.
Proof.
  apply poly_pos; [apply Rabs_pos|]. apply Forall_forall. intros c Hc.
  apply in_map_iff in Hc. destruct Hc as (d & <- & _). apply Rabs_pos.
Qed.

Lemma poly_ones_pos n x : (0 <= poly (repeat 1 n) (Rabs x))%R.
Proof.
  apply poly_pos; [apply Rabs_pos|]. apply Forall_forall. intros c Hc.
  apply repeat_spec in Hc. subst c. lra.
Qed.

Lemma pow_u_ge n : (1 <= (1 + u) ^ n)%R.
Proof. apply pow_R1_Rle. pose proof u_pos. lra. Qed.

Theorem horner_error_bound p x : Forall in_format p ->
  (Rabs (rounded_horner E M p x - poly p x) <= horner_error E M p x)%R.
Proof.
  intros Hp. induction Hp as [|c p Hc Hp IH].
  - unfold rounded_horner, horner_error. cbn [fold_right poly length map repeat Nat.mul pow].
    rewrite Rminus_diag_eq, Rabs_R0 by reflexivity. lra.
  - unfold rounded_horner. cbn [fold_right]. fold (rounded_horner E M p x).
    set (a := rounded_horner E M p x) in *. set (P := poly p x) in *.
    destruct (rne_err (a * x)) as (d & e & Hd & He & Ht).
    destruct (rne_add_err _ _ (rne_in_format (a * x)) Hc) as (g & Hg & Hr).
    rewrite Hr, Ht. cbn [poly]. fold P. unfold horner_error in *. cbn [length map repeat poly].
    set (n := length p) in *. replace (2 * S n)%nat with (S (S (2 * n))) by lia.
    pose proof (pow_u_ge (2 * n)) as Hk. cbn [pow]. set (k := ((1 + u) ^ (2 * n))%R) in *.
    pose proof (poly_map_abs_pos p x) as HA. pose proof (poly_abs p x) as HPA. fold P in HPA.
    set (A := poly (map Rabs p) (Rabs x)) in *.
    pose proof (poly_ones_pos n x) as HB. set (B := poly (repeat 1%R n) (Rabs x)) in *.
    pose proof u_pos as Hu. pose proof eta_pos as Hn. set (uu := u) in *. set (nn := eta) in *.
    replace ((a * x * (1 + d) + e + c) * (1 + g) - (c + x * P))%R
      with (x * (a - P) * ((1 + d) * (1 + g)) + x * P * ((1 + d) * (1 + g) - 1) + c * g + e * (1 + g))%R
      by ring.
    set (X := Rabs x) in *. assert (HX : (0 <= X)%R) by apply Rabs_pos.
    set (C := Rabs c). assert (HC : (0 <= C)%R) by apply Rabs_pos.
    assert (H1d : (Rabs (1 + d) <= 1 + uu)%R).
    { eapply Rle_trans; [apply Rabs_triang|]. rewrite Rabs_R1. lra. }
    assert (H1g : (Rabs (1 + g) <= 1 + uu)%R).
    { eapply Rle_trans; [apply Rabs_triang|]. rewrite Rabs_R1. lra. }
    set (D := Rabs (a - P)) in *. assert (HD : (0 <= D)%R) by apply Rabs_pos.
    assert (T1 : (Rabs (x * (a - P) * ((1 + d) * (1 + g))) <= X * D * ((1 + uu) * (1 + uu)))%R).
    { rewrite !Rabs_mult. fold X D. apply Rmult_le_compat_l; [nra|].
      apply Rmult_le_compat; try apply Rabs_pos; assumption. }
    assert (T2 : (Rabs (x * P * ((1 + d) * (1 + g) - 1)) <= X * A * ((1 + uu) * (1 + uu) - 1))%R).
    { rewrite !Rabs_mult. fold X. apply Rmult_le_compat; try apply Rabs_pos.
      - apply Rmult_le_pos; [exact HX|apply Rabs_pos].
      - apply Rmult_le_compat_l; assumption.
      - replace ((1 + d) * (1 + g) - 1)%R with (d + g + d * g)%R by ring.
        eapply Rle_trans; [apply Rabs_triang|]. rewrite Rabs_mult.
        pose proof (Rabs_triang d g). pose proof (Rabs_pos d). pose proof (Rabs_pos g). nra. }
    assert (T3 : (Rabs (c * g) <= C * uu)%R).
    { rewrite Rabs_mult. fold C. apply Rmult_le_compat_l; assumption. }
    assert (T4 : (Rabs (e * (1 + g)) <= nn * (1 + uu))%R).
    { rewrite Rabs_mult. apply Rmult_le_compat; try apply Rabs_pos; assumption. }
    eapply Rle_trans; [apply Rabs_triang|]. eapply Rle_trans; [apply Rplus_le_compat_r, Rabs_triang|].
    eapply Rle_trans; [apply Rplus_le_compat_r, Rplus_le_compat_r, Rabs_triang|].
    apply Rle_trans with (X * D * ((1 + uu) * (1 + uu)) + X * A * ((1 + uu) * (1 + uu) - 1)
      + C * uu + nn * (1 + uu))%R; [lra|].
    set (q := ((1 + uu) * (1 + uu))%R).
    assert (Hq : (1 + uu <= q)%R) by (unfold q; nra).
    replace ((1 + uu) * ((1 + uu) * k))%R with (q * k)%R by (unfold q; ring).
    apply Rle_trans with (X * ((k - 1) * A + nn * k * B) * q + X * A * (q - 1) + C * uu + nn * (1 + uu))%R.
    { apply Rplus_le_compat_r, Rplus_le_compat_r, Rplus_le_compat_r.
      apply Rmult_le_compat_r; [lra|]. apply Rmult_le_compat_l; assumption. }
    replace ((q * k - 1) * (C + X * A) + nn * (q * k) * (1 + X * B))%R
      with (X * ((k - 1) * A + nn * k * B) * q + X * A * (q - 1) + C * (q * k - 1) + nn * (q * k))%R
      by ring.
    assert (q <= q * k)%R by nra. nra.
Qed.

End ErrorFacts.
