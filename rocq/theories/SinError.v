(** Distance between the rounded Taylor loop and the sine. *)
From Coq Require Import ZArith Reals Lra Lia Bool List Factorial.
From Flocq Require Import Core BinarySingleNaN.
From Verif Require Import Spec MathSpec ErrorFacts.
Import ListNotations.
Local Open Scope Z_scope.

(** Bound on the error after [n] iterations from number [i]: [a] bounds the
    error of the term, [r] that of the sum, [bt] the exact term and [sb] the sum
    of the exact terms so far; [B] bounds the point, [dq] the error of its
    square, [uu] and [ee] the relative and absolute error of an operation. *)
Fixpoint taylor_error (uu ee B dq : R) (n : nat) (i : Z) (a r bt sb : R) : R :=
  match n with
  | O => r
  | S n' =>
      let D := IZR (2 * i * (2 * i + 1)) in
      let ad := ((a * (B * B + dq) + bt * dq + uu * ((bt + a) * (B * B + dq)) + ee) / D)%R in
      let bt' := (bt * (B * B) / D)%R in
      taylor_error uu ee B dq n' (i + 1) (ad + uu * (bt' + ad) + ee)
        (r + a + uu * (sb + bt + r + a) + ee) bt' (sb + bt)
  end.

Section SinError.
Context {E M : Z} {HF : Format E M}.
Notation rne := (Spec.rne E M).

Variables uu ee : R.
Hypothesis Huu : (unit_ro M <= uu)%R.
Hypothesis Hee : (half_min E M <= ee)%R.

Lemma uu_pos : (0 < uu)%R. Proof. pose proof (u_pos (M:=M)). lra. Qed.
Lemma ee_pos : (0 < ee)%R. Proof. pose proof (eta_pos (E:=E) (M:=M)). lra. Qed.

Lemma rne_abs_err v m : (Rabs v <= m)%R -> (Rabs (rne v - v) <= uu * m + ee)%R.
Proof.
  intros Hm. destruct (rne_err (E:=E) (M:=M) v) as (d & e & Hd & He & ->).
  replace (v * (1 + d) + e - v)%R with (v * d + e)%R by ring.
  eapply Rle_trans; [apply Rabs_triang|]. rewrite Rabs_mult.
  pose proof (Rabs_pos v). pose proof (Rabs_pos d). nra.
Qed.

Lemma dist v w z m e : (Rabs (v - w) <= e)%R -> (Rabs (z - v) <= m)%R -> (Rabs (z - w) <= e + m)%R.
Proof.
  intros H1 H2. replace (z - w)%R with ((v - w) + (z - v))%R by ring.
  eapply Rle_trans; [apply Rabs_triang|]. lra.
Qed.

Lemma abs_near v w m e : (Rabs (v - w) <= e)%R -> (Rabs w <= m)%R -> (Rabs v <= m + e)%R.
Proof.
  intros H1 H2. replace v with (w + (v - w))%R by ring.
  eapply Rle_trans; [apply Rabs_triang|]. lra.
Qed.

Variables (t B q dq : R).
Hypothesis Ht : (0 <= t <= B)%R.
Hypothesis Hq : (Rabs (q - t * t) <= dq)%R.

(** The exact terms and their alternating sums. *)
Definition T (k : nat) : R := (t ^ (2 * k + 1) / INR (fact (2 * k + 1)))%R.
Fixpoint S_ (k : nat) : R :=
  match k with O => 0%R | S k' => (S_ k' + (-1) ^ k' * T k')%R end.

Lemma T_pos k : (0 <= T k)%R.
Proof.
  unfold T. apply Rmult_le_pos; [apply pow_le; lra|].
  apply Rlt_le, Rinv_0_lt_compat, INR_fact_lt_0.
Qed.

Lemma T_next k : let i := Z.of_nat (S k) in
  T (S k) = (T k * (t * t) / IZR (2 * i * (2 * i + 1)))%R.
Proof.
  cbv zeta. unfold T. replace (2 * S k + 1)%nat with (S (S (2 * k + 1))) by lia.
  rewrite !fact_simpl, !mult_INR. 
  replace (2 * Z.of_nat (S k) * (2 * Z.of_nat (S k) + 1))
    with (Z.of_nat (S (2 * k + 1)) * Z.of_nat (S (S (2 * k + 1)))) by lia.
  rewrite mult_IZR, <- !INR_IZR_INZ. cbn [pow].
  pose proof (INR_fact_neq_0 (2 * k + 1)). 
  assert (INR (S (2 * k + 1)) <> 0%R) by (apply not_0_INR; lia).
  assert (INR (S (S (2 * k + 1))) <> 0%R) by (apply not_0_INR; lia).
  field. auto.
Qed.

Lemma alt_sign k : (if Z.even (Z.of_nat (S k)) then -1 else 1)%R = ((-1) ^ k)%R.
Proof.
  induction k as [|k IH]; [reflexivity|]. rewrite Nat2Z.inj_succ, Z.even_succ, <- Z.negb_even.
  cbn [pow]. rewrite <- IH. destruct (Z.even _); cbn [negb]; ring.
Qed.

Lemma taylor_error_bound n : forall k ret term a r bt sb,
  (Rabs (term - T k) <= a)%R -> (Rabs (ret - S_ k) <= r)%R ->
  (T k <= bt)%R -> (Rabs (S_ k) <= sb)%R ->
  (Rabs (rounded_taylor E M q n (Z.of_nat (S k)) ret term - S_ (k + n))
    <= taylor_error uu ee B dq n (Z.of_nat (S k)) a r bt sb)%R.
Proof.
  pose proof uu_pos as U0. pose proof ee_pos as E0.
  induction n as [|n IH]; intros k ret term a r bt sb Ha Hr Hbt Hsb;
    cbn [rounded_taylor taylor_error].
  - rewrite Nat.add_0_r. exact Hr.
  - replace (k + S n)%nat with (S k + n)%nat by lia.
    replace (Z.of_nat (S k) + 1) with (Z.of_nat (S (S k))) by lia.
    pose proof (T_pos k) as HT0. pose proof (T_next k) as HTn. cbv zeta in HTn.
    set (i := Z.of_nat (S k)) in *. set (D := IZR (2 * i * (2 * i + 1))) in *.
    assert (HD : (6 <= D)%R) by (apply IZR_le; unfold i; lia).
    assert (Ha0 : (0 <= a)%R) by (eapply Rle_trans; [apply Rabs_pos|exact Ha]).
    assert (Hr0 : (0 <= r)%R) by (eapply Rle_trans; [apply Rabs_pos|exact Hr]).
    assert (Hdq0 : (0 <= dq)%R) by (eapply Rle_trans; [apply Rabs_pos|exact Hq]).
    assert (HB : (t * t <= B * B)%R) by nra.
    apply IH.
    + (* the next term *)
      assert (Hterm : (Rabs term <= bt + a)%R).
      { apply (abs_near _ (T k)); [exact Ha|]. rewrite Rabs_pos_eq; assumption. }
      assert (Hqa : (Rabs q <= B * B + dq)%R).
      { apply (abs_near _ (t * t)); [exact Hq|]. rewrite Rabs_pos_eq; nra. }
      assert (H1 : (Rabs (term * q - T k * (t * t)) <= a * (B * B + dq) + bt * dq)%R).
      { replace (term * q - T k * (t * t))%R with ((term - T k) * q + T k * (q - t * t))%R by ring.
        eapply Rle_trans; [apply Rabs_triang|]. rewrite !Rabs_mult. apply Rplus_le_compat.
        - apply Rmult_le_compat; try apply Rabs_pos; assumption.
        - apply Rmult_le_compat; try apply Rabs_pos; [|exact Hq]. rewrite Rabs_pos_eq; assumption. }
      assert (H2 : (Rabs (term * q) <= (bt + a) * (B * B + dq))%R).
      { rewrite Rabs_mult. apply Rmult_le_compat; try apply Rabs_pos; assumption. }
      pose proof (dist _ _ _ _ _ H1 (rne_abs_err _ _ H2)) as H3.
      set (nom := rne (term * q)) in *.
      set (x1 := (a * (B * B + dq) + bt * dq + uu * ((bt + a) * (B * B + dq)) + ee)%R).
      assert (H4 : (Rabs (nom / D - T (S k)) <= x1 / D)%R).
      { rewrite HTn. unfold Rdiv. rewrite <- Rmult_minus_distr_r, Rabs_mult.
        rewrite (Rabs_pos_eq (/ D)) by (apply Rlt_le, Rinv_0_lt_compat; lra).
        apply Rmult_le_compat_r; [apply Rlt_le, Rinv_0_lt_compat; lra|]. unfold x1. lra. }
      assert (H5 : (T (S k) <= bt * (B * B) / D)%R).
      { rewrite HTn. unfold Rdiv. apply Rmult_le_compat_r; [apply Rlt_le, Rinv_0_lt_compat; lra|].
        apply Rmult_le_compat; try assumption. nra. }
      assert (H6 : (Rabs (nom / D) <= bt * (B * B) / D + x1 / D)%R).
      { apply (abs_near _ (T (S k))); [exact H4|]. rewrite Rabs_pos_eq; [exact H5|apply T_pos]. }
      pose proof (dist _ _ _ _ _ H4 (rne_abs_err _ _ H6)). lra.
    + (* the sum *)
      set (s := (if Z.even i then ret - term else ret + term)%R).
      assert (Hs : (Rabs (s - S_ (S k)) <= r + a)%R).
      { cbn [S_]. assert (Hsg : s = (ret + (-1) ^ k * term)%R).
        { unfold s, i. pose proof (alt_sign k) as Hk. destruct (Z.even _); rewrite <- Hk; ring. }
        rewrite Hsg. replace (ret + (-1) ^ k * term - (S_ k + (-1) ^ k * T k))%R
          with ((ret - S_ k) + (-1) ^ k * (term - T k))%R by ring.
        eapply Rle_trans; [apply Rabs_triang|]. rewrite Rabs_mult, pow_1_abs, Rmult_1_l. lra. }
      assert (HSk : (Rabs (S_ (S k)) <= sb + bt)%R).
      { cbn [S_]. eapply Rle_trans; [apply Rabs_triang|].
        rewrite Rabs_mult, pow_1_abs, Rmult_1_l, (Rabs_pos_eq (T k)) by assumption. lra. }
      assert (Hm : (Rabs s <= sb + bt + r + a)%R).
      { pose proof (abs_near _ _ _ _ Hs HSk). lra. }
      pose proof (dist _ _ _ _ _ Hs (rne_abs_err _ _ Hm)). lra.
    + rewrite HTn. unfold Rdiv. apply Rmult_le_compat_r; [apply Rlt_le, Rinv_0_lt_compat; lra|].
      apply Rmult_le_compat; try assumption. nra.
    + cbn [S_]. eapply Rle_trans; [apply Rabs_triang|].
      rewrite Rabs_mult, pow_1_abs, Rmult_1_l, (Rabs_pos_eq (T k)) by assumption. lra.
Qed.

Lemma S_sin_approx k : S_ (S k) = sin_approx t k.
Proof.
  unfold sin_approx. induction k as [|k IH].
  - cbn [S_ sum_f_R0]. unfold sin_term, T. cbn [pow]. ring.
  - cbn [sum_f_R0]. rewrite <- IH. reflexivity.
Qed.

Lemma S_sin : (t <= 4)%R -> (Rabs (S_ 15 - sin t) <= T 15)%R.
Proof.
  intros H4. rewrite S_sin_approx.
  destruct (pre_sin_bound t 6 ltac:(lra) H4) as [_ H1].
  destruct (pre_sin_bound t 7 ltac:(lra) H4) as [H2 _].
  change (2 * (6 + 1))%nat with 14%nat in H1. change (2 * 7 + 1)%nat with 15%nat in H2.
  assert (H3 : sin_approx t 15 = (sin_approx t 14 - T 15)%R).
  { unfold sin_approx. rewrite tech5. unfold sin_term at 2.
    assert (Hp : ((-1) ^ 15)%R = (-1)%R) by (simpl; ring). rewrite Hp.
    change (2 * 15 + 1)%nat with 31%nat. unfold T. change (2 * 15 + 1)%nat with 31%nat. ring. }
  rewrite H3 in H2. rewrite Rabs_pos_eq by lra. lra.
Qed.

Fixpoint tail (k : nat) : R :=
  match k with
  | O => B
  | S k' => let i := Z.of_nat k in (tail k' * (B * B) / IZR (2 * i * (2 * i + 1)))%R
  end.

Lemma T_tail k : (T k <= tail k)%R.
Proof.
  induction k as [|k IH].
  - unfold T, tail. cbn [Nat.mul Nat.add fact pow]. simpl. lra.
  - rewrite T_next. cbn [tail].
    assert (HD : (6 <= IZR (2 * Z.of_nat (S k) * (2 * Z.of_nat (S k) + 1)))%R) by (apply IZR_le; lia).
    unfold Rdiv. apply Rmult_le_compat_r; [apply Rlt_le, Rinv_0_lt_compat; lra|].
    pose proof (T_pos k). apply Rmult_le_compat; try assumption; nra.
Qed.

Theorem taylor_sin : (B <= 4)%R ->
  (Rabs (rounded_taylor E M q 15 1 0 t - sin t)
    <= taylor_error uu ee B dq 15 1 0 0 B 0 + tail 15)%R.
Proof.
  intros HB.
  assert (H : (Rabs (rounded_taylor E M q 15 1 0 t - S_ 15)
               <= taylor_error uu ee B dq 15 1 0 0 B 0)%R).
  { apply (taylor_error_bound 15 0 0 t 0 0 B 0).
    - unfold T. cbn [Nat.mul Nat.add fact pow]. replace (t - _)%R with 0%R by (simpl; field).
      rewrite Rabs_R0. lra.
    - cbn [S_]. rewrite Rminus_diag_eq, Rabs_R0 by reflexivity. lra.
    - apply (T_tail 0).
    - cbn [S_]. rewrite Rabs_R0. lra. }
  rewrite Rplus_comm. apply (dist (S_ 15)); [|exact H].
  eapply Rle_trans; [apply S_sin; lra|apply T_tail].
Qed.

End SinError.


(** ** Evaluation of the bound in fixed point, rounding upwards *)

Definition scale : Z := 2 ^ 140.
Definition up (z : Z) : R := (IZR z / IZR scale)%R.
Definition mulu (x y : Z) : Z := x * y / scale + 1.
Definition divu (x d : Z) : Z := x / d + 1.

Lemma scale_pos : (0 < IZR scale)%R.
Proof. apply IZR_lt. reflexivity. Qed.

Lemma up_le x y : x <= y -> (up x <= up y)%R.
Proof.
  intros H. unfold up. pose proof scale_pos. apply Rmult_le_compat_r;
    [apply Rlt_le, Rinv_0_lt_compat; lra|apply IZR_le, H].
Qed.
Lemma up_add x y v w : (v <= up x)%R -> (w <= up y)%R -> (v + w <= up (x + y))%R.
Proof. intros H1 H2. unfold up in *. rewrite plus_IZR. unfold Rdiv in *. lra. Qed.
Lemma up_mul x y v w : (0 <= v <= up x)%R -> (0 <= w <= up y)%R -> (0 <= v * w <= up (mulu x y))%R.
Proof.
  intros H1 H2. split; [nra|]. apply Rle_trans with (up x * up y)%R; [nra|].
  unfold up, mulu. pose proof scale_pos as Hs. unfold Rdiv.
  replace (IZR x * / IZR scale * (IZR y * / IZR scale))%R
    with (IZR (x * y) * / IZR scale * / IZR scale)%R by (rewrite mult_IZR; field; lra).
  apply Rmult_le_compat_r; [apply Rlt_le, Rinv_0_lt_compat; lra|].
  apply Rmult_le_reg_r with (IZR scale); [lra|]. rewrite Rmult_assoc, Rinv_l, Rmult_1_r by lra.
  rewrite <- mult_IZR. apply IZR_le.
  pose proof (Z.mul_succ_div_gt (x * y) scale ltac:(reflexivity)). lia.
Qed.
Lemma up_div x d v : 0 < d -> (0 <= v <= up x)%R -> (0 <= v / IZR d <= up (divu x d))%R.
Proof.
  intros Hd H. assert (Hd' : (0 < IZR d)%R) by (apply IZR_lt, Hd).
  split; [apply Rmult_le_pos; [lra|apply Rlt_le, Rinv_0_lt_compat, Hd']|].
  apply Rmult_le_reg_r with (IZR d); [exact Hd'|]. unfold Rdiv at 1. rewrite Rmult_assoc, Rinv_l, Rmult_1_r by lra.
  apply Rle_trans with (up x); [lra|]. unfold up, divu. pose proof scale_pos as Hs. unfold Rdiv.
  replace (IZR (x / d + 1) * / IZR scale * IZR d)%R with (IZR ((x / d + 1) * d) * / IZR scale)%R
    by (rewrite mult_IZR; ring).
  apply Rmult_le_compat_r; [apply Rlt_le, Rinv_0_lt_compat; lra|]. apply IZR_le.
  pose proof (Z.mul_succ_div_gt x d Hd). lia.
Qed.

Fixpoint taylor_errorZ (uu ee BB dq : Z) (n : nat) (i : Z) (a r bt sb : Z) : Z :=
  match n with
  | O => r
  | S n' =>
      let D := 2 * i * (2 * i + 1) in
      let ad := divu (mulu a (BB + dq) + mulu bt dq + mulu uu (mulu (bt + a) (BB + dq)) + ee) D in
      let bt' := divu (mulu bt BB) D in
      taylor_errorZ uu ee BB dq n' (i + 1) (ad + mulu uu (bt' + ad) + ee)
        (r + a + mulu uu (sb + bt + r + a) + ee) bt' (sb + bt)
  end.

Lemma taylor_errorZ_bound (uu ee B dq : R) (zu ze zb zd : Z) n : 
  (0 <= uu <= up zu)%R -> (0 <= ee <= up ze)%R -> (0 <= B * B <= up zb)%R -> (0 <= dq <= up zd)%R ->
  forall i a r bt sb za zr zt zs, 1 <= i ->
  (0 <= a <= up za)%R -> (0 <= r <= up zr)%R -> (0 <= bt <= up zt)%R -> (0 <= sb <= up zs)%R ->
  (taylor_error uu ee B dq n i a r bt sb <= up (taylor_errorZ zu ze zb zd n i za zr zt zs))%R.
Proof.
  intros Hu He Hb Hd.
  assert (ADD : forall v w x y, (0 <= v <= up x)%R -> (0 <= w <= up y)%R -> (0 <= v + w <= up (x + y))%R).
  { intros v w x y H1 H2. split; [lra|]. apply up_add; lra. }
  induction n as [|n IH]; intros i a r bt sb za zr zt zs Hi Ha Hr Ht Hs;
    cbn [taylor_error taylor_errorZ]; [lra|].
  assert (HD : 0 < 2 * i * (2 * i + 1)) by nia.
  pose proof (ADD _ _ _ _ Hb Hd) as Hbd.
  assert (Had : (0 <= (a * (B * B + dq) + bt * dq + uu * ((bt + a) * (B * B + dq)) + ee)
     / IZR (2 * i * (2 * i + 1)) <= up (divu (mulu za (zb + zd) + mulu zt zd
       + mulu zu (mulu (zt + za) (zb + zd)) + ze) (2 * i * (2 * i + 1))))%R).
  { apply up_div; [exact HD|]. repeat (apply ADD || apply up_mul); assumption. }
  assert (Hbt : (0 <= bt * (B * B) / IZR (2 * i * (2 * i + 1)) <=
    up (divu (mulu zt zb) (2 * i * (2 * i + 1))))%R).
  { apply up_div; [exact HD|]. apply up_mul; assumption. }
  apply IH; try lia; try exact Hbt;
    repeat (assumption || apply ADD || apply up_mul).
Qed.

Fixpoint tailZ (zb : Z) (k : nat) (zt : Z) : Z :=
  match k with
  | O => zt
  | S k' => let i := Z.of_nat k in divu (mulu (tailZ zb k' zt) zb) (2 * i * (2 * i + 1))
  end.

Lemma tailZ_bound B zb zt k : (0 <= B * B <= up zb)%R -> (0 <= B <= up zt)%R ->
  (0 <= tail B k <= up (tailZ zb k zt))%R.
Proof.
  intros Hb Ht. induction k as [|k IH]; cbn [tail tailZ]; [exact Ht|].
  apply up_div; [lia|]. apply up_mul; assumption.
Qed.

(** ** Bounds on pi, from the sign of the sine *)

(** Term and partial sum of the series at [a / b], over a common denominator:
    numerators of the term and of the sum, and denominator. *)
Fixpoint series (a b : Z) (k : nat) : Z * Z * Z :=
  match k with
  | O => (a, 0, b)
  | S k' => let '(t, s, d) := series a b k' in
      let i := Z.of_nat k in
      let c := 2 * i * (2 * i + 1) * (b * b) in
      (t * (a * a), (if Nat.even k' then s + t else s - t) * c, d * c)
  end.

Lemma series_spec a b k : 0 < b ->
  let '(t, s, d) := series a b k in
  0 < d /\ (IZR t / IZR d)%R = T (IZR a / IZR b) k /\ (IZR s / IZR d)%R = S_ (IZR a / IZR b) k.
Proof.
  intros Hb. assert (Hb' : (0 < IZR b)%R) by (apply IZR_lt; lia).
  induction k as [|k IH].
  - cbn [series S_]. unfold T. split; [lia|]. split; [|unfold Rdiv; ring]. simpl. field. lra.
  - rewrite T_next. cbn [series S_]. destruct (series a b k) as [[t s] d]. destruct IH as (Hd & IT & IS).
    assert (Hd' : (0 < IZR d)%R) by (apply IZR_lt; lia).
    cbv zeta. set (i := Z.of_nat (S k)). set (c := 2 * i * (2 * i + 1)).
    assert (Hc : 0 < c) by (unfold c, i; lia). assert (Hc' : (0 < IZR c)%R) by (apply IZR_lt; lia).
    rewrite <- IT, <- IS. split; [apply Z.mul_pos_pos; nia|].
    rewrite !mult_IZR. split; [field; lra|].
    assert (Hk : ((-1) ^ k)%R = if Nat.even k then 1%R else (-1)%R).
    { clear. induction k as [|k IH]; [reflexivity|]. rewrite Nat.even_succ, <- Nat.negb_even.
      cbn [pow]. rewrite IH. destruct (Nat.even k); cbn [negb]; ring. }
    rewrite Hk. destruct (Nat.even k); [rewrite plus_IZR|rewrite minus_IZR]; field; lra.
Qed.

Lemma series_pos a b k : 0 < b -> 0 < snd (fst (series a b k)) -> (0 < S_ (IZR a / IZR b) k)%R.
Proof.
  intros Hb Hs. pose proof (series_spec a b k Hb) as H. destruct (series a b k) as [[t s] d].
  destruct H as (Hd & _ & <-). apply Rdiv_lt_0_compat; apply IZR_lt; assumption.
Qed.
Lemma series_neg a b k : 0 < b -> snd (fst (series a b k)) < 0 -> (S_ (IZR a / IZR b) k < 0)%R.
Proof.
  intros Hb Hs. pose proof (series_spec a b k Hb) as H. destruct (series a b k) as [[t s] d].
  destruct H as (Hd & _ & <-). cbn [fst snd] in Hs. apply Ropp_lt_cancel. rewrite Ropp_0.
  replace (- (IZR s / IZR d))%R with (IZR (- s) / IZR d)%R by (rewrite opp_IZR; unfold Rdiv; ring).
  apply Rdiv_lt_0_compat; apply IZR_lt; lia.
Qed.

Lemma sin_pos_lt_PI x : (0 <= x <= 4)%R -> (0 < sin x)%R -> (x < PI)%R.
Proof.
  intros Hx Hs. destruct (Rlt_le_dec x PI) as [H|H]; [exact H|exfalso].
  pose proof PI2_3_2. assert (H2 : (x <= 2 * PI)%R) by lra. pose proof (sin_le_0 x H H2). lra.
Qed.
Lemma sin_neg_gt_PI x : (0 <= x)%R -> (sin x < 0)%R -> (PI < x)%R.
Proof.
  intros Hx Hs. destruct (Rlt_le_dec PI x) as [H|H]; [exact H|exfalso].
  pose proof (sin_ge_0 x Hx H). lra.
Qed.

Lemma div_range a b : 0 < b -> 0 <= a <= 4 * b -> (0 <= IZR a / IZR b <= 4)%R.
Proof.
  intros Hb [H1 H2]. apply IZR_lt in Hb. apply IZR_le in H1. apply IZR_le in H2. rewrite mult_IZR in H2.
  split.
  - apply Rmult_le_pos; [exact H1|]. apply Rlt_le, Rinv_0_lt_compat, Hb.
  - apply Rmult_le_reg_r with (IZR b); [exact Hb|]. unfold Rdiv. rewrite Rmult_assoc, Rinv_l by lra. lra.
Qed.

Lemma pi_lower a b n : 0 < b -> 0 <= a <= 4 * b ->
  0 < snd (fst (series a b (2 * n + 2))) -> (IZR a / IZR b < PI)%R.
Proof.
  intros Hb Ha H. apply (series_pos _ _ _ Hb) in H. pose proof (div_range a b Hb Ha) as Hr.
  replace (2 * n + 2)%nat with (S (2 * n + 1)) in H by lia. rewrite S_sin_approx in H.
  apply sin_pos_lt_PI; [lra|]. destruct (pre_sin_bound (IZR a / IZR b) n) as [H3 _]; lra.
Qed.

Lemma pi_upper a b n : 0 < b -> 0 <= a <= 4 * b ->
  snd (fst (series a b (2 * n + 3))) < 0 -> (PI < IZR a / IZR b)%R.
Proof.
  intros Hb Ha H. apply (series_neg _ _ _ Hb) in H. pose proof (div_range a b Hb Ha) as Hr.
  replace (2 * n + 3)%nat with (S (2 * (n + 1))) in H by lia. rewrite S_sin_approx in H.
  apply sin_neg_gt_PI; [lra|]. destruct (pre_sin_bound (IZR a / IZR b) n) as [_ H3]; lra.
Qed.

(** 22 decimals of pi. *)
Theorem pi_bounds :
  (31415926535897932384626 / 10000000000000000000000 < PI <
   31415926535897932384627 / 10000000000000000000000)%R.
Proof.
  split.
  - apply (pi_lower _ _ 12); [lia|lia|vm_compute; reflexivity].
  - apply (pi_upper _ _ 12); [lia|lia|vm_compute; reflexivity].
Qed.

(** ** The bound with the folding *)

Section Fold.
Context {E M : Z} {HF : Format E M}.
Notation rne := (Spec.rne E M).
Variables uu ee : R.
Hypothesis Huu : (unit_ro M <= uu)%R.
Hypothesis Hee : (half_min E M <= ee)%R.
Hypothesis Huu1 : (uu <= 1 / 1000)%R.
Hypothesis Hee1 : (ee <= 1 / 1000)%R.
Variables pi halfPi dp B eps : R.
Hypothesis Hpi : (Rabs (pi - PI) <= dp)%R.
Hypothesis Hhp : (0 <= halfPi <= 8 / 5)%R.
Hypothesis Hph : (0 <= pi - halfPi <= 158 / 100)%R.
Hypothesis HB : (8 / 5 <= B <= 22 / 7)%R.
Hypothesis Heps : (taylor_error uu ee B (uu * (B * B) + ee) 15 1 0 0 B 0 + tail B 15 <= eps)%R.

Lemma sin_lip x y : (Rabs (sin x - sin y) <= Rabs (x - y))%R.
Proof.
  destruct (Req_dec x y) as [->|Hn]; [rewrite !Rminus_diag_eq, Rabs_R0 by reflexivity; lra|].
  destruct (MVT_abs sin cos y x) as (c & H & _).
  - intros c _. apply derivable_pt_lim_sin.
  - rewrite H. pose proof (COS_bound c) as Hc.
    assert (Rabs (cos c) <= 1)%R by (apply Rabs_le; lra). pose proof (Rabs_pos (x - y)). nra.
Qed.

Lemma taylor_at t : (0 <= t <= B)%R ->
  (Rabs (rounded_taylor E M (rne (t * t)) 15 1 0 t - sin t) <= eps)%R.
Proof.
  intros Ht. eapply Rle_trans; [|exact Heps].
  apply (taylor_sin uu ee Huu Hee t B (rne (t * t)) (uu * (B * B) + ee) Ht); [|lra].
  apply (rne_abs_err uu ee Huu Hee). rewrite Rabs_pos_eq; nra.
Qed.

(** The value with the sign of the argument. *)
Theorem rounded_sin_error v ex (s : bool) : (- B <= v <= pi)%R -> (0 <= ex <= dp)%R -> (- PI - ex <= v)%R ->
  (v < 0 -> s = true)%R -> (0 < v -> s = false)%R ->
  (Rabs ((if s then -1 else 1) * Rabs (rounded_sin E M pi halfPi v) - sin v)
    <= eps + dp + ex + uu * (8 / 5) + ee)%R.
Proof.
  intros Hv Hex HvP Hs1 Hs2. pose proof pi_bounds as Hpb.
  assert (Hdp : (0 <= dp)%R) by (eapply Rle_trans; [apply Rabs_pos|exact Hpi]).
  assert (Hu0 : (0 < uu)%R) by (pose proof (u_pos (M:=M)); lra).
  assert (He0 : (0 < ee)%R) by (pose proof (eta_pos (E:=E) (M:=M)); lra).
  unfold rounded_sin. cbv zeta. case Rlt_bool_spec; intros Hc.
  - (* folded *)
    assert (s = false) as -> by (apply Hs2; lra). rewrite Rmult_1_l.
    set (t := Rabs (rne (pi - v))).
    assert (Hr : (Rabs (rne (pi - v) - (pi - v)) <= uu * (158 / 100) + ee)%R)
      by (apply (rne_abs_err uu ee Huu Hee); rewrite Rabs_pos_eq; lra).
    assert (Ht : (Rabs (t - (pi - v)) <= uu * (158 / 100) + ee)%R).
    { unfold t. rewrite <- (Rabs_pos_eq (pi - v)) at 2 by lra.
      eapply Rle_trans; [apply Rabs_triang_inv2|exact Hr]. }
    assert (Ht0 : (0 <= t)%R) by apply Rabs_pos.
    assert (HtB : (0 <= t <= B)%R) by (apply Rabs_le_inv in Ht; lra).
    pose proof (taylor_at t HtB) as H1. set (w := rounded_taylor E M (rne (t * t)) 15 1 0 t) in *.
    assert (Hst : (0 <= sin t)%R) by (apply sin_ge_0; apply Rabs_le_inv in Ht; lra).
    assert (H2 : (Rabs (sin t - sin v) <= uu * (158 / 100) + ee + dp)%R).
    { replace (sin v) with (sin (PI - v)) by (rewrite sin_PI_x; reflexivity).
      eapply Rle_trans; [apply sin_lip|].
      replace (t - (PI - v))%R with ((t - (pi - v)) + (pi - PI))%R by ring.
      eapply Rle_trans; [apply Rabs_triang|]. lra. }
    assert (H3 : (Rabs (Rabs w - sin t) <= eps)%R).
    { rewrite <- (Rabs_pos_eq (sin t)) by exact Hst. 
      eapply Rle_trans; [apply Rabs_triang_inv2|exact H1]. }
    replace (Rabs w - sin v)%R with ((Rabs w - sin t) + (sin t - sin v))%R by ring.
    eapply Rle_trans; [apply Rabs_triang|]. nra.
  - set (t := Rabs v). assert (HtB : (0 <= t <= B)%R).
    { unfold t. split; [apply Rabs_pos|]. apply Rabs_le. lra. }
    pose proof (taylor_at t HtB) as H1. set (w := rounded_taylor E M (rne (t * t)) 15 1 0 t) in *.
    assert (Ht : (t <= PI + ex)%R) by (unfold t; apply Rabs_le; lra).
    assert (Hst : (- ex <= sin t)%R).
    { destruct (Rle_dec t PI) as [Hp|Hp]; [pose proof (sin_ge_0 t ltac:(lra) Hp); lra|].
      pose proof (sin_lip t PI) as Hl. rewrite sin_PI, (Rabs_pos_eq (t - PI)) in Hl by lra.
      apply Rabs_le_inv in Hl. lra. }
    assert (H3 : (Rabs (Rabs w - sin t) <= eps + 2 * ex)%R).
    { destruct (Rle_dec 0 (sin t)) as [Hp|Hp].
      - rewrite <- (Rabs_pos_eq (sin t)) by exact Hp.
        eapply Rle_trans; [eapply Rle_trans; [apply Rabs_triang_inv2|exact H1]|lra].
      - assert (Hw : (Rabs w <= eps + ex)%R) by (apply Rabs_le; apply Rabs_le_inv in H1; lra).
        pose proof (Rabs_pos w). apply Rabs_le. lra. }
    assert (H4 : sin v = ((if s then -1 else 1) * sin t)%R).
    { unfold t. destruct (Rtotal_order v 0) as [Hv0|[->|Hv0]].
      - rewrite (Hs1 Hv0), (Rabs_left v Hv0), sin_neg. ring.
      - rewrite Rabs_R0, sin_0. ring.
      - rewrite (Hs2 Hv0), (Rabs_pos_eq v) by lra. ring. }
    rewrite H4, <- Rmult_minus_distr_l, Rabs_mult.
    replace (Rabs (if s then -1 else 1)) with 1%R; [nra|].
    destruct s; [rewrite Rabs_left by lra; ring|rewrite Rabs_R1; reflexivity].
Qed.
End Fold.
