(** Sines and cosines of rational angles by the Taylor series, in fixed point. *)
From Coq Require Import ZArith Reals Lra Lia Bool List.
From Flocq Require Import Core Operations.
From Verif Require Import SinError TableFacts.
Local Open Scope Z_scope.

Definition K : Z := 90.
Notation sc := (IZR (2 ^ K)).

Lemma sc_pos : (0 < sc)%R. Proof. apply IZR_lt. reflexivity. Qed.

(** The terms and the sum of the series at [X / 2^K], rounded down. *)
Fixpoint fixterms (X2 : Z) (n : nat) (i term sum : Z) : Z :=
  match n with
  | O => sum
  | S n' => fixterms X2 n' (i + 1) (Z.shiftr (term * X2) K / (2 * i * (2 * i + 1))) (if Z.odd i then sum + term else sum - term)
  end.
Definition fixsin (X : Z) : Z := fixterms (Z.shiftr (X * X) K) 15 1 X 0.

Lemma div_near a d : 0 < d -> (Rabs (IZR (a / d) - IZR a / IZR d) <= 1)%R.
Proof.
  intros Hd. assert (D : (0 < IZR d)%R) by (apply IZR_lt; exact Hd).
  pose proof (Z.div_mod a d ltac:(lia)) as H. pose proof (Z.mod_pos_bound a d Hd) as B.
  assert (E : (IZR a = IZR d * IZR (a / d) + IZR (a mod d))%R) by (rewrite <- mult_IZR, <- plus_IZR; f_equal; exact H).
  assert (B1 : (0 <= IZR (a mod d) <= IZR d)%R) by (split; apply IZR_le; lia).
  replace (IZR (a / d) - IZR a / IZR d)%R with (- (IZR (a mod d) / IZR d))%R by (rewrite E; field; lra).
  rewrite Rabs_Ropp, Rabs_pos_eq.
  - apply Rmult_le_reg_r with (IZR d); [exact D|]. unfold Rdiv. rewrite Rmult_assoc, Rinv_l by lra. lra.
  - apply Rmult_le_pos; [lra|]. apply Rlt_le, Rinv_0_lt_compat, D.
Qed.

Lemma T_0 t : T t 0 = t.
Proof. unfold T. simpl. field. Qed.

Section Fix.
Variable X : Z.
Hypothesis HX : 0 <= X.
Notation x := (IZR X / sc)%R.
Hypothesis Hx : (x <= 211 / 100)%R.

Lemma x_pos : (0 <= x)%R.
Proof. apply Rmult_le_pos; [apply IZR_le, HX|apply Rlt_le, Rinv_0_lt_compat, sc_pos]. Qed.

Lemma T_small k : (0 <= T x k <= 211 / 100)%R.
Proof.
  pose proof x_pos as X0. split; [exact (T_pos x _ (conj X0 Hx) k)|].
  induction k as [|k IH].
  - rewrite T_0. exact Hx.
  - rewrite T_next. pose proof (T_pos x _ (conj X0 Hx) k) as P.
    set (c := IZR (2 * Z.of_nat (S k) * (2 * Z.of_nat (S k) + 1))). assert (C : (6 <= c)%R) by (unfold c; apply IZR_le; lia).
    assert (XX : (0 <= x * x <= 446 / 100)%R) by (clear -X0 Hx; set (y := x) in *; clearbody y; split; nra).
    apply Rmult_le_reg_r with c; [lra|]. unfold Rdiv. rewrite Rmult_assoc, Rinv_l by lra.
    assert (T x k * (x * x) <= 211 / 100 * (446 / 100))%R by (apply Rmult_le_compat; lra). lra.
Qed.

(** Terms after the first are within 2 units, and so the sum within 2 per term. *)
Lemma fixterms_near n : forall k term sum e,
  (Rabs (IZR term / sc - T x k) <= e / sc)%R -> (e <= 2)%R -> (k = 0%nat -> e <= 0)%R ->
  (Rabs (IZR sum / sc - S_ x k) <= 2 * INR k / sc)%R ->
  (Rabs (IZR (fixterms (X * X / 2 ^ K) n (Z.of_nat (S k)) term sum) / sc - S_ x (k + n)) <= 2 * INR (k + n) / sc)%R.
Proof.
  induction n as [|n IH]; intros k term sum e Ht He He0 Hs.
  { rewrite Nat.add_0_r. exact Hs. }
  cbn [fixterms]. replace (k + S n)%nat with (S k + n)%nat by lia.
  replace (Z.of_nat (S k) + 1) with (Z.of_nat (S (S k))) by lia.
  pose proof sc_pos as P. assert (IP : (0 < / sc)%R) by (apply Rinv_0_lt_compat, P).
  rewrite Z.shiftr_div_pow2, Z.div_div by (try discriminate; lia).
  apply (IH (S k) _ _ 2%R); [| lra | lia |].
  - set (i := Z.of_nat (S k)). set (c := 2 * i * (2 * i + 1)). rewrite T_next. fold i. fold c.
    assert (C : (6 <= IZR c)%R) by (unfold c, i; apply IZR_le; lia).
    assert (C' : (k <> 0%nat -> 20 <= IZR c)%R) by (intros Hk; unfold c, i; apply IZR_le; lia).
    assert (Cz : 0 < c) by (unfold c, i; lia).
    pose proof (div_near (term * (X * X / 2 ^ K)) (2 ^ K * c) ltac:(apply Z.mul_pos_pos; [reflexivity|exact Cz])) as D1.
    pose proof (div_near (X * X) (2 ^ K) ltac:(reflexivity)) as D2.
    set (q := X * X / 2 ^ K) in *. set (r := term * q / (2 ^ K * c)) in *.
    rewrite mult_IZR, (mult_IZR _ c) in D1. rewrite mult_IZR in D2.
    set (tt := (IZR term / sc)%R) in *. set (qq := (IZR q / sc)%R).
    assert (D1' : (Rabs (IZR r / sc - tt * qq / IZR c) <= / sc)%R).
    { replace (IZR r / sc - tt * qq / IZR c)%R with ((IZR r - IZR term * IZR q / (sc * IZR c)) * / sc)%R
        by (unfold tt, qq; field; lra).
      rewrite Rabs_mult, (Rabs_pos_eq (/ sc)) by lra. rewrite <- (Rmult_1_l (/ sc)) at 2. apply Rmult_le_compat_r; lra. }
    assert (D2' : (Rabs (qq - x * x) <= / sc)%R).
    { replace (qq - x * x)%R with ((IZR q - IZR X * IZR X / sc) * / sc)%R by (unfold qq; field; lra).
      rewrite Rabs_mult, (Rabs_pos_eq (/ sc)) by lra. rewrite <- (Rmult_1_l (/ sc)) at 2. apply Rmult_le_compat_r; lra. }
    pose proof (T_small k) as TS. pose proof x_pos as X0.
    assert (XX : (0 <= x * x <= 446 / 100)%R) by (clear -X0 Hx; set (y := x) in *; clearbody y; split; nra).
    assert (SI : (/ sc <= 1 / 1000)%R).
    { apply Rmult_le_reg_r with sc; [exact P|]. rewrite Rinv_l by lra. assert (1000 <= sc)%R by (apply IZR_le; vm_compute; congruence). lra. }
    assert (E0 : (0 <= e)%R).
    { pose proof (Rabs_pos (tt - T x k)). apply Rmult_le_reg_r with (/ sc)%R; [exact IP|]. unfold Rdiv in Ht. lra. }
    assert (Q : (Rabs (tt * qq - T x k * (x * x)) <= (e * (447 / 100) + 211 / 100) * / sc)%R).
    { replace (tt * qq - T x k * (x * x))%R with ((tt - T x k) * qq + T x k * (qq - x * x))%R by ring.
      eapply Rle_trans; [apply Rabs_triang|]. rewrite !Rabs_mult, (Rabs_pos_eq (T x k)) by lra.
      assert (Rabs qq <= 447 / 100)%R.
      { replace qq with (qq - x * x + x * x)%R by ring. eapply Rle_trans; [apply Rabs_triang|]. rewrite (Rabs_pos_eq (x * x)) by lra. lra. }
      assert (Rabs (tt - T x k) * Rabs qq <= e / sc * (447 / 100))%R by (apply Rmult_le_compat; auto using Rabs_pos).
      assert (T x k * Rabs (qq - x * x) <= 211 / 100 * / sc)%R by (apply Rmult_le_compat; auto using Rabs_pos; lra).
      unfold Rdiv in *. lra. }
    replace (IZR r / sc - T x k * (x * x) / IZR c)%R
      with (IZR r / sc - tt * qq / IZR c + (tt * qq - T x k * (x * x)) / IZR c)%R by (field; lra).
    eapply Rle_trans; [apply Rabs_triang|].
    assert (QC : (Rabs ((tt * qq - T x k * (x * x)) / IZR c) <= / sc)%R).
    { unfold Rdiv at 1. rewrite Rabs_mult, (Rabs_pos_eq (/ IZR c)) by (apply Rlt_le, Rinv_0_lt_compat; lra).
      apply Rmult_le_reg_r with (IZR c); [lra|]. rewrite Rmult_assoc, Rinv_l, Rmult_1_r by lra.
      eapply Rle_trans; [exact Q|]. rewrite Rmult_comm. apply Rmult_le_compat_l; [lra|].
      destruct k as [|k]; [specialize (He0 eq_refl); lra|specialize (C' ltac:(lia)); lra]. }
    unfold Rdiv at 3. lra.
  - cbn [S_]. rewrite S_INR.
    assert (Hk : ((-1) ^ k = if Z.odd (Z.of_nat (S k)) then 1 else -1)%R).
    { clear. induction k as [|k IH]; [reflexivity|]. rewrite Nat2Z.inj_succ, Z.odd_succ, <- Z.negb_odd. cbn [pow]. rewrite IH.
      destruct (Z.odd (Z.of_nat (S k))); cbn [negb]; ring. }
    rewrite Hk.
    assert (G : (Rabs (IZR (if Z.odd (Z.of_nat (S k)) then sum + term else sum - term) / sc -
      (S_ x k + (if Z.odd (Z.of_nat (S k)) then 1 else -1) * T x k)) <= 2 * INR k / sc + e / sc)%R).
    { destruct (Z.odd (Z.of_nat (S k))); [rewrite plus_IZR|rewrite minus_IZR].
      - replace ((IZR sum + IZR term) / sc - (S_ x k + 1 * T x k))%R with (IZR sum / sc - S_ x k + (IZR term / sc - T x k))%R by (field; lra).
        eapply Rle_trans; [apply Rabs_triang|]. lra.
      - replace ((IZR sum - IZR term) / sc - (S_ x k + -1 * T x k))%R with (IZR sum / sc - S_ x k - (IZR term / sc - T x k))%R by (field; lra).
        unfold Rminus at 1. eapply Rle_trans; [apply Rabs_triang|]. rewrite Rabs_Ropp. lra. }
    eapply Rle_trans; [exact G|]. unfold Rdiv. rewrite <- Rmult_plus_distr_r. apply Rmult_le_compat_r; lra.
Qed.

Lemma tail_15 : (tail (211 / 100) 15 <= bpow radix2 (-79))%R.
Proof.
  cbn [tail]. change (bpow radix2 (-79)) with (/ IZR (2 ^ 79))%R. cbv zeta.
  repeat match goal with |- context [IZR (2 * Z.of_nat ?n * (2 * Z.of_nat ?n + 1))] =>
    let v := eval vm_compute in (2 * Z.of_nat n * (2 * Z.of_nat n + 1)) in change (2 * Z.of_nat n * (2 * Z.of_nat n + 1)) with v end.
  change (2 ^ 79) with 604462909807314587353088. lra.
Qed.

Lemma fixsin_near : (Rabs (IZR (fixsin X) / sc - sin x) <= bpow radix2 (-78))%R.
Proof.
  pose proof x_pos as X0. pose proof sc_pos as P.
  assert (H' : (Rabs (IZR (fixsin X) / sc - S_ x 15) <= 2 * INR 15 / sc)%R).
  { unfold fixsin. rewrite Z.shiftr_div_pow2 by discriminate.
    refine (fixterms_near 15 0 X 0 0%R _ _ _ _); [|lra|lra|].
    - rewrite T_0, Rminus_eq_0, Rabs_R0. unfold Rdiv. rewrite Rmult_0_l. lra.
    - change (S_ x 0) with 0%R. change (INR 0) with 0%R. unfold Rdiv.
      rewrite Rmult_0_r, !Rmult_0_l, Rminus_eq_0, Rabs_R0. lra. }
  replace (INR 15) with 15%R in H' by (rewrite INR_IZR_INZ; reflexivity).
  pose proof (S_sin x _ (conj X0 Hx) ltac:(lra)) as S1. pose proof (T_tail x _ (conj X0 Hx) 15) as T1. pose proof tail_15 as T2.
  replace (IZR (fixsin X) / sc - sin x)%R with (IZR (fixsin X) / sc - S_ x 15 + (S_ x 15 - sin x))%R by ring.
  eapply Rle_trans; [apply Rabs_triang|].
  assert (2 * 15 / sc <= bpow radix2 (-79))%R.
  { change (bpow radix2 (-79)) with (/ IZR (2 ^ 79))%R. change (2 ^ K) with 1237940039285380274899124224.
    change (2 ^ 79) with 604462909807314587353088. lra. }
  assert (bpow radix2 (-78) = 2 * bpow radix2 (-79))%R by (change (-78) with (1 + -79); rewrite bpow_plus; reflexivity).
  lra.
Qed.
End Fix.

(** ** Any dyadic angle up to 6.33 *)

(** [sin (m 2^e)], for [-90 <= e <= 0] and [0 <= m]. *)
Definition third (m e : Z) : Z := m * 2 ^ (K + e) / 3.
Definition small_angle (m e : Z) : bool := (0 <=? m) && (- K <=? e) && (100 * third m e <=? 211 * 2 ^ K).
Definition sin_fix (m e : Z) : Z := let s := fixsin (third m e) in 3 * s * 2 ^ 180 - 4 * (s * s * s).

Lemma bp n : (bpow radix2 (- n) = / bpow radix2 n)%R. Proof. apply bpow_opp. Qed.

Lemma triple_value f : F2R (Float radix2 (3 * f * 2 ^ 180 - 4 * (f * f * f)) (-270)) =
  (3 * (IZR f / sc) - 4 * (IZR f / sc * (IZR f / sc) * (IZR f / sc)))%R.
Proof.
  pose proof sc_pos as P. unfold F2R. cbn [Fnum Fexp]. rewrite minus_IZR, !mult_IZR.
  assert (B : bpow radix2 (-270) = (/ (sc * sc * sc))%R).
  { replace sc with (bpow radix2 90) by reflexivity. rewrite <- !bpow_plus. apply (bpow_opp radix2 270). }
  assert (B' : IZR (2 ^ 180) = (sc * sc)%R).
  { replace sc with (bpow radix2 90) by reflexivity. rewrite <- !bpow_plus. reflexivity. }
  rewrite B, B'. generalize (IZR f). intros ff. set (sK := sc) in *. clearbody sK. field. lra.
Qed.

Lemma triple_near (x y s d3 : R) :
  (Rabs (s - sin y) <= bpow radix2 (-78))%R -> (Rabs (x - 3 * y) <= d3)%R -> (d3 <= bpow radix2 (-78))%R ->
  (Rabs (3 * s - 4 * (s * s * s) - sin x) <= bpow radix2 (-73))%R.
Proof.
  intros S D' D3. pose proof (sin_lip x (3 * y)) as L.
  assert (S3 : (sin (3 * y) = 3 * sin y - 4 * (sin y * sin y * sin y))%R).
  { replace (3 * y)%R with (2 * y + y)%R by ring. rewrite sin_plus, sin_2a, cos_2a.
    pose proof (sin2_cos2 y) as C. unfold Rsqr in C. 
    replace (2 * sin y * cos y * cos y)%R with (2 * sin y * (cos y * cos y))%R by ring.
    replace (cos y * cos y)%R with (1 - sin y * sin y)%R by lra. ring. }
  set (w := sin y) in *.
  assert (W : (-1 <= w <= 1)%R) by apply SIN_bound.
  set (ep := bpow radix2 (-78)) in *. assert (EP : (0 < ep <= 1 / 1000)%R).
  { split; [apply bpow_gt_0|]. unfold ep. change (bpow radix2 (-78)) with (/ IZR (2 ^ 78))%R.
    change (2 ^ 78) with 302231454903657293676544. lra. }
  assert (Q : (Rabs ((3 * s - 4 * (s * s * s)) - (3 * w - 4 * (w * w * w))) <= 16 * ep)%R).
  { replace (3 * s - 4 * (s * s * s) - (3 * w - 4 * (w * w * w)))%R
      with ((s - w) * (3 - 4 * (s * s + s * w + w * w)))%R by ring.
    rewrite Rabs_mult, Rmult_comm. apply Rmult_le_compat; auto using Rabs_pos.
    apply Rabs_le_inv in S. assert (-1001 / 1000 <= s <= 1001 / 1000)%R by lra.
    apply Rabs_le. nra. }
  replace (3 * s - 4 * (s * s * s) - sin x)%R
    with (3 * s - 4 * (s * s * s) - (3 * w - 4 * (w * w * w)) - (sin x - sin (3 * y)))%R by (rewrite S3; ring).
  unfold Rminus at 1. eapply Rle_trans; [apply Rabs_triang|]. rewrite Rabs_Ropp.
  assert (bpow radix2 (-73) = 32 * ep)%R by (unfold ep; change (-73) with (5 + -78); rewrite bpow_plus; reflexivity).
  unfold Rminus in *. lra.
Qed.

Lemma third_near m e : 0 <= K + e -> (Rabs (F2R (Float radix2 m e) - 3 * (IZR (third m e) / sc)) <= 3 / sc)%R.
Proof.
  intros He. pose proof sc_pos as P. pose proof (div_near (m * 2 ^ (K + e)) 3 ltac:(lia)) as D. fold (third m e) in D.
  set (x := F2R (Float radix2 m e)).
  assert (X3 : (IZR (m * 2 ^ (K + e)) = x * sc)%R).
  { unfold x, F2R. cbn [Fnum Fexp]. rewrite mult_IZR, (IZR_Zpower radix2) by lia. 
    change sc with (bpow radix2 K). rewrite bpow_plus. ring. }
  rewrite X3 in D. generalize dependent (IZR (third m e)). intros t D. clearbody x. clear X3. 
  set (sK := sc) in *. clearbody sK.
  replace (x - 3 * (t / sK))%R with (- (3 / sK * (t - x * sK / 3)))%R by (field; lra).
  rewrite Rabs_Ropp, Rabs_mult, (Rabs_pos_eq (3 / sK)) by (apply Rmult_le_pos; [lra|apply Rlt_le, Rinv_0_lt_compat, P]).
  rewrite <- (Rmult_1_r (3 / sK)) at 2. apply Rmult_le_compat_l; [|exact D].
  apply Rmult_le_pos; [lra|apply Rlt_le, Rinv_0_lt_compat, P].
Qed.

Lemma sin_fix_near m e : small_angle m e = true ->
  (Rabs (F2R (Float radix2 (sin_fix m e) (-270)) - sin (F2R (Float radix2 m e))) <= bpow radix2 (-73))%R.
Proof.
  intros H. apply andb_prop in H as [H H3]. apply andb_prop in H as [H1 H2].
  apply Z.leb_le in H1, H2, H3. pose proof sc_pos as P.
  assert (T0 : 0 <= third m e).
  { apply Z.div_pos; [|lia]. apply Z.mul_nonneg_nonneg; [exact H1|]. apply Z.pow_nonneg. lia. }
  assert (Tx : (IZR (third m e) / sc <= 211 / 100)%R).
  { apply IZR_le in H3. rewrite !mult_IZR in H3. apply Rmult_le_reg_r with sc; [exact P|].
    unfold Rdiv at 1. rewrite Rmult_assoc, Rinv_l by lra. lra. }
  pose proof (fixsin_near (third m e) T0 Tx) as S.
  pose proof (third_near m e ltac:(lia)) as D.
  unfold sin_fix. cbv zeta. generalize dependent (fixsin (third m e)). intros f S. rewrite triple_value.
  apply (triple_near _ _ _ _ S D).
  change (bpow radix2 (-78)) with (/ IZR (2 ^ 78))%R. change (2 ^ K) with 1237940039285380274899124224.
  change (2 ^ 78) with 302231454903657293676544. lra.
Qed.

(** With a sign, and the cosine from half the angle. *)
Definition sin_of (x : flt) : flt := Float radix2 (Z.sgn (Fnum x) * sin_fix (Z.abs (Fnum x)) (Fexp x)) (-270).
Definition cos_of (x : flt) : flt :=
  let s := Float radix2 (sin_fix (Z.abs (Fnum x)) (Fexp x - 1)) (-270) in Fminus (fz 1) (Fmult (fz 2) (Fmult s s)).
Definition angle_ok (x : flt) : bool :=
  small_angle (Z.abs (Fnum x)) (Fexp x) && small_angle (Z.abs (Fnum x)) (Fexp x - 1).

Theorem sin_of_near x : angle_ok x = true -> (Rabs (F2R (sin_of x) - sin (F2R x)) <= bpow radix2 (-70))%R.
Proof.
  intros H. apply andb_prop in H as [H _]. apply sin_fix_near in H. destruct x as [m e]. unfold sin_of. cbn [Fnum Fexp] in *.
  assert (E : F2R (Float radix2 m e) = (IZR (Z.sgn m) * F2R (Float radix2 (Z.abs m) e))%R).
  { unfold F2R. cbn [Fnum Fexp]. rewrite <- Rmult_assoc, <- mult_IZR. do 2 f_equal. lia. }
  assert (E' : F2R (Float radix2 (Z.sgn m * sin_fix (Z.abs m) e) (-270)) =
    (IZR (Z.sgn m) * F2R (Float radix2 (sin_fix (Z.abs m) e) (-270)))%R).
  { unfold F2R. cbn [Fnum Fexp]. rewrite mult_IZR. apply Rmult_assoc. }
  assert (L : (bpow radix2 (-73) <= bpow radix2 (-70))%R) by (apply bpow_le; lia).
  rewrite E, E'. clear E E'. generalize dependent (F2R (Float radix2 (sin_fix (Z.abs m) e) (-270))). intros s H.
  set (a := F2R (Float radix2 (Z.abs m) e)) in *.
  destruct (Z.sgn_spec m) as [[_ G]|[[_ G]|[_ G]]]; rewrite G.
  - rewrite !Rmult_1_l. lra.
  - rewrite !Rmult_0_l, sin_0, Rminus_eq_0, Rabs_R0. apply bpow_ge_0.
  - assert (N : sin (-1 * a) = (- sin a)%R) by (rewrite <- sin_neg; f_equal; ring).
    change (IZR (- (1))) with (IZR (-1)). rewrite N. replace (-1 * s - - sin a)%R with (- (s - sin a))%R by ring.
    rewrite Rabs_Ropp. lra.
Qed.

Theorem cos_of_near x : angle_ok x = true -> (Rabs (F2R (cos_of x) - cos (F2R x)) <= bpow radix2 (-70))%R.
Proof.
  intros H. apply andb_prop in H as [_ H]. apply sin_fix_near in H. destruct x as [m e]. unfold cos_of. cbn [Fnum Fexp] in *.
  rewrite F2R_minus, !F2R_mult, !fz_val.
  generalize dependent (F2R (Float radix2 (sin_fix (Z.abs m) (e - 1)) (-270))). intros s H.
  set (h := F2R (Float radix2 (Z.abs m) (e - 1))) in *.
  assert (E : cos (F2R (Float radix2 m e)) = cos (2 * h)).
  { assert (A : (2 * h = Rabs (F2R (Float radix2 m e)))%R).
    { rewrite <- F2R_Zabs. unfold h, F2R. cbn [Fnum Fexp]. unfold Zminus. rewrite bpow_plus.
      change (bpow radix2 (-(1))) with (/ 2)%R. field. }
    rewrite A. unfold Rabs. destruct (Rcase_abs _); [rewrite cos_neg|]; reflexivity. }
  rewrite E, cos_2a_sin. set (w := sin h) in *. assert (W : (-1 <= w <= 1)%R) by apply SIN_bound.
  assert (EP : (0 < bpow radix2 (-73) <= 1 / 1000)%R).
  { split; [apply bpow_gt_0|]. change (bpow radix2 (-73)) with (/ IZR (2 ^ 73))%R.
    change (2 ^ 73) with 9444732965739290427392. lra. }
  assert (E2 : (bpow radix2 (-70) = 8 * bpow radix2 (-73))%R) by (change (-70) with (3 + -73); rewrite bpow_plus; reflexivity).
  set (ep := bpow radix2 (-73)) in *. rewrite E2.
  replace (1 - 2 * (s * s) - (1 - 2 * w * w))%R with (- ((s - w) * (2 * (s + w))))%R by ring.
  rewrite Rabs_Ropp, Rabs_mult, Rmult_comm. apply Rmult_le_compat; auto using Rabs_pos.
  apply Rabs_le_inv in H. apply Rabs_le. lra.
Qed.
