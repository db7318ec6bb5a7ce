(** Rounding errors from the trigonometric values to the point in the plane of
    the face. *)
From Coq Require Import ZArith Reals Lra Lia Bool List.
From Flocq Require Import Core BinarySingleNaN.
From Verif Require Import FloatModel Spec MathSpec ValueFacts SinFacts HexFacts PipeFacts ErrorFacts SinError HexCell.
Import ListNotations.
Local Open Scope Z_scope.

Section Approx.
Context {E M : Z} {HF : Format E M}.
Context (HE8 : 8 <= E) (HM23 : 23 <= M).
Notation fmt := (Spec.fmt E M).
Notation rne := (Spec.rne E M).
Notation u := (unit_ro M).
Notation eta := (half_min E M).

(** ** Square roots and norms *)

Lemma eta_u3 : (eta <= u * u * u / 100)%R.
Proof.
  unfold half_min, unit_ro. apply Rle_trans with (bpow radix2 (- prec M + - prec M + - prec M + -7)).
  - apply bpow_le. pose proof (f_2M (E:=E) (M:=M)). pose proof (f_64 (E:=E) (M:=M)).
    unfold emin, prec, emax in *.
    destruct (Z_le_gt_dec 9 E).
    + assert (2 ^ 8 <= 2 ^ (E - 1)) by (apply Z.pow_le_mono_r; lia). lia.
    + replace E with 8 in * by lia. change (2 ^ (8 - 1)) with 128 in *. lia.
  - rewrite !bpow_plus. pose proof (bpow_gt_0 radix2 (- prec M)).
    assert (0 < bpow radix2 (- prec M) * bpow radix2 (- prec M) * bpow radix2 (- prec M))%R
      by (repeat apply Rmult_lt_0_compat; assumption).
    change (bpow radix2 (-7)) with (/ 128)%R. lra.
Qed.

Lemma sqrt_near D N t s : (0 <= D)%R -> (0 <= N)%R -> (0 <= t)%R -> (0 <= s)%R ->
  (Rabs (D - N * N) <= t * (N * N) + s * s)%R -> (Rabs (sqrt D - N) <= t * N + s)%R.
Proof.
  intros HD HN Ht Hs H. apply Rabs_le_inv in H as [H1 H2].
  set (e := (t * N + s)%R).
  assert (TN : (0 <= t * N)%R) by (apply Rmult_le_pos; assumption).
  assert (E0 : (0 <= e)%R) by (unfold e; lra).
  assert (NN : (0 <= N * N)%R) by (apply Rmult_le_pos; assumption).
  assert (T2 : (0 <= t * (N * N))%R) by (apply Rmult_le_pos; assumption).
  assert (SN : (0 <= s * N)%R) by (apply Rmult_le_pos; assumption).
  apply Rabs_le. split.
  - destruct (Rle_or_lt N e) as [L|L]; [pose proof (sqrt_pos D); lra|].
    assert (N - e <= sqrt D)%R; [|lra].
    rewrite <- (sqrt_square (N - e)) by lra. apply sqrt_le_1_alt.
    assert (SL : (s <= N)%R) by (unfold e in L; lra).
    assert (s * s <= s * N)%R by (apply Rmult_le_compat_l; assumption).
    assert (e * e <= N * e)%R by (apply Rmult_le_compat_r; lra).
    assert (N * e = t * (N * N) + s * N)%R by (unfold e; ring).
    replace ((N - e) * (N - e))%R with (N * N - 2 * (N * e) + e * e)%R by ring. lra.
  - assert (sqrt D <= N + e)%R; [|lra].
    rewrite <- (sqrt_square (N + e)) by lra. apply sqrt_le_1_alt.
    assert (N * e = t * (N * N) + s * N)%R by (unfold e; ring).
    assert (s * s <= e * e)%R by (apply Rmult_le_compat; unfold e; lra).
    replace ((N + e) * (N + e))%R with (N * N + 2 * (N * e) + e * e)%R by ring. lra.
Qed.



(** Rounding a value known up to a factor. *)
Definition rel (al be e v : R) : Prop := (0 <= v /\ Rabs (e - v) <= al * v + be)%R.

Lemma rel_round al be e v : rel al be e v -> (0 <= al <= 1 / 1000)%R -> (0 <= be)%R ->
  rel (al + 1001 / 1000 * u) (1001 / 1000 * be + eta) (rne e) v.
Proof.
  intros [V H] [A0 A] B. split; [exact V|]. destruct (rne_err e) as (t & s & T & S & ->).
  pose proof (u_pos (M:=M)) as U0. pose proof (u_small HM23) as U1.
  replace (e * (1 + t) + s - v)%R with ((e - v) * (1 + t) + v * t + s)%R by ring.
  eapply Rle_trans; [apply Rabs_triang|]. eapply Rle_trans; [apply Rplus_le_compat_r, Rabs_triang|].
  rewrite !Rabs_mult, (Rabs_pos_eq v V).
  assert (T1 : (Rabs (1 + t) <= 1 + u)%R).
  { eapply Rle_trans; [apply Rabs_triang|]. rewrite Rabs_R1. lra. }
  assert (H1 : (Rabs (e - v) * Rabs (1 + t) <= (al * v + be) * (1 + u))%R)
    by (apply Rmult_le_compat; auto using Rabs_pos).
  assert (H2 : (v * Rabs t <= v * u)%R) by (apply Rmult_le_compat_l; assumption).
  assert (AV : (0 <= al * v <= v / 1000)%R) by (split; [apply Rmult_le_pos|]; nra).
  assert (AU : (al * v * u <= v / 1000 * u)%R) by (apply Rmult_le_compat_r; lra).
  assert (BU : (be * u <= be / 1000)%R) by nra.
  lra.
Qed.

Lemma rel_add al be ga e v f w : rel al be e v -> rel al ga f w -> rel al (be + ga) (e + f) (v + w).
Proof.
  intros [V H] [W G]. split; [lra|]. replace (e + f - (v + w))%R with (e - v + (f - w))%R by ring.
  eapply Rle_trans; [apply Rabs_triang|]. lra.
Qed.

Lemma rel_weaken al be al' be' e v : rel al be e v -> (al <= al')%R -> (be <= be')%R -> rel al' be' e v.
Proof. intros [V H] A B. split; [exact V|]. nra. Qed.

Lemma rel_square a : rel (1001 / 1000 * u) eta (rne (a * a)) (a * a).
Proof.
  assert (H : rel 0 0 (a * a) (a * a)) by (split; [apply Rle_0_sqr|rewrite Rminus_eq_0, Rabs_R0; lra]).
  apply rel_round in H; [|lra..]. eapply rel_weaken; [exact H|lra..].
Qed.

Lemma rel_sum2 a b : rel (2003 / 1000 * u) (302 / 100 * eta) (rne (rne (a * a) + rne (b * b))) (a * a + b * b).
Proof.
  pose proof (u_pos (M:=M)) as U0. pose proof (u_small HM23) as U1. pose proof (eta_pos (E:=E) (M:=M)) as E0.
  pose proof (rel_add _ _ _ _ _ _ _ (rel_square a) (rel_square b)) as H.
  apply rel_round in H; [|lra..]. eapply rel_weaken; [exact H|lra..].
Qed.

Lemma rel_sum3 a b c : rel (3005 / 1000 * u) (503 / 100 * eta)
  (rne (rne (rne (a * a) + rne (b * b)) + rne (c * c))) (a * a + b * b + c * c).
Proof.
  pose proof (u_pos (M:=M)) as U0. pose proof (u_small HM23) as U1. pose proof (eta_pos (E:=E) (M:=M)) as E0.
  pose proof (rel_add _ _ _ _ _ _ _ (rel_sum2 a b)
    (rel_weaken _ _ (2003 / 1000 * u) eta _ _ (rel_square c) ltac:(lra) ltac:(lra))) as H.
  apply rel_round in H; [|lra..]. eapply rel_weaken; [exact H|lra..].
Qed.

Lemma rel_sqrt al be D N : (0 <= D)%R -> (0 <= N)%R -> (0 <= al)%R -> (be <= 6 * eta)%R ->
  rel al be D (N * N) -> (Rabs (sqrt D - N) <= al * N + u / 1000)%R.
Proof.
  intros HD HN A B [_ H]. pose proof (u_pos (M:=M)) as U0. pose proof (u_small HM23) as U1. pose proof eta_u3 as E3.
  apply sqrt_near; [assumption..|lra|]. eapply Rle_trans; [exact H|]. apply Rplus_le_compat_l.
  eapply Rle_trans; [exact B|]. assert (0 <= u * u)%R by (apply Rmult_le_pos; lra).
  assert (u * u * u <= u * u * (1 / 1000000))%R by (apply Rmult_le_compat_l; lra). lra.
Qed.

(** ** Vectors *)
Definition norm3 (a b c : R) : R := sqrt (a * a + b * b + c * c).

Lemma norm3_sqr a b c : (norm3 a b c * norm3 a b c = a * a + b * b + c * c)%R.
Proof. apply sqrt_sqrt. nra. Qed.

Lemma norm3_pos a b c : (0 <= norm3 a b c)%R. Proof. apply sqrt_pos. Qed.

Lemma le_sqr x y : (0 <= y)%R -> (x * x <= y * y)%R -> (x <= y)%R.
Proof. intros. nra. Qed.

Lemma norm3_triangle a b c x y z : (norm3 (a + x) (b + y) (c + z) <= norm3 a b c + norm3 x y z)%R.
Proof.
  pose proof (norm3_pos a b c) as P. pose proof (norm3_pos x y z) as Q.
  apply le_sqr; [lra|]. rewrite norm3_sqr.
  assert (C : (a * x + b * y + c * z <= norm3 a b c * norm3 x y z)%R).
  { apply le_sqr; [apply Rmult_le_pos; assumption|].
    replace (norm3 a b c * norm3 x y z * (norm3 a b c * norm3 x y z))%R
      with (norm3 a b c * norm3 a b c * (norm3 x y z * norm3 x y z))%R by ring.
    rewrite !norm3_sqr.
    assert (0 <= (a * y - b * x) * (a * y - b * x))%R by apply Rle_0_sqr.
    assert (0 <= (b * z - c * y) * (b * z - c * y))%R by apply Rle_0_sqr.
    assert (0 <= (a * z - c * x) * (a * z - c * x))%R by apply Rle_0_sqr. nra. }
  replace ((norm3 a b c + norm3 x y z) * (norm3 a b c + norm3 x y z))%R
    with (norm3 a b c * norm3 a b c + norm3 x y z * norm3 x y z + 2 * (norm3 a b c * norm3 x y z))%R by ring.
  rewrite !norm3_sqr. nra.
Qed.

Lemma norm3_near a b c x y z : (Rabs (norm3 a b c - norm3 x y z) <= norm3 (a - x) (b - y) (c - z))%R.
Proof.
  pose proof (norm3_triangle x y z (a - x) (b - y) (c - z)) as T1.
  pose proof (norm3_triangle a b c (x - a) (y - b) (z - c)) as T2.
  replace (x + (a - x))%R with a in T1 by ring. replace (y + (b - y))%R with b in T1 by ring.
  replace (z + (c - z))%R with c in T1 by ring.
  replace (a + (x - a))%R with x in T2 by ring. replace (b + (y - b))%R with y in T2 by ring.
  replace (c + (z - c))%R with z in T2 by ring.
  assert (S : norm3 (x - a) (y - b) (z - c) = norm3 (a - x) (b - y) (c - z)) by (unfold norm3; f_equal; ring).
  rewrite S in T2. apply Rabs_le. lra.
Qed.

Lemma norm3_le a b c p q r k : (Rabs a <= p)%R -> (Rabs b <= q)%R -> (Rabs c <= r)%R -> (0 <= k)%R ->
  (p * p + q * q + r * r <= k * k)%R -> (norm3 a b c <= k)%R.
Proof.
  intros A B C K H. apply le_sqr; [exact K|]. rewrite norm3_sqr. eapply Rle_trans; [|exact H].
  assert (S : forall v w, (Rabs v <= w -> v * v <= w * w)%R).
  { intros v w V. replace (v * v)%R with (Rabs v * Rabs v)%R by (rewrite <- Rabs_mult; apply Rabs_pos_eq, Rle_0_sqr).
    apply Rmult_le_compat; auto using Rabs_pos. }
  apply S in A. apply S in B. apply S in C. lra.
Qed.

(** ** Absolute errors *)
Variable dl : R.
Hypothesis Hu : (u <= dl / 4)%R.
Hypothesis Hdl : (dl <= 1 / 10000)%R.

Lemma dl_pos : (0 < dl)%R. Proof. pose proof (u_pos (M:=M)). lra. Qed.

(** [f] is finite and within [k dl] of [v]. *)
Definition app (f : fmt) (v k : R) : Prop := is_finite f = true /\ (Rabs (B2R f - v) <= k * dl)%R.

Lemma app_weaken f v k k' : app f v k -> (k <= k')%R -> app f v k'.
Proof. intros [F H] L. split; [exact F|]. pose proof dl_pos. nra. Qed.

Lemma app_value f v w k : app f v k -> v = w -> app f w k.
Proof. intros H <-. exact H. Qed.

Lemma app_small f v k A : app f v k -> (Rabs v <= A)%R -> (A + k / 10000 <= 2 ^ 28)%R -> (0 <= k)%R -> keep f = Some f.
Proof.
  intros [F H] L B K. unfold keep. rewrite (small_intro f 29); [reflexivity|exact F| |lia|exact HE8].
  change (bpow radix2 29) with (IZR (2 ^ 29)). change (2 ^ 29) with 536870912.
  assert (k * dl <= k / 10000)%R by (pose proof dl_pos; nra).
  assert (Rabs (B2R f) <= Rabs (B2R f - v) + Rabs v)%R.
  { replace (B2R f) with (B2R f - v + v)%R at 1 by ring. apply Rabs_triang. }
  simpl pow in B. lra.
Qed.

(** Rounding an approximate value. *)
Lemma round_app e v K A c : (Rabs (e - v) <= K * dl)%R -> (Rabs v <= A)%R -> (0 <= K)%R ->
  (A + K / 10000 <= 2 ^ 28)%R -> (K + (A + K / 10000) / 4 + 1 / 100 <= c)%R ->
  fits (E:=E) (rne e) /\ (Rabs (rne e - v) <= c * dl)%R.
Proof.
  intros He Hv K0 HB Hc. pose proof dl_pos as D0. pose proof (u_pos (M:=M)) as U0.
  assert (K1 : (K * dl <= K / 10000)%R) by nra.
  assert (Ha : (Rabs e <= A + K / 10000)%R).
  { replace e with (e - v + v)%R by ring. eapply Rle_trans; [apply Rabs_triang|]. lra. }
  split.
  - apply (fits_40 HE8 HM23 _ 28); [|lia]. change (bpow radix2 28) with (IZR (2 ^ 28)).
    change (2 ^ 28) with 268435456. simpl pow in HB. lra.
  - pose proof (rne_near HE8 e _ Ha) as R. pose proof (Rabs_pos e) as E0.
    replace (rne e - v)%R with (rne e - e + (e - v))%R by ring. eapply Rle_trans; [apply Rabs_triang|].
    assert (u * (A + K / 10000) <= dl / 4 * (A + K / 10000))%R by (apply Rmult_le_compat_r; lra). nra.
Qed.

Lemma prod_err a v b w k l A B : (Rabs (a - v) <= k * dl)%R -> (Rabs (b - w) <= l * dl)%R ->
  (Rabs v <= A)%R -> (Rabs w <= B)%R -> (0 <= k)%R -> (0 <= l)%R ->
  (Rabs (a * b - v * w) <= (k * B + l * A + k * l / 10000) * dl)%R.
Proof.
  intros Ha Hb Hv Hw K0 L0. pose proof dl_pos as D0.
  replace (a * b - v * w)%R with ((a - v) * w + v * (b - w) + (a - v) * (b - w))%R by ring.
  eapply Rle_trans; [apply Rabs_triang|]. eapply Rle_trans; [apply Rplus_le_compat_r, Rabs_triang|].
  rewrite !Rabs_mult.
  assert (Rabs (a - v) * Rabs w <= k * dl * B)%R by (apply Rmult_le_compat; auto using Rabs_pos).
  assert (Rabs v * Rabs (b - w) <= A * (l * dl))%R by (apply Rmult_le_compat; auto using Rabs_pos).
  assert (Rabs (a - v) * Rabs (b - w) <= k * dl * (l * dl))%R by (apply Rmult_le_compat; auto using Rabs_pos).
  assert (k * dl * (l * dl) <= k * l / 10000 * dl)%R.
  { replace (k * dl * (l * dl))%R with (k * l * dl * dl)%R by ring.
    replace (k * l / 10000 * dl)%R with (k * l * dl * (1 / 10000))%R by field.
    apply Rmult_le_compat_l; [|exact Hdl]. apply Rmult_le_pos; [|lra]. apply Rmult_le_pos; assumption. }
  lra.
Qed.

Lemma app_mul f g v w k l A B c : app f v k -> app g w l -> (Rabs v <= A)%R -> (Rabs w <= B)%R ->
  (0 <= k)%R -> (0 <= l)%R ->
  let K := (k * B + l * A + k * l / 10000)%R in
  (A * B + K / 10000 <= 2 ^ 27)%R -> (K + (A * B + K / 10000) / 4 + 1 / 100 <= c)%R ->
  exists h, o_mul f g = Some h /\ app h (v * w) c.
Proof.
  intros [Ff Hf] [Fg Hg] HA HB K0 L0 K HK Hc. pose proof dl_pos as D0.
  pose proof (prod_err _ _ _ _ _ _ _ _ Hf Hg HA HB K0 L0) as P. fold K in P.
  assert (A0 : (0 <= A)%R) by (pose proof (Rabs_pos v); lra).
  assert (B0 : (0 <= B)%R) by (pose proof (Rabs_pos w); lra).
  assert (KP : (0 <= K)%R).
  { unfold K. assert (0 <= k * B)%R by (apply Rmult_le_pos; assumption).
    assert (0 <= l * A)%R by (apply Rmult_le_pos; assumption).
    assert (0 <= k * l)%R by (apply Rmult_le_pos; assumption). lra. }
  assert (HV : (Rabs (v * w) <= A * B)%R).
  { rewrite Rabs_mult. apply Rmult_le_compat; auto using Rabs_pos. }
  destruct (round_app _ _ K (A * B) c P HV KP) as [R1 R2]; [simpl pow in *; lra|exact Hc|].
  destruct (mul_fin f g Ff Fg R1) as [M1 M2].
  exists (ieee_mul E M f g). assert (Ha : app (ieee_mul E M f g) (v * w) c) by (split; [exact M1|rewrite M2; exact R2]).
  split; [|exact Ha]. unfold o_mul. apply (small_intro _ 29) in M1; [unfold keep; rewrite M1; reflexivity| |lia|exact HE8].
  rewrite M2. eapply Rle_lt_trans; [apply (bnd_rne HE8 HM23 _ 28); [|lia]|apply bpow_lt; lia].
  replace (B2R f * B2R g)%R with (B2R f * B2R g - v * w + v * w)%R by ring.
  eapply Rle_trans; [apply Rabs_triang|]. change (bpow radix2 28) with (IZR (2 ^ 28)). change (2 ^ 28) with 268435456.
  assert (K * dl <= K / 10000)%R by nra. simpl pow in HK. lra.
Qed.

Lemma app_keep_op (h : fmt) e v K A c : is_finite h = true -> B2R h = rne e ->
  (Rabs (e - v) <= K * dl)%R -> (Rabs v <= A)%R -> (0 <= K)%R -> (A + K / 10000 <= 2 ^ 27)%R ->
  (K + (A + K / 10000) / 4 + 1 / 100 <= c)%R -> keep h = Some h /\ app h v c.
Proof.
  intros F V He Hv K0 HK Hc. pose proof dl_pos as D0.
  destruct (round_app _ _ K A c He Hv K0) as [R1 R2]; [simpl pow in *; lra|exact Hc|].
  split; [|split; [exact F|rewrite V; exact R2]].
  unfold keep. rewrite (small_intro h 29); [reflexivity|exact F| |lia|exact HE8].
  rewrite V. eapply Rle_lt_trans; [apply (bnd_rne HE8 HM23 _ 28); [|lia]|apply bpow_lt; lia].
  replace e with (e - v + v)%R by ring.
  eapply Rle_trans; [apply Rabs_triang|]. change (bpow radix2 28) with (IZR (2 ^ 28)). change (2 ^ 28) with 268435456.
  assert (K * dl <= K / 10000)%R by nra. simpl pow in HK. lra.
Qed.

Lemma app_add f g v w k l A c : app f v k -> app g w l -> (Rabs (v + w) <= A)%R ->
  (0 <= k)%R -> (0 <= l)%R -> (A + (k + l) / 10000 <= 2 ^ 27)%R ->
  (k + l + (A + (k + l) / 10000) / 4 + 1 / 100 <= c)%R ->
  exists h, o_add f g = Some h /\ app h (v + w) c.
Proof.
  intros [Ff Hf] [Fg Hg] HA K0 L0 HK Hc. pose proof dl_pos as D0.
  assert (P : (Rabs (B2R f + B2R g - (v + w)) <= (k + l) * dl)%R).
  { replace (B2R f + B2R g - (v + w))%R with (B2R f - v + (B2R g - w))%R by ring.
    eapply Rle_trans; [apply Rabs_triang|]. lra. }
  destruct (round_app _ _ (k + l) A c P HA) as [R1 R2]; [lra|simpl pow in *; lra|exact Hc|].
  destruct (add_fin f g Ff Fg R1) as [M1 M2]. exists (ieee_add E M f g).
  exact (app_keep_op _ _ _ (k + l) A c M1 M2 P HA ltac:(lra) HK Hc).
Qed.

Lemma app_sub f g v w k l A c : app f v k -> app g w l -> (Rabs (v - w) <= A)%R ->
  (0 <= k)%R -> (0 <= l)%R -> (A + (k + l) / 10000 <= 2 ^ 27)%R ->
  (k + l + (A + (k + l) / 10000) / 4 + 1 / 100 <= c)%R ->
  exists h, o_sub f g = Some h /\ app h (v - w) c.
Proof.
  intros [Ff Hf] [Fg Hg] HA K0 L0 HK Hc. pose proof dl_pos as D0.
  assert (P : (Rabs (B2R f - B2R g - (v - w)) <= (k + l) * dl)%R).
  { replace (B2R f - B2R g - (v - w))%R with (B2R f - v - (B2R g - w))%R by ring.
    unfold Rminus at 1. eapply Rle_trans; [apply Rabs_triang|]. rewrite Rabs_Ropp. lra. }
  destruct (round_app _ _ (k + l) A c P HA) as [R1 R2]; [lra|simpl pow in *; lra|exact Hc|].
  destruct (sub_fin f g Ff Fg R1) as [M1 M2]. exists (ieee_sub E M f g).
  exact (app_keep_op _ _ _ (k + l) A c M1 M2 P HA ltac:(lra) HK Hc).
Qed.

(** Division by a value away from 0: [W <= |w|], the quotient at most [Q]. *)
Lemma app_div f g v w k l W Q c : app f v k -> app g w l -> (0 < W - l / 10000)%R -> (W <= Rabs w)%R ->
  (Rabs (v / w) <= Q)%R -> (0 <= k)%R -> (0 <= l)%R ->
  let K := ((k + Q * l) / (W - l / 10000))%R in
  (Q + K / 10000 <= 2 ^ 27)%R -> (K + (Q + K / 10000) / 4 + 1 / 100 <= c)%R ->
  exists h, o_div f g = Some h /\ app h (v / w) c.
Proof.
  intros [Ff Hf] [Fg Hg] W0 HW HQ K0 L0 K HK Hc. pose proof dl_pos as D0.
  assert (Hg2 : (W - l / 10000 <= Rabs (B2R g))%R).
  { assert (l * dl <= l / 10000)%R by nra.
    pose proof (Rabs_triang (w - B2R g) (B2R g)) as T. replace (w - B2R g + B2R g)%R with w in T by ring.
    rewrite (Rabs_minus_sym w) in T. lra. }
  assert (Gz : B2R g <> 0%R) by (intros Z; rewrite Z, Rabs_R0 in Hg2; lra).
  assert (Wz : w <> 0%R).
  { intros Z. rewrite Z, Rabs_R0 in HW. assert (0 <= l / 10000)%R by lra. lra. }
  assert (Q0 : (0 <= Q)%R) by (pose proof (Rabs_pos (v / w)); lra).
  assert (QL : (0 <= Q * l)%R) by (apply Rmult_le_pos; assumption).
  assert (KP : (0 <= K)%R) by (unfold K; apply Rmult_le_pos; [lra|apply Rlt_le, Rinv_0_lt_compat; exact W0]).
  assert (P : (Rabs (B2R f / B2R g - v / w) <= K * dl)%R).
  { replace (B2R f / B2R g - v / w)%R with ((B2R f - v - v / w * (B2R g - w)) / B2R g)%R by (field; auto).
    unfold Rdiv at 1. rewrite Rabs_mult, (Rabs_inv (B2R g)).
    assert (H1 : (Rabs (B2R f - v - v / w * (B2R g - w)) <= (k + Q * l) * dl)%R).
    { unfold Rminus at 1. eapply Rle_trans; [apply Rabs_triang|]. rewrite Rabs_Ropp, Rabs_mult.
      assert (Rabs (v / w) * Rabs (B2R g - w) <= Q * (l * dl))%R by (apply Rmult_le_compat; auto using Rabs_pos). lra. }
    unfold K, Rdiv. rewrite (Rmult_assoc (k + Q * l)), (Rmult_comm _ dl), <- Rmult_assoc.
    apply Rmult_le_compat; [apply Rabs_pos| |exact H1|].
    - apply Rlt_le, Rinv_0_lt_compat. lra.
    - apply Rinv_le_contravar; lra. }
  destruct (round_app _ _ K Q c P HQ) as [R1 R2]; [exact KP|simpl pow in *; lra|exact Hc|].
  destruct (div_fin f g Ff Gz R1) as [M1 M2]. exists (ieee_div E M f g).
  exact (app_keep_op _ _ _ K Q c M1 M2 P HQ KP HK Hc).
Qed.

End Approx.
