(** closestFaceCalculations: the first face at minimal distance. *)
From Coq Require Import ZArith Reals Lra Lia Bool List.
From Flocq Require Import Core BinarySingleNaN.
From Verif Require Import Field FieldFacts Circuit CircuitFacts RangeCheck RangeFacts Gadget
  GadgetFacts Util FloatModel Tactics RoundFacts Spec RoundCore RepFacts MulFacts
  AddFacts AddSpec Forge CompFacts NewFacts CmpFacts EqFacts Outcomes CircuitSpec Expr ExprFacts
  ValueFacts Math MathFacts SinFacts Loc2Index ScaleFacts.
Import ListNotations.
Local Open Scope Z_scope.

(** ** Specification *)
Section Spec.
Context {E M : Z} {HF : Format E M}.
Notation fmt := (Spec.fmt E M).

(** Squared distance to the centre of a face in IEEE arithmetic. *)
Definition ieee_distance (f : face) (x y z : fmt) : fmt :=
  let square d := ieee_mul E M d d in
  let dx := ieee_sub E M (of_bits E M (centre_x f)) x in
  let dy := ieee_sub E M (of_bits E M (centre_y f)) y in
  let dz := ieee_sub E M (of_bits E M (centre_z f)) z in
  ieee_add E M (ieee_add E M (square dx) (square dy)) (square dz).

(** The first face at minimal distance, if any is nearer than 5. *)
Definition first_nearest (dist : face -> fmt) (five : fmt) (faces : list face) (n : nat) (f : face) : Prop :=
  nth_error faces n = Some f /\ ieee_lt E M (dist f) five = true /\
  (forall m g, nth_error faces m = Some g -> ieee_lt E M (dist g) (dist f) = false) /\
  (forall m g, (m < n)%nat -> nth_error faces m = Some g -> ieee_le E M (dist g) (dist f) = false).

Definition none_near (dist : face -> fmt) (five : fmt) (faces : list face) : Prop :=
  forall m g, nth_error faces m = Some g -> ieee_lt E M (dist g) five = false.

(** Patterns in range, centres below the topmost binade. *)
Definition good_face (f : face) : Prop :=
  Forall (fun p => 0 <= p < 2 ^ (E + M + 1))
    [centre_x f; centre_y f; centre_z f; c_sinFaceLat f; c_cosFaceLat f; c_sinFaceLng f; c_cosFaceLng f;
     c_sinAzimuth f; c_cosAzimuth f; c_sinAzimuthRot f; c_cosAzimuthRot f] /\
  Forall (fun p => is_finite (of_bits E M p) = true /\
                   (Rabs (B2R (of_bits E M p)) < bpow radix2 (emax E - 1))%R)
    [centre_x f; centre_y f; centre_z f].

(** Order of data as extended reals. *)
Definition key (f : fmt) : R :=
  match f with B754_infinity s => (sgn s * bpow radix2 (emax E))%R | _ => B2R f end.

Lemma key_finite f : is_finite f = true -> key f = B2R f /\ (Rabs (B2R f) < bpow radix2 (emax E))%R.
Proof.
  intros H. split; [destruct f; try discriminate; reflexivity|]. apply abs_B2R_lt_emax.
Qed.

Lemma compare_key (f g : fmt) : is_nan f = false -> is_nan g = false ->
  Bcompare f g = Some (Rcompare (key f) (key g)).
Proof.
  intros Hf Hg.
  destruct (is_finite f) eqn:Ff, (is_finite g) eqn:Fg.
  - rewrite (Bcompare_correct _ _ f g Ff Fg).
    rewrite (proj1 (key_finite f Ff)), (proj1 (key_finite g Fg)). reflexivity.
  - destruct g as [t|t| |t m e H]; try discriminate. destruct (key_finite f Ff) as [-> Hlt].
    apply Rabs_def2 in Hlt. cbn [key]. 
    destruct f as [u|u| |u m e H]; try discriminate; destruct t; cbn [Bcompare B2SF SpecFloat.SFcompare sgn cond_Ropp];
      symmetry; f_equal;
      solve [apply Rcompare_Gt; lra | apply Rcompare_Lt; lra].
  - destruct f as [t|t| |t m e H]; try discriminate. destruct (key_finite g Fg) as [-> Hlt].
    apply Rabs_def2 in Hlt. cbn [key].
    destruct g as [u|u| |u m e H]; try discriminate; destruct t; cbn [Bcompare B2SF SpecFloat.SFcompare sgn cond_Ropp];
      symmetry; f_equal;
      solve [apply Rcompare_Gt; lra | apply Rcompare_Lt; lra].
  - destruct f as [u|u| |u m e H]; try discriminate; destruct g as [t|t| |t m e H]; try discriminate.
    pose proof (bpow_gt_0 radix2 (emax E)) as Hp.
    destruct u, t; cbn [Bcompare B2SF SpecFloat.SFcompare key sgn]; symmetry; f_equal;
      solve [apply Rcompare_Gt; lra | apply Rcompare_Lt; lra | apply Rcompare_Eq; lra].
Qed.

Lemma lt_key (f g : fmt) : is_nan f = false -> is_nan g = false ->
  (ieee_lt E M f g = true <-> (key f < key g)%R).
Proof.
  intros Hf Hg. unfold ieee_lt, Bltb, SpecFloat.SFltb. 
  change (SpecFloat.SFcompare (B2SF f) (B2SF g)) with (Bcompare f g).
  rewrite (compare_key f g Hf Hg). destruct (Rcompare_spec (key f) (key g)); split; intros; try lra; try discriminate; reflexivity.
Qed.

Lemma le_key (f g : fmt) : is_nan f = false -> is_nan g = false ->
  (ieee_le E M f g = true <-> (key f <= key g)%R).
Proof.
  intros Hf Hg. unfold ieee_le, Bleb, SpecFloat.SFleb. 
  change (SpecFloat.SFcompare (B2SF f) (B2SF g)) with (Bcompare f g).
  rewrite (compare_key f g Hf Hg). destruct (Rcompare_spec (key f) (key g)); split; intros; try lra; try discriminate; reflexivity.
Qed.

Lemma lt_nan_l (f g : fmt) : is_nan f = true -> ieee_lt E M f g = false /\ ieee_le E M f g = false.
Proof. destruct f; try discriminate. intros _. split; destruct g; reflexivity. Qed.
Lemma lt_nan_r (f g : fmt) : is_nan g = true -> ieee_lt E M f g = false /\ ieee_le E M f g = false.
Proof. destruct g; try discriminate. intros _. split; destruct f as [[]|[]| |[] ? ? ?]; reflexivity. Qed.

Lemma nth_snoc {A} (l : list A) a m g : nth_error (l ++ [a]) m = Some g ->
  (nth_error l m = Some g /\ (m < length l)%nat) \/ (m = length l /\ g = a).
Proof.
  intros H. destruct (Nat.lt_ge_cases m (length l)) as [Hm|Hm].
  - rewrite nth_error_app1 in H by exact Hm. auto.
  - rewrite nth_error_app2 in H by exact Hm. right.
    destruct (m - length l)%nat as [|k] eqn:Ek; [|destruct k; discriminate].
    cbn in H. split; [lia|congruence].
Qed.

(** One more face. *)
Lemma nearest_step dist five pre n f g : first_nearest dist five pre n f ->
  if ieee_lt E M (dist g) (dist f) then first_nearest dist five (pre ++ [g]) (length pre) g
  else first_nearest dist five (pre ++ [g]) n f.
Proof.
  intros (H1 & H2 & H3 & H4).
  assert (Nf : is_nan (dist f) = false)
    by (destruct (is_nan (dist f)) eqn:N; [rewrite (proj1 (lt_nan_l _ _ N)) in H2; discriminate|reflexivity]).
  assert (N5 : is_nan five = false)
    by (destruct (is_nan five) eqn:N; [rewrite (proj1 (lt_nan_r _ _ N)) in H2; discriminate|reflexivity]).
  assert (Hn : (n < length pre)%nat) by (apply nth_error_Some; congruence).
  destruct (ieee_lt E M (dist g) (dist f)) eqn:L.
  - assert (Ng : is_nan (dist g) = false)
      by (destruct (is_nan (dist g)) eqn:N; [rewrite (proj1 (lt_nan_l _ _ N)) in L; discriminate|reflexivity]).
    apply (lt_key _ _ Ng Nf) in L. pose proof H2 as H2'. apply (lt_key _ _ Nf N5) in H2'.
    assert (Hold : forall m h, nth_error pre m = Some h -> is_nan (dist h) = false -> (key (dist f) <= key (dist h))%R).
    { intros m h Hm Nh. specialize (H3 m h Hm). destruct (Rle_lt_dec (key (dist f)) (key (dist h))) as [|C]; [assumption|].
      apply (lt_key _ _ Nh Nf) in C. congruence. }
    split; [rewrite nth_error_app2, Nat.sub_diag by lia; reflexivity|].
    split; [apply (lt_key _ _ Ng N5); lra|]. split.
    + intros m h Hm. destruct (nth_snoc _ _ _ _ Hm) as [[Hm' _]|[_ ->]].
      * destruct (is_nan (dist h)) eqn:Nh; [apply lt_nan_l, Nh|].
        specialize (Hold m h Hm' Nh). destruct (ieee_lt E M (dist h) (dist g)) eqn:C; [|reflexivity].
        apply (lt_key _ _ Nh Ng) in C. lra.
      * destruct (ieee_lt E M (dist g) (dist g)) eqn:C; [|reflexivity].
        apply (lt_key _ _ Ng Ng) in C. lra.
    + intros m h Hlt Hm. rewrite nth_error_app1 in Hm by exact Hlt.
      destruct (is_nan (dist h)) eqn:Nh; [apply lt_nan_l, Nh|].
      specialize (Hold m h Hm Nh). destruct (ieee_le E M (dist h) (dist g)) eqn:C; [|reflexivity].
      apply (le_key _ _ Nh Ng) in C. lra.
  - split; [rewrite nth_error_app1 by exact Hn; exact H1|]. split; [exact H2|]. split.
    + intros m h Hm. destruct (nth_snoc _ _ _ _ Hm) as [[Hm' _]|[_ ->]]; [exact (H3 m h Hm')|exact L].
    + intros m h Hlt Hm. rewrite nth_error_app1 in Hm by lia. exact (H4 m h Hlt Hm).
Qed.

Lemma none_step dist five pre g : none_near dist five pre ->
  if ieee_lt E M (dist g) five then first_nearest dist five (pre ++ [g]) (length pre) g
  else none_near dist five (pre ++ [g]).
Proof.
  intros H. destruct (ieee_lt E M (dist g) five) eqn:L.
  - assert (Ng : is_nan (dist g) = false)
      by (destruct (is_nan (dist g)) eqn:N; [rewrite (proj1 (lt_nan_l _ _ N)) in L; discriminate|reflexivity]).
    assert (N5 : is_nan five = false)
      by (destruct (is_nan five) eqn:N; [rewrite (proj1 (lt_nan_r _ _ N)) in L; discriminate|reflexivity]).
    pose proof L as L'. apply (lt_key _ _ Ng N5) in L'.
    assert (Hold : forall m h, nth_error pre m = Some h -> is_nan (dist h) = false -> (key five <= key (dist h))%R).
    { intros m h Hm Nh. specialize (H m h Hm). destruct (Rle_lt_dec (key five) (key (dist h))) as [|C]; [assumption|].
      apply (lt_key _ _ Nh N5) in C. congruence. }
    split; [rewrite nth_error_app2, Nat.sub_diag by lia; reflexivity|]. split; [exact L|]. split.
    + intros m h Hm. destruct (nth_snoc _ _ _ _ Hm) as [[Hm' _]|[_ ->]].
      * destruct (is_nan (dist h)) eqn:Nh; [apply lt_nan_l, Nh|].
        specialize (Hold m h Hm' Nh). destruct (ieee_lt E M (dist h) (dist g)) eqn:C; [|reflexivity].
        apply (lt_key _ _ Nh Ng) in C. lra.
      * destruct (ieee_lt E M (dist g) (dist g)) eqn:C; [|reflexivity].
        apply (lt_key _ _ Ng Ng) in C. lra.
    + intros m h Hlt Hm. rewrite nth_error_app1 in Hm by exact Hlt.
      destruct (is_nan (dist h)) eqn:Nh; [apply lt_nan_l, Nh|].
      specialize (Hold m h Hm Nh). destruct (ieee_le E M (dist h) (dist g)) eqn:C; [|reflexivity].
      apply (le_key _ _ Nh Ng) in C. lra.
  - intros m h Hm. destruct (nth_snoc _ _ _ _ Hm) as [[Hm' _]|[_ ->]]; [exact (H m h Hm')|exact L].
Qed.

(** The minimal first index is unique. *)
Lemma first_nearest_unique dist five faces n f m g : first_nearest dist five faces n f ->
  first_nearest dist five faces m g -> n = m /\ f = g.
Proof.
  intros (A1 & A2 & A3 & A4) (B1 & B2 & B3 & B4).
  assert (Nf : is_nan (dist f) = false)
    by (destruct (is_nan (dist f)) eqn:N; [rewrite (proj1 (lt_nan_l _ _ N)) in A2; discriminate|reflexivity]).
  assert (Ng : is_nan (dist g) = false)
    by (destruct (is_nan (dist g)) eqn:N; [rewrite (proj1 (lt_nan_l _ _ N)) in B2; discriminate|reflexivity]).
  destruct (Nat.lt_trichotomy n m) as [L|[->|L]].
  - exfalso. specialize (B4 n f L A1). specialize (A3 m g B1).
    destruct (Rle_lt_dec (key (dist f)) (key (dist g))) as [C|C].
    + apply (le_key _ _ Nf Ng) in C. congruence.
    + apply (lt_key _ _ Ng Nf) in C. congruence.
  - split; [reflexivity|]. congruence.
  - exfalso. specialize (A4 m g L B1). specialize (B3 n f A1).
    destruct (Rle_lt_dec (key (dist g)) (key (dist f))) as [C|C].
    + apply (le_key _ _ Ng Nf) in C. congruence.
    + apply (lt_key _ _ Nf Ng) in C. congruence.
Qed.

End Spec.

(** ** The circuit *)
Section Circuit.
Context {MOD : Modulus} {E M b : Z} {HP : Params E M b} {HF : Format E M}.
#[local] Instance Wn : Width b (4 * M + 44) := params_width E M b HP.
#[local] Instance Bn : BigMod := width_big b _ _.
Notation fmt := (Spec.fmt E M).
Notation emax := (Spec.emax E).

Lemma square_sign (d : fmt) : is_nan (ieee_mul E M d d) = false -> Bsign (ieee_mul E M d d) = false.
Proof.
  intros H. unfold ieee_mul in *.
  destruct d as [s|s| |s m e Hd]; try (destruct s; reflexivity); [discriminate H|].
  set (d := B754_finite s m e Hd) in *.
  pose proof (Bmult_correct _ _ _ _ mode_NE d d) as C.
  destruct (Rlt_bool _ _).
  - destruct C as (_ & _ & C). rewrite (C H). destruct s; reflexivity.
  - replace (Bsign d) with s in C by reflexivity. rewrite xorb_nilpotent in C.
    pose proof (overflow_inf _ _ C) as C2. rewrite C2. reflexivity.
Qed.

Lemma square_nonneg (d : fmt) : (0 <= B2R (ieee_mul E M d d))%R.
Proof.
  destruct (is_nan (ieee_mul E M d d)) eqn:N; [destruct (ieee_mul E M d d); try discriminate; cbn; lra|].
  pose proof (square_sign d N) as H. destruct (ieee_mul E M d d) as [s|s| |s m e Hd]; cbn [B2R]; try lra.
  cbn [Bsign] in H. subst s. apply F2R_ge_0. cbn. lia.
Qed.

Lemma add_nonneg (x y : fmt) : (0 <= B2R x)%R -> (0 <= B2R y)%R -> (0 <= B2R (ieee_add E M x y))%R.
Proof.
  intros Hx Hy. 
  destruct (is_finite (ieee_add E M x y)) eqn:F;
    [|destruct (ieee_add E M x y); try discriminate; cbn; lra].
  destruct (is_finite x) eqn:Fx; [|destruct x, y; try discriminate; cbn in F; try discriminate;
    destruct (eqb _ _) in F; discriminate].
  destruct (is_finite y) eqn:Fy; [|destruct x, y; try discriminate; cbn in F; try discriminate;
    destruct (eqb _ _) in F; discriminate].
  pose proof (Bplus_correct _ _ _ _ mode_NE x y Fx Fy) as C.
  unfold ieee_add in *. destruct (Rlt_bool _ _).
  - rewrite (proj1 C). apply round_ge_generic; [apply FLT_exp_valid; typeclasses eauto|apply valid_rnd_N|apply generic_format_0|lra].
  - destruct C as [C _]. rewrite (overflow_inf _ _ C) in F. discriminate.
Qed.

Lemma nonneg_no_cancel (x y : fmt) : (0 <= B2R x)%R -> (0 <= B2R y)%R -> ~ max_cancel E M x y.
Proof.
  intros Hx Hy (_ & _ & H & Hb). pose proof (bpow_gt_0 radix2 (emax - 1)).
  rewrite Rabs_pos_eq in Hb by exact Hx. lra.
Qed.

Lemma small_no_cancel (x y : fmt) : (Rabs (B2R x) < bpow radix2 (emax - 1))%R -> ~ max_cancel E M x y.
Proof. intros H (_ & _ & _ & Hb). lra. Qed.

(** Honest run of one difference and its square. *)
Lemma square_runs p y (fy : fmt) :
  0 <= p < 2 ^ (E + M + 1) ->
  (Rabs (B2R (of_bits E M p)) < bpow radix2 (emax - 1))%R -> represents y fy ->
  let d := ieee_sub E M (of_bits E M p) fy in
  exists r, represents r (ieee_mul E M d d) /\ forall A (k : FloatVar -> circ A),
  exec b (d <- Sub E M (NewConstant E M p) y ;; s <- Mul E M d d ;; k s) = exec b (k r).
Proof.
  intros Hp Hb Hy d.
  destruct (sub_runs (NewConstant E M p) y _ _ (newconst_spec p Hp) Hy) as (r & H1 & H2).
  rewrite (honest_diff_ieee _ _ (small_no_cancel _ _ Hb)) in H2.
  destruct (mul_complete (b:=b) r r _ _ H2 H2) as (s & H3 & H4).
  exists s. split; [exact H4|]. intros A k. rewrite (exec_bind_eq _ _ _ _ H1), (exec_bind_eq _ _ _ _ H3). reflexivity.
Qed.

Lemma distance_runs f x y z (fx fy fz : fmt) : good_face (E:=E) (M:=M) f ->
  represents x fx -> represents y fy -> represents z fz ->
  runs (b:=b) (face_distance E M f x y z) (ieee_distance f fx fy fz).
Proof.
  intros [G1 G2] Hx Hy Hz. unfold face_distance.
  inversion_clear G1 as [|? ? P1 G1']. inversion_clear G1' as [|? ? P2 G1]. inversion_clear G1 as [|? ? P3 G1'].
  clear G1'.
  inversion_clear G2 as [|? ? [_ B1] G2']. inversion_clear G2' as [|? ? [_ B2] G2].
  inversion_clear G2 as [|? ? [_ B3] _].
  destruct (square_runs (centre_x f) x fx) as (s1 & R1 & E1); [exact P1|exact B1|exact Hx|].
  unfold runs. setoid_rewrite E1. clear E1.
  destruct (square_runs (centre_y f) y fy) as (s2 & R2 & E2); [exact P2|exact B2|exact Hy|].
  setoid_rewrite E2. clear E2.
  destruct (square_runs (centre_z f) z fz) as (s3 & R3 & E3); [exact P3|exact B3|exact Hz|].
  setoid_rewrite E3. clear E3.
  destruct (add_runs (b:=b) s1 s2 _ _ R1 R2) as (t & H1 & H2).
  rewrite (honest_sum_ieee _ _ (nonneg_no_cancel _ _ (square_nonneg _) (square_nonneg _))) in H2.
  setoid_rewrite (exec_bind_eq _ _ _ _ H1).
  destruct (add_runs (b:=b) t s3 _ _ H2 R3) as (u & H3 & H4).
  rewrite honest_sum_ieee in H4; [exists u; split; [exact H3|exact H4]|].
  apply nonneg_no_cancel; [apply add_nonneg; apply square_nonneg|apply square_nonneg].
Qed.

(** Finite results come from finite operands. *)
Lemma add_finite_inv (x y : fmt) : is_finite (ieee_add E M x y) = true ->
  is_finite x = true /\ is_finite y = true.
Proof.
  unfold ieee_add. destruct x as [[]|[]| |? ? ? ?], y as [[]|[]| |? ? ? ?]; intros H;
    first [split; reflexivity|discriminate H].
Qed.
Lemma mul_finite_inv (x y : fmt) : is_finite (ieee_mul E M x y) = true ->
  is_finite x = true /\ is_finite y = true.
Proof.
  unfold ieee_mul. destruct x as [[]|[]| |? ? ? ?], y as [[]|[]| |? ? ? ?]; intros H;
    first [split; reflexivity|discriminate H].
Qed.

(** Any witness of one difference and its square. *)
Lemma square_sat {A} p y (fy : fmt) (k : FloatVar -> circ A) u : pow2_size E M mod b = 0 ->
  0 <= p < 2 ^ (E + M + 1) ->
  (Rabs (B2R (of_bits E M p)) < bpow radix2 (emax - 1))%R -> represents y fy ->
  let d := ieee_sub E M (of_bits E M p) fy in
  is_finite (ieee_mul E M d d) = true ->
  sat b (d <- Sub E M (NewConstant E M p) y ;; s <- Mul E M d d ;; k s) u ->
  exists r, represents r (ieee_mul E M d d) /\ sat b (k r) u.
Proof.
  intros Hd Hp Hb Hy d Hf H.
  apply sat_bind in H. destruct H as [r [Hr H]]. apply sat_bind in H. destruct H as [s [Hs H]].
  exists s. split; [|exact H].
  destruct (mul_finite_inv _ _ Hf) as [Fd _].
  destruct (sub_bounded _ y _ fy r Hd (newconst_spec p Hp) Hy (fun _ _ => Fd) Hr) as (g & Hg & O).
  assert (Hgg : ieee_mul E M g g = ieee_mul E M d d).
  { destruct O as [->|(C & [[t ->]|[Hb' _]])]; [reflexivity| |lra].
    destruct C as (C1 & C2 & C3 & C4). 
    assert (Z : exists u, d = B754_zero u).
    { apply zero_datum; [exact Fd|]. unfold d. rewrite minus_plus_opp.
      pose proof (Bplus_correct _ _ _ _ mode_NE _ _ C1 C2) as C.
      replace (B2R (of_bits E M p) + B2R (ieee_neg E M fy))%R with 0%R in C by (rewrite C4; lra).
      rewrite round_0 in C by (apply valid_rnd_N). rewrite Rabs_R0, Rlt_bool_true in C by apply bpow_gt_0.
      apply C. }
    destruct Z as [u0 ->]. destruct t, u0; reflexivity. }
  rewrite <- Hgg. apply (mul_safe r r g g s Hd Hg Hg); [|exact Hs].
  intros _ _. rewrite Hgg. exact Hf.
Qed.

Lemma nonneg_not_cancels (x y : fmt) : Bsign x = false -> Bsign y = false -> ~ cancels x y.
Proof. intros Hx Hy (_ & _ & H & _). congruence. Qed.

Lemma add_sign (x y : fmt) : is_finite (ieee_add E M x y) = true -> Bsign x = false -> Bsign y = false ->
  Bsign (ieee_add E M x y) = false.
Proof.
  intros F Sx Sy. destruct (add_finite_inv _ _ F) as [Fx Fy].
  destruct x as [[]|[]| |[] mx ex Hx]; try discriminate; destruct y as [[]|[]| |[] my ey Hy]; try discriminate;
    try reflexivity.
  set (x := B754_finite false mx ex Hx) in *. set (y := B754_finite false my ey Hy) in *.
  pose proof (Bplus_correct _ _ _ _ mode_NE x y Fx Fy) as C.
  assert (P : (0 < B2R x + B2R y)%R).
  { assert (0 < B2R x)%R by (apply F2R_gt_0; cbn; lia). assert (0 < B2R y)%R by (apply F2R_gt_0; cbn; lia). lra. }
  unfold ieee_add in *. destruct (Rlt_bool _ _).
  - destruct C as (_ & _ & C). rewrite C. rewrite Rcompare_Gt by lra. reflexivity.
  - destruct C as [C _]. rewrite (overflow_inf _ _ C) in F. discriminate.
Qed.

Lemma distance_sat f x y z (fx fy fz : fmt) r : pow2_size E M mod b = 0 -> good_face (E:=E) (M:=M) f ->
  represents x fx -> represents y fy -> represents z fz ->
  is_finite (ieee_distance f fx fy fz) = true ->
  sat b (face_distance E M f x y z) r -> represents r (ieee_distance f fx fy fz).
Proof.
  intros Hd [G1 G2] Hx Hy Hz Hf H. unfold face_distance in H. unfold ieee_distance in *.
  inversion_clear G1 as [|? ? P1 G1']. inversion_clear G1' as [|? ? P2 G1]. inversion_clear G1 as [|? ? P3 G1'].
  clear G1'.
  inversion_clear G2 as [|? ? [_ B1] G2']. inversion_clear G2' as [|? ? [_ B2] G2].
  inversion_clear G2 as [|? ? [_ B3] _].
  destruct (add_finite_inv _ _ Hf) as [F12 F3]. destruct (add_finite_inv _ _ F12) as [F1 F2].
  apply (square_sat (centre_x f) x fx) in H; [|assumption..]. destruct H as (s1 & R1 & H).
  apply (square_sat (centre_y f) y fy) in H; [|assumption..]. destruct H as (s2 & R2 & H).
  apply (square_sat (centre_z f) z fz) in H; [|assumption..]. destruct H as (s3 & R3 & H).
  apply sat_bind in H. destruct H as [t [Ht H]].
  pose proof (square_sign _ (finite_not_nan _ F1)) as S1.
  pose proof (square_sign _ (finite_not_nan _ F2)) as S2.
  pose proof (square_sign _ (finite_not_nan _ F3)) as S3.
  apply (add_safe s1 s2 _ _ t Hd R1 R2) in Ht; [|apply nonneg_not_cancels; assumption|intros _ _; exact F12].
  apply (add_safe t s3 _ _ r Hd Ht R3) in H; [exact H|apply nonneg_not_cancels; [apply add_sign; assumption|assumption]|intros _ _; exact Hf].
Qed.

(** What the nine results are. *)
Definition carries (c : chosen) (D : fmt) (f : face) : Prop :=
  represents (sqDist c) D /\
  represents (sinFaceLat c) (of_bits E M (c_sinFaceLat f)) /\
  represents (cosFaceLat c) (of_bits E M (c_cosFaceLat f)) /\
  represents (sinFaceLng c) (of_bits E M (c_sinFaceLng f)) /\
  represents (cosFaceLng c) (of_bits E M (c_cosFaceLng f)) /\
  represents (sinAzimuth c) (of_bits E M (c_sinAzimuth f)) /\
  represents (cosAzimuth c) (of_bits E M (c_cosAzimuth f)) /\
  represents (sinAzimuthRot c) (of_bits E M (c_sinAzimuthRot f)) /\
  represents (cosAzimuthRot c) (of_bits E M (c_cosAzimuthRot f)).

(** Nothing chosen: distance 5 and zeros. *)
Definition zero_face := mkFace 0 0 0 0 0 0 0 0 0 0 0.

Definition picked (faces : list face) (fx fy fz five : fmt) (c : chosen) : Prop :=
  let D f := ieee_distance f fx fy fz in
  (none_near D five faces /\ carries c five zero_face) \/
  exists n f, first_nearest D five faces n f /\ carries c (D f) f.

Lemma picked_current pre fx fy fz five c : picked pre fx fy fz five c ->
  exists D : fmt, represents (sqDist c) D.
Proof. intros [[_ [H _]]|(n & f & _ & H & _)]; eauto. Qed.

Lemma carries_select f D dist : good_face (E:=E) (M:=M) f -> represents dist D ->
  carries (mkChosen dist (NewConstant E M (c_sinFaceLat f)) (NewConstant E M (c_cosFaceLat f))
    (NewConstant E M (c_sinFaceLng f)) (NewConstant E M (c_cosFaceLng f))
    (NewConstant E M (c_sinAzimuth f)) (NewConstant E M (c_cosAzimuth f))
    (NewConstant E M (c_sinAzimuthRot f)) (NewConstant E M (c_cosAzimuthRot f))) D f.
Proof.
  intros [G _] H. unfold carries. cbn.
  repeat match goal with H : Forall _ (_ :: _) |- _ => inversion_clear H end.
  repeat (split; [first [assumption|apply newconst_spec; assumption]|]).
  apply newconst_spec; assumption.
Qed.

(** The step, as a function. *)
Definition update (f : face) (dist : FloatVar) (t : bool) (c : chosen) : chosen :=
  if t then mkChosen dist (NewConstant E M (c_sinFaceLat f)) (NewConstant E M (c_cosFaceLat f))
    (NewConstant E M (c_sinFaceLng f)) (NewConstant E M (c_cosFaceLng f))
    (NewConstant E M (c_sinAzimuth f)) (NewConstant E M (c_cosAzimuth f))
    (NewConstant E M (c_sinAzimuthRot f)) (NewConstant E M (c_cosAzimuthRot f))
  else c.

Lemma picked_step pre f fx fy fz five c dist D0 : picked pre fx fy fz five c -> good_face (E:=E) (M:=M) f ->
  represents dist (ieee_distance f fx fy fz) -> represents (sqDist c) D0 ->
  picked (pre ++ [f]) fx fy fz five (update f dist (ieee_lt E M (ieee_distance f fx fy fz) D0) c).
Proof.
  intros H G Hd H0. unfold picked in *.
  assert (HD : forall D, represents (sqDist c) D ->
    ieee_lt E M (ieee_distance f fx fy fz) D0 = ieee_lt E M (ieee_distance f fx fy fz) D).
  { intros D HD. f_equal. exact (represents_inj (sqDist c) D0 D H0 HD). }
  destruct H as [[H1 H2]|(n & g & H1 & H2)]; rewrite (HD _ (proj1 H2)).
  - pose proof (none_step _ _ _ f H1) as S. cbv beta in S.
    destruct (ieee_lt E M (ieee_distance f fx fy fz) five).
    + right. exists (length pre), f. split; [exact S|]. apply carries_select; assumption.
    + left. split; [exact S|exact H2].
  - pose proof (nearest_step _ _ _ n g f H1) as S. cbv beta in S.
    destruct (ieee_lt E M (ieee_distance f fx fy fz) (ieee_distance g fx fy fz)).
    + right. exists (length pre), f. split; [exact S|]. apply carries_select; assumption.
    + right. exists n, g. split; [exact S|exact H2].
Qed.

Lemma exec_face_loop faces x y z (fx fy fz five : fmt) :
  represents x fx -> represents y fy -> represents z fz ->
  forall pre c, Forall (good_face (E:=E) (M:=M)) faces -> picked pre fx fy fz five c ->
  exists c', exec b (face_loop E M faces x y z c) = Some c' /\ picked (pre ++ faces) fx fy fz five c'.
Proof.
  intros Hx Hy Hz. induction faces as [|f faces IH]; intros pre c G H.
  { exists c. rewrite app_nil_r. split; [reflexivity|exact H]. }
  inversion_clear G as [|? ? G1 G2]. cbn [face_loop].
  destruct (distance_runs f x y z fx fy fz G1 Hx Hy Hz) as (dist & E1 & R1).
  rewrite (exec_bind_eq _ _ _ _ E1).
  destruct (picked_current _ _ _ _ _ _ H) as [D0 R0].
  destruct (cmp_complete (b:=b) (sqDist c) dist D0 _ R0 R1) as (_ & _ & E2 & _).
  rewrite (exec_bind_eq _ _ _ _ E2).
  do 9 (rewrite (exec_bind_eq _ _ _ _ (proj1 (select_spec (b:=b) _ _ _)))).
  pose proof (picked_step pre f fx fy fz five c dist D0 H G1 R1 R0) as S.
  destruct (IH (pre ++ [f]) _ G2 S) as (c' & E3 & P). rewrite <- app_assoc in P.
  exists c'. split; [|exact P]. rewrite <- E3. unfold update.
  destruct (ieee_lt E M (ieee_distance f fx fy fz) D0); [reflexivity|destruct c; reflexivity].
Qed.

Lemma sat_face_loop faces x y z (fx fy fz five : fmt) : pow2_size E M mod b = 0 ->
  represents x fx -> represents y fy -> represents z fz ->
  forall pre c c', Forall (good_face (E:=E) (M:=M)) faces ->
  Forall (fun f => is_finite (ieee_distance f fx fy fz) = true) faces ->
  picked pre fx fy fz five c ->
  sat b (face_loop E M faces x y z c) c' -> picked (pre ++ faces) fx fy fz five c'.
Proof.
  intros Hd Hx Hy Hz. induction faces as [|f faces IH]; intros pre c c' G F H HS.
  { change (sat b (Ret c) c') in HS. apply sat_ret in HS. subst c'. rewrite app_nil_r. exact H. }
  inversion_clear G as [|? ? G1 G2]. inversion_clear F as [|? ? F1 F2]. cbn [face_loop] in HS.
  apply sat_bind in HS. destruct HS as [dist [S1 HS]].
  pose proof (distance_sat f x y z fx fy fz dist Hd G1 Hx Hy Hz F1 S1) as R1.
  destruct (picked_current _ _ _ _ _ _ H) as [D0 R0].
  apply sat_bind in HS. destruct HS as [t [S2 HS]].
  apply (cmp_sound (b:=b) (sqDist c) dist D0 _ t R0 R1) in S2. subst t.
  do 9 (apply sat_bind in HS; let w := fresh "w" in let Hw := fresh "Hw" in
    destruct HS as [w [Hw HS]]; apply (proj2 (select_spec (b:=b) _ _ _)) in Hw; subst w).
  pose proof (picked_step pre f fx fy fz five c dist D0 H G1 R1 R0) as S.
  specialize (IH (pre ++ [f]) _ c' G2 F2 S). rewrite <- app_assoc in IH. apply IH.
  unfold update. destruct (ieee_lt E M (ieee_distance f fx fy fz) D0); [exact HS|destruct c; exact HS].
Qed.

Lemma picked_start fx fy fz :
  picked [] fx fy fz (of_bits E M (int_bits E M 5))
    (let z := NewConstant E M 0 in mkChosen (NewConstant E M (int_bits E M 5)) z z z z z z z z).
Proof.
  left. split; [intros [] g H; discriminate H|].
  assert (H0 : 0 <= 0 < 2 ^ (E + M + 1)).
  { exps E M. destruct (fmt_M (E:=E) (M:=M)) as [HM [HM1 HM2]]. split; [lia|]. apply Z.pow_pos_nonneg; lia. }
  assert (H5 : 0 <= int_bits E M 5 < 2 ^ (E + M + 1)).
  { destruct (fmt_M (E:=E) (M:=M)) as [HM [HM1 HM2]].
    assert (2 ^ 3 <= 2 ^ (M + 1)) by (apply pow2_mono; lia).
    apply (int_bits_range 5); [lia|]. pose proof (f_2M (E:=E) (M:=M)). lia. }
  pose proof (newconst_spec 0 H0) as N0. pose proof (newconst_spec _ H5) as N5.
  exact (conj N5 (conj N0 (conj N0 (conj N0 (conj N0 (conj N0 (conj N0 (conj N0 N0)))))))).
Qed.

(** closestFaceCalculations, the repository's prover. *)
Theorem closest_exec faces x y z lng (fx fy fz : fmt) :
  Forall (good_face (E:=E) (M:=M)) faces ->
  represents x fx -> represents y fy -> represents z fz ->
  exists c, exec b (closestFaceCalculations E M faces x y z lng) = Some c /\
  picked faces fx fy fz (of_bits E M (int_bits E M 5)) c.
Proof.
  intros G Hx Hy Hz. unfold closestFaceCalculations.
  exact (exec_face_loop faces x y z fx fy fz _ Hx Hy Hz [] _ G (picked_start fx fy fz)).
Qed.

(** closestFaceCalculations, any prover. *)
Theorem closest_sat faces x y z lng (fx fy fz : fmt) c : pow2_size E M mod b = 0 ->
  Forall (good_face (E:=E) (M:=M)) faces ->
  represents x fx -> represents y fy -> represents z fz ->
  Forall (fun f => is_finite (ieee_distance f fx fy fz) = true) faces ->
  sat b (closestFaceCalculations E M faces x y z lng) c ->
  picked faces fx fy fz (of_bits E M (int_bits E M 5)) c.
Proof.
  intros Hd G Hx Hy Hz F H.
  exact (sat_face_loop faces x y z fx fy fz _ Hd Hx Hy Hz [] _ c G F (picked_start fx fy fz) H).
Qed.

End Circuit.
