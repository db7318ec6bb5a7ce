(** The cell that H3's rounding returns contains the point. *)
From Coq Require Import ZArith Reals Lra Lia Bool List.
From Flocq Require Import Core BinarySingleNaN.
From Verif Require Import Field FieldFacts Circuit CircuitFacts RangeCheck RangeFacts Gadget
  GadgetFacts Util FloatModel RoundFacts Spec MathSpec RoundCore RepFacts NewFacts Outcomes ValueFacts Math
  SinFacts Loc2Index NormFacts ClosestFacts HexFacts ErrorFacts SinError.
Import ListNotations.
Local Open Scope Z_scope.

(** ** Specification *)
Section CellSpec.
Local Open Scope R_scope.

(** The centre of a cell in the plane (H3's [_ijkToHex2d]). *)
Definition hex_centre (c : Z * Z * Z) : R * R :=
  let '(i, j, k) := c in
  (IZR (i - k) - IZR (j - k) / 2, IZR (j - k) * (sqrt 3 / 2)).

Definition dist2 (p q : R * R) : R := (fst p - fst q) ^ 2 + (snd p - snd q) ^ 2.

(** The hexagon of unit width around the origin, scaled by [s]: all points whose
    projections on the three axes through the middles of its sides are at most
    [s/2] long. *)
Definition hexagon (s : R) (p : R * R) : Prop :=
  Rabs (fst p) <= s / 2 /\
  Rabs (fst p * (1 / 2) + snd p * (sqrt 3 / 2)) <= s / 2 /\
  Rabs (- fst p * (1 / 2) + snd p * (sqrt 3 / 2)) <= s / 2.

Definition in_cell (s : R) (p : R * R) (c : Z * Z * Z) : Prop :=
  hexagon s (fst p - fst (hex_centre c), snd p - snd (hex_centre c)).

(** H3's choice among the names of a cell. *)
Definition reduced (c : Z * Z * Z) : Prop :=
  let '(i, j, k) := c in (0 <= i /\ 0 <= j /\ 0 <= k /\ (i = 0 \/ j = 0 \/ k = 0))%Z.

Lemma normal_reduced c : reduced (h3_normalize c).
Proof.
  pose proof (h3_canonical c) as H. destruct c as [[i j] k]. destruct (h3_normalize (i, j, k)) as [[i' j'] k'].
  unfold canonical in H. unfold reduced. tauto.
Qed.

Lemma sqrt3 : sqrt 3 * sqrt 3 = 3. Proof. apply sqrt_sqrt. lra. Qed.
Lemma sqrt3_bounds : 17 / 10 < sqrt 3 < 174 / 100.
Proof.
  pose proof sqrt3. pose proof (sqrt_pos 3). split; nra.
Qed.

(** Coordinates on the axes of the grid, relative to the centre. *)
Definition skew (p : R * R) : R * R := (fst p + snd p / sqrt 3, 2 * snd p / sqrt 3).

Lemma skew_centre i j k : skew (hex_centre (i, j, k)) = (IZR (i - k), IZR (j - k)).
Proof. unfold skew, hex_centre. cbn [fst snd]. pose proof sqrt3_bounds. f_equal; field; lra. Qed.

Lemma hexagon_skew s p : hexagon s p <->
  Rabs (2 * fst (skew p) - snd (skew p)) <= s /\ Rabs (2 * snd (skew p) - fst (skew p)) <= s /\
  Rabs (fst (skew p) + snd (skew p)) <= s.
Proof.
  destruct p as [x y]. unfold hexagon, skew. cbn [fst snd].
  pose proof sqrt3 as H3. pose proof sqrt3_bounds as HB.
  set (q := y / sqrt 3). assert (Hy : y * (sqrt 3 / 2) = 3 / 2 * q) by (unfold q; replace (sqrt 3 / 2) with (sqrt 3 * sqrt 3 / (2 * sqrt 3)) by (field; lra); rewrite H3; field; lra).
  replace (2 * y / sqrt 3) with (2 * q) by (unfold q; field; lra). rewrite Hy.
  replace (2 * (x + q) - 2 * q) with (2 * x) by ring.
  replace (2 * (2 * q) - (x + q)) with (2 * (- x * (1 / 2) + 3 / 2 * q)) by field.
  replace (x + q + 2 * q) with (2 * (x * (1 / 2) + 3 / 2 * q)) by field.
  rewrite !Rabs_mult, (Rabs_pos_eq 2) by lra. split; intros (H1 & H2 & H4); repeat split; lra.
Qed.

Lemma dist2_skew p c : dist2 p (hex_centre c) =
  let a := fst (skew p) - fst (skew (hex_centre c)) in
  let b := snd (skew p) - snd (skew (hex_centre c)) in
  a * a - a * b + b * b.
Proof.
  destruct p as [x y], c as [[i j] k]. rewrite skew_centre. unfold dist2, hex_centre, skew. cbn [fst snd].
  pose proof sqrt3 as H3. pose proof sqrt3_bounds as HB. cbn zeta.
  set (q := y / sqrt 3). assert (Hy : y = q * sqrt 3) by (unfold q; field; lra).
  replace (2 * y / sqrt 3) with (2 * q) by (unfold q; field; lra). rewrite Hy.
  set (m := IZR (i - k)). set (n := IZR (j - k)).
  replace ((q * sqrt 3 - n * (sqrt 3 / 2)) ^ 2) with (sqrt 3 * sqrt 3 * (q - n / 2) ^ 2) by field.
  rewrite H3. field.
Qed.

(** Integers: [m^2 - mn + n^2] dominates the hexagonal norm. *)
Lemma norm_dominates m n P Q : Rabs P <= 1 -> Rabs Q <= 1 -> Rabs (P + Q) <= 1 ->
  IZR m * P + IZR n * Q <= IZR m * IZR m - IZR m * IZR n + IZR n * IZR n.
Proof.
  intros HP HQ HS. apply Rabs_le_inv in HP, HQ, HS.
  assert (K : IZR m * P + IZR n * Q <= IZR (Z.max (Z.abs m) (Z.max (Z.abs n) (Z.abs (m - n))))).
  { assert (C : ((0 <= m /\ 0 <= n /\ n <= m) \/ (0 <= m /\ 0 <= n /\ m <= n) \/ (0 <= m /\ n <= 0) \/
      (m <= 0 /\ 0 <= n) \/ (m <= 0 /\ n <= 0 /\ n <= m) \/ (m <= 0 /\ n <= 0 /\ m <= n))%Z) by lia.
    destruct C as [(A & B & C)|[(A & B & C)|[(A & B)|[(A & B)|[(A & B & C)|(A & B & C)]]]]].
    - replace (Z.max _ _) with m by lia. apply IZR_le in A, B, C. nra.
    - replace (Z.max _ _) with n by lia. apply IZR_le in A, B, C. nra.
    - replace (Z.max _ _) with (m - n)%Z by lia. rewrite minus_IZR. apply IZR_le in A, B. nra.
    - replace (Z.max _ _) with (n - m)%Z by lia. rewrite minus_IZR. apply IZR_le in A, B. nra.
    - replace (Z.max _ _) with (- n)%Z by lia. rewrite opp_IZR. apply IZR_le in A, B, C. nra.
    - replace (Z.max _ _) with (- m)%Z by lia. rewrite opp_IZR. apply IZR_le in A, B, C. nra. }
  eapply Rle_trans; [exact K|].
  rewrite <- !mult_IZR, <- minus_IZR, <- plus_IZR. apply IZR_le.
  assert (S : forall a b : Z, (Z.abs a <= a * a - a * b + b * b)%Z).
  { intros a b. assert ((a = 0 \/ a = 1 \/ a = -1 \/ 2 <= Z.abs a)%Z) as [->|[->|[->|H]]] by lia.
    - change (Z.abs 0) with 0%Z. nia.
    - change (Z.abs 1) with 1%Z. assert (b <= 0 \/ 1 <= b)%Z as [H|H] by lia; nia.
    - change (Z.abs (-1)) with 1%Z. assert (b <= -1 \/ 0 <= b)%Z as [H|H] by lia; nia.
    - pose proof (Z.square_nonneg (a - 2 * b)) as Hq.
      assert (H2 : (2 * Z.abs a <= Z.abs a * Z.abs a)%Z) by nia. rewrite Z.abs_square in H2. nia. }
  pose proof (S m n) as S1. pose proof (S n m) as S2. pose proof (S (m - n)%Z m) as S3. lia.
Qed.

(** The cell of unit scale is the set of points nearest to its centre. *)
Theorem in_cell_nearest p c : in_cell 1 p c <->
  forall c', dist2 p (hex_centre c) <= dist2 p (hex_centre c').
Proof.
  unfold in_cell. rewrite hexagon_skew.
  assert (L : forall q, skew (fst p - fst q, snd p - snd q) =
    (fst (skew p) - fst (skew q), snd (skew p) - snd (skew q))).
  { intros q. unfold skew. cbn [fst snd]. pose proof sqrt3_bounds. f_equal; field; lra. }
  rewrite L. cbn [fst snd]. destruct c as [[i j] k].
  set (a := fst (skew p) - _). set (b := snd (skew p) - _).
  assert (D : forall m n : Z, dist2 p (hex_centre (i + m, j + n, k)%Z) - dist2 p (hex_centre (i, j, k)) =
    IZR m * IZR m - IZR m * IZR n + IZR n * IZR n - (IZR m * (2 * a - b) + IZR n * (2 * b - a))).
  { intros m n. rewrite !dist2_skew, !skew_centre. cbn zeta.
    assert (Ea : a = fst (skew p) - IZR (i - k)) by (unfold a; rewrite skew_centre; reflexivity).
    assert (Eb : b = snd (skew p) - IZR (j - k)) by (unfold b; rewrite skew_centre; reflexivity).
    cbn [fst snd]. rewrite Ea, Eb.
    replace (IZR (i + m - k)) with (IZR (i - k) + IZR m) by (rewrite <- plus_IZR; f_equal; lia).
    replace (IZR (j + n - k)) with (IZR (j - k) + IZR n) by (rewrite <- plus_IZR; f_equal; lia). ring. }
  split.
  - intros (H1 & H2 & H3) [[i' j'] k'].
    assert (C' : hex_centre (i', j', k') = hex_centre (i + (i' - k' - (i - k)), j + (j' - k' - (j - k)), k)%Z).
    { unfold hex_centre. f_equal; [f_equal; [f_equal|f_equal; f_equal]|f_equal; f_equal]; lia. }
    rewrite C'. set (m := (i' - k' - (i - k))%Z). set (n := (j' - k' - (j - k))%Z).
    pose proof (D m n) as E.
    pose proof (norm_dominates m n (2 * a - b) (2 * b - a) H1 H2) as N.
    replace (2 * a - b + (2 * b - a)) with (a + b) in N by ring. specialize (N H3). lra.
  - intros H.
    pose proof (D 1 0)%Z as D1. pose proof (D (-1) 0)%Z as D2. pose proof (D 0 1)%Z as D3. pose proof (D 0 (-1))%Z as D4.
    pose proof (D 1 1)%Z as D5. pose proof (D (-1) (-1))%Z as D6.
    pose proof (H (i + 1, j + 0, k)%Z). pose proof (H (i + -1, j + 0, k)%Z). pose proof (H (i + 0, j + 1, k)%Z).
    pose proof (H (i + 0, j + -1, k)%Z). pose proof (H (i + 1, j + 1, k)%Z). pose proof (H (i + -1, j + -1, k)%Z).
    repeat split; apply Rabs_le; lra.
Qed.

(** Moving the point. *)
Lemma in_cell_move s p q c e : in_cell s p c -> Rabs (fst q - fst p) <= e -> Rabs (snd q - snd p) <= e ->
  in_cell (s + 3 * e) q c.
Proof.
  intros (H1 & H2 & H3) Hx Hy. unfold in_cell, hexagon in *. cbn [fst snd] in *.
  pose proof sqrt3_bounds as HB. destruct (hex_centre c) as [cx cy]. cbn [fst snd] in *.
  apply Rabs_le_inv in H1, H2, H3, Hx, Hy.
  assert (A : - e <= (snd q - snd p) * (sqrt 3 / 2) <= e) by nra.
  replace ((snd q - cy) * (sqrt 3 / 2)) with ((snd p - cy) * (sqrt 3 / 2) + (snd q - snd p) * (sqrt 3 / 2)) by ring.
  repeat split; apply Rabs_le; lra.
Qed.

End CellSpec.

(** ** One cell of the grid *)
Definition region_of (half third tthird : R) (m1 m2 : Z) (r1 r2 d om dm pa pb : R) : Z * Z :=
  (if Rlt_bool r1 half then
     if Rlt_bool r1 third then m1
     else if Rle_bool om r2 then if Rlt_bool r2 d then m1 + 1 else m1 else m1
   else if Rlt_bool r1 tthird then
     if Rlt_bool dm r2 then if Rlt_bool r2 om then m1 else m1 + 1 else m1 + 1
   else m1 + 1,
   if Rlt_bool r1 half then
     if Rlt_bool r1 third then (if Rlt_bool r2 pa then m2 else m2 + 1)
     else (if Rlt_bool r2 om then m2 else m2 + 1)
   else if Rlt_bool r1 tthird then (if Rlt_bool r2 om then m2 else m2 + 1)
   else (if Rlt_bool r2 pb then m2 else m2 + 1)).

(** The three conditions of a hexagon in skewed coordinates. *)
Definition skewed (s a b : R) : Prop :=
  (Rabs (2 * a - b) <= s /\ Rabs (2 * b - a) <= s /\ Rabs (a + b) <= s)%R.

Ltac region_cases := unfold region_of; cbn [fst snd];
  repeat match goal with
  | |- context [Rlt_bool ?x ?y] => destruct (Rlt_bool_spec x y)
  | |- context [Rle_bool ?x ?y] => destruct (Rle_bool_spec x y)
  end; rewrite ?plus_IZR; repeat split; apply Rabs_le; lra.

Section Region.
Variables (e half third tthird r1 r2 d om dm pa pb : R) (m1 m2 : Z).
Local Open Scope R_scope.
Hypothesis He : 0 <= e <= 1 / 100.
Hypothesis Hh : Rabs (half - 1 / 2) <= e.
Hypothesis Ht : Rabs (third - 1 / 3) <= e.
Hypothesis Htt : Rabs (tthird - 2 / 3) <= e.
Hypothesis Hd : Rabs (d - 2 * r1) <= e.
Hypothesis Ho : Rabs (om - (1 - r1)) <= e.
Hypothesis Hm : Rabs (dm - (2 * r1 - 1)) <= e.
Hypothesis Ha : Rabs (pa - (1 + r1) / 2) <= e.
Hypothesis Hb : Rabs (pb - r1 / 2) <= e.

Lemma region_cell : - e <= r1 <= 1 + e -> - e <= r2 <= 1 + e ->
  let c := region_of half third tthird m1 m2 r1 r2 d om dm pa pb in
  skewed (1 + 6 * e) (IZR m1 + r1 - IZR (fst c)) (IZR m2 + r2 - IZR (snd c)).
Proof.
  intros H1 H2 c. apply Rabs_le_inv in Hh, Ht, Htt, Hd, Ho, Hm, Ha, Hb.
  unfold c. clear c. region_cases.
Qed.

(** Whatever integer parts are used: fractions up to 2. *)
Lemma region_cell_any : - e <= r1 <= 2 + e -> - e <= r2 <= 2 + e ->
  let c := region_of half third tthird m1 m2 r1 r2 d om dm pa pb in
  skewed (5 / 2 + 6 * e) (IZR m1 + r1 - IZR (fst c)) (IZR m2 + r2 - IZR (snd c)).
Proof.
  intros H1 H2 c. apply Rabs_le_inv in Hh, Ht, Htt, Hd, Ho, Hm, Ha, Hb.
  unfold c. clear c. region_cases.
Qed.
End Region.

(** ** Rounding *)
Section HexCell.
Context {E M : Z} {HF : Format E M}.
Context (HE8 : 8 <= E) (HM23 : 23 <= M).
Notation fmt := (Spec.fmt E M).
Notation rne := (Spec.rne E M).
Notation u := (unit_ro M).
Notation eta := (half_min E M).

(** The constants are the halves, thirds and sine to the precision of the format. *)
Definition cell_constants (half third two_thirds sin60 : fmt) : Prop :=
  is_finite half = true /\ is_finite third = true /\ is_finite two_thirds = true /\
  is_finite sin60 = true /\
  (B2R half = 1 / 2 /\ Rabs (B2R third - 1 / 3) <= u /\ Rabs (B2R two_thirds - 2 / 3) <= u /\
   Rabs (B2R sin60 - sqrt 3 / 2) <= u)%R.

Lemma u_small : (u <= 1 / 10000000)%R.
Proof.
  unfold unit_ro. apply Rle_trans with (bpow radix2 (-24)); [apply bpow_le; unfold prec; lia|].
  cbn. lra.
Qed.

Lemma eta_small : (eta <= u / 100)%R.
Proof.
  unfold half_min, unit_ro. apply Rle_trans with (bpow radix2 (- prec M + -7)).
  - apply bpow_le. unfold emin. pose proof (emax_128 HE8). lia.
  - rewrite bpow_plus. pose proof (bpow_gt_0 radix2 (- prec M)). change (bpow radix2 (-7)) with (/ 128)%R. lra.
Qed.

Lemma rne_near v m : (Rabs v <= m)%R -> (Rabs (rne v - v) <= u * m + u / 100)%R.
Proof.
  intros H. pose proof (rne_abs_err u eta (Rle_refl _) (Rle_refl _) v m H). pose proof eta_small. lra.
Qed.

Lemma constants_hex h t tt s : cell_constants h t tt s -> hex_constants h t tt s.
Proof.
  intros (F1 & F2 & F3 & F4 & V1 & V2 & V3 & V4). pose proof u_small. pose proof sqrt3_bounds.
  apply Rabs_le_inv in V2, V3, V4. unfold hex_constants. repeat (split; [assumption|]). lra.
Qed.

Lemma region_rounded (half third tthird : R) m1 m2 r1 r2 :
  (half = 1 / 2)%R -> (Rabs (third - 1 / 3) <= u)%R -> (Rabs (tthird - 2 / 3) <= u)%R ->
  (- (u * 9) <= r1 <= 2 + u * 9)%R -> (- (u * 9) <= r2 <= 2 + u * 9)%R ->
  let c := region_real (E:=E) (M:=M) half third tthird m1 m2 r1 r2 in
  skewed (5 / 2 + 6 * (u * 9)) (IZR m1 + r1 - IZR (fst c)) (IZR m2 + r2 - IZR (snd c)) /\
  ((r1 <= 1 + u * 9)%R -> (r2 <= 1 + u * 9)%R ->
   skewed (1 + 6 * (u * 9)) (IZR m1 + r1 - IZR (fst c)) (IZR m2 + r2 - IZR (snd c))).
Proof.
  intros -> Ht Htt H1 H2 c. pose proof u_small as Hu. pose proof (u_pos (M:=M)) as Hu0.
  assert (Hc : c = region_of (1 / 2) third tthird m1 m2 r1 r2 (rne (r1 + r1)) (rne (1 - r1))
    (rne (rne (r1 + r1) - 1)) (rne (rne (r1 + 1) / 2)) (rne (r1 / 2))) by reflexivity.
  rewrite Hc. clear c Hc.
  assert (D : (Rabs (rne (r1 + r1) - (r1 + r1)) <= u * (9 / 2))%R).
  { pose proof (rne_near (r1 + r1) (41 / 10) ltac:(apply Rabs_le; lra)). lra. }
  assert (O : (Rabs (rne (1 - r1) - (1 - r1)) <= u * 9)%R).
  { pose proof (rne_near (1 - r1) 2 ltac:(apply Rabs_le; lra)). lra. }
  assert (S : (Rabs (rne (r1 + 1) - (r1 + 1)) <= u * 4)%R).
  { pose proof (rne_near (r1 + 1) (31 / 10) ltac:(apply Rabs_le; lra)). lra. }
  assert (B : (Rabs (rne (r1 / 2) - r1 / 2) <= u * 9)%R).
  { pose proof (rne_near (r1 / 2) 2 ltac:(apply Rabs_le; lra)). lra. }
  apply Rabs_le_inv in D, S.
  pose proof (rne_near (rne (r1 + r1) - 1) 4 ltac:(apply Rabs_le; lra)) as DM. apply Rabs_le_inv in DM.
  pose proof (rne_near (rne (r1 + 1) / 2) 2 ltac:(apply Rabs_le; lra)) as PA. apply Rabs_le_inv in PA.
  split; [|intros G1 G2].
  - apply region_cell_any; try (apply Rabs_le; lra); try assumption; lra.
  - apply region_cell; try (apply Rabs_le; lra); try assumption; lra.
Qed.

(** The sign bit says on which side of an axis a coordinate lies. *)
Definition side (neg : bool) (x : R) : Prop := (x = if neg then - Rabs x else Rabs x)%R.

Lemma side_lt x : side (Rlt_bool x 0) x.
Proof.
  unfold side. destruct (Rlt_bool_spec x 0) as [L|L]; [rewrite Rabs_left by exact L|rewrite Rabs_pos_eq by exact L]; ring.
Qed.

Lemma side_sign (f : fmt) : is_finite f = true -> side (Bsign f) (B2R f).
Proof.
  destruct f as [s|s| |s m e H]; try discriminate; intros _; unfold side; cbn [B2R Bsign].
  - rewrite Rabs_R0. destruct s; ring.
  - destruct s; cbn [cond_Zopp].
    + rewrite Rabs_left; [ring|]. apply F2R_lt_0. reflexivity.
    + rewrite Rabs_pos_eq; [ring|]. apply F2R_ge_0. cbn. lia.
Qed.

(** Folding over the axes keeps the hexagon. *)
Lemma skewed_fold s sx sy x y i j : let q := (Rabs y / sqrt 3)%R in
  side sx x -> side sy y ->
  skewed s (Rabs x + q - IZR i) (2 * q - IZR j) ->
  in_cell s (x, y) (h3_normalize (fold_signs sx sy (i, j))).
Proof.
  intros q Hx Sy H. set (c := fold_signs _ _ _).
  assert (K : forall d e, canonical d e -> hex_centre e = hex_centre d).
  { intros [[i0 j0] k0] [[i1 j1] k1] (_ & _ & _ & _ & t & -> & -> & ->). unfold hex_centre.
    replace (i1 + t - (k1 + t)) with (i1 - k1) by lia. replace (j1 + t - (k1 + t)) with (j1 - k1) by lia. reflexivity. }
  unfold in_cell. rewrite (K c _ (h3_canonical c)). apply hexagon_skew.
  destruct H as (H1 & H2 & H3). pose proof sqrt3_bounds as HB.
  set (p := (_, _)).
  assert (Hp : skew p = (x + y / sqrt 3 - fst (skew (hex_centre c)), 2 * y / sqrt 3 - snd (skew (hex_centre c)))%R).
  { unfold p, skew. cbn [fst snd]. f_equal; field; lra. }
  rewrite Hp. cbn [fst snd]. clear p Hp.
  replace (2 * y / sqrt 3)%R with (2 * (y / sqrt 3))%R by (field; lra).
  assert (Hy : (y / sqrt 3 = if sy then - q else q)%R).
  { unfold q. unfold side in Sy. rewrite Sy at 1. destruct sy; field; lra. }
  unfold side in Hx. unfold c, fold_signs. clear c K Sy.
  revert H1 H2 H3 Hx Hy. generalize (Rabs x) q (y / sqrt 3)%R. intros X Q W H1 H2 H3 Hx Hy.
  apply Rabs_le_inv in H1, H2, H3.
  destruct sx, sy; rewrite skew_centre; cbn [fst snd];
    rewrite ?Z.sub_0_r, ?opp_IZR, ?minus_IZR, ?opp_IZR, ?minus_IZR; repeat split; apply Rabs_le; lra.
Qed.

Section Cell.
Variable K : constants.
Notation cst p := (of_bits E M p).
Hypothesis Hpat : Forall (fun p => 0 <= p < 2 ^ (E + M + 1)) [k_half K; k_third K; k_two_thirds K; k_sin60 K].
Hypothesis HC : cell_constants (cst (k_half K)) (cst (k_third K)) (cst (k_two_thirds K)) (cst (k_sin60 K)).

(** The computed skewed coordinates are close to the true ones. *)
Lemma coords_near x y : (Rabs x <= bpow radix2 29)%R -> (Rabs y <= bpow radix2 29)%R ->
  let q := (Rabs y / sqrt 3)%R in
  (Rabs (hex_x2 (E:=E) (M:=M) K y - 2 * q) <= u * (4 * (Rabs x + Rabs y) + 1))%R /\
  (Rabs (hex_x1 (E:=E) (M:=M) K x y - (Rabs x + q)) <= u * (4 * (Rabs x + Rabs y) + 1))%R.
Proof.
  intros Bx By q. destruct HC as (_ & _ & _ & _ & _ & _ & _ & Vs).
  unfold hex_x1, hex_x2. set (s := B2R (cst (k_sin60 K))) in *.
  pose proof u_small as Hu. pose proof (u_pos (M:=M)) as Hu0. pose proof sqrt3_bounds as HB.
  apply Rabs_le_inv in Vs. pose proof (Rabs_pos x) as X0. pose proof (Rabs_pos y) as Y0.
  revert X0 Y0. unfold q. generalize (Rabs x) (Rabs y). clear Bx By q x y. intros X Y X0 Y0.
  set (q := (Y / sqrt 3)%R). assert (Hq : (Y = q * sqrt 3)%R) by (unfold q; field; lra).
  assert (Q0 : (0 <= q)%R) by (unfold q; apply Rmult_le_pos; [exact Y0|apply Rlt_le, Rinv_0_lt_compat; lra]).
  assert (Q1 : (q <= 6 / 10 * Y)%R) by (rewrite Hq; nra).
  assert (T : (Rabs (Y / s - 2 * q) <= u * (15 / 10 * Y))%R).
  { assert (Ht : (Y / s - 2 * q = 2 * q * ((sqrt 3 / 2 - s) / s))%R) by (rewrite Hq; field; lra).
    rewrite Ht, Rabs_mult, (Rabs_pos_eq (2 * q)) by lra.
    assert (Rabs ((sqrt 3 / 2 - s) / s) <= u * (118 / 100))%R.
    { apply Rabs_le. split.
      - apply Rmult_le_reg_r with s; [lra|]. replace ((sqrt 3 / 2 - s) / s * s)%R with (sqrt 3 / 2 - s)%R by (field; lra). nra.
      - apply Rmult_le_reg_r with s; [lra|]. replace ((sqrt 3 / 2 - s) / s * s)%R with (sqrt 3 / 2 - s)%R by (field; lra). nra. }
    apply Rle_trans with (2 * q * (u * (118 / 100)))%R; [apply Rmult_le_compat_l; lra|]. nra. }
  apply Rabs_le_inv in T.
  assert (UY : (0 <= u * Y)%R) by nra. assert (UX : (0 <= u * X)%R) by nra.
  assert (UY2 : (u * Y <= Y / 1000000)%R) by nra. assert (UX2 : (u * X <= X / 1000000)%R) by nra.
  assert (UQ : (u * q <= 6 / 10 * (u * Y))%R) by nra.
  pose proof (rne_near (Y / s) (13 / 10 * Y) ltac:(apply Rabs_le; lra)) as R2. apply Rabs_le_inv in R2.
  assert (A2 : (- (28 / 10 * (u * Y) + u / 100) <= rne (Y / s) - 2 * q <= 28 / 10 * (u * Y) + u / 100)%R) by lra.
  set (x2 := rne (Y / s)) in *.
  pose proof (rne_near (x2 / 2) (Y + u) ltac:(apply Rabs_le; lra)) as R3. apply Rabs_le_inv in R3.
  assert (U2 : (u * u <= u / 1000000)%R) by nra.
  set (h := rne (x2 / 2)) in *.
  pose proof (rne_near (X + h) (X + Y + u) ltac:(apply Rabs_le; lra)) as R1. apply Rabs_le_inv in R1.
  split; apply Rabs_le; lra.
Qed.

(** The fraction of a computed coordinate. *)
Lemma fraction_near v m : (Rabs (v - IZR m) <= 2)%R -> (Rabs (rne (v - IZR m) - (v - IZR m)) <= u * 9)%R.
Proof. intros H. pose proof (rne_near _ _ H). pose proof (u_pos (M:=M)). lra. Qed.

Definition cell_slack (x y : R) : R := (u * (12 * (Rabs x + Rabs y) + 90))%R.

Theorem cell_real m1 m2 sx sy x y : (Rabs x <= bpow radix2 29)%R -> (Rabs y <= bpow radix2 29)%R ->
  side sx x -> side sy y ->
  let x1 := hex_x1 (E:=E) (M:=M) K x y in
  let x2 := hex_x2 (E:=E) (M:=M) K y in
  floor_int_of x1 m1 -> floor_int_of x2 m2 ->
  let c := h3_normalize (fold_signs sx sy
      (region_real (E:=E) (M:=M) (B2R (cst (k_half K))) (B2R (cst (k_third K))) (B2R (cst (k_two_thirds K)))
        m1 m2 (rne (x1 - IZR m1)) (rne (x2 - IZR m2)))) in
  in_cell (5 / 2 + cell_slack x y) (x, y) c /\
  (m1 = Zfloor x1 -> m2 = Zfloor x2 -> in_cell (1 + cell_slack x y) (x, y) c).
Proof.
  intros Bx By Hx Hy x1 x2 I1 I2 c.
  pose proof (constants_hex _ _ _ _ HC) as HH.
  pose proof HC as (Fh & Ft & Ftt & Fs & Vh & Vt & Vtt & Vs).
  destruct (x2_bound HE8 HM23 K HH _ By) as [_ Q2]. destruct (x1_bound HE8 HM23 K HH _ _ Bx By) as (_ & _ & Q1).
  destruct (coords_near _ _ Bx By) as [N2 N1]. fold x1 in Q1, N1. fold x2 in Q2, N2.
  assert (R : forall v m, floor_int_of v m -> (0 <= v - IZR m < 2)%R /\ (m = Zfloor v -> v - IZR m < 1)%R).
  { intros v m Hm. pose proof (Zfloor_lb v). pose proof (Zfloor_ub v).
    destruct Hm as [->|[Hm ->]]; [lra|]. split; [lra|]. intros Hz. rewrite Hz. lra. }
  destruct (R _ _ I1) as [A1 A1']. destruct (R _ _ I2) as [A2 A2'].
  pose proof (fraction_near x1 m1 ltac:(apply Rabs_le; lra)) as E1.
  pose proof (fraction_near x2 m2 ltac:(apply Rabs_le; lra)) as E2.
  apply Rabs_le_inv in E1, E2, N1, N2. pose proof (u_pos (M:=M)) as Hu0.
  destruct (region_rounded _ _ _ m1 m2 (rne (x1 - IZR m1)) (rne (x2 - IZR m2)) Vh Vt Vtt
    ltac:(lra) ltac:(lra)) as [S1 S2].
  unfold c. clear c. destruct (region_real _ _ _ _ _ _ _) as [i j]. cbn [fst snd] in S1, S2.
  assert (Fin : forall t, skewed (t + 6 * (u * 9)) (IZR m1 + rne (x1 - IZR m1) - IZR i)
      (IZR m2 + rne (x2 - IZR m2) - IZR j) ->
    in_cell (t + cell_slack x y) (x, y) (h3_normalize (fold_signs sx sy (i, j)))).
  { intros t (T1 & T2 & T3). apply skewed_fold; [assumption|assumption|]. apply Rabs_le_inv in T1, T2, T3.
    unfold cell_slack. set (X := Rabs x) in *. set (Y := Rabs y) in *. repeat split; apply Rabs_le; lra. }
  split; [apply Fin, S1|]. intros Z1 Z2.
  specialize (A1' Z1). specialize (A2' Z2). apply Fin, S2; lra.
Qed.

(** H3's own rounding. *)
Theorem h3_cell_contains (fx fy : fmt) : is_finite fx = true -> is_finite fy = true ->
  (Rabs (B2R fx) <= bpow radix2 29)%R -> (Rabs (B2R fy) <= bpow radix2 29)%R ->
  in_cell (1 + cell_slack (B2R fx) (B2R fy)) (B2R fx, B2R fy)
    (h3_hex2d (cst (k_half K)) (cst (k_third K)) (cst (k_two_thirds K)) (cst (k_sin60 K)) fx fy).
Proof.
  intros Fx Fy Bx By. pose proof (constants_hex _ _ _ _ HC) as HH.
  pose proof HC as (Fh & Ft & Ftt & Fs & Vh & Vt & Vtt & Vs).
  destruct (x2_bound HE8 HM23 K HH _ By) as [_ Q2]. destruct (x1_bound HE8 HM23 K HH _ _ Bx By) as (_ & _ & Q1).
  destruct (x2_spec HE8 HM23 K HH fy Fy By) as [F2 V2]. destruct (x1_spec HE8 HM23 K HH fx fy Fx Fy Bx By) as [F1 V1].
  rewrite <- V1 in Q1. rewrite <- V2 in Q2.
  unfold h3_hex2d. rewrite !btrunc_floor by (apply Q1 || apply Q2).
  set (x1 := h3_x1 _ _ _) in *. set (x2 := h3_x2 _ _) in *.
  destruct (frac_spec HE8 HM23 x1 _ F1 Q1 (or_introl eq_refl)) as (G1 & W1 & P1 & L1).
  destruct (frac_spec HE8 HM23 x2 _ F2 Q2 (or_introl eq_refl)) as (G2 & W2 & P2 & L2).
  unfold h3_hex2d_with. fold x1 x2.
  rewrite (region_spec HE8 HM23) by (try assumption; rewrite W1; exact L1). rewrite W1, W2.
  rewrite !ieee_lt_R by (assumption || reflexivity). change (B2R (B754_zero false)) with 0%R.
  pose proof (proj2 (cell_real (Zfloor (B2R x1)) (Zfloor (B2R x2)) _ _ _ _ Bx By (side_lt _) (side_lt _)
    ltac:(rewrite <- V1; left; reflexivity) ltac:(rewrite <- V2; left; reflexivity))
    ltac:(rewrite <- V1; reflexivity) ltac:(rewrite <- V2; reflexivity)) as C.
  rewrite <- V1, <- V2 in C.
  destruct (region_real _ _ _ _ _ _ _) as [i j] eqn:Hreg.
  rewrite (fold_spec (E:=E) (M:=M)); [exact C|].
  assert (Hf : 0 <= Zfloor (B2R x2)) by (rewrite <- (Zfloor_IZR 0); apply Zfloor_le, Q2).
  apply (f_equal snd) in Hreg. cbn [snd] in Hreg. rewrite <- Hreg. unfold region_real. cbn [snd].
  repeat match goal with |- context [if ?c then _ else _] => destruct c end; lia.
Qed.

End Cell.
End HexCell.

(** ** The circuit *)
Section CellCircuit.
Context {MOD : Modulus} {E M b : Z} {HP : Params E M b} {HF : Format E M}.
Context (HE8 : 8 <= E) (HM23 : 23 <= M).
Notation fmt := (Spec.fmt E M).
Variable K : constants.
Notation cst p := (of_bits E M p).
Hypothesis Hpat : Forall (fun p => 0 <= p < 2 ^ (E + M + 1)) [k_half K; k_third K; k_two_thirds K; k_sin60 K].
Hypothesis HC : cell_constants (cst (k_half K)) (cst (k_third K)) (cst (k_two_thirds K)) (cst (k_sin60 K)).

Theorem circuit_cell x y (fx fy : fmt) : represents x fx -> represents y fy ->
  is_finite fx = true -> is_finite fy = true ->
  (Rabs (B2R fx) <= bpow radix2 29)%R -> (Rabs (B2R fy) <= bpow radix2 29)%R ->
  let sl := cell_slack (M:=M) (B2R fx) (B2R fy) in
  (exists c, exec b (hex2dToCoordIJK E M K x y) = Some (embed3 c) /\ reduced c /\ in_cell (1 + sl) (B2R fx, B2R fy) c) /\
  (pow2_size E M mod b = 0 -> forall r, sat b (hex2dToCoordIJK E M K x y) r ->
   exists c, r = embed3 c /\ reduced c /\ in_cell (5 / 2 + sl) (B2R fx, B2R fy) c /\
     (~ in_1_2 E M (h3_x1 (cst (k_sin60 K)) fx fy) -> ~ in_1_2 E M (h3_x2 (cst (k_sin60 K)) fy) ->
      in_cell (1 + sl) (B2R fx, B2R fy) c)).
Proof.
  intros Hx Hy Fx Fy Bx By sl. pose proof (constants_hex HM23 _ _ _ _ HC) as HH.
  pose proof (side_sign fx Fx) as Sx. pose proof (side_sign fy Fy) as Sy.
  split.
  - destruct (hex_gives Honest ltac:(discriminate) HE8 HM23 K Hpat HH 0 0 x y fx fy Hx Hy Fx Fy Bx By
      ltac:(discriminate) ltac:(discriminate)) as (r & He & m1 & m2 & C1 & C2 & ->).
    cbn [floor_choice] in C1, C2. eexists. split; [exact He|]. split; [apply normal_reduced|].
    subst m1 m2. apply (cell_real HE8 HM23 K HC); auto; left; reflexivity.
  - intros Hd r Hr.
    destruct (hex_gives Anyone (fun _ => Hd) HE8 HM23 K Hpat HH 0 0 x y fx fy Hx Hy Fx Fy Bx By
      ltac:(discriminate) ltac:(discriminate) r Hr) as (m1 & m2 & C1 & C2 & ->).
    cbn [floor_choice] in C1, C2. eexists. split; [reflexivity|]. split; [apply normal_reduced|].
    destruct (cell_real HE8 HM23 K HC m1 m2 _ _ _ _ Bx By Sx Sy C1 C2) as [R1 R2].
    split; [exact R1|]. intros N1 N2.
    destruct (x2_spec HE8 HM23 K HH fy Fy By) as [F2 V2]. destruct (x1_spec HE8 HM23 K HH fx fy Fx Fy Bx By) as [F1 V1].
    apply R2.
    + destruct C1 as [C1|[C1 _]]; [exact C1|]. exfalso. apply N1. split; [exact F1|]. rewrite V1, Rabs_pos_eq; lra.
    + destruct C2 as [C2|[C2 _]]; [exact C2|]. exfalso. apply N2. split; [exact F2|]. rewrite V2, Rabs_pos_eq; lra.
Qed.
End CellCircuit.
