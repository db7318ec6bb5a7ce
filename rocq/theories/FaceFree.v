(** Positions with the same projection on different faces. *)
From Coq Require Import ZArith Reals Lra Lia Bool List.
From Flocq Require Import Core BinarySingleNaN.
From Verif Require Import Field FloatModel RoundFacts Spec Loc2Index LocConst NormFacts PipeFacts HexCell TableFacts Angles
  PlaneError Gnomonic CellFacts PropertiesAngles RoundCore.
Import ListNotations.
Local Open Scope R_scope.

Lemma unit_angle a b : a * a + b * b = 1 -> exists t, - PI <= t <= PI /\ cos t = a /\ sin t = b.
Proof.
  intros H. assert (A : -1 <= a <= 1) by nra.
  pose proof (acos_bound a) as B. pose proof (cos_acos a A) as C. pose proof (sin_acos a A) as S.
  destruct (Rle_dec 0 b) as [P|P].
  - exists (acos a). split; [lra|]. split; [exact C|]. rewrite S. apply Rsqr_inj; [apply sqrt_pos|exact P|].
    unfold Rsqr. rewrite sqrt_sqrt; nra.
  - exists (- acos a). split; [lra|]. rewrite cos_neg, sin_neg. split; [exact C|]. rewrite S.
    enough (sqrt (1 - a²) = - b) by lra. apply Rsqr_inj; [apply sqrt_pos|lra|].
    unfold Rsqr. rewrite sqrt_sqrt; nra.
Qed.

(** Every direction is the direction of a position. *)
Lemma position_of x y z : x * x + y * y + z * z = 1 ->
  exists lat t, - (PI / 2) <= lat <= PI / 2 /\ sin lat = z /\ cos lat * cos t = x /\ cos lat * sin t = y.
Proof.
  intros H. assert (A : -1 <= z <= 1) by nra.
  exists (asin z). pose proof (asin_bound z) as B. rewrite (sin_asin z A), (cos_asin z A).
  assert (Q : sqrt (1 - z²) * sqrt (1 - z²) = 1 - z * z) by (unfold Rsqr; apply sqrt_sqrt; nra).
  set (c := sqrt (1 - z²)) in *. destruct (Req_dec c 0) as [Z|N].
  - exists 0. rewrite Z in *. split; [lra|]. split; [reflexivity|]. split; nra.
  - destruct (unit_angle (x / c) (y / c)) as (t & _ & Hc & Hs).
    { apply Rmult_eq_reg_r with (c * c); [|nra]. field_simplify; [|exact N]. nra. }
    exists t. rewrite Hc, Hs. split; [lra|]. split; [reflexivity|]. split; field; exact N.
Qed.

(** The projection can be undone. *)
Lemma unproject l res X Y : (0 <= res < 16)%Z -> exists lat lng, - (PI / 2) <= lat <= PI / 2 /\
  gnomonic_x l res lat lng = X /\ gnomonic_y l res lat lng = Y /\
  0 < upwards l lat lng /\ upwards l lat lng * upwards l lat lng * (1 + (X * X + Y * Y) / (unit_of res * unit_of res)) = 1.
Proof.
  intros Hr.
  assert (U : 0 < unit_of res).
  { unfold unit_of. pose proof res0_bounds. pose proof (sqrt7_bounds res Hr). apply Rdiv_lt_0_compat; lra. }
  unfold gnomonic_x, gnomonic_y. set (sa := sin (face_axis l res)). set (ca := cos (face_axis l res)).
  pose proof (circle1 (face_axis l res)) as CA. fold sa ca in CA.
  set (q := unit_of res) in *. set (a := X / q). set (b := Y / q).
  set (w := sqrt (1 + (a * a + b * b))).
  assert (W : w * w = 1 + (a * a + b * b)) by (apply sqrt_sqrt; nra).
  assert (W0 : 0 < w) by (apply sqrt_lt_R0; nra).
  set (u := / w). assert (U0 : 0 < u) by (apply Rinv_0_lt_compat; exact W0).
  assert (UW : u * w = 1) by (unfold u; field; lra).
  set (n := u * (ca * a + sa * b)). set (e := u * (sa * a - ca * b)).
  set (sf := sin (face_lat l)). set (cf := cos (face_lat l)). pose proof (circle1 (face_lat l)) as CF. fold sf cf in CF.
  assert (One : n * n + e * e + u * u = 1).
  { transitivity (u * u * ((ca * a + sa * b) * (ca * a + sa * b) + (sa * a - ca * b) * (sa * a - ca * b) + 1)); [unfold n, e; ring|].
    replace ((ca * a + sa * b) * (ca * a + sa * b) + (sa * a - ca * b) * (sa * a - ca * b) + 1)
      with ((sa * sa + ca * ca) * (a * a + b * b) + 1) by ring.
    rewrite CA. replace (1 * (a * a + b * b) + 1) with (w * w) by lra. replace (u * u * (w * w)) with ((u * w) * (u * w)) by ring. rewrite UW. ring. }
  destruct (position_of (cf * u - sf * n) e (sf * u + cf * n)) as (lat & t & HB & Hz & Hx & Hy).
  { transitivity (n * n * (sf * sf + cf * cf) + e * e + u * u * (sf * sf + cf * cf)); [ring|]. rewrite CF. lra. }
  exists lat, (t + face_lng l).
  assert (EN : to_north l lat (t + face_lng l) = n).
  { unfold to_north. replace (t + face_lng l - face_lng l) with t by ring. fold sf cf. rewrite Rmult_assoc, Hx, Hz.
    transitivity (n * (sf * sf + cf * cf)); [ring|rewrite CF; ring]. }
  assert (EE : to_east l lat (t + face_lng l) = e).
  { unfold to_east. replace (t + face_lng l - face_lng l) with t by ring. exact Hy. }
  assert (EU : upwards l lat (t + face_lng l) = u).
  { unfold upwards. replace (t + face_lng l - face_lng l) with t by ring. fold sf cf. rewrite Rmult_assoc, Hx, Hz.
    transitivity (u * (sf * sf + cf * cf)); [ring|rewrite CF; ring]. }
  rewrite EN, EE, EU. split; [exact HB|].
  assert (EX : (ca * n + sa * e) / u = a).
  { unfold n, e. transitivity (a * (sa * sa + ca * ca)); [field; lra|rewrite CA; ring]. }
  assert (EY : (sa * n - ca * e) / u = b).
  { unfold n, e. transitivity (b * (sa * sa + ca * ca)); [field; lra|rewrite CA; ring]. }
  rewrite EX, EY. split; [unfold a; field; lra|]. split; [unfold b; field; lra|]. split; [exact U0|].
  replace ((X * X + Y * Y) / (q * q)) with (a * a + b * b) by (unfold a, b; field; lra).
  rewrite <- W. replace (u * u * (w * w)) with ((u * w) * (u * w)) by ring. rewrite UW. ring.
Qed.

(** Its distance from the centre of the face. *)
Lemma unproject_apart l lat lng t : 0 < upwards l lat lng -> 0 <= t <= 1 ->
  upwards l lat lng * upwards l lat lng * (1 + t * t) = 1 -> 7 / 10 * t <= apart l lat lng <= t.
Proof.
  intros U T H. pose proof (apart_up l lat lng) as A. pose proof (apart_pos l lat lng) as P.
  set (u := upwards l lat lng) in *. set (x := apart l lat lng) in *. clearbody u x.
  set (s := t * t) in *. assert (S : 0 <= s <= 1) by (unfold s; nra).
  assert (L : 1 - s / 2 <= u).
  { destruct (Rle_dec (1 - s / 2) u) as [Q|Q]; [exact Q|exfalso].
    assert (u * u < (1 - s / 2) * (1 - s / 2)) by nra.
    assert ((1 - s / 2) * (1 - s / 2) * (1 + s) <= 1) by nra. nra. }
  assert (L' : u <= 1 - 49 / 200 * s).
  { destruct (Rle_dec u (1 - 49 / 200 * s)) as [Q|Q]; [exact Q|exfalso].
    assert ((1 - 49 / 200 * s) * (1 - 49 / 200 * s) < u * u) by nra.
    assert (1 <= (1 - 49 / 200 * s) * (1 - 49 / 200 * s) * (1 + s)) by nra. nra. }
  unfold s in L, L'. clear - A P T L L'. split; nra.
Qed.

(** ** The centres of the faces are far apart *)
Lemma nth_literal l : In l literals -> exists n g, nth_error literals n = Some l /\ nth_error faces32 n = Some g /\
  true_row (E:=8) (M:=23) (bpow radix2 (-22)) l g.
Proof.
  intros H. apply In_nth_error in H as [n Hn]. destruct (rows_nth' _ _ _ C55_exact_32 n l Hn) as (g & Hg & HT). eauto.
Qed.

Definition dots_small : bool :=
  forallb (fun m => forallb (fun n => (m =? n)%nat ||
    match nth_error faces32 m, nth_error faces32 n with
    | Some f, Some g => ltf (fcos (E:=8) (M:=23) f g) (Float radix2 3 (-2))
    | _, _ => true
    end) (seq 0 20)) (seq 0 20).

Lemma centres_far m n l g : m <> n -> nth_error literals m = Some l -> nth_error literals n = Some g ->
  7 / 10 <= apart l (face_lat g) (face_lng g).
Proof.
  intros Hn Hl Hg.
  destruct (rows_nth' _ _ _ C55_exact_32 m l Hl) as (f1 & E1 & (_ & _ & _ & _ & _ & _ & _ & _ & X1 & Y1 & Z1)).
  destruct (rows_nth' _ _ _ C55_exact_32 n g Hg) as (f2 & E2 & (_ & _ & _ & _ & _ & _ & _ & _ & X2 & Y2 & Z2)).
  fold (face_lat l) (face_lng l) in *. fold (face_lat g) (face_lng g) in *.
  assert (C : dots_small = true) by (vm_compute; reflexivity).
  assert (Bm : (m < length literals)%nat) by (apply nth_error_Some; congruence). change (length literals) with 20%nat in Bm.
  assert (Bn : (n < length literals)%nat) by (apply nth_error_Some; congruence). change (length literals) with 20%nat in Bn.
  unfold dots_small in C.
  pose proof (proj1 (forallb_forall _ _) C m ltac:(apply in_seq; lia)) as C1. cbv beta in C1.
  pose proof (proj1 (forallb_forall _ _) C1 n ltac:(apply in_seq; lia)) as C2. cbv beta in C2.
  rewrite (proj2 (Nat.eqb_neq m n) Hn), E1, E2 in C2. cbn [orb] in C2. apply ltf_spec in C2. rewrite fcos_val in C2.
  change (F2R (Float radix2 3 (-2))) with (3 * / 4) in C2. unfold centre_cos in C2. clear C C1.
  pose proof (apart_up l (face_lat g) (face_lng g)) as U. pose proof (apart_pos l (face_lat g) (face_lng g)) as P.
  assert (W : upwards l (face_lat g) (face_lng g) = cos (face_lat l) * cos (face_lng l) * (cos (face_lat g) * cos (face_lng g)) +
    cos (face_lat l) * sin (face_lng l) * (cos (face_lat g) * sin (face_lng g)) + sin (face_lat l) * sin (face_lat g)).
  { unfold upwards. rewrite cos_minus. ring. }
  rewrite W in U. clear W. unfold near in *. change (bpow radix2 (-22)) with (/ 4194304) in *.
  assert (B : forall lat lng, Rabs (cos lat * cos lng) <= 1 /\ Rabs (cos lat * sin lng) <= 1 /\ Rabs (sin lat) <= 1).
  { intros lat lng. assert (Q : forall a b, -1 <= a <= 1 -> -1 <= b <= 1 -> Rabs (a * b) <= 1).
    { clear. intros a b A B. apply Rabs_le. split; nra. }
    pose proof (COS_bound lat). pose proof (SIN_bound lat). pose proof (COS_bound lng). pose proof (SIN_bound lng).
    split; [|split]; [apply Q; assumption|apply Q; assumption|apply Rabs_le; lra]. }
  destruct (B (face_lat l) (face_lng l)) as (B1 & B2 & B3). destruct (B (face_lat g) (face_lng g)) as (B4 & B5 & B6). clear B.
  assert (D : forall a b x y e, 0 <= e <= 1 -> Rabs x <= 1 -> Rabs y <= 1 -> Rabs (a - x) <= e -> Rabs (b - y) <= e -> x * y <= a * b + 3 * e).
  { clear. intros a b x y e He A B C D.
    assert (Rabs (a * b - x * y) <= 3 * e).
    { replace (a * b - x * y) with (x * (b - y) + y * (a - x) + (a - x) * (b - y)) by ring.
      eapply Rle_trans; [apply Rabs_triang|]. eapply Rle_trans; [apply Rplus_le_compat_r, Rabs_triang|]. rewrite !Rabs_mult.
      pose proof (Rabs_pos x). pose proof (Rabs_pos y). pose proof (Rabs_pos (a - x)). pose proof (Rabs_pos (b - y)).
      set (p := Rabs x) in *. set (q := Rabs y) in *. set (r := Rabs (a - x)) in *. set (s := Rabs (b - y)) in *. nra. }
    apply Rabs_le_inv in H. lra. }
  pose proof (D _ _ _ _ (/ 4194304) ltac:(lra) B1 B4 X1 X2) as D1. pose proof (D _ _ _ _ (/ 4194304) ltac:(lra) B2 B5 Y1 Y2) as D2.
  pose proof (D _ _ _ _ (/ 4194304) ltac:(lra) B3 B6 Z1 Z2) as D3. clear D.
  set (x := apart l (face_lat g) (face_lng g)) in *.
  assert (49 / 100 <= x * x) by lra. nra.
Qed.

(** Distance along a chord between two positions. *)
Definition distance (p q : R * R) : R := sqrt (chord (on_sphere (fst p) (snd p)) (on_sphere (fst q) (snd q))).

Lemma distance_norm p q : distance p q = norm3 (cos (fst p) * cos (snd p) - cos (fst q) * cos (snd q))
  (cos (fst p) * sin (snd p) - cos (fst q) * sin (snd q)) (sin (fst p) - sin (fst q)).
Proof. unfold distance, norm3, chord, on_sphere. f_equal. ring. Qed.
Lemma distance_sym p q : distance p q = distance q p.
Proof. unfold distance, chord, on_sphere. f_equal. ring. Qed.
Lemma distance_triangle p q r : distance p r <= distance p q + distance q r.
Proof.
  rewrite !distance_norm. 
  match goal with |- norm3 ?a ?b ?c <= norm3 ?x ?y ?z + norm3 ?u ?v ?w =>
    replace a with (x + u) by ring; replace b with (y + v) by ring; replace c with (z + w) by ring end.
  apply norm3_triangle.
Qed.
Lemma apart_distance l lat lng : apart l lat lng = distance (face_lat l, face_lng l) (lat, lng). Proof. reflexivity. Qed.

Lemma places_far m n l g p q : m <> n -> nth_error literals m = Some l -> nth_error literals n = Some g ->
  apart l (fst p) (snd p) <= 1 / 4 -> apart g (fst q) (snd q) <= 1 / 4 -> 1 / 5 <= distance p q.
Proof.
  intros Hn Hl Hg A B. pose proof (centres_far m n l g Hn Hl Hg) as F. rewrite apart_distance in *.
  pose proof (distance_triangle (face_lat l, face_lng l) p (face_lat g, face_lng g)).
  pose proof (distance_triangle p q (face_lat g, face_lng g)). rewrite (distance_sym q) in *.
  destruct p, q. cbn [fst snd] in *. lra.
Qed.

(** ** The centre of a cell is in no other cell *)
Lemma centre_cell s c c' : s < 2 -> reduced c -> reduced c' -> in_cell s (hex_centre c) c' -> c' = c.
Proof.
  destruct c as [[i j] k]. destruct c' as [[i' j'] k']. intros Hs (Ri & Rj & Rk & Rz) (Ri' & Rj' & Rk' & Rz').
  unfold in_cell, hexagon, hex_centre. cbn [fst snd]. intros (A & B & C).
  pose proof sqrt3 as T. 
  set (a := ((i - k) - (i' - k'))%Z). set (b := ((j - k) - (j' - k'))%Z).
  assert (A' : Rabs (IZR (2 * a - b)) < 2).
  { unfold a, b. replace (IZR (2 * (i - k - (i' - k')) - (j - k - (j' - k')))) with
      (2 * (IZR (i - k) - IZR (j - k) / 2 - (IZR (i' - k') - IZR (j' - k') / 2))) by (rewrite !minus_IZR, mult_IZR, !minus_IZR; field).
    rewrite Rabs_mult, (Rabs_pos_eq 2) by lra. lra. }
  assert (B' : Rabs (IZR (a + b)) < 2).
  { unfold a, b. match type of B with Rabs ?t <= _ => replace (IZR ((i - k - (i' - k')) + (j - k - (j' - k')))) with (2 * t) end.
    - rewrite Rabs_mult, (Rabs_pos_eq 2) by lra. lra.
    - rewrite plus_IZR, !minus_IZR.
      match goal with |- 2 * ?t = _ => replace (2 * t) with ((IZR i - IZR k - (IZR j - IZR k) / 2 - (IZR i' - IZR k' - (IZR j' - IZR k') / 2))
        + (IZR j - IZR k - (IZR j' - IZR k')) * ((sqrt 3 * sqrt 3) / 2)) by field end.
      rewrite T. field. }
  assert (C' : Rabs (IZR (2 * b - a)) < 2).
  { unfold a, b. match type of C with Rabs ?t <= _ => replace (IZR (2 * (j - k - (j' - k')) - (i - k - (i' - k')))) with (2 * t) end.
    - rewrite Rabs_mult, (Rabs_pos_eq 2) by lra. lra.
    - repeat (rewrite minus_IZR || rewrite mult_IZR).
      match goal with |- 2 * ?t = _ => replace (2 * t) with (- (IZR i - IZR k - (IZR j - IZR k) / 2 - (IZR i' - IZR k' - (IZR j' - IZR k') / 2))
        + (IZR j - IZR k - (IZR j' - IZR k')) * ((sqrt 3 * sqrt 3) / 2)) by field end.
      rewrite T. field. }
  rewrite <- abs_IZR in A', B', C'. apply lt_IZR in A', B', C'.
  assert (a = 0%Z /\ b = 0%Z) as [Ea Eb] by lia. unfold a, b in *. f_equal; [f_equal|]; lia.
Qed.

Lemma centre_norm c : reduced c -> c <> (0, 0, 0)%Z -> 1 <= fst (hex_centre c) * fst (hex_centre c) + snd (hex_centre c) * snd (hex_centre c).
Proof.
  destruct c as [[i j] k]. intros (Ri & Rj & Rk & Rz) N. unfold hex_centre. cbn [fst snd].
  pose proof sqrt3 as T. set (a := (i - k)%Z). set (b := (j - k)%Z).
  replace ((IZR a - IZR b / 2) * (IZR a - IZR b / 2) + IZR b * (sqrt 3 / 2) * (IZR b * (sqrt 3 / 2)))
    with (IZR a * IZR a - IZR a * IZR b + IZR b * IZR b / 4 + IZR b * IZR b * (sqrt 3 * sqrt 3) / 4) by field.
  rewrite T. replace (IZR a * IZR a - IZR a * IZR b + IZR b * IZR b / 4 + IZR b * IZR b * 3 / 4) with (IZR (a * a - a * b + b * b))
    by (rewrite plus_IZR, minus_IZR, !mult_IZR; field).
  apply IZR_le. assert (a <> 0 \/ b <> 0)%Z.
  { destruct (Z.eq_dec a 0) as [Z1|]; [|auto]. destruct (Z.eq_dec b 0) as [Z2|]; [|auto]. exfalso. apply N. unfold a, b in *. f_equal; [f_equal|]; lia. }
  nia.
Qed.

(** ** A datum near any sine *)
Lemma datum_near {E M : Z} {HF : Format E M} (x : R) : (8 <= E)%Z -> (23 <= M <= 52)%Z -> Rabs x <= 1 ->
  exists f : fmt E M, is_finite f = true /\ Rabs (B2R f - x) <= bpow radix2 (- M).
Proof.
  intros HE HM Hx. set (m := Zfloor (x * bpow radix2 M)).
  exists (binary_normalize _ _ (fmt_prec_gt_0 E M) (fmt_prec_lt_emax E M) mode_NE m (- M) false).
  pose proof (binary_normalize_correct _ _ (fmt_prec_gt_0 E M) (fmt_prec_lt_emax E M) mode_NE m (- M) false) as C.
  cbv zeta in C.
  assert (P : 0 < bpow radix2 M) by apply bpow_gt_0.
  assert (PP : bpow radix2 M * bpow radix2 (- M) = 1) by (rewrite <- bpow_plus, Z.add_opp_diag_r; reflexivity).
  assert (P' : 0 < bpow radix2 (- M)) by apply bpow_gt_0.
  pose proof (Zfloor_lb (x * bpow radix2 M)) as L. pose proof (Zfloor_ub (x * bpow radix2 M)) as U. fold m in L, U.
  apply Rabs_le_inv in Hx.
  assert (V : F2R (Float radix2 m (- M)) = IZR m * bpow radix2 (- M)) by reflexivity.
  assert (Bm : (Z.abs m <= 2 ^ M)%Z).
  { assert (IZR m <= IZR (2 ^ M)) by (rewrite IZR_pow2 by lia; nra). apply le_IZR in H.
    assert (IZR (- 2 ^ M - 1) < IZR m) by (rewrite minus_IZR, opp_IZR, IZR_pow2 by lia; nra). apply lt_IZR in H0. lia. }
  assert (G : generic_format radix2 (SpecFloat.fexp (prec M) (emax E)) (F2R (Float radix2 m (- M)))).
  { apply generic_format_FLT. exists (Float radix2 m (- M)); [reflexivity| |].
    - cbn [Fnum]. change (radix_val radix2) with 2%Z. unfold prec. rewrite Z.pow_add_r by lia. lia.
    - cbn [Fexp]. unfold SpecFloat.emin, prec, emax. assert (2 ^ (8 - 1) <= 2 ^ (E - 1))%Z by (apply Z.pow_le_mono_r; lia). cbn in H. lia. }
  rewrite round_generic in C; [|apply valid_rnd_N|exact G].
  assert (S : Rabs (F2R (Float radix2 m (- M))) < bpow radix2 (emax E)).
  { rewrite V, Rabs_mult, (Rabs_pos_eq (bpow radix2 (- M))) by lra. rewrite <- abs_IZR.
    apply IZR_le in Bm. rewrite IZR_pow2 in Bm by lia. apply Rle_lt_trans with 1; [nra|].
    apply (bpow_lt radix2 0). unfold emax. assert (2 ^ (8 - 1) <= 2 ^ (E - 1))%Z by (apply Z.pow_le_mono_r; lia). cbn in H. lia. }
  rewrite Rlt_bool_true in C by exact S. destruct C as (C1 & C2 & _). split; [exact C2|]. rewrite C1, V.
  apply Rabs_le. nra.
Qed.
