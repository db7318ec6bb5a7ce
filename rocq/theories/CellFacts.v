(** The accepted cell and the projected position. *)
From Coq Require Import ZArith Reals Lra Lia Bool List.
From Flocq Require Import Core BinarySingleNaN.
From Verif Require Import Field FieldFacts Circuit RangeCheck RangeFacts GadgetFacts FloatModel Math
  MathSpec RoundFacts Spec RoundCore RepFacts NewFacts Outcomes Witness ErrorFacts Loc2Index NormFacts ScaleFacts
  ClosestFacts HexFacts PipeFacts HexCell Angles PlaneError PlanePoint Gnomonic PropertiesPipe PropertiesCell PropertiesGnomonic.
Import ListNotations.
Local Open Scope Z_scope.

Section Cell.
Context {MOD : Modulus} {E M b : Z} {HP : Params E M b} {HF : Format E M}.
Context (HE8 : 8 <= E) (HM23 : 23 <= M).
#[local] Instance Wn : Width b (4*M+44) := params_width E M b HP.
#[local] Instance Bn : BigMod := width_big b _ Wn.
Notation fmt := (Spec.fmt E M).
Variable K : constants.
Variable faces : list face.
Hypothesis HK : pipe_constants E M K faces.
Hypothesis HC : cell_patterns E M K.
Notation cst p := (of_bits E M p).
Notation factor res := (ieee_scale (map (of_bits E M) (k_powers K)) res).

(** [located], whatever the sign of a zero coordinate. *)
Definition placed (res : Z) (sl cl sg cg hx hy : fmt) : Prop :=
  let dist f := ieee_distance f (ieee_mul E M cl cg) (ieee_mul E M cl sg) sl in
  Forall (fun f => is_finite (dist f) = true) faces /\
  exists n f, first_nearest dist (of_bits E M (int_bits E M 5)) faces n f /\
    h3_plane (of_bits E M (k_res K)) (factor res) f res sl cl sg cg (dist f) = Some (hx, hy).

Ltac peel H x Hx := apply obind_some in H as (x & Hx & H).

Theorem coordinates_cell h lng cosLat cosLng z sinLng res (sl cl sg cg hx hy : fmt) :
  (h = Anyone -> pow2_size E M mod b = 0) -> h <> Someone -> 0 <= res < 16 ->
  represents z sl -> represents cosLat cl -> represents sinLng sg -> represents cosLng cg ->
  placed res sl cl sg cg hx hy ->
  gives (b:=b) h (coordinates (E:=E) (M:=M) K faces lng cosLat cosLng z sinLng res) (fun r => exists c, r = embed3 c /\ reduced c /\
    match h with
    | Honest => in_cell (1 + cell_slack (M:=M) (B2R hx) (B2R hy)) (B2R hx, B2R hy) c
    | _ => in_cell (5 / 2 + cell_slack (M:=M) (B2R hx) (B2R hy)) (B2R hx, B2R hy) c /\
      (~ in_1_2 E M (h3_x1 (cst (k_sin60 K)) hx hy) -> ~ in_1_2 E M (h3_x2 (cst (k_sin60 K)) hy) ->
       in_cell (1 + cell_slack (M:=M) (B2R hx) (B2R hy)) (B2R hx, B2R hy) c)
    end).
Proof.
  intros Hd Hh Hres Rsl Rcl Rsg Rcg (F & n & f & N & Ho).
  destruct HK as (_ & Hk & Hu & G & GA). destruct HC as [Hpat Hcc].
  unfold h3_plane in Ho.
  peel Ho k1 Q1. apply keep_some in Q1 as [-> S1]. peel Ho k2 Q2. apply keep_some in Q2 as [-> S2].
  peel Ho k3 Q3. apply keep_some in Q3 as [-> S3]. peel Ho k4 Q4. apply keep_some in Q4 as [-> S4].
  peel Ho k5 Q5. apply keep_some in Q5 as [-> S5]. peel Ho k6 Q6. apply keep_some in Q6 as [-> S6].
  peel Ho k7 Q7. apply keep_some in Q7 as [-> S7]. peel Ho k8 Q8. apply keep_some in Q8 as [-> S8].
  peel Ho k9 Q9. apply keep_some in Q9 as [-> S9]. peel Ho ka Qa. apply keep_some in Qa as [-> Sa].
  peel Ho kb Qb. apply keep_some in Qb as [-> Sb]. peel Ho kc Qc. apply keep_some in Qc as [-> Sc].
  peel Ho kd Qd. apply keep_some in Qd as [-> Sd]. peel Ho rad Qr.
  destruct (point_small _ _ _ _ _ _ _ _ _ _ _ _ _ Ho) as [Shx Shy].
  assert (Hin : In f faces) by (destruct N as [N1 _]; exact (nth_error_In _ _ N1)).
  pose proof (proj1 (Forall_forall _ _) GA f Hin) as A4.
  unfold good_axes in A4. apply Forall_cons_iff in A4 as [A1 A4]. apply Forall_cons_iff in A4 as [A2 A4].
  apply Forall_cons_iff in A4 as [A3 A4]. apply Forall_cons_iff in A4 as [A4 _].
  assert (F1 : is_finite (ieee_mul E M cl cg) = true /\ is_finite (ieee_mul E M cl sg) = true).
  { pose proof (proj1 (Forall_forall _ _) F f Hin) as D. cbv beta in D.
    unfold ieee_distance in D. cbv zeta in D.
    destruct (add_finite_inv _ _ D) as [D1 _]. destruct (add_finite_inv _ _ D1) as [D2 D3].
    destruct (mul_finite_inv _ _ D2) as [D4 _]. destruct (mul_finite_inv _ _ D3) as [D5 _].
    destruct (sub_finite_inv _ _ D4) as [_ D6]. destruct (sub_finite_inv _ _ D5) as [_ D7]. auto. }
  destruct F1 as [Fx Fy]. unfold coordinates.
  eapply gives_bind; [exact (gives_mul_exact h Hd _ _ _ _ Rcl Rcg Fx)|]. intros wx Rx.
  eapply gives_bind; [exact (gives_mul_exact h Hd _ _ _ _ Rcl Rsg Fy)|]. intros wy Ry.
  eapply gives_bind; [exact (gives_closest h Hd faces wx wy z lng _ _ _ n f G Rx Ry Rsl F N)|]. intros c Cc.
  eapply gives_bind; [exact (radius_gives HE8 HM23 h Hd K Hk Hu (sqDist c) _ rad res Hres
    (represents_like _ _ (proj1 Cc) S5) S6 S7 Qr)|]. intros wr Lr.
  eapply gives_bind; [exact (plane_gives HE8 h Hd z cosLat sinLng cosLng wr c res f sl cl sg cg _ rad hx hy Hres A1 A2 A3 A4
    (represents_like _ _ Rsl S1) (represents_like _ _ Rcl S2) (represents_like _ _ Rsg S3)
    (represents_like _ _ Rcg S4) Lr S8 S9 Sa Sb Cc Ho)|].
  intros [wx' wy'] [[_ (gx & Hgx & Ggx & Vgx)] [_ (gy & Hgy & Ggy & Vgy)]]. cbn [fst snd] in *.
  destruct (small_spec _ Shx) as [Fhx Bhx]. destruct (small_spec _ Shy) as [Fhy Bhy].
  assert (AX : ieee_abs E M gx = ieee_abs E M hx)
    by (destruct (same_value gx hx Ggx Fhx Vgx) as [->|(s & t & -> & ->)]; reflexivity).
  assert (AY : ieee_abs E M gy = ieee_abs E M hy)
    by (destruct (same_value gy hy Ggy Fhy Vgy) as [->|(s & t & -> & ->)]; reflexivity).
  assert (X1 : h3_x1 (cst (k_sin60 K)) gx gy = h3_x1 (cst (k_sin60 K)) hx hy) by (unfold h3_x1, h3_x2; rewrite AX, AY; reflexivity).
  assert (X2 : h3_x2 (cst (k_sin60 K)) gy = h3_x2 (cst (k_sin60 K)) hy) by (unfold h3_x2; rewrite AY; reflexivity).
  destruct (circuit_cell HE8 HM23 K Hpat Hcc wx' wy' gx gy Hgx Hgy Ggx Ggy ltac:(rewrite Vgx; exact Bhx) ltac:(rewrite Vgy; exact Bhy))
    as [CE CS].
  rewrite Vgx, Vgy in CE, CS. rewrite X1, X2 in CS.
  destruct h; cbn [gives]; [|intros r Hr; exact (CS (Hd eq_refl) r Hr)|contradiction].
  destruct CE as (cc & He & Rc & Hc). exists (embed3 cc). eauto.
Qed.

(** The projected point is bounded. *)
Lemma gnomonic_bound l res lat lng : (apart l lat lng <= 68 / 100)%R -> 0 <= res < 16 ->
  (Rabs (gnomonic_x l res lat lng) <= 22 / 10 * sqrt 7 ^ Z.to_nat res)%R /\
  (Rabs (gnomonic_y l res lat lng) <= 22 / 10 * sqrt 7 ^ Z.to_nat res)%R.
Proof.
  intros HA Hr. pose proof (apart_up l lat lng) as AU. pose proof (apart_pos l lat lng) as A0.
  pose proof (sqrt7_bounds res Hr) as SB. pose proof res0_bounds as UB.
  assert (C : (to_north l lat lng * to_north l lat lng + to_east l lat lng * to_east l lat lng
    + upwards l lat lng * upwards l lat lng = 1)%R).
  { pose proof (components (sin lat) (cos lat) (sin lng) (cos lng) (sin (face_lat l)) (cos (face_lat l)) (sin (face_lng l)) (cos (face_lng l))
      (circle1 _) (circle1 _) (circle1 _) (circle1 _)) as H. rewrite <- H. unfold northc, eastc, upc, to_north, to_east, upwards.
    rewrite cos_minus, sin_minus. ring. }
  unfold gnomonic_x, gnomonic_y, unit_of. set (n := to_north l lat lng) in *. set (e := to_east l lat lng) in *.
  set (w := upwards l lat lng) in *. set (S := (sqrt 7 ^ Z.to_nat res)%R) in *. set (u := res0_unit) in *.
  pose proof (circle1 (face_axis l res)) as CA. set (s := sin (face_axis l res)) in *. set (c := cos (face_axis l res)) in *.
  assert (W : (7688 / 10000 <= w)%R) by (clear - AU HA A0; nra).
  assert (NE : (n * n + e * e <= 409 / 1000)%R) by (clear - C W; nra).
  assert (P : forall p q, (p * p + q * q = 1)%R -> (Rabs (p * n + q * e) <= 64 / 100)%R).
  { intros p q PQ. assert (Q : ((p * n + q * e) * (p * n + q * e) <= 409 / 1000)%R).
    { apply Rle_trans with ((p * p + q * q) * (n * n + e * e))%R; [|rewrite PQ; lra].
      pose proof (Rle_0_sqr (p * e - q * n)) as Z. unfold Rsqr in Z. lra. }
    apply Rabs_le. clear - Q. split; nra. }
  assert (D : forall t, (Rabs t <= 64 / 100)%R -> (Rabs (S / u * (t / w)) <= 22 / 10 * S)%R).
  { intros t Ht. unfold Rdiv. rewrite !Rabs_mult, !Rabs_inv, (Rabs_pos_eq S), (Rabs_pos_eq u), (Rabs_pos_eq w) by lra.
    assert (I1 : (0 < / u <= 262 / 100)%R).
    { split; [apply Rinv_0_lt_compat; lra|]. replace (262 / 100)%R with (/ (100 / 262))%R by field. apply Rinv_le_contravar; lra. }
    assert (I2 : (0 < / w <= 1301 / 1000)%R).
    { split; [apply Rinv_0_lt_compat; lra|]. replace (1301 / 1000)%R with (/ (1000 / 1301))%R by field. apply Rinv_le_contravar; lra. }
    pose proof (Rabs_pos t) as T0.
    assert (TW : (0 <= Rabs t * / w <= 64 / 100 * (1301 / 1000))%R).
    { split; [apply Rmult_le_pos; lra|apply Rmult_le_compat; lra]. }
    rewrite Rmult_assoc, (Rmult_comm (22 * / 10)). apply Rmult_le_compat_l; [lra|].
    apply Rle_trans with (262 / 100 * (64 / 100 * (1301 / 1000)))%R; [apply Rmult_le_compat; lra|lra]. }
  split; apply D.
  - apply P. lra.
  - replace (s * n - c * e)%R with (s * n + (- c) * e)%R by ring. apply P. lra.
Qed.

(** The slack. *)
Lemma slack_le dl S hx hy x y : (unit_ro M <= dl / 4)%R -> (dl <= 1 / 10000)%R -> (1 <= S)%R ->
  (Rabs x <= 22 / 10 * S)%R -> (Rabs y <= 22 / 10 * S)%R ->
  (Rabs (hx - x) <= 148 * S * dl)%R -> (Rabs (hy - y) <= 148 * S * dl)%R ->
  (cell_slack (M:=M) hx hy + 3 * (148 * S * dl) <= 480 * S * dl)%R.
Proof.
  intros Hu Hdl HS Hx Hy Dx Dy. unfold cell_slack. pose proof (u_pos (M:=M)) as U0.
  assert (A : (Rabs hx <= 222 / 100 * S)%R).
  { replace hx with ((hx - x) + x)%R by ring. eapply Rle_trans; [apply Rabs_triang|]. clear - Hdl HS Hx Dx U0 Hu. nra. }
  assert (B : (Rabs hy <= 222 / 100 * S)%R).
  { replace hy with ((hy - y) + y)%R by ring. eapply Rle_trans; [apply Rabs_triang|]. clear - Hdl HS Hy Dy U0 Hu. nra. }
  assert (C : (12 * (Rabs hx + Rabs hy) + 90 <= 144 * S)%R) by lra.
  pose proof (Rabs_pos hx). pose proof (Rabs_pos hy).
  assert (D : (unit_ro M * (12 * (Rabs hx + Rabs hy) + 90) <= dl / 4 * (144 * S))%R) by (apply Rmult_le_compat; lra).
  lra.
Qed.

Lemma in_cell_wider s t p c : (s <= t)%R -> in_cell s p c -> in_cell t p c.
Proof. intros H. unfold in_cell, hexagon. intuition lra. Qed.

(** The whole pipeline, from sines and cosines on. *)
Theorem cell_of_position dl lng' cosLat cosLng z sinLng lat lng (sl cl sg cg : fmt) :
  (unit_ro M <= dl / 4)%R -> (dl <= 1 / 10000)%R -> projects (E:=E) (M:=M) K faces dl ->
  represents z sl -> represents cosLat cl -> represents sinLng sg -> represents cosLng cg ->
  is_finite sl = true -> is_finite cl = true -> is_finite sg = true -> is_finite cg = true ->
  (Rabs (B2R sl - sin lat) <= dl)%R -> (Rabs (B2R cl - cos lat) <= dl)%R ->
  (Rabs (B2R sg - sin lng) <= dl)%R -> (Rabs (B2R cg - cos lng) <= dl)%R ->
  forall res, 0 <= res < 16 ->
  exists l, In l literals /\ (apart l lat lng <= 68 / 100)%R /\
  (forall g, In g literals -> apart l lat lng <= apart g lat lng + 15 * dl)%R /\
  ((20 * dl <= apart l lat lng)%R ->
   let p := (gnomonic_x l res lat lng, gnomonic_y l res lat lng) in
   let off := (480 * sqrt 7 ^ Z.to_nat res * dl)%R in
   (exists c, reduced c /\ in_cell (1 + off) p c /\ forall I J K_,
      exec b (locate E M K faces lng' cosLat cosLng z sinLng res I J K_) = Some tt <-> (I, J, K_) = embed3 c) /\
   (pow2_size E M mod b = 0 -> forall I J K_, sat b (locate E M K faces lng' cosLat cosLng z sinLng res I J K_) tt ->
      exists c, (I, J, K_) = embed3 c /\ reduced c /\ in_cell (5 / 2 + off) p c)).
Proof.
  intros Hu Hdl HPr R1 R2 R3 R4 F1 F2 F3 F4 A1 A2 A3 A4 res Hres.
  destruct (HPr lat lng sl cl sg cg res Hres F1 F2 F3 F4 A1 A2 A3 A4) as (HFi & n & l & f & HN & Hl & HG & HS & HPt).
  exists l. split; [exact (nth_error_In _ _ Hl)|]. split; [exact HS|]. split; [exact HG|]. intros Hmin p off.
  destruct (HPt Hmin) as (hx & hy & Hp & Fx & Fy & Dx & Dy).
  assert (HPl : placed res sl cl sg cg hx hy) by (split; [exact HFi|]; exists n, f; auto).
  destruct (gnomonic_bound l res lat lng HS Hres) as [Bx By].
  pose proof (sqrt7_bounds res Hres) as SB.
  pose proof (slack_le dl _ _ _ _ _ Hu Hdl (proj1 SB) Bx By Dx Dy) as SL.
  assert (MV : forall s c, in_cell (s + cell_slack (M:=M) (B2R hx) (B2R hy)) (B2R hx, B2R hy) c -> in_cell (s + off) p c).
  { intros s c H. eapply in_cell_wider; [|eapply (in_cell_move _ _ p c _ H)].
    2: { unfold p. cbn [fst]. rewrite Rabs_minus_sym. exact Dx. } 2: { unfold p. cbn [snd]. rewrite Rabs_minus_sym. exact Dy. }
    unfold off. lra. }
  split.
  - destruct (coordinates_cell Honest lng' cosLat cosLng z sinLng res sl cl sg cg hx hy ltac:(discriminate) ltac:(discriminate)
      Hres R1 R2 R3 R4 HPl) as ([[i j] k] & He & c & Er & Rc & Hc).
    exists c. split; [exact Rc|]. split; [apply MV; exact Hc|]. intros I J K_. rewrite <- Er. apply locate_exec. exact He.
  - intros Hd I J K_ H. apply locate_sat in H.
    destruct (coordinates_cell Anyone lng' cosLat cosLng z sinLng res sl cl sg cg hx hy (fun _ => Hd) ltac:(discriminate)
      Hres R1 R2 R3 R4 HPl _ H) as (c & Er & Rc & Hc & _). exists c. split; [exact Er|]. split; [exact Rc|]. apply MV. exact Hc.
Qed.
End Cell.
