(** calculateR, calculateHex2d and the circuit from the trigonometric values on:
    the gnomonic projection of H3's [_geoToHex2d] in IEEE arithmetic. *)
From Coq Require Import ZArith Reals Lra Lia Bool List.
From Flocq Require Import Core BinarySingleNaN.
From Verif Require Import Field FieldFacts Circuit CircuitFacts RangeCheck RangeFacts Gadget
  GadgetFacts Util FloatModel Tactics RoundFacts Spec RoundCore RepFacts MulFacts DivFacts
  SqrtFacts AddFacts AddSpec Forge CompFacts NewFacts CmpFacts TruncFacts TruncSpec ToIntFacts
  EqFacts Outcomes CircuitSpec Expr ExprFacts ValueFacts Math SinFacts Loc2Index NormFacts
  Witness ScaleFacts ClosestFacts HexFacts.
Import ListNotations.
Local Open Scope Z_scope.

(** ** Specification *)
Section PipeSpec.
Context {E M : Z} {HF : Format E M}.
Notation fmt := (Spec.fmt E M).

(** Finite, of magnitude below [2^29]. *)
Definition small (f : fmt) : bool :=
  match f with
  | B754_zero _ => true
  | B754_finite _ _ e _ => e + (M + 1) <=? 29
  | _ => false
  end.

(** IEEE arithmetic as long as all results are small. *)
Definition keep (f : fmt) : option fmt := if small f then Some f else None.
Definition obind {A B} (o : option A) (k : A -> option B) : option B :=
  match o with Some x => k x | None => None end.
Notation "x <-- o ;; k" := (obind o (fun x => k)) (at level 61, o at next level, right associativity).
Definition o_add x y := keep (ieee_add E M x y).
Definition o_sub x y := keep (ieee_sub E M x y).
Definition o_mul x y := keep (ieee_mul E M x y).
Definition o_div x y := keep (ieee_div E M x y).
Definition o_sqrt x := keep (ieee_sqrt E M x).

(** The radius in the plane of the face, in units of the resolution, from the
    squared chord [d]: [sqrt ((4 - d) d) / (2 - d)] is the tangent of the angle
    ([chord_tangent] below). *)
Definition h3_radius (unit scale d : fmt) : option fmt :=
  a <-- o_sub (of_int 4) d ;;
  n <-- o_mul a d ;;
  t <-- o_sub (of_int 2) d ;;
  s <-- o_sqrt n ;;
  q <-- o_div s t ;;
  r <-- o_div q unit ;;
  o_mul r scale.

(** The direction from the centre of the face, relative to its axis, times the
    radius: [(sinF, cosF)] are sine and cosine of latitude and longitude of the
    centre, [sinA], [cosA] those of the azimuth of the axis. *)
Definition h3_point (sinLat cosLat sinLng cosLng sinFLat cosFLat sinFLng cosFLng sinA cosA r : fmt)
    : option (fmt * fmt) :=
  a <-- o_mul sinLng cosFLng ;;
  b <-- o_mul cosLng sinFLng ;;
  d <-- o_sub a b ;;
  y <-- o_mul cosLat d ;;
  e <-- o_mul cosFLat sinLat ;;
  g <-- o_mul sinFLat cosLat ;;
  h <-- o_mul cosLng cosFLng ;;
  i <-- o_mul sinLng sinFLng ;;
  j <-- o_add h i ;;
  l <-- o_mul g j ;;
  x <-- o_sub e l ;;
  xx <-- o_mul x x ;;
  yy <-- o_mul y y ;;
  s <-- o_add xx yy ;;
  z <-- o_sqrt s ;;
  sinP <-- o_div y z ;;
  cosP <-- o_div x z ;;
  m <-- o_mul sinA cosP ;;
  n <-- o_mul cosA sinP ;;
  sn <-- o_sub m n ;;
  o <-- o_mul cosA cosP ;;
  p <-- o_mul sinA sinP ;;
  cs <-- o_add o p ;;
  hx <-- o_mul cs r ;;
  hy <-- o_mul sn r ;;
  Some (hx, hy).

(** The point of the plane of face [f]; odd resolutions have a rotated axis. *)
Definition h3_plane (unit scale : fmt) (f : face) (resolution : Z) (sinLat cosLat sinLng cosLng d : fmt)
    : option (fmt * fmt) :=
  sinLat <-- keep sinLat ;; cosLat <-- keep cosLat ;;
  sinLng <-- keep sinLng ;; cosLng <-- keep cosLng ;; d <-- keep d ;;
  u <-- keep unit ;; scale <-- keep scale ;;
  a1 <-- keep (of_bits E M (c_sinFaceLat f)) ;;
  a2 <-- keep (of_bits E M (c_cosFaceLat f)) ;;
  a3 <-- keep (of_bits E M (c_sinFaceLng f)) ;;
  a4 <-- keep (of_bits E M (c_cosFaceLng f)) ;;
  a5 <-- keep (of_bits E M (if Z.odd resolution then c_sinAzimuthRot f else c_sinAzimuth f)) ;;
  a6 <-- keep (of_bits E M (if Z.odd resolution then c_cosAzimuthRot f else c_cosAzimuth f)) ;;
  r <-- h3_radius u scale d ;;
  h3_point sinLat cosLat sinLng cosLng a1 a2 a3 a4 a5 a6 r.

End PipeSpec.

(** The formulas over the reals. *)
Section Formulas.
Local Open Scope R_scope.

(** The tangent of the angle between two unit vectors at squared distance [d]. *)
Lemma chord_tangent d : 0 < d < 2 -> tan (acos (1 - d / 2)) = sqrt ((4 - d) * d) / (2 - d).
Proof.
  intros Hd. unfold tan. rewrite sin_acos, cos_acos by lra.
  replace (1 - (1 - d / 2)²) with ((4 - d) * d / (2 * 2)) by (unfold Rsqr; field).
  rewrite sqrt_div_alt by lra. rewrite sqrt_square by lra. field. lra.
Qed.

(** Unit vectors of latitude and longitude. *)
Definition on_sphere (lat lng : R) : R * R * R := (cos lat * cos lng, cos lat * sin lng, sin lat).
Definition chord (p q : R * R * R) : R :=
  let '(a, b, c) := p in let '(x, y, z) := q in (a - x) ^ 2 + (b - y) ^ 2 + (c - z) ^ 2.

Lemma chord_cos lat lng flat flng :
  1 - chord (on_sphere flat flng) (on_sphere lat lng) / 2 =
  sin flat * sin lat + cos flat * cos lat * cos (lng - flng).
Proof.
  unfold chord, on_sphere. rewrite cos_minus.
  pose proof (sin2_cos2 lat) as A. pose proof (sin2_cos2 flat) as B.
  pose proof (sin2_cos2 lng) as C. pose proof (sin2_cos2 flng) as D. unfold Rsqr in *.
  assert (H1 : (cos lat * cos lng) ^ 2 + (cos lat * sin lng) ^ 2 + sin lat ^ 2 = 1).
  { replace ((cos lat * cos lng) ^ 2 + (cos lat * sin lng) ^ 2)
      with (cos lat * cos lat * (sin lng * sin lng + cos lng * cos lng)) by ring. rewrite C. nra. }
  assert (H2 : (cos flat * cos flng) ^ 2 + (cos flat * sin flng) ^ 2 + sin flat ^ 2 = 1).
  { replace ((cos flat * cos flng) ^ 2 + (cos flat * sin flng) ^ 2)
      with (cos flat * cos flat * (sin flng * sin flng + cos flng * cos flng)) by ring. rewrite D. nra. }
  nra.
Qed.

(** With [x] and [y] as the circuit computes them, and [az] the azimuth H3
    computes from them ([atan2 y x]), the result is [r] in direction
    [axis - az]. *)
Lemma point_direction x y az axis r : let z := sqrt (x * x + y * y) in
  0 < z -> x = z * cos az -> y = z * sin az ->
  (cos axis * (x / z) + sin axis * (y / z)) * r = r * cos (axis - az) /\
  (sin axis * (x / z) - cos axis * (y / z)) * r = r * sin (axis - az).
Proof.
  intros z Hz Hx Hy.
  replace (x / z) with (cos az) by (rewrite Hx; field; lra).
  replace (y / z) with (sin az) by (rewrite Hy; field; lra).
  rewrite cos_minus, sin_minus. split; ring.
Qed.

(** [x] and [y]: H3's [_geoAzimuthRads]. *)
Lemma azimuth_x lat lng flat flng :
  cos flat * sin lat - sin flat * cos lat * (cos lng * cos flng + sin lng * sin flng) =
  cos flat * sin lat - sin flat * cos lat * cos (lng - flng).
Proof. rewrite cos_minus. ring. Qed.
Lemma azimuth_y lat lng flng :
  cos lat * (sin lng * cos flng - cos lng * sin flng) = cos lat * sin (lng - flng).
Proof. rewrite sin_minus. ring. Qed.

End Formulas.

(** ** Small data *)
Section Small.
Context {E M : Z} {HF : Format E M}.
Notation fmt := (Spec.fmt E M).

Lemma small_spec (f : fmt) : small f = true -> is_finite f = true /\ (Rabs (B2R f) <= bpow radix2 29)%R.
Proof.
  destruct f as [s|s| |s m e H]; try discriminate; cbn [small]; intros Hs.
  - split; [reflexivity|]. cbn [B2R]. rewrite Rabs_R0. apply bpow_ge_0.
  - apply Z.leb_le in Hs. split; [reflexivity|]. cbn [B2R]. rewrite <- F2R_Zabs, abs_cond_Zopp.
    apply Rlt_le. apply Rlt_le_trans with (bpow radix2 (e + (M + 1))); [|apply bpow_le, Hs].
    unfold SpecFloat.bounded in H. apply andb_prop in H as [H _].
    apply canonical_canonical_mantissa with (sx := false) in H.
    change (e = SpecFloat.fexp (Spec.prec M) (Spec.emax E) (mag radix2 (F2R (Float radix2 (Z.pos m) e)))) in H.
    rewrite (mag_F2R_Zdigits radix2 (Z.pos m) e) in H by discriminate.
    assert (Hd : Zdigits radix2 (Z.pos m) <= M + 1).
    { unfold SpecFloat.fexp, SpecFloat.emin, Spec.prec in H. lia. }
    unfold F2R. cbn [Fnum Fexp Z.abs]. rewrite Z.add_comm, bpow_plus.
    apply Rmult_lt_compat_r; [apply bpow_gt_0|].
    apply Rlt_le_trans with (bpow radix2 (Zdigits radix2 (Z.pos m))); [|apply bpow_le, Hd].
    pose proof (Zdigits_correct radix2 (Z.pos m)) as [_ C]. cbn [Z.abs] in C.
    rewrite <- IZR_Zpower by apply Zdigits_ge_0. apply IZR_lt, C.
Qed.

Lemma small_intro (f : fmt) k : is_finite f = true -> (Rabs (B2R f) < bpow radix2 k)%R -> k <= 29 -> 8 <= E ->
  small f = true.
Proof.
  destruct f as [s|s| |s m e H]; try discriminate; intros _ Hv Hk HE; [reflexivity|].
  cbn [small]. apply Z.leb_le. cbn [B2R] in Hv. rewrite <- F2R_Zabs, abs_cond_Zopp in Hv. cbn [Z.abs] in Hv.
  unfold SpecFloat.bounded in H. apply andb_prop in H as [H _].
  apply canonical_canonical_mantissa with (sx := false) in H.
  change (e = SpecFloat.fexp (Spec.prec M) (Spec.emax E) (mag radix2 (F2R (Float radix2 (Z.pos m) e)))) in H.
  assert (Hm : mag radix2 (F2R (Float radix2 (Z.pos m) e)) <= k).
  { apply mag_le_bpow; [|rewrite Rabs_pos_eq; [exact Hv|apply F2R_ge_0; discriminate]].
    apply Rgt_not_eq, F2R_gt_0. reflexivity. }
  pose proof (Z.pow_le_mono_r 2 7 (E - 1) ltac:(lia) ltac:(lia)). change (2 ^ 7) with 128 in *.
  unfold SpecFloat.fexp, SpecFloat.emin, Spec.prec, Spec.emax in H. lia.
Qed.

(** Finite data of the same value differ in the sign of zero at most. *)
Lemma same_value (f g : fmt) : is_finite f = true -> is_finite g = true -> B2R f = B2R g ->
  f = g \/ exists s t, f = B754_zero s /\ g = B754_zero t.
Proof.
  intros Ff Fg H. destruct (Req_dec (B2R g) 0) as [Hz|Hz].
  - right. rewrite Hz in H.
    assert (HZ : forall k : fmt, is_finite k = true -> B2R k = 0%R -> exists s, k = B754_zero s).
    { intros [s|s| |s m e B] Fk Vk; try discriminate; [eauto|]. exfalso. cbn [B2R] in Vk.
      apply eq_0_F2R in Vk. destruct s; discriminate. }
    destruct (HZ f Ff H) as [s ->]. destruct (HZ g Fg Hz) as [t ->]. eauto.
  - left. apply B2R_inj; [..|exact H].
    + destruct f; try discriminate; [exfalso; apply Hz; rewrite <- H; reflexivity|reflexivity].
    + destruct g; try discriminate; [exfalso; apply Hz; reflexivity|reflexivity].
Qed.

Lemma keep_some (f g : fmt) : keep f = Some g -> g = f /\ small f = true.
Proof. unfold keep. destruct (small f) eqn:S; [intros [= <-]; auto|discriminate]. Qed.

Lemma obind_some {A B} (o : option A) (k : A -> option B) r : obind o k = Some r ->
  exists x, o = Some x /\ k x = Some r.
Proof. destruct o as [x|]; [eauto|discriminate]. Qed.

End Small.

(** ** The circuits *)
Section Pipe.
Context {MOD : Modulus} {E M b : Z} {HP : Params E M b} {HF : Format E M}.
#[local] Instance Wn : Width b (4 * M + 44) := params_width E M b HP.
#[local] Instance Bn : BigMod := width_big b _ _.
Notation fmt := (Spec.fmt E M).
Notation emax := (Spec.emax E).
Notation rne := (Spec.rne E M).
Notation valued := (ValueFacts.valued (E:=E) (M:=M)).
Notation fits := (ValueFacts.fits (E:=E)).
Notation gives := (HexFacts.gives (b:=b)).
Notation const p := (NewConstant E M p).
Notation of_int := (HexFacts.of_int (E:=E) (M:=M)).

Context (HE8 : 8 <= E) (HM23 : 23 <= M).
Variable h : view.
Hypothesis Hd : h = Anyone -> pow2_size E M mod b = 0.

(** The wires have the value of [f], which is small; the sign of a zero is free. *)
Definition like (x : FloatVar) (f : fmt) : Prop := small f = true /\ valued x (B2R f).

Lemma represents_like x (f : fmt) : represents x f -> small f = true -> like x f.
Proof. intros H S. split; [exact S|]. apply represents_valued; [exact H|apply small_spec, S]. Qed.

Lemma below_top (f : fmt) : small f = true -> (Rabs (B2R f) < bpow radix2 (emax - 1))%R.
Proof.
  intros S. destruct (small_spec f S) as [_ B]. eapply Rle_lt_trans; [exact B|]. apply bpow_lt.
  pose proof (emax_128 HE8). lia.
Qed.

Lemma fits_of (f : fmt) v : is_finite f = true -> (~ fits v -> is_finite f = false) -> fits v.
Proof.
  intros F H. unfold ValueFacts.fits in *. destruct (Rlt_le_dec (Rabs v) (bpow radix2 emax)) as [L|L]; [exact L|].
  rewrite H in F; [discriminate|]. lra.
Qed.

Lemma overflow_not_finite (f : fmt) s : B2SF f = binary_overflow (prec M) emax mode_NE s -> is_finite f = false.
Proof. destruct f; cbn; congruence. Qed.

Lemma mul_val (fx fy : fmt) : is_finite fx = true -> is_finite fy = true ->
  is_finite (ieee_mul E M fx fy) = true ->
  fits (rne (B2R fx * B2R fy)) /\ B2R (ieee_mul E M fx fy) = rne (B2R fx * B2R fy).
Proof.
  intros F1 F2 F. assert (Hf : fits (rne (B2R fx * B2R fy))).
  { apply (fits_of _ _ F). intros H. pose proof (Bmult_correct _ _ _ _ mode_NE fx fy) as C.
    rewrite Rlt_bool_false in C by exact (Rnot_lt_le _ _ H). exact (overflow_not_finite _ _ C). }
  split; [exact Hf|]. exact (proj2 (mul_fin fx fy F1 F2 Hf)).
Qed.

Lemma add_val (fx fy : fmt) : is_finite fx = true -> is_finite fy = true ->
  is_finite (ieee_add E M fx fy) = true ->
  fits (rne (B2R fx + B2R fy)) /\ B2R (ieee_add E M fx fy) = rne (B2R fx + B2R fy).
Proof.
  intros F1 F2 F. assert (Hf : fits (rne (B2R fx + B2R fy))).
  { apply (fits_of _ _ F). intros H. pose proof (Bplus_correct _ _ _ _ mode_NE fx fy F1 F2) as C.
    rewrite Rlt_bool_false in C by exact (Rnot_lt_le _ _ H). exact (overflow_not_finite _ _ (proj1 C)). }
  split; [exact Hf|]. exact (proj2 (add_fin fx fy F1 F2 Hf)).
Qed.

Lemma sub_val (fx fy : fmt) : is_finite fx = true -> is_finite fy = true ->
  is_finite (ieee_sub E M fx fy) = true ->
  fits (rne (B2R fx - B2R fy)) /\ B2R (ieee_sub E M fx fy) = rne (B2R fx - B2R fy).
Proof.
  intros F1 F2 F. assert (Hf : fits (rne (B2R fx - B2R fy))).
  { apply (fits_of _ _ F). intros H. pose proof (Bminus_correct _ _ _ _ mode_NE fx fy F1 F2) as C.
    rewrite Rlt_bool_false in C by exact (Rnot_lt_le _ _ H). exact (overflow_not_finite _ _ (proj1 C)). }
  split; [exact Hf|]. exact (proj2 (sub_fin fx fy F1 F2 Hf)).
Qed.

Lemma div_val (fx fy : fmt) : is_finite fx = true -> is_finite fy = true ->
  is_finite (ieee_div E M fx fy) = true ->
  B2R fy <> 0%R /\ fits (rne (B2R fx / B2R fy)) /\ B2R (ieee_div E M fx fy) = rne (B2R fx / B2R fy).
Proof.
  intros F1 F2 F.
  assert (Hn : B2R fy <> 0%R).
  { intros Hz. destruct fy as [s|s| |s m e B]; try discriminate.
    - destruct fx; try discriminate.
    - cbn [B2R] in Hz. apply eq_0_F2R in Hz. destruct s; discriminate. }
  assert (Hf : fits (rne (B2R fx / B2R fy))).
  { apply (fits_of _ _ F). intros H. pose proof (Bdiv_correct _ _ _ _ mode_NE fx fy Hn) as C.
    rewrite Rlt_bool_false in C by exact (Rnot_lt_le _ _ H). exact (overflow_not_finite _ _ C). }
  split; [exact Hn|]. split; [exact Hf|]. exact (proj2 (div_fin fx fy F1 Hn Hf)).
Qed.

Lemma like_mul x y (fx fy f : fmt) : like x fx -> like y fy -> o_mul fx fy = Some f ->
  gives h (Mul E M x y) (fun r => like r f).
Proof.
  intros [Sx Hx] [Sy Hy] Ho. apply keep_some in Ho as [-> S].
  destruct (small_spec _ Sx) as [Fx _], (small_spec _ Sy) as [Fy _], (small_spec _ S) as [F _].
  destruct (mul_val fx fy Fx Fy F) as [Hf Hv].
  apply (gives_weaken h _ _ _ (gives_mul h Hd x y _ _ Hx Hy Hf)).
  intros r Hr. split; [exact S|]. rewrite Hv. exact Hr.
Qed.

Lemma like_add x y (fx fy f : fmt) : like x fx -> like y fy -> o_add fx fy = Some f ->
  gives h (Add E M x y) (fun r => like r f).
Proof.
  intros [Sx Hx] [Sy Hy] Ho. apply keep_some in Ho as [-> S].
  destruct (small_spec _ Sx) as [Fx _], (small_spec _ Sy) as [Fy _], (small_spec _ S) as [F _].
  destruct (add_val fx fy Fx Fy F) as [Hf Hv].
  apply (gives_weaken h _ _ _ (gives_add h Hd x y _ _ Hx Hy Hf (below_top _ Sx))).
  intros r Hr. split; [exact S|]. rewrite Hv. exact Hr.
Qed.

Lemma like_sub x y (fx fy f : fmt) : like x fx -> like y fy -> o_sub fx fy = Some f ->
  gives h (Sub E M x y) (fun r => like r f).
Proof.
  intros [Sx Hx] [Sy Hy] Ho. apply keep_some in Ho as [-> S].
  destruct (small_spec _ Sx) as [Fx _], (small_spec _ Sy) as [Fy _], (small_spec _ S) as [F _].
  destruct (sub_val fx fy Fx Fy F) as [Hf Hv].
  apply (gives_weaken h _ _ _ (gives_sub h Hd x y _ _ Hx Hy Hf (below_top _ Sx))).
  intros r Hr. split; [exact S|]. rewrite Hv. exact Hr.
Qed.

Lemma like_div x y (fx fy f : fmt) : like x fx -> like y fy -> o_div fx fy = Some f ->
  gives h (Div E M x y) (fun r => like r f).
Proof.
  intros [Sx Hx] [Sy Hy] Ho. apply keep_some in Ho as [-> S].
  destruct (small_spec _ Sx) as [Fx _], (small_spec _ Sy) as [Fy _], (small_spec _ S) as [F _].
  destruct (div_val fx fy Fx Fy F) as (Hn & Hf & Hv).
  apply (gives_weaken h _ _ _ (gives_div h Hd x y _ _ Hx Hy Hn Hf)).
  intros r Hr. split; [exact S|]. rewrite Hv. exact Hr.
Qed.

Lemma sqrt_same (f g : fmt) : is_finite f = true -> is_finite g = true -> B2R f = B2R g ->
  is_finite (ieee_sqrt E M g) = true ->
  is_finite (ieee_sqrt E M f) = true /\ B2R (ieee_sqrt E M f) = B2R (ieee_sqrt E M g).
Proof.
  intros Ff Fg H F. destruct (same_value f g Ff Fg H) as [->|(s & t & -> & ->)]; [auto|].
  split; reflexivity.
Qed.

Lemma like_sqrt x (fx f : fmt) : like x fx -> o_sqrt fx = Some f ->
  gives h (Sqrt E M x) (fun r => like r f).
Proof.
  intros [Sx (gx & Hx & Gx & Vx)] Ho. apply keep_some in Ho as [-> S].
  destruct (small_spec _ Sx) as [Fx _], (small_spec _ S) as [F _].
  destruct (sqrt_same gx fx Gx Fx Vx F) as [F' V'].
  apply (gives_intro h Hd).
  - destruct (sqrt_complete x gx Hx) as (r & Hr & Rr). exists r. split; [exact Hr|].
    split; [exact S|]. exists (ieee_sqrt E M gx). auto.
  - intros Ha r Hr. split; [exact S|]. exists (ieee_sqrt E M gx). split; [|auto].
    exact (sqrt_sound x gx r (Hd Ha) Hx Hr).
Qed.

Lemma like_select (c : bool) x y (fx fy : fmt) : like x fx -> like y fy ->
  gives h (FSelect (emb (Z.b2z c)) x y) (fun r => like r (if c then fx else fy)).
Proof.
  intros Hx Hy. unfold FSelect.
  eapply gives_bind; [apply (gives_select h Hd)|]. intros ? ->. 
  eapply gives_bind; [apply (gives_select h Hd)|]. intros ? ->.
  eapply gives_bind; [apply (gives_select h Hd)|]. intros ? ->.
  eapply gives_bind; [apply (gives_select h Hd)|]. intros ? ->.
  apply (gives_intro h Hd).
  - eexists. split; [reflexivity|]. destruct c, x, y; assumption.
  - intros _ r Hr. apply sat_ret_inv in Hr. subst r. destruct c, x, y; assumption.
Qed.

(** *** calculateR *)
Variable K : constants.
Hypothesis Hk : good_powers (E:=E) (M:=M) (k_powers K).
Hypothesis Hu : 0 <= k_res K < 2 ^ (E + M + 1).
Notation unit_ := (of_bits E M (k_res K)).
Notation factor res := (ieee_scale (map (of_bits E M) (k_powers K)) res).

Lemma like_int n : n = 2 ^ 1 \/ n = 2 ^ 2 -> like (const (int_bits E M n)) (of_int n).
Proof.
  intros Hn.
  assert (Hv : valued (const (int_bits E M n)) (IZR n)).
  { apply int_bits_valued; [|unfold Spec.emax in *; destruct HF; lia].
    pose proof (Z.pow_le_mono_r 2 3 (M + 1) ltac:(lia) ltac:(lia)). change (2 ^ 3) with 8 in *.
    destruct Hn as [-> | ->]; cbn; lia. }
  assert (Hi : is_finite (of_int n) = true /\ B2R (of_int n) = IZR n).
  { destruct Hn as [-> | ->]; apply of_int_small; lia. }
  split; [|rewrite (proj2 Hi); exact Hv].
  apply (small_intro _ 4 (proj1 Hi)); [|lia|exact HE8]. rewrite (proj2 Hi), <- IZR_pow2 by lia.
  rewrite <- abs_IZR. apply IZR_lt. destruct Hn as [-> | ->]; reflexivity.
Qed.

Ltac peel H x Hx := apply obind_some in H as (x & Hx & H).

Lemma like_scale r (fr f : fmt) res : 0 <= res < 16 -> like r fr -> small (factor res) = true ->
  o_mul fr (factor res) = Some f -> gives h (scaleR E M K r res) (fun x => like x f).
Proof.
  intros Hres Hr Sf Ho. pose proof Hr as [Sr (gr & Hg & Gr & Vr)].
  apply (gives_intro h Hd).
  - destruct (scale_exec K Hk r gr res Hres Hg) as (x & Hx & Rx). exists x. split; [exact Hx|].
    apply keep_some in Ho as [-> S]. split; [exact S|].
    destruct (small_spec _ Sr) as [Fr _], (small_spec _ Sf) as [Ff _], (small_spec _ S) as [F _].
    destruct (mul_val fr _ Fr Ff F) as [Hf Hv].
    destruct (mul_fin gr (factor res) Gr Ff) as [F' V']; [rewrite Vr; exact Hf|].
    exists (ieee_mul E M gr (factor res)). split; [exact Rx|]. split; [exact F'|].
    rewrite V', Hv, Vr. reflexivity.
  - intros Ha x Hx.
    pose proof (sixteen (E:=E) (M:=M) (b:=b)) as H16. change (2 ^ Z.of_nat 4) with 16 in H16.
    destruct (proj1 (scale_sat K Hk r res x (Hd Ha) ltac:(lia)) Hx) as [_ Hm].
    assert (Hw : like (wires (factor res)) (factor res)) by (apply represents_like; [apply wires_represents|exact Sf]).
    pose proof (like_mul r (wires (factor res)) fr _ f Hr Hw Ho) as G. revert G Hm. rewrite Ha. cbn [HexFacts.gives].
    auto.
Qed.

Lemma radius_gives d (fd f : fmt) res : 0 <= res < 16 -> like d fd ->
  small unit_ = true -> small (factor res) = true ->
  h3_radius unit_ (factor res) fd = Some f -> gives h (calculateR E M K d res) (fun x => like x f).
Proof.
  intros Hres Hdd Su Sf Ho. unfold h3_radius in Ho. unfold calculateR.
  peel Ho a Ha. peel Ho n Hn. peel Ho t Ht. peel Ho s Hs. peel Ho q Hq. peel Ho r Hr.
  pose proof (like_int 4 ltac:(right; reflexivity)) as H4.
  pose proof (like_int 2 ltac:(left; reflexivity)) as H2.
  pose proof (represents_like (const (k_res K)) unit_ (newconst_spec _ Hu) Su) as Hc.
  eapply gives_bind; [exact (like_sub _ _ _ _ _ H4 Hdd Ha)|]. intros wa La.
  eapply gives_bind; [exact (like_mul _ _ _ _ _ La Hdd Hn)|]. intros wn Ln.
  eapply gives_bind; [exact (like_sub _ _ _ _ _ H2 Hdd Ht)|]. intros wt Lt.
  eapply gives_bind; [exact (like_sqrt _ _ _ Ln Hs)|]. intros ws Ls.
  eapply gives_bind; [exact (like_div _ _ _ _ _ Ls Lt Hq)|]. intros wq Lq.
  eapply gives_bind; [exact (like_div _ _ _ _ _ Lq Hc Hr)|]. intros wr Lr.
  exact (like_scale wr r f res Hres Lr Sf Ho).
Qed.

Lemma gives_binary res : 0 <= res < 16 ->
  gives h (to_binary res 4) (fun ws => ws = bit_wires (bits_from res 0 4)).
Proof.
  intros Hres. pose proof (sixteen (E:=E) (M:=M) (b:=b)) as H16.
  apply (gives_intro h Hd).
  - eexists. split; [exact (exec_to_binary b res 4 Hres H16)|reflexivity].
  - intros _ ws Hw. change (2 ^ Z.of_nat 4) with 16 in H16.
    exact (proj2 (proj1 (sat_to_binary b res 4 ws ltac:(lia) (sixteen (E:=E) (M:=M) (b:=b))) Hw)).
Qed.

Lemma plane_gives (sinLat cosLat sinLng cosLng r : FloatVar) c res f (sl cl sg cg d rad hx hy : fmt) :
  0 <= res < 16 -> small (of_bits E M (c_sinAzimuth f)) = true -> small (of_bits E M (c_cosAzimuth f)) = true ->
  small (of_bits E M (c_sinAzimuthRot f)) = true -> small (of_bits E M (c_cosAzimuthRot f)) = true ->
  like sinLat sl -> like cosLat cl -> like sinLng sg -> like cosLng cg -> like r rad ->
  small (of_bits E M (c_sinFaceLat f)) = true -> small (of_bits E M (c_cosFaceLat f)) = true ->
  small (of_bits E M (c_sinFaceLng f)) = true -> small (of_bits E M (c_cosFaceLng f)) = true ->
  carries c d f ->
  h3_point sl cl sg cg (of_bits E M (c_sinFaceLat f)) (of_bits E M (c_cosFaceLat f))
    (of_bits E M (c_sinFaceLng f)) (of_bits E M (c_cosFaceLng f))
    (of_bits E M (if Z.odd res then c_sinAzimuthRot f else c_sinAzimuth f))
    (of_bits E M (if Z.odd res then c_cosAzimuthRot f else c_cosAzimuth f)) rad = Some (hx, hy) ->
  gives h (calculateHex2d E M sinLat cosLat sinLng cosLng c r res)
    (fun p => like (fst p) hx /\ like (snd p) hy).
Proof.
  intros Hres S5 S6 S7 S8 Lsl Lcl Lsg Lcg Lr S1 S2 S3 S4 (_ & C1 & C2 & C3 & C4 & C5 & C6 & C7 & C8) Ho.
  pose proof (represents_like _ _ C1 S1) as L1. pose proof (represents_like _ _ C2 S2) as L2.
  pose proof (represents_like _ _ C3 S3) as L3. pose proof (represents_like _ _ C4 S4) as L4.
  pose proof (represents_like _ _ C5 S5) as L5. pose proof (represents_like _ _ C6 S6) as L6.
  pose proof (represents_like _ _ C7 S7) as L7. pose proof (represents_like _ _ C8 S8) as L8.
  clear C1 C2 C3 C4 C5 C6 C7 C8 S1 S2 S3 S4 S5 S6 S7 S8.
  unfold h3_point in Ho. unfold calculateHex2d.
  peel Ho va Ha. peel Ho vb Hb. peel Ho vd Hdd. peel Ho y Hy. peel Ho e He. peel Ho g Hg. peel Ho hh Hh.
  peel Ho i Hi. peel Ho j Hj. peel Ho l Hl. peel Ho x Hx. peel Ho xx Hxx. peel Ho yy Hyy. peel Ho s Hs.
  peel Ho z Hz. peel Ho sp Hsp. peel Ho cp Hcp. peel Ho m Hm. peel Ho n Hn. peel Ho sn Hsn. peel Ho o Hoo.
  peel Ho p Hp. peel Ho cs Hcs. peel Ho ox Hox. peel Ho oy Hoy. injection Ho as -> ->.
  eapply gives_bind; [exact (gives_binary res Hres)|]. intros ws ->.
  assert (Hb0 : nth 0 (bit_wires (bits_from res 0 4)) (emb 0) = emb (Z.b2z (Z.odd res))).
  { unfold bit_wires, bits_from. cbn [seq map nth]. change (0 + Z.of_nat 0) with 0. rewrite Z.bit0_odd. reflexivity. }
  cbv zeta. rewrite Hb0. clear Hb0.
  eapply gives_bind; [exact (like_mul _ _ _ _ _ Lsg L4 Ha)|]. intros wa La.
  eapply gives_bind; [exact (like_mul _ _ _ _ _ Lcg L3 Hb)|]. intros wb Lb.
  eapply gives_bind; [exact (like_sub _ _ _ _ _ La Lb Hdd)|]. intros wd Ld.
  eapply gives_bind; [exact (like_mul _ _ _ _ _ Lcl Ld Hy)|]. intros wy Ly.
  eapply gives_bind; [exact (like_mul _ _ _ _ _ L2 Lsl He)|]. intros we Le.
  eapply gives_bind; [exact (like_mul _ _ _ _ _ L1 Lcl Hg)|]. intros wg Lg.
  eapply gives_bind; [exact (like_mul _ _ _ _ _ Lcg L4 Hh)|]. intros wh Lh.
  eapply gives_bind; [exact (like_mul _ _ _ _ _ Lsg L3 Hi)|]. intros wi Li.
  eapply gives_bind; [exact (like_add _ _ _ _ _ Lh Li Hj)|]. intros wj Lj.
  eapply gives_bind; [exact (like_mul _ _ _ _ _ Lg Lj Hl)|]. intros wl Ll.
  eapply gives_bind; [exact (like_sub _ _ _ _ _ Le Ll Hx)|]. intros wx Lx.
  eapply gives_bind; [exact (like_select (Z.odd res) _ _ _ _ L7 L5)|]. intros wsa Lsa.
  eapply gives_bind; [exact (like_select (Z.odd res) _ _ _ _ L8 L6)|]. intros wca Lca.
  assert (Esa : (if Z.odd res then of_bits E M (c_sinAzimuthRot f) else of_bits E M (c_sinAzimuth f)) =
    of_bits E M (if Z.odd res then c_sinAzimuthRot f else c_sinAzimuth f)) by (destruct (Z.odd res); reflexivity).
  assert (Eca : (if Z.odd res then of_bits E M (c_cosAzimuthRot f) else of_bits E M (c_cosAzimuth f)) =
    of_bits E M (if Z.odd res then c_cosAzimuthRot f else c_cosAzimuth f)) by (destruct (Z.odd res); reflexivity).
  rewrite Esa in Lsa. rewrite Eca in Lca. clear Esa Eca.
  eapply gives_bind; [exact (like_mul _ _ _ _ _ Lx Lx Hxx)|]. intros wxx Lxx.
  eapply gives_bind; [exact (like_mul _ _ _ _ _ Ly Ly Hyy)|]. intros wyy Lyy.
  eapply gives_bind; [exact (like_add _ _ _ _ _ Lxx Lyy Hs)|]. intros ws Ls.
  eapply gives_bind; [exact (like_sqrt _ _ _ Ls Hz)|]. intros wz Lz.
  eapply gives_bind; [exact (like_div _ _ _ _ _ Ly Lz Hsp)|]. intros wsp Lsp.
  eapply gives_bind; [exact (like_div _ _ _ _ _ Lx Lz Hcp)|]. intros wcp Lcp.
  eapply gives_bind; [exact (like_mul _ _ _ _ _ Lsa Lcp Hm)|]. intros wm Lm.
  eapply gives_bind; [exact (like_mul _ _ _ _ _ Lca Lsp Hn)|]. intros wn Ln.
  eapply gives_bind; [exact (like_sub _ _ _ _ _ Lm Ln Hsn)|]. intros wsn Lsn.
  eapply gives_bind; [exact (like_mul _ _ _ _ _ Lca Lcp Hoo)|]. intros wo Lo.
  eapply gives_bind; [exact (like_mul _ _ _ _ _ Lsa Lsp Hp)|]. intros wp Lp.
  eapply gives_bind; [exact (like_add _ _ _ _ _ Lo Lp Hcs)|]. intros wcs Lcs.
  eapply gives_bind; [exact (like_mul _ _ _ _ _ Lcs Lr Hox)|]. intros wox Lox.
  eapply gives_bind; [exact (like_mul _ _ _ _ _ Lsn Lr Hoy)|]. intros woy Loy.
  apply (gives_intro h Hd).
  - eexists. split; [reflexivity|]. split; assumption.
  - intros _ q Hq. apply sat_ret_inv in Hq. subst q. split; assumption.
Qed.

(** *** From the trigonometric values to the coordinates *)

(** [locate] without the final comparison. *)
Definition coordinates (faces : list face) (lng cosLat cosLng z sinLng : FloatVar) (resolution : Z)
    : circ (Z * Z * Z) :=
  x <- Mul E M cosLat cosLng ;;
  y <- Mul E M cosLat sinLng ;;
  calc <- closestFaceCalculations E M faces x y z lng ;;
  r <- calculateR E M K (sqDist calc) resolution ;;
  '(hx, hy) <- calculateHex2d E M z cosLat sinLng cosLng calc r resolution ;;
  hex2dToCoordIJK E M K hx hy.

Lemma gives_mul_exact x y (fx fy : fmt) : represents x fx -> represents y fy ->
  is_finite (ieee_mul E M fx fy) = true ->
  gives h (Mul E M x y) (fun r => represents r (ieee_mul E M fx fy)).
Proof.
  intros Hx Hy F. apply (gives_intro h Hd); [exact (mul_complete x y fx fy Hx Hy)|].
  intros Ha r Hr. exact (mul_safe x y fx fy r (Hd Ha) Hx Hy (fun _ _ => F) Hr).
Qed.

Lemma gives_closest faces x y z lng (fx fy fz : fmt) n f :
  Forall (good_face (E:=E) (M:=M)) faces -> represents x fx -> represents y fy -> represents z fz ->
  Forall (fun f => is_finite (ieee_distance f fx fy fz) = true) faces ->
  first_nearest (fun f => ieee_distance f fx fy fz) (of_bits E M (int_bits E M 5)) faces n f ->
  gives h (closestFaceCalculations E M faces x y z lng) (fun c => carries c (ieee_distance f fx fy fz) f).
Proof.
  intros G Hx Hy Hz F N.
  assert (HP' : forall c, picked faces fx fy fz (of_bits E M (int_bits E M 5)) c ->
    carries c (ieee_distance f fx fy fz) f).
  { intros c [[Q _]|(n' & f' & Q & C)].
    - exfalso. destruct N as (N1 & N2 & _). rewrite (Q n f N1) in N2. discriminate.
    - destruct (first_nearest_unique _ _ _ _ _ _ _ N Q) as [_ <-]. exact C. }
  apply (gives_intro h Hd).
  - destruct (closest_exec faces x y z lng fx fy fz G Hx Hy Hz) as (c & Hc & Pc). exists c. auto.
  - intros Ha c Hc. exact (HP' c (closest_sat faces x y z lng fx fy fz c (Hd Ha) G Hx Hy Hz F Hc)).
Qed.

Hypothesis Hpat : Forall (fun p => 0 <= p < 2 ^ (E + M + 1)) [k_half K; k_third K; k_two_thirds K; k_sin60 K].
Notation cst p := (of_bits E M p).
Hypothesis Hcst : hex_constants (cst (k_half K)) (cst (k_third K)) (cst (k_two_thirds K)) (cst (k_sin60 K)).

(** What the specification needs of the data, and its result. *)
Definition located (faces : list face) (res : Z) (sl cl sg cg hx hy : fmt) : Prop :=
  let x := ieee_mul E M cl cg in
  let y := ieee_mul E M cl sg in
  let dist f := ieee_distance f x y sl in
  Forall (fun f => is_finite (dist f) = true) faces /\
  exists n f, first_nearest dist (of_bits E M (int_bits E M 5)) faces n f /\
    h3_plane (of_bits E M (k_res K)) (factor res) f res sl cl sg cg (dist f) = Some (hx, hy) /\
    B2R hx <> 0%R.

Definition good_axes (f : face) : Prop :=
  Forall (fun p => small (of_bits E M p) = true)
    [c_sinAzimuth f; c_cosAzimuth f; c_sinAzimuthRot f; c_cosAzimuthRot f].

Definition h3_with (m1 m2 : Z) (hx hy : fmt) : Z * Z * Z :=
  h3_hex2d_with (cst (k_half K)) (cst (k_third K)) (cst (k_two_thirds K)) (cst (k_sin60 K)) m1 m2 hx hy.

Lemma point_small sl cl sg cg a1 a2 a3 a4 a5 a6 r (hx hy : fmt) :
  h3_point sl cl sg cg a1 a2 a3 a4 a5 a6 r = Some (hx, hy) -> small hx = true /\ small hy = true.
Proof.
  unfold h3_point. intros Ho.
  do 23 (let v := fresh in let H := fresh in peel Ho v H; clear H).
  peel Ho ox Hox. peel Ho oy Hoy. injection Ho as -> ->.
  apply keep_some in Hox as [-> S1]. apply keep_some in Hoy as [-> S2]. auto.
Qed.

Lemma sub_finite_inv (x y : fmt) : is_finite (ieee_sub E M x y) = true -> is_finite x = true /\ is_finite y = true.
Proof.
  rewrite minus_plus_opp. intros H. destruct (add_finite_inv _ _ H) as [H1 H2]. split; [exact H1|].
  unfold ieee_neg in H2. rewrite is_finite_Bopp in H2. exact H2.
Qed.

Theorem coordinates_gives n1 n2 faces lng cosLat cosLng z sinLng res (sl cl sg cg hx hy : fmt) :
  0 <= res < 16 -> Forall (good_face (E:=E) (M:=M)) faces -> Forall good_axes faces ->
  represents z sl -> represents cosLat cl -> represents sinLng sg -> represents cosLng cg ->
  located faces res sl cl sg cg hx hy ->
  let x1 := h3_x1 (cst (k_sin60 K)) hx hy in
  let x2 := h3_x2 (cst (k_sin60 K)) hy in
  (h = Someone -> int_part x1 n1 /\ int_part x2 n2) ->
  gives h (coordinates faces lng cosLat cosLng z sinLng res) (fun r => exists m1 m2,
    match h with
    | Honest => m1 = Btrunc x1 /\ m2 = Btrunc x2
    | Anyone => int_part x1 m1 /\ int_part x2 m2
    | Someone => m1 = n1 /\ m2 = n2
    end /\ r = embed3 (h3_with m1 m2 hx hy)).
Proof.
  intros Hres G GA Rsl Rcl Rsg Rcg (F & n & f & N & Ho & Nx) x1 x2 Hn.
  unfold h3_plane in Ho.
  peel Ho k1 Q1. apply keep_some in Q1 as [-> S1]. peel Ho k2 Q2. apply keep_some in Q2 as [-> S2].
  peel Ho k3 Q3. apply keep_some in Q3 as [-> S3]. peel Ho k4 Q4. apply keep_some in Q4 as [-> S4].
  peel Ho k5 Q5. apply keep_some in Q5 as [-> S5]. peel Ho k6 Q6. apply keep_some in Q6 as [-> S6].
  peel Ho k7 Q7. apply keep_some in Q7 as [-> S7]. peel Ho k8 Q8. apply keep_some in Q8 as [-> S8].
  peel Ho k9 Q9. apply keep_some in Q9 as [-> S9]. peel Ho ka Qa. apply keep_some in Qa as [-> Sa].
  peel Ho kb Qb. apply keep_some in Qb as [-> Sb]. peel Ho kc Qc. apply keep_some in Qc as [-> Sc].
  peel Ho kd Qd. apply keep_some in Qd as [-> Sd]. peel Ho rad Qr.
  destruct (point_small _ _ _ _ _ _ _ _ _ _ _ _ _ Ho) as [Shx Shy].
  assert (Hin : In f faces) by (destruct N as [N1 _]; exact (nth_error_In _ _ N1)).
  pose proof (proj1 (Forall_forall _ _) GA f Hin) as A4.
  assert (Gf : good_face (E:=E) (M:=M) f) by exact (proj1 (Forall_forall _ _) G f Hin).
  unfold good_axes in A4. apply Forall_cons_iff in A4 as [A1 A4]. apply Forall_cons_iff in A4 as [A2 A4].
  apply Forall_cons_iff in A4 as [A3 A4]. apply Forall_cons_iff in A4 as [A4 _].
  assert (F1 : is_finite (ieee_mul E M cl cg) = true /\ is_finite (ieee_mul E M cl sg) = true).
  { pose proof (proj1 (Forall_forall _ _) F f Hin) as D. cbv beta in D.
    unfold ieee_distance in D. cbv zeta in D.
    destruct (add_finite_inv _ _ D) as [D1 _]. destruct (add_finite_inv _ _ D1) as [D2 D3].
    destruct (mul_finite_inv _ _ D2) as [D4 _]. destruct (mul_finite_inv _ _ D3) as [D5 _].
    destruct (sub_finite_inv _ _ D4) as [_ D6]. destruct (sub_finite_inv _ _ D5) as [_ D7]. auto. }
  destruct F1 as [Fx Fy]. unfold coordinates.
  eapply gives_bind; [exact (gives_mul_exact _ _ _ _ Rcl Rcg Fx)|]. intros wx Rx.
  eapply gives_bind; [exact (gives_mul_exact _ _ _ _ Rcl Rsg Fy)|]. intros wy Ry.
  eapply gives_bind; [exact (gives_closest faces wx wy z lng _ _ _ n f G Rx Ry Rsl F N)|]. intros c Cc.
  eapply gives_bind; [exact (radius_gives (sqDist c) _ rad res Hres
    (represents_like _ _ (proj1 Cc) S5) S6 S7 Qr)|]. intros wr Lr.
  eapply gives_bind; [exact (plane_gives z cosLat sinLng cosLng wr c res f sl cl sg cg _ rad hx hy Hres A1 A2 A3 A4
    (represents_like _ _ Rsl S1) (represents_like _ _ Rcl S2) (represents_like _ _ Rsg S3)
    (represents_like _ _ Rcg S4) Lr S8 S9 Sa Sb Cc Ho)|].
  intros [wx' wy'] [[_ (gx & Hgx & Ggx & Vgx)] [_ (gy & Hgy & Ggy & Vgy)]]. cbn [fst snd] in *.
  destruct (small_spec _ Shx) as [Fhx Bhx]. destruct (small_spec _ Shy) as [Fhy Bhy].
  assert (Ex : gx = hx).
  { destruct (same_value gx hx Ggx Fhx Vgx) as [E'|(s & t & _ & ->)]; [exact E'|]. exfalso. apply Nx. reflexivity. }
  subst gx.
  assert (Ey : h3_x1 (cst (k_sin60 K)) hx gy = x1 /\ h3_x2 (cst (k_sin60 K)) gy = x2 /\
    forall m1 m2, h3_with m1 m2 hx gy = h3_with m1 m2 hx hy).
  { destruct (same_value gy hy Ggy Fhy Vgy) as [->|(s & t & -> & ->)]; [auto|].
    unfold x1, x2, h3_with, h3_hex2d_with, h3_x1, h3_x2.
    change (ieee_abs E M (B754_zero s)) with (B754_zero false : fmt).
    change (ieee_abs E M (B754_zero t)) with (B754_zero false : fmt).
    change (ieee_lt E M (B754_zero s) (B754_zero false)) with false.
    change (ieee_lt E M (B754_zero t) (B754_zero false)) with false. auto. }
  destruct Ey as (Ey1 & Ey2 & Ey3).
  assert (Nz : hx <> B754_zero true) by (intros ->; apply Nx; reflexivity).
  rewrite <- Ey1, <- Ey2 in Hn |- *.
  pose proof (hex_spec h Hd HE8 HM23 K Hpat Hcst n1 n2 wx' wy' hx gy Hgx Hgy Fhx Ggy Nz Bhx
    ltac:(rewrite Vgy; exact Bhy) Hn) as GH.
  apply (gives_weaken h _ _ _ GH). intros r (m1 & m2 & Hm & ->). exists m1, m2. split; [exact Hm|].
  rewrite <- Ey3. reflexivity.
Qed.

(** [locate] compares the coordinates with the three public wires. *)
Lemma locate_sat faces lng cosLat cosLng z sinLng res I J K_ :
  sat b (locate E M K faces lng cosLat cosLng z sinLng res I J K_) tt <->
  sat b (coordinates faces lng cosLat cosLng z sinLng res) (I, J, K_).
Proof.
  unfold locate, coordinates. split; intros H.
  - apply sat_bind in H as [x [Hx H]]. apply sat_bind in H as [y [Hy H]]. apply sat_bind in H as [c [Hc H]].
    apply sat_bind in H as [r [Hr H]]. apply sat_bind in H as [[hx hy] [Hp H]].
    apply sat_bind in H as [[[i j] k] [Hh H]]. apply sat_bind in H as [[] [Hi H]].
    apply sat_bind in H as [[] [Hj H]]. apply sat_assert_eq in Hi, Hj, H. subst.
    apply sat_bind. exists x. split; [exact Hx|]. apply sat_bind. exists y. split; [exact Hy|].
    apply sat_bind. exists c. split; [exact Hc|]. apply sat_bind. exists r. split; [exact Hr|].
    apply sat_bind. exists (hx, hy). split; [exact Hp|]. exact Hh.
  - apply sat_bind in H as [x [Hx H]]. apply sat_bind in H as [y [Hy H]]. apply sat_bind in H as [c [Hc H]].
    apply sat_bind in H as [r [Hr H]]. apply sat_bind in H as [[hx hy] [Hp Hh]].
    apply sat_bind. exists x. split; [exact Hx|]. apply sat_bind. exists y. split; [exact Hy|].
    apply sat_bind. exists c. split; [exact Hc|]. apply sat_bind. exists r. split; [exact Hr|].
    apply sat_bind. exists (hx, hy). split; [exact Hp|].
    apply sat_bind. exists (I, J, K_). split; [exact Hh|].
    apply sat_bind. exists tt. split; [apply sat_assert_eq; reflexivity|].
    apply sat_bind. exists tt. split; [apply sat_assert_eq; reflexivity|].
    apply sat_assert_eq. reflexivity.
Qed.

Lemma locate_exec faces lng cosLat cosLng z sinLng res I J K_ i j k :
  exec b (coordinates faces lng cosLat cosLng z sinLng res) = Some (i, j, k) ->
  (exec b (locate E M K faces lng cosLat cosLng z sinLng res I J K_) = Some tt <-> (I, J, K_) = (i, j, k)).
Proof.
  unfold locate, coordinates. intros H.
  apply exec_bind_inv in H as (x & Hx & H). rewrite (exec_bind_eq _ _ _ _ Hx).
  apply exec_bind_inv in H as (y & Hy & H). rewrite (exec_bind_eq _ _ _ _ Hy).
  apply exec_bind_inv in H as (c & Hc & H). rewrite (exec_bind_eq _ _ _ _ Hc).
  apply exec_bind_inv in H as (r & Hr & H). rewrite (exec_bind_eq _ _ _ _ Hr).
  apply exec_bind_inv in H as ([hx hy] & Hp & H). rewrite (exec_bind_eq _ _ _ _ Hp). cbv beta iota in H |- *.
  rewrite (exec_bind_eq _ _ _ _ H). cbv beta iota. split.
  - intros Hs. apply exec_sat in Hs. apply sat_bind in Hs as [[] [Hi Hs]].
    apply sat_bind in Hs as [[] [Hj Hs]]. apply sat_assert_eq in Hi, Hj, Hs. subst. reflexivity.
  - intros [= -> -> ->]. rewrite (exec_bind_eq _ _ _ _ (exec_assert_eq _ _)).
    rewrite (exec_bind_eq _ _ _ _ (exec_assert_eq _ _)). apply exec_assert_eq.
Qed.

(** The resolution wire is bounded whatever the rest. *)
Lemma coordinates_resolution faces lng cosLat cosLng z sinLng res r : pow2_size E M mod b = 0 -> 0 <= res < modulus ->
  sat b (coordinates faces lng cosLat cosLng z sinLng res) r -> res < 16.
Proof.
  intros D Hres H. unfold coordinates in H.
  apply sat_bind in H as [x [_ H]]. apply sat_bind in H as [y [_ H]]. apply sat_bind in H as [c [_ H]].
  apply sat_bind in H as [rr [Hr _]]. unfold calculateR in Hr.
  do 6 (apply sat_bind in Hr as [? [_ Hr]]). exact (proj1 (proj1 (scale_sat K Hk _ res rr D Hres) Hr)).
Qed.
End Pipe.
