(** The tables of the location circuits against the geometry they stand for. *)
From Coq Require Import ZArith Reals Lra Lia Bool List.
From Flocq Require Import Core BinarySingleNaN Operations.
From Verif Require Import FloatModel Spec Loc2Index.
Import ListNotations.
Local Open Scope Z_scope.

(** ** Specification, over the reals *)
Section TableSpec.
Context {E M : Z} {HF : Format E M}.
Local Open Scope R_scope.

(** The value of a bit pattern. *)
Definition val (p : Z) : R := B2R (of_bits E M p).
Definition near (eps x y : R) : Prop := Rabs (x - y) <= eps.
Definition circle (eps : R) (s c : Z) : Prop := near eps (val s * val s + val c * val c) 1.

(** The columns of one row agree: four pairs of sine and cosine, the centre from
    latitude and longitude, and the rotated axis at the angle [asin (sqrt (3/28))]
    of class III resolutions before the axis. *)
Definition row (eps : R) (f : face) : Prop :=
  circle eps (c_sinFaceLat f) (c_cosFaceLat f) /\ circle eps (c_sinFaceLng f) (c_cosFaceLng f) /\
  circle eps (c_sinAzimuth f) (c_cosAzimuth f) /\ circle eps (c_sinAzimuthRot f) (c_cosAzimuthRot f) /\
  near eps (val (centre_x f)) (val (c_cosFaceLat f) * val (c_cosFaceLng f)) /\
  near eps (val (centre_y f)) (val (c_cosFaceLat f) * val (c_sinFaceLng f)) /\
  near eps (val (centre_z f)) (val (c_sinFaceLat f)) /\
  near eps (val (c_sinAzimuth f) * val (c_cosAzimuthRot f) - val (c_cosAzimuth f) * val (c_sinAzimuthRot f))
    (sqrt (3 / 28)) /\
  near eps (val (c_cosAzimuth f) * val (c_cosAzimuthRot f) + val (c_sinAzimuth f) * val (c_sinAzimuthRot f))
    (sqrt (25 / 28)).

(** Cosine of the angle between two centres. *)
Definition centre_cos (f g : face) : R :=
  val (centre_x f) * val (centre_x g) + val (centre_y f) * val (centre_y g) + val (centre_z f) * val (centre_z g).

(** The components of the centre of [g] to the north and to the east of that of [f],
    and along the axis of [f]. *)
Definition north (f g : face) : R :=
  val (c_cosFaceLat f) * val (centre_z g) -
  val (c_sinFaceLat f) * (val (c_cosFaceLng f) * val (centre_x g) + val (c_sinFaceLng f) * val (centre_y g)).
Definition east (f g : face) : R :=
  val (c_cosFaceLng f) * val (centre_y g) - val (c_sinFaceLng f) * val (centre_x g).
Definition along (f g : face) : R := val (c_cosAzimuth f) * north f g + val (c_sinAzimuth f) * east f g.

(** The cosines of the angles between the 20 face centres of a regular icosahedron. *)
Definition ico_cos (k : nat) : R :=
  match k with O => 1 | 1%nat => sqrt (5 / 9) | 2%nat => 1 / 3 | 3%nat => - (1 / 3) | 4%nat => - sqrt (5 / 9) | _ => -1 end.

(** [cls] classifies the faces seen from [f]: the face itself, 3 neighbours, 6, 6, 3
    and the opposite one.  The axis points to a vertex: it runs away from one
    neighbour and makes 60 degrees with the two others (the neighbours lie at a
    component of 2/3 in the plane). *)
Definition around (eps : R) (f : face) (faces : list face) (cls : list nat) : Prop :=
  length cls = length faces /\
  (forall m g k, nth_error faces m = Some g -> nth_error cls m = Some k -> near eps (centre_cos f g) (ico_cos k)) /\
  map (fun k => count_occ Nat.eq_dec cls k) (seq 0 6) = [1; 3; 6; 6; 3; 1]%nat /\
  exists a b c ga gb gc, a <> b /\ b <> c /\ a <> c /\
    nth_error faces a = Some ga /\ nth_error faces b = Some gb /\ nth_error faces c = Some gc /\
    nth_error cls a = Some 1%nat /\ nth_error cls b = Some 1%nat /\ nth_error cls c = Some 1%nat /\
    near eps (along f ga) (- (2 / 3)) /\ near eps (along f gb) (1 / 3) /\ near eps (along f gc) (1 / 3).

Definition icosahedral (eps : R) (faces : list face) : Prop :=
  length faces = 20%nat /\
  forall n f, nth_error faces n = Some f -> row eps f /\
    exists cls, around eps f faces cls /\ nth_error cls n = Some 0%nat.

(** The other constants: 1/2, 1/3, 2/3, the sine of 60 degrees, and the unit
    length of resolution 0 in the plane. *)
Definition plane_constants (eps : R) (K : constants) : Prop :=
  val (k_half K) = / 2 /\ near eps (val (k_third K)) (1 / 3) /\ near eps (val (k_two_thirds K)) (2 / 3) /\
  near eps (val (k_sin60 K)) (sin (PI / 3)) /\ near eps (val (k_res K)) ((3 - sqrt 5) / 2).

End TableSpec.

(** ** Checking *)
Definition flt := float radix2.
Definition datum {E M : Z} (f : fmt E M) : flt :=
  match f with B754_finite s m e _ => Float radix2 (SpecFloat.cond_Zopp s (Zpos m)) e | _ => Float radix2 0 0 end.
Lemma datum_F2R {E M : Z} (f : fmt E M) : F2R (datum f) = B2R f.
Proof. destruct f; cbn [datum B2R]; try apply F2R_0; reflexivity. Qed.

(** [|x| <= d 2^-j] *)
Definition tiny (d j : Z) (x : flt) : bool :=
  Z.abs (Fnum x) * 2 ^ Z.max 0 (Fexp x + j) <=? d * 2 ^ Z.max 0 (- (Fexp x + j)).
Lemma tiny_spec d j x : tiny d j x = true -> (Rabs (F2R x) <= IZR d * bpow radix2 (- j))%R.
Proof.
  destruct x as [n e]. unfold tiny. cbn [Fnum Fexp]. intros H. apply Z.leb_le in H.
  rewrite <- F2R_Zabs. unfold F2R. cbn [Fnum Fexp]. apply IZR_le in H. rewrite !mult_IZR in H.
  rewrite !(IZR_Zpower radix2) in H by lia.
  replace (bpow radix2 e) with (bpow radix2 (Z.max 0 (e + j)) * bpow radix2 (- Z.max 0 (- (e + j)) - j))%R
    by (rewrite <- bpow_plus; f_equal; lia).
  replace (bpow radix2 (- j)) with (bpow radix2 (Z.max 0 (- (e + j))) * bpow radix2 (- Z.max 0 (- (e + j)) - j))%R
    by (rewrite <- bpow_plus; f_equal; lia).
  rewrite <- !Rmult_assoc. apply Rmult_le_compat_r; [apply bpow_ge_0|exact H].
Qed.

Section Check.
Context {E M : Z} {HF : Format E M}.
Notation val := (val (E:=E) (M:=M)).

Definition fv (p : Z) : flt := datum (of_bits E M p).
Lemma fv_val p : F2R (fv p) = val p.
Proof. apply datum_F2R. Qed.
Definition fz (n : Z) : flt := Float radix2 n 0.
Lemma fz_val n : F2R (fz n) = IZR n.
Proof. unfold fz, F2R. cbn. ring. Qed.

Declare Scope flt_scope.
Notation "x + y" := (Fplus x y) : flt_scope.
Notation "x - y" := (Fminus x y) : flt_scope.
Notation "x * y" := (Fmult x y) : flt_scope.
Delimit Scope flt_scope with flt.

Ltac to_R := repeat rewrite ?F2R_plus, ?F2R_minus, ?F2R_mult, ?fv_val, ?fz_val.
Ltac to_R_in H := repeat rewrite ?F2R_plus, ?F2R_minus, ?F2R_mult, ?fv_val, ?fz_val in H.

(** [x] is near [sqrt q] if it is positive and its square is near [q]. *)
Lemma near_sqrt eps x q : (0 <= x)%R -> (/ 16 <= q)%R -> (Rabs (x * x - q) <= eps / 4)%R -> near eps x (sqrt q).
Proof.
  intros Hx Hq H. unfold near. pose proof (sqrt_sqrt q ltac:(lra)) as S.
  assert (Hs : (/ 4 <= sqrt q)%R).
  { replace (/ 4)%R with (sqrt (/ 16)); [apply sqrt_le_1_alt; exact Hq|].
    replace (/ 16)%R with (/ 4 * / 4)%R by lra. apply sqrt_square. lra. }
  assert (E1 : (x * x - q = (x - sqrt q) * (x + sqrt q))%R) by (rewrite <- S at 1; ring).
  rewrite E1, Rabs_mult in H. rewrite (Rabs_pos_eq (x + sqrt q)) in H by lra.
  pose proof (Rabs_pos (x - sqrt q)). nra.
Qed.

Variable j : Z.
Notation eps := (bpow radix2 (- j)).

Definition nearb (x y : flt) : bool := tiny 1 j (x - y)%flt.
Lemma nearb_spec x y : nearb x y = true -> near eps (F2R x) (F2R y).
Proof. intros H. apply tiny_spec in H. rewrite F2R_minus, Rmult_1_l in H. exact H. Qed.

(** [d x] near the integer [n] *)
Definition nearq (d n : Z) (x : flt) : bool := tiny d j (fz d * x - fz n)%flt.
Lemma nearq_spec d n x : 0 < d -> nearq d n x = true -> near eps (F2R x) (IZR n / IZR d).
Proof.
  intros Hd H. apply tiny_spec in H. to_R_in H. unfold near. apply IZR_lt in Hd.
  assert (D1 : (1 <= IZR d)%R) by (apply IZR_le; apply lt_IZR in Hd; lia).
  replace (F2R x - IZR n / IZR d)%R with ((IZR d * F2R x - IZR n) / IZR d)%R by (field; lra).
  unfold Rdiv. rewrite Rabs_mult, (Rabs_pos_eq (/ IZR d)) by (left; apply Rinv_0_lt_compat; lra).
  apply Rmult_le_reg_r with (IZR d); [lra|]. rewrite Rmult_assoc, Rinv_l by lra. lra.
Qed.

(** [d x^2] near [n], [x >= 0] *)
Definition nears (d n : Z) (x : flt) : bool := (0 <=? Fnum x) && tiny d (j + 2) (fz d * (x * x) - fz n)%flt.
Lemma nears_spec d n x : 0 < d <= 16 * n -> nears d n x = true -> near eps (F2R x) (sqrt (IZR n / IZR d)).
Proof.
  intros [Hd Hn] H. apply andb_prop in H as [H0 H]. apply tiny_spec in H. to_R_in H. apply Z.leb_le in H0.
  assert (D1 : (1 <= IZR d)%R) by (apply IZR_le; lia).
  assert (N1 : (IZR d <= 16 * IZR n)%R) by (rewrite <- mult_IZR; apply IZR_le; lia).
  apply near_sqrt.
  - unfold F2R. apply Rmult_le_pos; [apply IZR_le, H0|apply bpow_ge_0].
  - apply Rmult_le_reg_r with (IZR d); [lra|]. unfold Rdiv. rewrite Rmult_assoc, Rinv_l by lra. lra.
  - replace (F2R x * F2R x - IZR n / IZR d)%R with ((IZR d * (F2R x * F2R x) - IZR n) / IZR d)%R by (field; lra).
    unfold Rdiv at 1. rewrite Rabs_mult, (Rabs_pos_eq (/ IZR d)) by (left; apply Rinv_0_lt_compat; lra).
    assert (B : bpow radix2 (- (j + 2)) = (eps / 4)%R)
      by (replace (- (j + 2)) with (- j + -2) by lia; rewrite bpow_plus; reflexivity).
    rewrite B in H. apply Rmult_le_reg_r with (IZR d); [lra|]. rewrite Rmult_assoc, Rinv_l by lra. lra.
Qed.

Definition circleb (s c : Z) : bool := nearq 1 1 (fv s * fv s + fv c * fv c)%flt.
Lemma circleb_spec s c : circleb s c = true -> circle (E:=E) (M:=M) eps s c.
Proof.
  intros H. apply nearq_spec in H; [|lia]. to_R_in H. unfold circle. replace 1%R with (1 / 1)%R by field. exact H.
Qed.

Definition rowb (f : face) : bool :=
  circleb (c_sinFaceLat f) (c_cosFaceLat f) && circleb (c_sinFaceLng f) (c_cosFaceLng f) &&
  circleb (c_sinAzimuth f) (c_cosAzimuth f) && circleb (c_sinAzimuthRot f) (c_cosAzimuthRot f) &&
  nearb (fv (centre_x f)) (fv (c_cosFaceLat f) * fv (c_cosFaceLng f))%flt &&
  nearb (fv (centre_y f)) (fv (c_cosFaceLat f) * fv (c_sinFaceLng f))%flt &&
  nearb (fv (centre_z f)) (fv (c_sinFaceLat f)) &&
  nears 28 3 (fv (c_sinAzimuth f) * fv (c_cosAzimuthRot f) - fv (c_cosAzimuth f) * fv (c_sinAzimuthRot f))%flt &&
  nears 28 25 (fv (c_cosAzimuth f) * fv (c_cosAzimuthRot f) + fv (c_sinAzimuth f) * fv (c_sinAzimuthRot f))%flt.
Lemma rowb_spec f : rowb f = true -> row (E:=E) (M:=M) eps f.
Proof.
  unfold rowb. intros H. apply andb_prop in H as [H H9]. apply andb_prop in H as [H H8].
  apply andb_prop in H as [H H7]. apply andb_prop in H as [H H6]. apply andb_prop in H as [H H5].
  apply andb_prop in H as [H H4]. apply andb_prop in H as [H H3]. apply andb_prop in H as [H1 H2].
  apply nearb_spec in H5, H6, H7. apply nears_spec in H8; [|lia]. apply nears_spec in H9; [|lia].
  to_R_in H5. to_R_in H6. to_R_in H7. to_R_in H8. to_R_in H9.
  unfold row. auto 12 using circleb_spec.
Qed.

Definition fcos (f g : face) : flt :=
  (fv (centre_x f) * fv (centre_x g) + fv (centre_y f) * fv (centre_y g) + fv (centre_z f) * fv (centre_z g))%flt.
Lemma fcos_val f g : F2R (fcos f g) = centre_cos (E:=E) (M:=M) f g.
Proof. unfold fcos. to_R. reflexivity. Qed.

Definition falong (f g : face) : flt :=
  (fv (c_cosAzimuth f) * (fv (c_cosFaceLat f) * fv (centre_z g) -
     fv (c_sinFaceLat f) * (fv (c_cosFaceLng f) * fv (centre_x g) + fv (c_sinFaceLng f) * fv (centre_y g))) +
   fv (c_sinAzimuth f) * (fv (c_cosFaceLng f) * fv (centre_y g) - fv (c_sinFaceLng f) * fv (centre_x g)))%flt.
Lemma falong_val f g : F2R (falong f g) = along (E:=E) (M:=M) f g.
Proof. unfold falong. to_R. reflexivity. Qed.

Definition classb (x : flt) (k : nat) : bool :=
  match k with
  | O => nearq 1 1 x | 1%nat => nears 9 5 x | 2%nat => nearq 3 1 x | 3%nat => nearq 3 (-1) x
  | 4%nat => nears 9 5 (fz 0 - x)%flt | _ => nearq 1 (-1) x
  end.
Lemma near_neg e x y : near e (- x) y -> near e x (- y).
Proof. unfold near. intros H. rewrite <- Rabs_Ropp. replace (- (x - - y))%R with (- x - y)%R by ring. exact H. Qed.
Lemma near_eq e x y z : near e x y -> y = z -> near e x z.
Proof. intros H <-. exact H. Qed.
Lemma classb_spec x k : classb x k = true -> near eps (F2R x) (ico_cos k).
Proof.
  destruct k as [|[|[|[|[|k]]]]]; cbn [classb ico_cos]; intros H.
  - apply nearq_spec in H; [|lia]. apply (near_eq _ _ _ _ H). field.
  - apply nears_spec in H; [|lia]. exact H.
  - apply nearq_spec in H; [|lia]. exact H.
  - apply nearq_spec in H; [|lia]. apply (near_eq _ _ _ _ H). field.
  - apply nears_spec in H; [|lia]. to_R_in H. apply near_neg. unfold near in *. rewrite Rminus_0_l in H. exact H.
  - apply nearq_spec in H; [|lia]. apply (near_eq _ _ _ _ H). field.
Qed.

Definition classify (x : flt) : nat :=
  match find (classb x) (seq 0 5) with Some k => k | None => 5%nat end.
Definition classes (f : face) (faces : list face) : list nat := map (fun g => classify (fcos f g)) faces.

(** The positions of the neighbours, and those with a given component. *)
Definition pick (p : face -> bool) (faces : list face) : list nat :=
  filter (fun n => match nth_error faces n with Some g => p g | None => false end) (seq 0 (length faces)).

Definition aroundb (n : nat) (f : face) (faces : list face) : bool :=
  let cls := classes f faces in
  forallb (fun g => classb (fcos f g) (classify (fcos f g))) faces &&
  (if list_eq_dec Nat.eq_dec (map (fun k => count_occ Nat.eq_dec cls k) (seq 0 6)) [1; 3; 6; 6; 3; 1]%nat then true else false) &&
  (match nth_error cls n with Some O => true | _ => false end) &&
  match pick (fun g => (classify (fcos f g) =? 1)%nat && nearq 3 (-2) (falong f g)) faces,
        pick (fun g => (classify (fcos f g) =? 1)%nat && nearq 3 1 (falong f g)) faces with
  | [a], [b; c] => negb (a =? b)%nat && negb (b =? c)%nat && negb (a =? c)%nat
  | _, _ => false
  end.

Lemma pick_in p faces n l : pick p faces = l -> In n l ->
  exists g, nth_error faces n = Some g /\ p g = true.
Proof.
  intros <- H. unfold pick in H. apply filter_In in H as [_ H].
  destruct (nth_error faces n) as [g|]; [eauto|discriminate].
Qed.

Lemma aroundb_spec n f faces : aroundb n f faces = true ->
  exists cls, around (E:=E) (M:=M) eps f faces cls /\ nth_error cls n = Some 0%nat.
Proof.
  unfold aroundb. set (cls := classes f faces). intros H.
  apply andb_prop in H as [H H4]. apply andb_prop in H as [H H3]. apply andb_prop in H as [H1 H2].
  exists cls. split; [|destruct (nth_error cls n) as [[|]|]; try discriminate; reflexivity].
  assert (Hc : forall m g, nth_error faces m = Some g -> nth_error cls m = Some (classify (fcos f g))).
  { intros m g Hg. unfold cls, classes. rewrite nth_error_map, Hg. reflexivity. }
  split; [unfold cls, classes; apply map_length|]. split; [|split].
  - intros m g k Hg Hk. rewrite (Hc m g Hg) in Hk. injection Hk as <-. rewrite <- fcos_val.
    rewrite forallb_forall in H1. exact (classb_spec _ _ (H1 g (nth_error_In _ _ Hg))).
  - destruct (list_eq_dec _ _ _) as [e|]; [exact e|discriminate].
  - destruct (pick _ faces) as [|a [|]] eqn:P1 in H4; try discriminate H4.
    destruct (pick _ faces) as [|b [|c [|]]] eqn:P2 in H4; try discriminate H4.
    apply andb_prop in H4 as [H4 N3]. apply andb_prop in H4 as [N1 N2].
    apply negb_true_iff, Nat.eqb_neq in N1, N2, N3.
    destruct (pick_in _ _ a _ P1 ltac:(left; reflexivity)) as (ga & Ga & Qa).
    destruct (pick_in _ _ b _ P2 ltac:(left; reflexivity)) as (gb & Gb & Qb).
    destruct (pick_in _ _ c _ P2 ltac:(right; left; reflexivity)) as (gc & Gc & Qc).
    apply andb_prop in Qa as [Ka Qa]. apply andb_prop in Qb as [Kb Qb]. apply andb_prop in Qc as [Kc Qc].
    apply Nat.eqb_eq in Ka, Kb, Kc.
    exists a, b, c, ga, gb, gc. rewrite <- !falong_val, (Hc a ga Ga), (Hc b gb Gb), (Hc c gc Gc), Ka, Kb, Kc.
    apply nearq_spec in Qa; [|lia]. apply nearq_spec in Qb; [|lia]. apply nearq_spec in Qc; [|lia].
    repeat (split; [assumption||reflexivity|]). split; [|split; assumption].
    apply (near_eq _ _ _ _ Qa). field.
Qed.

Definition icob (faces : list face) : bool :=
  (length faces =? 20)%nat &&
  forallb (fun n => match nth_error faces n with Some f => rowb f && aroundb n f faces | None => false end) (seq 0 20).
Lemma icob_spec faces : icob faces = true -> icosahedral (E:=E) (M:=M) eps faces.
Proof.
  unfold icob. intros H. apply andb_prop in H as [H1 H2]. apply Nat.eqb_eq in H1. split; [exact H1|].
  intros n f Hf. rewrite forallb_forall in H2.
  assert (Hn : (n < 20)%nat) by (rewrite <- H1; apply nth_error_Some; rewrite Hf; discriminate).
  specialize (H2 n). rewrite Hf in H2. specialize (H2 ltac:(apply in_seq; lia)).
  apply andb_prop in H2 as [R A]. split; [exact (rowb_spec f R)|exact (aroundb_spec n f faces A)].
Qed.

Definition planeb (K : constants) : bool :=
  nearq 3 1 (fv (k_third K)) && nearq 3 2 (fv (k_two_thirds K)) && nears 4 3 (fv (k_sin60 K)) &&
  nears 1 5 (fz 3 - fz 2 * fv (k_res K))%flt.
Lemma planeb_spec K : B2R (of_bits E M (k_half K)) = (/ 2)%R -> planeb K = true ->
  plane_constants (E:=E) (M:=M) eps K.
Proof.
  intros Hh H. unfold planeb in H. apply andb_prop in H as [H H4]. apply andb_prop in H as [H H3].
  apply andb_prop in H as [H1 H2].
  apply nearq_spec in H1; [|lia]. apply nearq_spec in H2; [|lia]. apply nears_spec in H3; [|lia].
  apply nears_spec in H4; [|lia]. to_R_in H1. to_R_in H2. to_R_in H3. to_R_in H4.
  split; [exact Hh|]. split; [exact H1|]. split; [exact H2|]. split.
  - apply (near_eq _ _ _ _ H3). rewrite sin_PI3. rewrite sqrt_div_alt by lra.
    replace 4%R with (2 * 2)%R by ring. rewrite sqrt_square by lra. reflexivity.
  - unfold near in *. replace (5 / 1)%R with 5%R in H4 by field.
    replace (val (k_res K) - (3 - sqrt 5) / 2)%R with (- ((3 - 2 * val (k_res K) - sqrt 5) / 2))%R by field.
    rewrite Rabs_Ropp. unfold Rdiv. rewrite Rabs_mult, (Rabs_pos_eq (/ 2)) by lra.
    pose proof (Rabs_pos (3 - 2 * val (k_res K) - sqrt 5)). lra.
Qed.

End Check.
