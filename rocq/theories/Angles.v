(** The literals of util/util.go, and what the tables of the circuits have to do
    with them. *)
From Coq Require Import ZArith Reals Lra Lia Bool List.
From Flocq Require Import Core BinarySingleNaN Operations.
From Verif Require Import FloatModel Spec Loc2Index TableFacts SinError FixSin.
Import ListNotations.
Local Open Scope Z_scope.

(** ** The literals *)

(** One face of FaceCenterGeoLng, Azimuth, SinFaceLat and CosFaceLat (in units of
    10^-18) and FaceCenterPoint (in units of 10^-16); util/util.go:47-283.  The
    tables for 32 and for 64 bits have the same literals. *)
Record literal := mkLiteral { l_lng : Z; l_az : Z; l_sinlat : Z; l_coslat : Z; l_x : Z; l_y : Z; l_z : Z }.
Definition literals : list literal := [
  mkLiteral 1248397419617396099 5619958268523939882 719847537892618239 694132208005028062 2199307791404606 6583691780274996 7198475378926182;
  mkLiteral 2536945009877921159 5760339081714187279 965601793521420504 260025337896551800 (-2139234834501421) 1478171829550703 9656017935214205;
  mkLiteral (-1347517358900396623) 780213654393430055 869777512128725339 493444099564646799 1092625278784797 (-4811951572873210) 8697775121287253;
  mkLiteral (-450603909469755746) 430469363979999913 564800593651703320 825227416783206214 7428567301586791 (-3593941678278028) 5648005936517033;
  mkLiteral 401988202911306943 6130269123335111400 472138773641393006 881524235868986983 8112534709140969 3448953237639384 4721387736413930;
  mkLiteral 1678146885280433686 2692877706530642877 171887461000936548 985116592465405394 (-1055498149613921) 9794457296411413 1718874610009365;
  mkLiteral 2953923329812411617 2982963003477243874 569526199488268769 821973179669780118 (-8075407579970092) 1533552485898818 5695261994882688;
  mkLiteral (-1888876200336285401) 3532912002790141181 414479255247353850 910058760174088377 (-2846148069787907) (-8644080972654206) 4144792552473539;
  mkLiteral (-733429513380867741) 3494305004259568154 (-78983764632673703) 996875902469535280 7405621473854482 (-6673299564565524) (-789837646326737);
  mkLiteral 506495587332349035 3003214169499538391 (-228913738868780775) 973446711513843321 8512303986474293 4722343788582681 (-2289137388687808);
  mkLiteral 2408163140208925497 5930472956509811562 78983764632673703 996875902469535280 (-7405621473854481) 6673299564565524 789837646326737;
  mkLiteral (-2635097066257444203) 138378484090254847 228913738868780775 973446711513843321 (-8512303986474292) (-4722343788582682) 2289137388687808;
  mkLiteral (-1463445768309359553) 448714947059150361 (-171887461000936548) 985116592465405394 1055498149613919 (-9794457296411413) (-1718874610009365);
  mkLiteral (-187669323777381622) 158629650112549365 (-569526199488268769) 821973179669780118 8075407579970092 (-1533552485898819) (-5695261994882688);
  mkLiteral 1252716453253507838 5891865957979238535 (-414479255247353850) 910058760174088377 2846148069787908 8644080972654204 (-4144792552473539);
  mkLiteral 2690988744120037492 2711123289609793325 (-564800593651703320) 825227416783206214 (-7428567301586791) 3593941678278027 (-5648005936517033);
  mkLiteral (-2739604450678486295) 3294508837434268316 (-472138773641393006) 881524235868986983 (-8112534709140971) (-3448953237639382) (-4721387736413930);
  mkLiteral (-1893195233972397139) 3804819692245439833 (-719847537892618239) 694132208005028062 (-2199307791404607) (-6583691780274996) (-7198475378926182);
  mkLiteral (-604647643711872080) 3664438879055192436 (-965601793521420504) 260025337896551800 2139234834501420 (-1478171829550704) (-9656017935214205);
  mkLiteral 1794075294689396615 2361378999196363184 (-869777512128725339) 493444099564646799 (-1092625278784796) 4811951572873210 (-8697775121287253)].

(** [n 10^-d] *)
Definition lit (d n : Z) : R := (IZR n / IZR (10 ^ d))%R.
(** util.go:36 and 40 (Ap7rot), 33 and 37 (Sin60), 34 and 38 (Sqrt7), 35 and 39 (ResConst). *)
Definition ap7rot : R := lit 45 333473172251832115336090755351601070065900389.
Definition lit_sin60 : R := lit 40 8660254037844386467637231707529361834714.
Definition lit_sqrt7 : R := lit 40 26457513110645905905016157536392604257102.
Definition lit_res : R := lit 20 38196601125010500003.

(** ** Specification *)
Section Spec.
Context {E M : Z} {HF : Format E M}.
Notation val := (val (E:=E) (M:=M)).
Notation rne := (rne E M).
Local Open Scope R_scope.

(** The columns that are literals are the literals rounded to nearest. *)
Definition rounded_row (l : literal) (f : face) : Prop :=
  val (centre_x f) = rne (lit 16 (l_x l)) /\ val (centre_y f) = rne (lit 16 (l_y l)) /\
  val (centre_z f) = rne (lit 16 (l_z l)) /\
  val (c_sinFaceLat f) = rne (lit 18 (l_sinlat l)) /\ val (c_cosFaceLat f) = rne (lit 18 (l_coslat l)).

(** The other columns are sines and cosines of rounded literals, [is] saying in
    what way. *)
Definition trig_row (is : R -> R -> Prop) (rot : R -> R) (l : literal) (f : face) : Prop :=
  let lng := rne (lit 18 (l_lng l)) in let az := rne (lit 18 (l_az l)) in let azr := rot (az - rne ap7rot) in
  is (val (c_sinFaceLng f)) (sin lng) /\ is (val (c_cosFaceLng f)) (cos lng) /\
  is (val (c_sinAzimuth f)) (sin az) /\ is (val (c_cosAzimuth f)) (cos az) /\
  is (val (c_sinAzimuthRot f)) (sin azr) /\ is (val (c_cosAzimuthRot f)) (cos azr).

(** Rounded to nearest, or with an error of less than one unit in the last place. *)
Definition nearest (v x : R) : Prop := v = rne x.
Definition one_ulp (v x : R) : Prop := Rabs (v - x) < ulp radix2 (FLT_exp (emin E M) (prec M)) v.

(** Against the exact literals, without any rounding in between: the latitude is
    the angle in [-pi/2, pi/2] with the given sine. *)
Definition true_row (eps : R) (l : literal) (f : face) : Prop :=
  let lng := lit 18 (l_lng l) in let az := lit 18 (l_az l) in let lat := asin (lit 18 (l_sinlat l)) in
  near eps (val (c_sinFaceLat f)) (sin lat) /\ near eps (val (c_cosFaceLat f)) (cos lat) /\
  near eps (val (c_sinFaceLng f)) (sin lng) /\ near eps (val (c_cosFaceLng f)) (cos lng) /\
  near eps (val (c_sinAzimuth f)) (sin az) /\ near eps (val (c_cosAzimuth f)) (cos az) /\
  near eps (val (c_sinAzimuthRot f)) (sin (az - ap7rot)) /\ near eps (val (c_cosAzimuthRot f)) (cos (az - ap7rot)) /\
  near eps (val (centre_x f)) (cos lat * cos lng) /\ near eps (val (centre_y f)) (cos lat * sin lng) /\
  near eps (val (centre_z f)) (sin lat).

(** 1/2, 1/3 and 2/3 (loc2index32.go, hex2dToCoordIJK), the literals, and the
    squares of Sqrt7 in [scaleR], each rounded. *)
Fixpoint squares (v : R) (ps : list Z) : Prop :=
  match ps with [] => True | p :: ps' => val p = v /\ squares (rne (v * v)) ps' end.
Definition rounded_constants (K : constants) : Prop :=
  val (k_half K) = / 2 /\ val (k_third K) = rne (1 / 3) /\ val (k_two_thirds K) = rne (2 / 3) /\
  val (k_sin60 K) = rne lit_sin60 /\ val (k_res K) = rne lit_res /\
  length (k_powers K) = 4%nat /\ squares (rne lit_sqrt7) (k_powers K).
End Spec.

(** ** Checking *)

(** [x < y] and [x = y] on floats of any exponent *)
Definition ltf (x y : flt) : bool := 0 <? Fnum (Fminus y x).
Lemma ltf_spec x y : ltf x y = true -> (F2R x < F2R y)%R.
Proof.
  intros H. apply Z.ltb_lt in H. assert (P : (0 < F2R (Fminus y x))%R) by (apply F2R_gt_0; exact H).
  rewrite F2R_minus in P. lra.
Qed.
Definition eqf (x y : flt) : bool := Fnum (Fminus y x) =? 0.
Lemma eqf_spec x y : eqf x y = true -> F2R x = F2R y.
Proof.
  intros H. apply Z.eqb_eq in H. assert (P : F2R (Fminus y x) = 0%R).
  { destruct (Fminus y x) as [m e]. cbn [Fnum] in H. subst m. apply F2R_0. }
  rewrite F2R_minus in P. lra.
Qed.

(** A fraction in units of 2^-k, rounded down. *)
Definition fixp (k n d : Z) : flt := Float radix2 (n * 2 ^ k / d) (- k).
Lemma fixp_near k n d : 0 <= k -> 0 < d -> (Rabs (F2R (fixp k n d) - IZR n / IZR d) <= bpow radix2 (- k))%R.
Proof.
  intros Hk Hd. pose proof (div_near (n * 2 ^ k) d Hd) as D.
  rewrite mult_IZR in D. replace (IZR (2 ^ k)) with (bpow radix2 k) in D by (symmetry; apply (IZR_Zpower radix2 k); lia).
  unfold fixp, F2R. cbn [Fnum Fexp]. rewrite (bpow_opp radix2 k). pose proof (bpow_gt_0 radix2 k) as P.
  generalize dependent (n * 2 ^ k / d). intros q D. set (s := bpow radix2 k) in *. clearbody s.
  apply IZR_lt in Hd.
  replace (IZR q * / s - IZR n / IZR d)%R with ((IZR q - IZR n * s / IZR d) * / s)%R by (field; lra).
  rewrite Rabs_mult, (Rabs_pos_eq (/ s)) by (apply Rlt_le, Rinv_0_lt_compat, P).
  rewrite <- (Rmult_1_l (/ s)) at 2. apply Rmult_le_compat_r; [apply Rlt_le, Rinv_0_lt_compat, P|exact D].
Qed.
Notation fin := (fixp 170).
Lemma fin_near n d : 0 < d -> (Rabs (F2R (fin n d) - IZR n / IZR d) <= bpow radix2 (-170))%R.
Proof. apply fixp_near. lia. Qed.

Section Rounding.
Context {E M : Z} {HF : Format E M}.
Notation val := (TableFacts.val (E:=E) (M:=M)).
Notation rne := (Spec.rne E M).
Notation fexp := (FLT_exp (emin E M) (prec M)).

(** [m 2^e] is [x] rounded, if [x] has the exponent of [m 2^e] and is less than half a unit away. *)
Lemma rne_is x m e : emin E M <= e ->
  (bpow radix2 (e + prec M - 1) <= Rabs x < bpow radix2 (e + prec M))%R ->
  (Rabs (x - F2R (Float radix2 m e)) < bpow radix2 e / 2)%R -> rne x = F2R (Float radix2 m e).
Proof.
  intros He Hx Hd.
  assert (C : cexp radix2 fexp x = e).
  { unfold cexp. rewrite (mag_unique radix2 x (e + prec M)) by exact Hx. unfold FLT_exp. lia. }
  assert (S : ZnearestE (scaled_mantissa radix2 fexp x) = m).
  { apply Znearest_imp. unfold scaled_mantissa. rewrite C, bpow_opp.
    pose proof (bpow_gt_0 radix2 e) as P. unfold F2R in Hd. cbn [Fnum Fexp] in Hd.
    set (b := bpow radix2 e) in *. clearbody b.
    replace (x * / b - IZR m)%R with ((x - IZR m * b) * / b)%R by (field; lra).
    rewrite Rabs_mult, (Rabs_pos_eq (/ b)) by (apply Rlt_le, Rinv_0_lt_compat, P).
    apply Rmult_lt_reg_r with b; [exact P|]. rewrite Rmult_assoc, Rinv_l by lra. lra. }
  change (rne x) with (F2R (Float radix2 (ZnearestE (scaled_mantissa radix2 fexp x)) (cexp radix2 fexp x))).
  rewrite S, C. reflexivity.
Qed.

(** Every number within [s] of [y] rounds to [g]. *)
Definition rneb (s g y : flt) : bool :=
  (emin E M <=? Fexp g) &&
  ltf (Fplus (Fabs (Fminus y g)) s) (Float radix2 1 (Fexp g - 1)) &&
  ltf (Fplus (Float radix2 1 (Fexp g + prec M - 1)) s) (Fabs y) && ltf (Fplus (Fabs y) s) (Float radix2 1 (Fexp g + prec M)).
Lemma rneb_spec s g y x : rneb s g y = true -> (Rabs (F2R y - x) <= F2R s)%R -> rne x = F2R g.
Proof.
  intros H D. apply andb_prop in H as [H H4]. apply andb_prop in H as [H H3]. apply andb_prop in H as [H1 H2].
  apply Z.leb_le in H1. apply ltf_spec in H2, H3, H4.
  rewrite F2R_plus, F2R_abs, F2R_minus in H2. rewrite F2R_plus, F2R_abs in H3, H4.
  rewrite !F2R_bpow in *. destruct g as [m e]. cbn [Fexp] in *.
  assert (B : bpow radix2 (e - 1) = (bpow radix2 e / 2)%R) by (unfold Zminus; rewrite bpow_plus; reflexivity).
  rewrite B in H2. set (g := F2R (Float radix2 m e)) in *.
  assert (T1 : (Rabs (Rabs (F2R y) - Rabs x) <= F2R s)%R) by (eapply Rle_trans; [apply Rabs_triang_inv2|exact D]).
  apply Rabs_le_inv in T1.
  apply rne_is; [exact H1| |].
  - replace (e + prec M - 1) with (e + prec M - 1) by ring. lra.
  - fold g. replace (x - g)%R with (F2R y - g + - (F2R y - x))%R by ring.
    eapply Rle_lt_trans; [apply Rabs_triang|]. rewrite Rabs_Ropp. lra.
Qed.

(** A candidate for the rounding of [y]. *)
Definition cand (y : flt) : flt :=
  let a := Z.abs (Fnum y) * 2 ^ 60 in let k := Z.log2 a - M in
  Float radix2 (Z.sgn (Fnum y) * ((a / 2 ^ (k - 1) + 1) / 2)) (Fexp y - 60 + k).

(** The rounding of [n / d], if the check is successful. *)
Definition slack : flt := Float radix2 1 (-69).
Definition round_frac (n d : Z) : option flt :=
  let y := fin n d in let g := cand y in if (0 <? d) && rneb slack g y then Some g else None.
Lemma round_frac_spec n d g : round_frac n d = Some g -> rne (IZR n / IZR d) = F2R g.
Proof.
  unfold round_frac. destruct (_ && _) eqn:H; [|discriminate]. intros [= <-]. apply andb_prop in H as [Hd H].
  apply Z.ltb_lt in Hd. apply (rneb_spec _ _ _ _ H). eapply Rle_trans; [apply fin_near, Hd|].
  unfold slack. rewrite F2R_bpow. apply bpow_le. lia.
Qed.

(** The datum with pattern [p] is the rounding of a number near [y]. *)
Definition datb (p : Z) (y : flt) : bool := rneb slack (fv (E:=E) (M:=M) p) y.
Lemma datb_spec p y x : datb p y = true -> (Rabs (F2R y - x) <= bpow radix2 (-70))%R -> val p = rne x.
Proof.
  intros H D. rewrite (rneb_spec _ _ _ x H), fv_val; [reflexivity|].
  eapply Rle_trans; [exact D|]. unfold slack. rewrite F2R_bpow. apply bpow_le. lia.
Qed.
Lemma datb_lit d n p : 0 < 10 ^ d -> datb p (fin n (10 ^ d)) = true -> val p = rne (lit d n).
Proof.
  intros Hd H. apply (datb_spec _ _ _ H). eapply Rle_trans; [apply fin_near, Hd|]. apply bpow_le. lia.
Qed.
Lemma datb_frac d n p : 0 < d -> datb p (fin n d) = true -> val p = rne (IZR n / IZR d).
Proof.
  intros Hd H. apply (datb_spec _ _ _ H). eapply Rle_trans; [apply fin_near, Hd|]. apply bpow_le. lia.
Qed.

(** Less than a unit in the last place away. *)
Definition ulpb (p : Z) (y : flt) : bool :=
  match of_bits E M p with
  | B754_finite _ _ e _ => ltf (Fplus (Fabs (Fminus (fv (E:=E) (M:=M) p) y)) slack) (Float radix2 1 e)
  | _ => false
  end.
Lemma ulpb_spec p y x : ulpb p y = true -> (Rabs (F2R y - x) <= bpow radix2 (-70))%R -> one_ulp (E:=E) (M:=M) (val p) x.
Proof.
  intros H D. unfold ulpb, one_ulp, TableFacts.val in *. destruct (of_bits E M p) as [s|s| |s m e B] eqn:F; try discriminate H.
  apply ltf_spec in H. rewrite F2R_plus, F2R_abs, F2R_minus, F2R_bpow in H. rewrite fv_val in H. unfold TableFacts.val in H.
  rewrite F in H. set (v := B2R (B754_finite s m e B)) in *.
  assert (U : ulp radix2 fexp v = bpow radix2 e).
  { unfold v. cbn [B2R]. rewrite ulp_canonical; [reflexivity| |].
    - destruct s; discriminate.
    - exact (canonical_canonical_mantissa _ _ s m e (proj1 (andb_prop _ _ B))). }
  rewrite U. eapply Rle_lt_trans; [|exact H]. replace (v - x)%R with (v - F2R y + (F2R y - x))%R by ring.
  eapply Rle_trans; [apply Rabs_triang|]. apply Rplus_le_compat_l. eapply Rle_trans; [exact D|].
  unfold slack. rewrite F2R_bpow. apply bpow_le. lia.
Qed.

(** ** Rows *)
Definition rounded_rowb (l : literal) (f : face) : bool :=
  datb (centre_x f) (fin (l_x l) (10 ^ 16)) && datb (centre_y f) (fin (l_y l) (10 ^ 16)) &&
  datb (centre_z f) (fin (l_z l) (10 ^ 16)) &&
  datb (c_sinFaceLat f) (fin (l_sinlat l) (10 ^ 18)) && datb (c_cosFaceLat f) (fin (l_coslat l) (10 ^ 18)).
Lemma rounded_rowb_spec l f : rounded_rowb l f = true -> rounded_row (E:=E) (M:=M) l f.
Proof.
  intros H. apply andb_prop in H as [H H5]. apply andb_prop in H as [H H4]. apply andb_prop in H as [H H3].
  apply andb_prop in H as [H1 H2]. unfold rounded_row. repeat apply conj; apply datb_lit; assumption || reflexivity.
Qed.

Definition trig_rowb (isb : Z -> flt -> bool) (rotb : flt -> option flt) (l : literal) (f : face) : bool :=
  match round_frac (l_lng l) (10 ^ 18), round_frac (l_az l) (10 ^ 18),
    round_frac 333473172251832115336090755351601070065900389 (10 ^ 45) with
  | Some lng, Some az, Some a7 =>
    match rotb (Fminus az a7) with
    | Some azr =>
      angle_ok lng && angle_ok az && angle_ok azr &&
      isb (c_sinFaceLng f) (sin_of lng) && isb (c_cosFaceLng f) (cos_of lng) &&
      isb (c_sinAzimuth f) (sin_of az) && isb (c_cosAzimuth f) (cos_of az) &&
      isb (c_sinAzimuthRot f) (sin_of azr) && isb (c_cosAzimuthRot f) (cos_of azr)
    | None => false
    end
  | _, _, _ => false
  end.
Lemma trig_rowb_spec isb rotb (is : R -> R -> Prop) rot l f :
  (forall p y x, isb p y = true -> (Rabs (F2R y - x) <= bpow radix2 (-70))%R -> is (val p) x) ->
  (forall a r, rotb a = Some r -> F2R r = rot (F2R a)) ->
  trig_rowb isb rotb l f = true -> trig_row (E:=E) (M:=M) is rot l f.
Proof.
  intros Hi Hr H. unfold trig_rowb in H.
  destruct (round_frac (l_lng l) _) as [lng|] eqn:E1; [|discriminate].
  destruct (round_frac (l_az l) _) as [az|] eqn:E2; [|discriminate].
  destruct (round_frac _ (10 ^ 45)) as [a7|] eqn:E3; [|discriminate].
  destruct (rotb _) as [azr|] eqn:E4; [|discriminate].
  apply round_frac_spec in E1, E2, E3. apply Hr in E4. rewrite F2R_minus in E4.
  unfold trig_row, ap7rot, lit. rewrite E1, E2, E3, <- E4.
  apply andb_prop in H as [H H9]. apply andb_prop in H as [H H8]. apply andb_prop in H as [H H7].
  apply andb_prop in H as [H H6]. apply andb_prop in H as [H H5]. apply andb_prop in H as [H H4].
  apply andb_prop in H as [H H3]. apply andb_prop in H as [H1 H2].
  repeat apply conj; (eapply Hi; [eassumption|]); (apply sin_of_near || apply cos_of_near); assumption.
Qed.

Definition rot64 (a : flt) : option flt := let g := cand a in if rneb (fz 0) g a then Some g else None.
Lemma rot64_spec a r : rot64 a = Some r -> F2R r = rne (F2R a).
Proof.
  unfold rot64. destruct (rneb _ _ _) eqn:H; [|discriminate]. intros [= <-]. symmetry. apply (rneb_spec _ _ _ _ H).
  rewrite Rminus_eq_0, Rabs_R0, fz_val. lra.
Qed.

(** ** Constants *)
Fixpoint squaresb (v : flt) (ps : list Z) : bool :=
  match ps with
  | [] => true
  | p :: ps' => eqf (fv (E:=E) (M:=M) p) v &&
    (let q := Fmult v v in let g := cand q in match ps' with [] => true | _ => rneb (fz 0) g q && squaresb g ps' end)
  end.
Lemma squaresb_spec ps : forall v, squaresb v ps = true -> squares (E:=E) (M:=M) (F2R v) ps.
Proof.
  induction ps as [|p ps IH]; intros v H; [exact I|]. cbn [squaresb] in H. apply andb_prop in H as [H1 H2].
  apply eqf_spec in H1. rewrite fv_val in H1. cbn [squares]. split; [exact H1|].
  destruct ps as [|p' ps']; [exact I|]. apply andb_prop in H2 as [H2 H3]. apply IH in H3.
  assert (R1 : rne (F2R v * F2R v) = F2R (cand (Fmult v v))).
  { apply (rneb_spec _ _ _ _ H2). rewrite F2R_mult, Rminus_eq_0, Rabs_R0, fz_val. lra. }
  rewrite R1. exact H3.
Qed.

Definition rounded_constantsb (K : constants) : bool :=
  eqf (fv (E:=E) (M:=M) (k_half K)) (Float radix2 1 (-1)) && datb (k_third K) (fin 1 3) && datb (k_two_thirds K) (fin 2 3) &&
  datb (k_sin60 K) (fin 8660254037844386467637231707529361834714 (10 ^ 40)) &&
  datb (k_res K) (fin 38196601125010500003 (10 ^ 20)) && (length (k_powers K) =? 4)%nat &&
  match round_frac 26457513110645905905016157536392604257102 (10 ^ 40) with Some v => squaresb v (k_powers K) | None => false end.
Lemma rounded_constantsb_spec K : rounded_constantsb K = true -> rounded_constants (E:=E) (M:=M) K.
Proof.
  intros H. apply andb_prop in H as [H H7]. apply andb_prop in H as [H H6]. apply andb_prop in H as [H H5].
  apply andb_prop in H as [H H4]. apply andb_prop in H as [H H3]. apply andb_prop in H as [H1 H2].
  destruct (round_frac _ _) as [v|] eqn:E1; [|discriminate]. apply round_frac_spec in E1.
  unfold rounded_constants. repeat apply conj.
  - apply eqf_spec in H1. rewrite fv_val in H1. rewrite H1. unfold F2R. cbn. lra.
  - apply datb_frac; [reflexivity|exact H2].
  - apply datb_frac; [reflexivity|exact H3].
  - apply datb_lit; [reflexivity|exact H4].
  - apply datb_lit; [reflexivity|exact H5].
  - apply Nat.eqb_eq. exact H6.
  - unfold lit_sqrt7, lit. rewrite E1. apply squaresb_spec, H7.
Qed.
End Rounding.

(** ** Against the exact literals *)
Section Exact.
Context {E M : Z} {HF : Format E M}.
Notation val := (TableFacts.val (E:=E) (M:=M)).
Variable j : Z.
Hypothesis Hj : j <= 60.
Notation eps := (bpow radix2 (- j)).

Lemma cos_lip a b : (Rabs (cos a - cos b) <= Rabs (a - b))%R.
Proof.
  rewrite <- !sin_shift. eapply Rle_trans; [apply sin_lip|].
  replace (PI / 2 - a - (PI / 2 - b))%R with (- (a - b))%R by ring. rewrite Rabs_Ropp. lra.
Qed.

(** Sine and cosine of a literal angle; [dx] is what the angle is off. *)
Lemma trig_near x y : angle_ok y = true -> (Rabs (F2R y - x) <= bpow radix2 (-79))%R ->
  (Rabs (F2R (sin_of y) - sin x) <= bpow radix2 (-69))%R /\ (Rabs (F2R (cos_of y) - cos x) <= bpow radix2 (-69))%R.
Proof.
  intros H D. pose proof (sin_of_near y H) as S. pose proof (cos_of_near y H) as C.
  pose proof (sin_lip (F2R y) x) as L1. pose proof (cos_lip (F2R y) x) as L2.
  assert (B : bpow radix2 (-69) = (bpow radix2 (-70) + bpow radix2 (-70))%R) by (change (-69) with (-70 + 1); rewrite bpow_plus_1; change (IZR radix2) with 2%R; ring).
  assert (B' : (bpow radix2 (-79) <= bpow radix2 (-70))%R) by (apply bpow_le; lia).
  split.
  - replace (F2R (sin_of y) - sin x)%R with (F2R (sin_of y) - sin (F2R y) + (sin (F2R y) - sin x))%R by ring.
    eapply Rle_trans; [apply Rabs_triang|]. lra.
  - replace (F2R (cos_of y) - cos x)%R with (F2R (cos_of y) - cos (F2R y) + (cos (F2R y) - cos x))%R by ring.
    eapply Rle_trans; [apply Rabs_triang|]. lra.
Qed.

(** [val p] is within [2^-j] of every number within 2^-51 of [y]. *)
Definition closeb (p : Z) (y : flt) : bool :=
  ltf (Fplus (Fabs (Fminus (fv (E:=E) (M:=M) p) y)) (Float radix2 1 (-51))) (Float radix2 1 (- j)).
Lemma closeb_spec p y x : closeb p y = true -> (Rabs (F2R y - x) <= bpow radix2 (-51))%R -> near eps (val p) x.
Proof.
  intros H D. apply ltf_spec in H. rewrite F2R_plus, F2R_abs, F2R_minus, !F2R_bpow, fv_val in H.
  unfold near. replace (val p - x)%R with (val p - F2R y + (F2R y - x))%R by ring.
  eapply Rle_trans; [apply Rabs_triang|]. lra.
Qed.

(** The latitude: a sine and a cosine that belong together. *)
Lemma lat_near s c : (-1 <= s <= 1)%R -> (/ 4 <= c)%R -> (Rabs (s * s + c * c - 1) <= bpow radix2 (-53))%R ->
  (/ 16 <= 1 - s * s)%R -> sin (asin s) = s /\ (Rabs (c - cos (asin s)) <= bpow radix2 (-52))%R.
Proof.
  intros Hs Hc H Hq. split; [apply sin_asin, Hs|]. rewrite cos_asin by exact Hs.
  replace (1 - s²)%R with (1 - s * s)%R by (unfold Rsqr; ring).
  pose proof (sqrt_sqrt (1 - s * s) ltac:(lra)) as S.
  assert (Hr : (/ 4 <= sqrt (1 - s * s))%R).
  { replace (/ 4)%R with (sqrt (/ 16)); [apply sqrt_le_1_alt; exact Hq|].
    replace (/ 16)%R with (/ 4 * / 4)%R by lra. apply sqrt_square. lra. }
  set (r := sqrt (1 - s * s)) in *. clearbody r.
  replace (s * s + c * c - 1)%R with ((c - r) * (c + r))%R in H by (ring_simplify; nra).
  rewrite Rabs_mult, (Rabs_pos_eq (c + r)) in H by lra.
  replace (bpow radix2 (-52)) with (2 * bpow radix2 (-53))%R by (change (-52) with (-53 + 1); rewrite bpow_plus_1; reflexivity).
  pose proof (Rabs_pos (c - r)). nra.
Qed.

Definition latb (s c : Z) : bool :=
  (Z.abs s <=? 10 ^ 18) && (10 ^ 18 <=? 4 * c) && (10 ^ 36 <=? 16 * (10 ^ 36 - s * s)) &&
  (Z.abs (s * s + c * c - 10 ^ 36) * 2 ^ 53 <=? 10 ^ 36).
Lemma latb_spec s c : latb s c = true ->
  sin (asin (lit 18 s)) = lit 18 s /\ (Rabs (lit 18 c - cos (asin (lit 18 s))) <= bpow radix2 (-52))%R.
Proof.
  intros H. apply andb_prop in H as [H H4]. apply andb_prop in H as [H H3]. apply andb_prop in H as [H1 H2].
  apply Z.leb_le in H1, H2, H3, H4. unfold lit. set (t := IZR (10 ^ 18)).
  assert (T36 : IZR (10 ^ 36) = (t * t)%R) by (unfold t; rewrite <- mult_IZR; reflexivity).
  assert (T0 : (0 < t)%R) by (apply IZR_lt; reflexivity).
  assert (T1 : (0 < t * t)%R) by nra. assert (IT : (0 < / (t * t))%R) by (apply Rinv_0_lt_compat, T1).
  apply IZR_le in H2, H3, H4. rewrite !mult_IZR in H2, H3. rewrite minus_IZR, mult_IZR, T36 in H3. fold t in H2.
  rewrite mult_IZR, abs_IZR, minus_IZR, plus_IZR, !mult_IZR, T36 in H4.
  assert (H1' : (- t <= IZR s <= t)%R) by (unfold t; rewrite <- opp_IZR; split; apply IZR_le; lia).
  apply lat_near.
  - split; apply Rmult_le_reg_r with t; try exact T0; unfold Rdiv; rewrite Rmult_assoc, Rinv_l by lra; lra.
  - apply Rmult_le_reg_r with t; [exact T0|]; unfold Rdiv; rewrite Rmult_assoc, Rinv_l by lra; lra.
  - replace (IZR s / t * (IZR s / t) + IZR c / t * (IZR c / t) - 1)%R
      with ((IZR s * IZR s + IZR c * IZR c - t * t) * / (t * t))%R by (field; lra).
    rewrite Rabs_mult, (Rabs_pos_eq (/ (t * t))) by lra.
    replace (bpow radix2 (-53)) with (/ IZR (2 ^ 53))%R by reflexivity.
    assert (P : (0 < IZR (2 ^ 53))%R) by (apply IZR_lt; reflexivity). set (w := IZR (2 ^ 53)) in *. clearbody w.
    apply Rmult_le_reg_r with (t * t * w)%R; [nra|].
    replace (Rabs (IZR s * IZR s + IZR c * IZR c - t * t) * / (t * t) * (t * t * w))%R
      with (Rabs (IZR s * IZR s + IZR c * IZR c - t * t) * w)%R by (field; lra).
    replace (/ w * (t * t * w))%R with (t * t)%R by (field; lra). exact H4.
  - replace (1 - IZR s / t * (IZR s / t))%R with ((t * t - IZR s * IZR s) * / (t * t))%R by (field; lra).
    apply Rmult_le_reg_r with (t * t)%R; [exact T1|]. rewrite Rmult_assoc, Rinv_l by lra. lra.
Qed.

Definition true_rowb (l : literal) (f : face) : bool :=
  let lng := fixp 80 (l_lng l) (10 ^ 18) in let az := fixp 80 (l_az l) (10 ^ 18) in
  let azr := Fminus az (fixp 80 333473172251832115336090755351601070065900389 (10 ^ 45)) in
  let sl := fin (l_sinlat l) (10 ^ 18) in let cl := fin (l_coslat l) (10 ^ 18) in
  latb (l_sinlat l) (l_coslat l) && angle_ok lng && angle_ok az && angle_ok azr &&
  closeb (c_sinFaceLat f) sl && closeb (c_cosFaceLat f) cl &&
  closeb (c_sinFaceLng f) (sin_of lng) && closeb (c_cosFaceLng f) (cos_of lng) &&
  closeb (c_sinAzimuth f) (sin_of az) && closeb (c_cosAzimuth f) (cos_of az) &&
  closeb (c_sinAzimuthRot f) (sin_of azr) && closeb (c_cosAzimuthRot f) (cos_of azr) &&
  closeb (centre_x f) (Fmult cl (cos_of lng)) && closeb (centre_y f) (Fmult cl (sin_of lng)) && closeb (centre_z f) sl.

Lemma prod_near a b x y : (Rabs (a - x) <= bpow radix2 (-52) + bpow radix2 (-59))%R -> (Rabs (b - y) <= bpow radix2 (-59))%R ->
  (-1 <= x <= 1)%R -> (-1 <= y <= 1)%R -> (Rabs (a * b - x * y) <= bpow radix2 (-51))%R.
Proof.
  intros A B X Y.
  assert (B64 : (bpow radix2 (-51) = 256 * bpow radix2 (-59))%R) by (change (-51) with (8 + -59); rewrite bpow_plus; reflexivity).
  assert (B66 : (bpow radix2 (-52) = 128 * bpow radix2 (-59))%R) by (change (-52) with (7 + -59); rewrite bpow_plus; reflexivity).
  rewrite B64. rewrite B66 in A. assert (EP : (0 < bpow radix2 (-59) <= 1 / 1000)%R).
  { split; [apply bpow_gt_0|]. replace (bpow radix2 (-59)) with (/ IZR (2 ^ 59))%R by reflexivity.
    replace (2 ^ 59) with 576460752303423488 by reflexivity. lra. }
  set (ep := bpow radix2 (-59)) in *. clearbody ep. clear B64 B66.
  replace (a * b - x * y)%R with ((a - x) * b + x * (b - y))%R by ring.
  eapply Rle_trans; [apply Rabs_triang|]. rewrite !Rabs_mult.
  assert (Rabs b <= 1001 / 1000)%R by (apply Rabs_le; apply Rabs_le_inv in B; lra).
  assert (Rabs x <= 1)%R by (apply Rabs_le; lra).
  assert (Rabs (a - x) * Rabs b <= (129 * ep) * (1001 / 1000))%R by (apply Rmult_le_compat; auto using Rabs_pos; lra).
  assert (Rabs x * Rabs (b - y) <= 1 * ep)%R by (apply Rmult_le_compat; auto using Rabs_pos). lra.
Qed.

Lemma true_rowb_spec l f : true_rowb l f = true -> true_row (E:=E) (M:=M) eps l f.
Proof.
  unfold true_rowb. cbv zeta. intros H.
  apply andb_prop in H as [H H15]. apply andb_prop in H as [H H14]. apply andb_prop in H as [H H13].
  apply andb_prop in H as [H H12]. apply andb_prop in H as [H H11]. apply andb_prop in H as [H H10].
  apply andb_prop in H as [H H9]. apply andb_prop in H as [H H8]. apply andb_prop in H as [H H7].
  apply andb_prop in H as [H H6]. apply andb_prop in H as [H H5]. apply andb_prop in H as [H H4].
  apply andb_prop in H as [H H3]. apply andb_prop in H as [H1 H2].
  destruct (latb_spec _ _ H1) as [SL CL].
  assert (B80 : (bpow radix2 (-80) <= bpow radix2 (-79))%R) by (apply bpow_le; lia).
  assert (D18 : 0 < 10 ^ 18) by reflexivity. assert (D45 : 0 < 10 ^ 45) by reflexivity.
  assert (A1 : (Rabs (F2R (fixp 80 (l_lng l) (10 ^ 18)) - lit 18 (l_lng l)) <= bpow radix2 (-79))%R)
    by (eapply Rle_trans; [apply fixp_near; [lia|exact D18]|exact B80]).
  pose proof (fixp_near 80 (l_az l) (10 ^ 18) ltac:(lia) D18) as A2.
  pose proof (fixp_near 80 333473172251832115336090755351601070065900389 (10 ^ 45) ltac:(lia) D45) as A3.
  change (- (80)) with (-80) in A2, A3.
  assert (A4 : (Rabs (F2R (Fminus (fixp 80 (l_az l) (10 ^ 18)) (fixp 80 333473172251832115336090755351601070065900389 (10 ^ 45))) -
    (lit 18 (l_az l) - ap7rot)) <= bpow radix2 (-79))%R).
  { rewrite F2R_minus. unfold ap7rot. change (IZR (l_az l) / IZR (10 ^ 18))%R with (lit 18 (l_az l)) in A2.
    change (IZR 333473172251832115336090755351601070065900389 / IZR (10 ^ 45))%R with ap7rot in A3.
    fold ap7rot. set (u := F2R (fixp 80 (l_az l) (10 ^ 18))) in *. clearbody u.
    set (w := F2R (fixp 80 333473172251832115336090755351601070065900389 (10 ^ 45))) in *. clearbody w.
    replace (u - w - (lit 18 (l_az l) - ap7rot))%R with (u - lit 18 (l_az l) + - (w - ap7rot))%R by ring.
    eapply Rle_trans; [apply Rabs_triang|]. rewrite Rabs_Ropp.
    assert (bpow radix2 (-79) = bpow radix2 (-80) + bpow radix2 (-80))%R by (change (-79) with (-80 + 1); rewrite bpow_plus_1; change (IZR radix2) with 2%R; ring).
    lra. }
  assert (A2' : (Rabs (F2R (fixp 80 (l_az l) (10 ^ 18)) - lit 18 (l_az l)) <= bpow radix2 (-79))%R)
    by (eapply Rle_trans; [exact A2|exact B80]).
  destruct (trig_near _ _ H2 A1) as [S1 C1]. destruct (trig_near _ _ H3 A2') as [S2 C2]. destruct (trig_near _ _ H4 A4) as [S3 C3].
  pose proof (fin_near (l_sinlat l) (10 ^ 18) D18) as L1. pose proof (fin_near (l_coslat l) (10 ^ 18) D18) as L2.
  change (IZR (l_sinlat l) / IZR (10 ^ 18))%R with (lit 18 (l_sinlat l)) in L1.
  change (IZR (l_coslat l) / IZR (10 ^ 18))%R with (lit 18 (l_coslat l)) in L2.
  assert (W1 : (bpow radix2 (-69) <= bpow radix2 (-51))%R) by (apply bpow_le; lia).
  assert (W0 : (bpow radix2 (-69) <= bpow radix2 (-59))%R) by (apply bpow_le; lia).
  assert (W2 : (bpow radix2 (-170) <= bpow radix2 (-59))%R) by (apply bpow_le; lia).
  assert (W3 : (bpow radix2 (-52) + bpow radix2 (-59) <= bpow radix2 (-51))%R).
  { change (-51) with (-52 + 1). rewrite bpow_plus_1. change (IZR radix2) with 2%R. assert (bpow radix2 (-59) <= bpow radix2 (-52))%R by (apply bpow_le; lia). lra. }
  assert (P66 : (0 < bpow radix2 (-52))%R) by apply bpow_gt_0.
  assert (L1' : (Rabs (F2R (fin (l_sinlat l) (10 ^ 18)) - sin (asin (lit 18 (l_sinlat l)))) <= bpow radix2 (-51))%R)
    by (rewrite SL; lra).
  assert (L2' : (Rabs (F2R (fin (l_coslat l) (10 ^ 18)) - cos (asin (lit 18 (l_sinlat l)))) <= bpow radix2 (-52) + bpow radix2 (-59))%R).
  { set (cc := F2R (fin (l_coslat l) (10 ^ 18))) in *. clearbody cc. set (dd := cos (asin _)) in *. clearbody dd.
    replace (cc - dd)%R with (cc - lit 18 (l_coslat l) + (lit 18 (l_coslat l) - dd))%R by ring.
    eapply Rle_trans; [apply Rabs_triang|]. lra. }
  unfold true_row. cbv zeta. repeat apply conj.
  - exact (closeb_spec _ _ _ H5 L1').
  - refine (closeb_spec _ _ _ H6 _). lra.
  - refine (closeb_spec _ _ _ H7 _). lra.
  - refine (closeb_spec _ _ _ H8 _). lra.
  - refine (closeb_spec _ _ _ H9 _). lra.
  - refine (closeb_spec _ _ _ H10 _). lra.
  - refine (closeb_spec _ _ _ H11 _). lra.
  - refine (closeb_spec _ _ _ H12 _). lra.
  - refine (closeb_spec _ _ _ H13 _). rewrite F2R_mult. apply prod_near; [exact L2'|lra|apply COS_bound|apply COS_bound].
  - refine (closeb_spec _ _ _ H14 _). rewrite F2R_mult. apply prod_near; [exact L2'|lra|apply COS_bound|apply SIN_bound].
  - exact (closeb_spec _ _ _ H15 L1').
Qed.
End Exact.

(** Every row of a table belongs to the literals of its face. *)
Fixpoint rows (P : literal -> face -> Prop) (ls : list literal) (fs : list face) : Prop :=
  match ls, fs with [], [] => True | l :: ls', f :: fs' => P l f /\ rows P ls' fs' | _, _ => False end.
Fixpoint rowsb (P : literal -> face -> bool) (ls : list literal) (fs : list face) : bool :=
  match ls, fs with [], [] => true | l :: ls', f :: fs' => P l f && rowsb P ls' fs' | _, _ => false end.
Lemma rowsb_spec P (Q : literal -> face -> Prop) : (forall l f, P l f = true -> Q l f) -> forall ls fs, rowsb P ls fs = true -> rows Q ls fs.
Proof.
  intros H. induction ls as [|l ls IH]; intros [|f fs]; cbn [rowsb rows]; try discriminate; [trivial|].
  intros K. apply andb_prop in K as [K1 K2]. auto.
Qed.
