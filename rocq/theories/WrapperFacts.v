(** The location circuit without hints, loc2Index32CircuitWrapper: the sines and
    cosines it computes, and what any prover can reach. *)
From Coq Require Import ZArith Reals Lra Lia Bool List.
From Flocq Require Import Core BinarySingleNaN.
From Verif Require Import Field FieldFacts Circuit CircuitFacts RangeCheck RangeFacts Gadget
  GadgetFacts Util FloatModel Tactics RoundFacts Spec RoundCore RepFacts MulFacts
  AddFacts AddSpec Forge CompFacts NewFacts CmpFacts EqFacts Outcomes Circuits CircuitSpec Expr ExprFacts
  Math MathSpec ValueFacts MathFacts ErrorFacts EvalKFacts SinFacts SinError SinAccuracy Witness Loc2Index ScaleFacts
  ClosestFacts LocCircuitFacts HexFacts.
Import ListNotations.
Local Open Scope Z_scope.

Section Fixes.
Context {MOD : Modulus} {HB : BigMod} {b : Z}.

(** The honest prover gets [v], and nobody can get anything else. *)
Definition fixes {A} (c : circ A) (v : A) : Prop := exec b c = Some v /\ forall r, sat b c r -> r = v.

Lemma fixes_sat {A B} (c : circ A) v (k : A -> circ B) r : fixes c v ->
  (sat b (bind c k) r <-> sat b (k v) r).
Proof.
  intros [H1 H2]. rewrite sat_bind. split.
  - intros [x [Hx H]]. rewrite (H2 x Hx) in H. exact H.
  - intros H. exists v. split; [apply exec_sat, H1|exact H].
Qed.
Lemma fixes_exec {A B} (c : circ A) v (k : A -> circ B) : fixes c v -> exec b (bind c k) = exec b (k v).
Proof. intros [H1 _]. exact (exec_bind_eq _ _ _ _ H1). Qed.

(** Both at once. *)
Definition same {A} (c d : circ A) : Prop := exec b c = exec b d /\ forall r, sat b c r <-> sat b d r.
Lemma same_bind {A B} (c : circ A) v (k : A -> circ B) d : fixes c v -> same (k v) d -> same (bind c k) d.
Proof.
  intros H [H1 H2]. split; [rewrite (fixes_exec _ _ _ H); exact H1|].
  intros r. rewrite (fixes_sat _ _ _ _ H). apply H2.
Qed.

Lemma fixes_select (c : bool) x y : fixes (select (emb (Z.b2z c)) x y) (if c then x else y).
Proof.
  split; [apply exec_select|]. intros r H. apply sat_select in H.
  destruct H as (c' & H & ->). apply b2z_inj in H. subst c'. reflexivity.
Qed.
End Fixes.

Section Generic.
Context {MOD : Modulus} {E M b : Z} {HP : Params E M b} {HF : Format E M}.
#[local] Instance Wn : Width b (4 * M + 44) := params_width E M b HP.
#[local] Instance Bn : BigMod := width_big b _ _.
Notation fmt := (fmt E M).

Lemma fixes_add x y (fx fy : fmt) : pow2_size E M mod b = 0 -> represents x fx -> represents y fy ->
  is_finite fx = true -> is_finite fy = true -> (B2R fx + B2R fy <> 0)%R ->
  is_finite (ieee_add E M fx fy) = true ->
  fixes (b:=b) (Add E M x y) (wires (ieee_add E M fx fy)).
Proof.
  intros Hd Hx Hy Fx Fy Hn Hf. split.
  - destruct (add_complete x y fx fy Hx Hy) as (r & H & H1 & _). rewrite H. f_equal.
    apply represents_unique; [|apply finite_not_nan, Hf]. apply H1.
    intros (_ & _ & Hv & _). apply Hn. rewrite Hv. ring.
  - intros r Hr. apply represents_unique; [|apply finite_not_nan, Hf].
    apply (add_safe x y fx fy r Hd Hx Hy); [|intros _ _; exact Hf|exact Hr].
    intros (_ & _ & _ & Hv). apply Hn. rewrite Hv. ring.
Qed.

Lemma fixes_sub x y (fx fy : fmt) : pow2_size E M mod b = 0 -> represents x fx -> represents y fy ->
  is_finite fx = true -> is_finite fy = true -> (B2R fx - B2R fy <> 0)%R ->
  is_finite (ieee_sub E M fx fy) = true ->
  fixes (b:=b) (Sub E M x y) (wires (ieee_sub E M fx fy)).
Proof.
  intros Hd Hx Hy Fx Fy Hn Hf. unfold Sub. rewrite minus_plus_opp in *.
  apply (fixes_add x (Neg y) fx (ieee_neg E M fy) Hd Hx (neg_spec _ _ Hy) Fx).
  - unfold ieee_neg. rewrite is_finite_Bopp. exact Fy.
  - unfold ieee_neg. rewrite B2R_Bopp. exact Hn.
  - exact Hf.
Qed.

Lemma fixes_gt x y (fx fy : fmt) : represents x fx -> represents y fy ->
  fixes (b:=b) (IsGt E M x y) (emb (Z.b2z (ieee_lt E M fy fx))).
Proof.
  intros Hx Hy. split.
  - destruct (cmp_complete (b:=b) x y fx fy Hx Hy) as (_ & _ & H & _). exact H.
  - intros r Hr. exact (proj1 (proj2 (proj2 (cmp_sound (b:=b) x y fx fy r Hx Hy))) Hr).
Qed.
End Generic.

(** ** The 32-bit circuit *)
Section Wrapper.
Context {MOD : Modulus} {b : Z} {HP : Params 8 23 b}.
#[local] Instance Wn' : Width b (4 * 23 + 44) := params_width 8 23 b HP.
#[local] Instance Bn' : BigMod := width_big b _ _.
Notation fmt := (fmt 8 23).
Notation P := (B2R (of_bits 8 23 pi_32)).
Notation H := (B2R (of_bits 8 23 half_pi_32)).
Notation D := (B2R (of_bits 8 23 double_pi_32)).
Hypothesis Hd : pow2_size 8 23 mod b = 0.

Lemma pi32_ok : 0 <= pi_32 < 2 ^ (8 + 23 + 1). Proof. split; vm_compute; congruence. Qed.
Lemma half32_ok : 0 <= half_pi_32 < 2 ^ (8 + 23 + 1). Proof. split; vm_compute; congruence. Qed.
Lemma double32_ok : 0 <= double_pi_32 < 2 ^ (8 + 23 + 1). Proof. split; vm_compute; congruence. Qed.
Lemma pi32_fin : is_finite (of_bits 8 23 pi_32) = true. Proof. vm_compute; reflexivity. Qed.
Lemma half32_fin : is_finite (of_bits 8 23 half_pi_32) = true. Proof. vm_compute; reflexivity. Qed.
Lemma double32_fin : is_finite (of_bits 8 23 double_pi_32) = true. Proof. vm_compute; reflexivity. Qed.
Lemma double32_value : B2SF (of_bits 8 23 double_pi_32) = SpecFloat.S754_finite false 13176795 (2 - 23).
Proof. vm_compute. reflexivity. Qed.
Lemma double32_R : D = (13176795 / 2097152)%R.
Proof. rewrite (proj1 (B2R_of_SF _ _ _ _ double32_value)). unfold F2R. cbn. lra. Qed.

(** A sine is determined by its argument. *)
Lemma sin_fixed x (fx : fmt) : represents x fx -> is_finite fx = true -> (- P <= B2R fx <= P)%R ->
  exists f : fmt, is_finite f = true /\ fixes (b:=b) (SinTaylor32 x) (wires f) /\
    (Rabs (B2R f - sin (B2R fx)) <= 13 / 1000000)%R /\
    (- (8 / 5) <= B2R fx -> Rabs (B2R f - sin (B2R fx)) <= 25 / 10000000)%R.
Proof.
  intros Rx Fx Hv.
  assert (B4 : bpow radix2 2 = 4%R) by (simpl; lra).
  assert (S1 : (Rabs (B2R fx) <= bpow radix2 2)%R) by (rewrite B4; apply Rabs_le; rewrite pi32_R in Hv; lra).
  assert (S2 : (Rabs P <= bpow radix2 2)%R) by (rewrite B4; apply Rabs_le; rewrite pi32_R; lra).
  destruct (sin_sound (E:=8) (M:=23) ltac:(lia) ltac:(lia) pi_32 half_pi_32 pi32_ok half32_ok pi32_fin half32_fin S2
    ltac:(rewrite pi32_R; lra) ltac:(rewrite half32_R; lra) Hd x fx Rx Fx S1) as [(r & Hr) Hs].
  destruct (Hs r (exec_sat _ _ _ Hr)) as (f & Rf & Ff & Sf & Vf).
  assert (Hu : forall r' (g : fmt), represents r' g -> is_finite g = true -> Bsign g = Bsign fx ->
    Rabs (B2R g) = Rabs (rounded_sin 8 23 P H (B2R fx)) -> g = f).
  { intros r' g Rg Fg Sg Vg. apply B2R_Bsign_inj; try assumption; [|congruence].
    rewrite (signed_value g), (signed_value f), Sg, Sf, Vg, Vf. reflexivity. }
  assert (Hfix : fixes (b:=b) (SinTaylor32 x) (wires f)).
  { split.
    - unfold SinTaylor32. rewrite Hr. f_equal. apply represents_unique; [exact Rf|apply finite_not_nan, Ff].
    - intros r' Hr'. destruct (Hs r' Hr') as (g & Rg & Fg & Sg & Vg).
      rewrite (Hu r' g Rg Fg Sg Vg) in Rg. apply represents_unique; [exact Rg|apply finite_not_nan, Ff]. }
  exists f. split; [exact Ff|]. split; [exact Hfix|].
  split.
  - destruct (sin32_wider x fx Hd Rx Fx Hv) as [_ G].
    destruct (G r (exec_sat _ _ _ Hr)) as (g & Rg & _ & Vg).
    rewrite (represents_inj _ _ _ Rf Rg). exact Vg.
  - intros Hl. destruct (sin32_near x fx Hd Rx Fx (conj Hl (proj2 Hv))) as [_ G].
    destruct (G r (exec_sat _ _ _ Hr)) as (g & Rg & _ & Vg).
    rewrite (represents_inj _ _ _ Rf Rg). exact Vg.
Qed.

(** One rounding of a number of magnitude at most 8. *)
Lemma rne_8 v : (Rabs v <= 8)%R -> (Rabs (rne 8 23 v - v) <= 5 / 10000000)%R.
Proof.
  intros Hv. assert (E1 : (unit_ro 23 <= 6 / 100000000)%R).
  { unfold unit_ro. change (- prec 23) with (-24). simpl. lra. }
  assert (E2 : (half_min 8 23 <= 1 / 1000000000)%R).
  { unfold half_min. apply Rle_trans with (bpow radix2 (-30)); [apply bpow_le; vm_compute; congruence|simpl; lra]. }
  eapply Rle_trans; [apply (rne_abs_err (E:=8) (M:=23) _ _ E1 E2 v 8 Hv)|]. lra.
Qed.

Lemma rne_fits v : (Rabs v <= 8)%R -> fits (E:=8) (rne 8 23 v).
Proof.
  intros Hv. assert (B8 : bpow radix2 3 = 8%R) by (simpl; lra).
  apply fits_bpow with 3; [|vm_compute; reflexivity]. apply rne_bound; [rewrite B8; exact Hv|vm_compute; congruence].
Qed.
Lemma rne_mono_fmt v (f : fmt) : (v <= B2R f)%R -> (rne 8 23 v <= B2R f)%R.
Proof.
  intros Hv. unfold rne. pose proof (fmt_prec_gt_0 8 23). apply round_le_generic; auto with typeclass_instances.
  exact (generic_format_B2R _ _ f).
Qed.
Lemma rne_mono_fmt' v (f : fmt) : (B2R f <= v)%R -> (B2R f <= rne 8 23 v)%R.
Proof.
  intros Hv. unfold rne. pose proof (fmt_prec_gt_0 8 23). apply round_ge_generic; auto with typeclass_instances.
  exact (generic_format_B2R _ _ f).
Qed.

Lemma wires_finite (f : fmt) : is_finite f = true ->
  mkF (Sign (wires f)) (Exponent (wires f)) (Mantissa (wires f)) (emb 0) = wires f.
Proof. intros F. destruct f; try discriminate; reflexivity. Qed.

Lemma near_shift (f x y a e1 e2 : R) : (Rabs (f - sin x) <= e1)%R -> (Rabs (x - y) <= e2)%R -> sin y = a ->
  (Rabs (f - a) <= e1 + e2)%R.
Proof.
  intros H1 H2 <-. replace (f - sin y)%R with ((f - sin x) + (sin x - sin y))%R by ring.
  eapply Rle_trans; [apply Rabs_triang|]. apply Rplus_le_compat; [exact H1|].
  eapply Rle_trans; [apply sin_lip|exact H2].
Qed.

(** What the honest prover computes for the four sines and cosines: the sine gadget
    at the latitude, at the latitude plus pi/2, at the longitude, and at the
    longitude plus pi/2, less 2 pi if that is above pi. *)
Definition turned (fg : fmt) : fmt :=
  let t := ieee_add 8 23 fg (of_bits 8 23 half_pi_32) in
  if ieee_lt 8 23 (of_bits 8 23 pi_32) t then ieee_sub 8 23 t (of_bits 8 23 double_pi_32) else t.
Definition computed (fl fg sl cl sg cg : fmt) : Prop :=
  exec b (SinTaylor32 (wires fl)) = Some (wires sl) /\
  exec b (SinTaylor32 (wires (ieee_add 8 23 fl (of_bits 8 23 half_pi_32)))) = Some (wires cl) /\
  exec b (SinTaylor32 (wires fg)) = Some (wires sg) /\
  exec b (SinTaylor32 (wires (turned fg))) = Some (wires cg).

Lemma computed_unique fl fg sl cl sg cg sl' cl' sg' cg' :
  computed fl fg sl cl sg cg -> computed fl fg sl' cl' sg' cg' -> sl = sl' /\ cl = cl' /\ sg = sg' /\ cg = cg'.
Proof.
  assert (U : forall (f g : fmt), Some (wires f) = Some (wires g) -> f = g).
  { intros f g Q. assert (Q' : wires f = wires g) by congruence.
    apply (represents_inj (wires f)); [apply wires_represents|]. rewrite Q'. exact (wires_represents g). }
  intros (H1 & H2 & H3 & H4) (G1 & G2 & G3 & G4). repeat split; apply U; congruence.
Qed.

(** The four floats. *)
Theorem sines_fixed (fl fg : fmt) : is_finite fl = true -> is_finite fg = true ->
  (- H < B2R fl <= H)%R -> (- P <= B2R fg <= P)%R -> B2R fg <> (- H)%R ->
  exists sl cl sg cg : fmt,
    (is_finite sl = true /\ is_finite cl = true /\ is_finite sg = true /\ is_finite cg = true) /\
    computed fl fg sl cl sg cg /\
    (Rabs (B2R sl - sin (B2R fl)) <= 25 / 10000000)%R /\
    (Rabs (B2R cl - cos (B2R fl)) <= 31 / 10000000)%R /\
    (Rabs (B2R sg - sin (B2R fg)) <= 13 / 1000000)%R /\
    (Rabs (B2R cg - cos (B2R fg)) <= 15 / 1000000)%R /\
    forall lat lng K faces res I J K_, represents lat fl -> represents lng fg ->
    same (b:=b) (
      let pi := NewConstant 8 23 pi_32 in
      let halfPi := NewConstant 8 23 half_pi_32 in
      term <- Add 8 23 lat halfPi ;;
      cosLat <- SinTaylor32 term ;;
      tmp <- Add 8 23 lng halfPi ;;
      isGreater <- IsGt 8 23 tmp pi ;;
      shifted <- Sub 8 23 tmp (NewConstant 8 23 double_pi_32) ;;
      s <- select isGreater (Sign shifted) (Sign tmp) ;;
      e <- select isGreater (Exponent shifted) (Exponent tmp) ;;
      m <- select isGreater (Mantissa shifted) (Mantissa tmp) ;;
      cosLng <- SinTaylor32 (mkF s e m (emb 0)) ;;
      sinLng <- SinTaylor32 lng ;;
      z <- SinTaylor32 lat ;;
      locate 8 23 K faces lng cosLat cosLng z sinLng res I J K_)
    (locate 8 23 K faces lng (wires cl) (wires cg) (wires sl) (wires sg) res I J K_).
Proof.
  intros Fl Fg Hl Hg Hn. pose proof pi_bounds as Hpb.
  pose proof pi32_fin as Fp. pose proof half32_fin as Fh. pose proof double32_fin as Fd.
  assert (EP : P = (13176795 / 4194304)%R) by exact pi32_R.
  assert (EH : H = (13176795 / 8388608)%R) by exact half32_R.
  assert (ED : D = (13176795 / 2097152)%R) by exact double32_R.
  destruct (sin_fixed (wires fl) fl (wires_represents _) Fl ltac:(lra)) as (sl & Fsl & Xsl & _ & Asl).
  destruct (sin_fixed (wires fg) fg (wires_represents _) Fg Hg) as (sg & Fsg & Xsg & Asg & _).
  (* the latitude *)
  assert (Bt : (Rabs (B2R fl + H) <= 8)%R) by (apply Rabs_le; lra).
  destruct (add_fin fl (of_bits 8 23 half_pi_32) Fl Fh (rne_fits _ Bt)) as [Ft Vt].
  set (term := ieee_add 8 23 fl (of_bits 8 23 half_pi_32)) in *.
  assert (Tu : (B2R term <= P)%R) by (rewrite Vt; apply rne_mono_fmt; lra).
  assert (Tl : (0 <= B2R term)%R).
  { rewrite Vt. change 0%R with (B2R (B754_zero false : fmt)). apply rne_mono_fmt'. cbn [B2R]. lra. }
  pose proof (rne_8 _ Bt) as Et. rewrite <- Vt in Et. apply Rabs_le_inv in Et.
  destruct (sin_fixed (wires term) term (wires_represents _) Ft ltac:(lra)) as (cl & Fcl & Xcl & _ & Acl).
  specialize (Acl ltac:(lra)).
  (* the longitude *)
  assert (Bm : (Rabs (B2R fg + H) <= 8)%R) by (apply Rabs_le; lra).
  destruct (add_fin fg (of_bits 8 23 half_pi_32) Fg Fh (rne_fits _ Bm)) as [Fm Vm].
  set (tmp := ieee_add 8 23 fg (of_bits 8 23 half_pi_32)) in *.
  pose proof (rne_8 _ Bm) as Em. rewrite <- Vm in Em. apply Rabs_le_inv in Em.
  assert (Bs : (Rabs (B2R tmp - D) <= 8)%R) by (apply Rabs_le; lra).
  destruct (sub_fin tmp (of_bits 8 23 double_pi_32) Fm Fd (rne_fits _ Bs)) as [Fs Vs].
  set (shifted := ieee_sub 8 23 tmp (of_bits 8 23 double_pi_32)) in *.
  pose proof (rne_8 _ Bs) as Es. rewrite <- Vs in Es. apply Rabs_le_inv in Es.
  set (c := ieee_lt 8 23 (of_bits 8 23 pi_32) tmp).
  assert (Hc : c = Rlt_bool P (B2R tmp)) by (unfold c, ieee_lt; apply Bltb_correct; assumption).
  set (arg := if c then shifted else tmp).
  assert (Farg : is_finite arg = true) by (unfold arg; destruct c; assumption).
  assert (Harg : (- P <= B2R arg <= P)%R /\ exists y, sin y = cos (B2R fg) /\ (Rabs (B2R arg - y) <= 2 / 1000000)%R).
  { unfold arg. revert Hc. case Rlt_bool_spec; intros Hcmp ->.
    - split.
      + split; [|lra]. rewrite Vs. rewrite <- (B2R_Bopp _ _ (of_bits 8 23 pi_32)). apply rne_mono_fmt'.
        rewrite B2R_Bopp. lra.
      + exists (B2R fg + PI / 2 - 2 * PI)%R. split; [|apply Rabs_le; lra].
        replace (B2R fg + PI / 2 - 2 * PI)%R with (- (2 * PI - (B2R fg + PI / 2)))%R by ring.
        rewrite sin_neg. replace (2 * PI - (B2R fg + PI / 2))%R with (- (B2R fg + PI / 2) + 2 * INR 1 * PI)%R
          by (simpl; ring).
        rewrite sin_period, sin_neg, Ropp_involutive, sin_plus, sin_PI2, cos_PI2. ring.
    - split.
      + split; [|lra]. rewrite Vm. rewrite <- (B2R_Bopp _ _ (of_bits 8 23 pi_32)). apply rne_mono_fmt'.
        rewrite B2R_Bopp. lra.
      + exists (B2R fg + PI / 2)%R. split; [|apply Rabs_le; lra].
        rewrite sin_plus, sin_PI2, cos_PI2. ring. }
  destruct Harg as [Rarg (y & Hy & Ey)].
  destruct (sin_fixed (wires arg) arg (wires_represents _) Farg Rarg) as (cg & Fcg & Xcg & Acg & _).
  exists sl, cl, sg, cg. split; [auto|].
  split; [exact (conj (proj1 Xsl) (conj (proj1 Xcl) (conj (proj1 Xsg) (proj1 Xcg))))|]. split; [apply Asl; lra|].
  split.
  { pose proof (near_shift _ _ (B2R fl + PI / 2) (cos (B2R fl)) _ (6 / 10000000) Acl ltac:(apply Rabs_le; lra)
      ltac:(rewrite sin_plus, sin_PI2, cos_PI2; ring)). lra. }
  split; [exact Asg|]. split.
  { pose proof (near_shift _ _ _ _ _ _ Acg Ey Hy). lra. }
  intros lat lng K faces res I J K_ Rl Rg.
  rewrite (represents_unique lat fl Rl (finite_not_nan _ Fl)), (represents_unique lng fg Rg (finite_not_nan _ Fg)).
  cbv zeta.
  apply same_bind with (wires term).
  { apply fixes_add; try assumption; [apply wires_represents|apply newconst_spec, half32_ok|lra]. }
  apply same_bind with (wires cl); [exact Xcl|].
  apply same_bind with (wires tmp).
  { apply fixes_add; try assumption; [apply wires_represents|apply newconst_spec, half32_ok|].
    intros Q. apply Hn. lra. }
  apply same_bind with (emb (Z.b2z c)); [apply fixes_gt; [apply wires_represents|apply newconst_spec, pi32_ok]|].
  apply same_bind with (wires shifted).
  { apply fixes_sub; try assumption; [apply wires_represents|apply newconst_spec, double32_ok|lra]. }
  do 3 (eapply same_bind; [apply fixes_select|]).
  replace (mkF (if c then Sign (wires shifted) else Sign (wires tmp))
    (if c then Exponent (wires shifted) else Exponent (wires tmp))
    (if c then Mantissa (wires shifted) else Mantissa (wires tmp)) (emb 0)) with (wires arg)
    by (symmetry; unfold arg; destruct c; apply wires_finite; assumption).
  apply same_bind with (wires cg); [exact Xcg|].
  apply same_bind with (wires sg); [exact Xsg|].
  apply same_bind with (wires sl); [exact Xsl|].
  split; [reflexivity|]. intros r. reflexivity.
Qed.

Lemma lt_false (f g : fmt) : is_finite f = true -> is_finite g = true -> (B2R g <= B2R f)%R ->
  ieee_lt 8 23 f g = false.
Proof. intros Ff Fg Hv. rewrite (ieee_lt_R f g Ff Fg). apply Rlt_bool_false, Hv. Qed.

Lemma exec_bounds {A} lat lng (fa fn : fmt) res (k : circ A) u : represents lat fa -> represents lng fn ->
  ieee_lt 8 23 (of_bits 8 23 half_pi_32) fa = false -> ieee_lt 8 23 (of_bits 8 23 pi_32) fn = false ->
  (exec b (bounds 8 23 pi_32 half_pi_32 lat lng res ;;; k) = Some u <-> res <= 15 /\ exec b k = Some u).
Proof.
  intros Ha Hn H1 H2. 
  assert (Q : exec b (bounds 8 23 pi_32 half_pi_32 lat lng res) = exec b (assert_le_const res 15)).
  { unfold bounds.
    rewrite (fixes_exec _ _ _ (fixes_gt (b:=b) lat _ fa _ Ha (newconst_spec _ half32_ok))), H1.
    rewrite (exec_bind_eq b _ _ tt (exec_assert_eq b (emb 0))).
    rewrite (fixes_exec _ _ _ (fixes_gt (b:=b) lng _ fn _ Hn (newconst_spec _ pi32_ok))), H2.
    rewrite (exec_bind_eq b _ _ tt (exec_assert_eq b (emb 0))). reflexivity. }
  rewrite exec_bind, Q. unfold assert_le_const. destruct (Z.leb_spec res 15) as [Hr|Hr].
  - rewrite exec_assert by reflexivity. intuition.
  - split; [discriminate|lia].
Qed.

Theorem wrapper_reduces Lat Lng : 0 <= Lat < modulus -> 0 <= Lng < modulus ->
  0 <= Lat < 2 ^ 32 -> 0 <= Lng < 2 ^ 32 ->
  let fl := of_bits 8 23 Lat in let fg := of_bits 8 23 Lng in
  is_finite fl = true -> is_finite fg = true ->
  (- H < B2R fl <= H)%R -> (- P <= B2R fg <= P)%R -> B2R fg <> (- H)%R ->
  exists sl cl sg cg : fmt,
    (is_finite sl = true /\ is_finite cl = true /\ is_finite sg = true /\ is_finite cg = true) /\
    computed fl fg sl cl sg cg /\
    (Rabs (B2R sl - sin (B2R fl)) <= 25 / 10000000)%R /\
    (Rabs (B2R cl - cos (B2R fl)) <= 31 / 10000000)%R /\
    (Rabs (B2R sg - sin (B2R fg)) <= 13 / 1000000)%R /\
    (Rabs (B2R cg - cos (B2R fg)) <= 15 / 1000000)%R /\
    forall K faces res I J K_,
    (exec b (loc2Index32CircuitWrapper K faces Lat Lng res I J K_) = Some tt <-> res <= 15 /\
     exec b (locate 8 23 K faces (wires fg) (wires cl) (wires cg) (wires sl) (wires sg) res I J K_) = Some tt) /\
    (sat b (loc2Index32CircuitWrapper K faces Lat Lng res I J K_) tt <-> res <= 15 /\
     sat b (locate 8 23 K faces (wires fg) (wires cl) (wires cg) (wires sl) (wires sg) res I J K_) tt).
Proof.
  intros Ml Mg Hl Hg fl fg Fl Fg Vl Vg Hn.
  destruct (sines_fixed fl fg Fl Fg Vl Vg Hn) as (sl & cl & sg & cg & F & HC & A1 & A2 & A3 & A4 & HS).
  exists sl, cl, sg, cg. do 6 (split; [assumption|]). clear A1 A2 A3 A4 F.
  intros K faces res I J K_.
  pose proof (newconst_spec (E:=8) (M:=23) Lat Hl) as Rl. pose proof (newconst_spec (E:=8) (M:=23) Lng Hg) as Rg.
  pose proof (lt_false _ fl half32_fin Fl (proj2 Vl)) as B1.
  pose proof (lt_false _ fg pi32_fin Fg (proj2 Vg)) as B2.
  destruct (HS _ _ K faces res I J K_ Rl Rg) as [S1 S2]. clear HS.
  unfold loc2Index32CircuitWrapper. split.
  - rewrite (new_exec_step (E:=8) (M:=23) Lat _ _ Ml), (new_exec_step (E:=8) (M:=23) Lng _ _ Mg).
    rewrite (exec_bounds _ _ fl fg res _ _ Rl Rg B1 B2). cbv zeta in S1 |- *.
    rewrite S1, (locate_lng K faces _ (wires fg)).
    intuition.
  - rewrite (new_step (E:=8) (M:=23) Lat _ _ Ml), (new_step (E:=8) (M:=23) Lng _ _ Mg).
    rewrite (sat_bounds (E:=8) (M:=23) _ _ fl fg pi_32 half_pi_32 res _ _ Rl Rg pi32_ok half32_ok).
    cbv zeta in S2 |- *. rewrite (S2 tt), (locate_lng K faces _ (wires fg)). intuition.
Qed.
End Wrapper.
