(** Expression trees: well-formedness, evaluation by the repository's prover and
    by an arbitrary one. *)
From Coq Require Import ZArith Reals Lra Lia Bool List.
From Flocq Require Import Core BinarySingleNaN.
From Verif Require Import Field FieldFacts Circuit CircuitFacts RangeCheck RangeFacts Gadget
  GadgetFacts Util FloatModel Tactics RoundFacts Spec RoundCore RepFacts MulFacts DivFacts
  SqrtFacts AddFacts AddSpec Forge CompFacts NewFacts CmpFacts TruncFacts TruncSpec ToIntFacts
  EqFacts Outcomes CircuitSpec Expr.
Import ListNotations.
Local Open Scope Z_scope.

Section WellFormed.
Context {MOD : Modulus} {E M : Z} {HF : Format E M}.
Notation emax := (Spec.emax E).
Notation emin := (Spec.emin E M).
Notation prec := (Spec.prec M).
Notation fmt := (Spec.fmt E M).

Lemma represents_well_formed x (f : fmt) : represents x f -> well_formed E M x.
Proof.
  intros [z [-> Hz]]. destruct (fmt_M (E:=E) (M:=M)) as [HM [HM1 HM2]].
  pose proof (zrep_zwf z f Hz) as [W1 W2]. exps E M.
  pose proof (emin_lt_emax (E:=E) (M:=M)) as Hee.
  exists (zs z), (za z), (ze z), (zm z). split; [reflexivity|]. split; [exact W1|].
  split; [lia|].
  split; [revert W2; destruct (za z); intros W2; split; intros Q; first [discriminate Q|reflexivity|lia]|].
  split; [revert W2; destruct (za z); intros W2 Q; [lia|discriminate Q]|].
  split; [revert W2; destruct (za z); intros W2 Q; [discriminate Q|lia]|].
  intros Hs. destruct f as [s|s| |s m e H].
  - cbn in Hz. subst z. apply Z.divide_0_r.
  - cbn in Hz. subst z. cbn [ze] in Hs. lia.
  - cbn in Hz. destruct Hz as [s ->]. apply Z.divide_0_r.
  - pose proof (zrep_finite _ _ _ _ _ Hz) as (_ & _ & _ & Hk).
    destruct Hk as [Hk|[k Hk]]; [unfold Spec.emin, Spec.prec in *; lia|].
    exists k. rewrite Hk. do 2 f_equal. unfold Spec.emin, Spec.prec. lia.
Qed.

Lemma well_formed_represents x : well_formed E M x -> exists f : fmt, represents x f.
Proof.
  intros (s & a & e & m & -> & He & Hm & Ha & Ha1 & Ha2 & Hd).
  destruct (fmt_M (E:=E) (M:=M)) as [HM [HM1 HM2]]. exps E M.
  destruct a.
  - assert (e = emax) as -> by (apply Ha; reflexivity). destruct (Ha1 eq_refl) as [->| ->].
    + exists B754_nan. exists (mkZ s emax 0 true). split; [reflexivity|]. exists s. reflexivity.
    + exists (B754_infinity s). exists (mkZ s emax (2 ^ M) true). split; reflexivity.
  - destruct Hm as [->|Hm].
    + exists (B754_zero s). exists (mkZ s (emin - 1) 0 false). split; [|reflexivity].
      rewrite (proj1 (Ha2 eq_refl) eq_refl). reflexivity.
    + set (z := mkZ s e m false). 
      assert (He1 : e < emax).
      { destruct (Z.eq_dec e emax) as [He1|He1]; [|lia]. apply Ha in He1. discriminate. }
      set (f := binary_normalize prec emax _ _ mode_NE (cond_Zopp s m) (e - M) s).
      pose proof (binary_normalize_correct prec emax _ _ mode_NE (cond_Zopp s m) (e - M) s) as Hf.
      fold f in Hf. cbv zeta in Hf.
      assert (Hv : F2R (Float radix2 (cond_Zopp s m) (e - M)) = (sgn s * zmag (M:=M) z)%R).
      { unfold F2R, zmag, z. cbn [Fnum Fexp zm ze]. rewrite sgn_IZR. ring. }
      assert (Hg : generic_format radix2 (SpecFloat.fexp prec emax)
                     (F2R (Float radix2 (cond_Zopp s m) (e - M)))).
      { change (SpecFloat.fexp prec emax) with (FLT_exp (SpecFloat.emin prec emax) prec).
        apply generic_format_FLT.
        destruct (Z.lt_ge_cases e (2 - emax)) as [Hsub|Hnor].
        - destruct (Hd Hsub) as [k Hk]. 
          assert (Hp : 0 < 2 ^ (2 - emax - e)) by (apply Z.pow_pos_nonneg; lia).
          exists (Float radix2 (cond_Zopp s k) (SpecFloat.emin prec emax)).
          + unfold F2R. cbn [Fnum Fexp]. rewrite Hk, !sgn_IZR, mult_IZR, IZR_pow2 by lia.
            rewrite Rmult_assoc, Rmult_assoc, <- bpow_plus. rewrite Rmult_assoc. do 3 f_equal.
            unfold SpecFloat.emin, Spec.prec. lia.
          + cbn [Fnum]. rewrite abs_cond_Zopp. change (radix_val radix2) with 2.
            replace (Spec.prec M) with (M + 1) by reflexivity. nia.
          + cbn [Fexp]. lia.
        - exists (Float radix2 (cond_Zopp s m) (e - M)).
          + reflexivity.
          + cbn [Fnum]. rewrite abs_cond_Zopp. change (radix_val radix2) with 2.
            replace (Spec.prec M) with (M + 1) by reflexivity. lia.
          + cbn [Fexp]. unfold SpecFloat.emin, Spec.prec. lia. }
      rewrite round_generic in Hf by (auto with typeclass_instances).
      assert (Habs : (Rabs (F2R (Float radix2 (cond_Zopp s m) (e - M))) < bpow radix2 emax)%R).
      { rewrite Hv, sgn_abs. rewrite Rabs_pos_eq.
        - unfold zmag, z. cbn [zm ze].
          apply Rlt_le_trans with (IZR (2 ^ (M + 1)) * bpow radix2 (e - M))%R.
          + apply Rmult_lt_compat_r; [apply bpow_gt_0|]. apply IZR_lt. lia.
          + rewrite IZR_pow2 by lia. rewrite <- bpow_plus. apply bpow_le. lia.
        - apply Rlt_le, zmag_pos. cbn. lia. }
      rewrite Rlt_bool_true in Hf by exact Habs. destruct Hf as (F1 & F2 & F3).
      exists f. exists z. split; [reflexivity|]. apply zrep_intro; [reflexivity|cbn; lia|exact F2| |].
      * rewrite F3, Hv. pose proof (zmag_pos z ltac:(cbn; lia)) as Hz. cbn [zs z].
        destruct s; cbn [sgn].
        -- rewrite Rcompare_Lt; [reflexivity|lra].
        -- rewrite Rcompare_Gt; [reflexivity|lra].
      * rewrite F1. exact Hv.
Qed.

End WellFormed.

Section ExprFacts.
Context {MOD : Modulus} {E M b : Z} {HP : Params E M b} {HF : Format E M}.
#[local] Instance Wn : Width b (4 * M + 44) := params_width E M b HP.
#[local] Instance Bn : BigMod := width_big b _ _.
Notation fmt := (Spec.fmt E M).
Notation emax := (Spec.emax E).

Lemma overflow_large s v r : overflow_wires E M s v r ->
  (bpow radix2 emax <= Rabs (rne E M v))%R.
Proof.
  intros (m & Hm & -> & _). destruct (fmt_M (E:=E) (M:=M)) as [HM [HM1 HM2]].
  apply Rle_trans with (IZR (2 ^ M) * bpow radix2 (emax - M))%R.
  - rewrite IZR_pow2 by lia. rewrite <- bpow_plus. apply bpow_le. lia.
  - apply Rmult_le_compat_r; [apply bpow_ge_0|]. apply IZR_le. lia.
Qed.

Lemma overflow_infinite (f : fmt) s : B2SF f = binary_overflow (prec M) emax mode_NE s ->
  is_finite f = false.
Proof. intros H. rewrite (overflow_inf f s H). reflexivity. Qed.

Lemma mul_overflow_infinite (fx fy : fmt) s r : is_finite fx = true -> is_finite fy = true ->
  overflow_wires E M s (B2R fx * B2R fy) r -> is_finite (ieee_mul E M fx fy) = false.
Proof.
  intros Fx Fy H. apply overflow_large in H.
  pose proof (Bmult_correct _ _ _ _ mode_NE fx fy) as H1. unfold rne in H.
  rewrite Rlt_bool_false in H1 by exact H. eapply overflow_infinite, H1.
Qed.

Lemma div_overflow_infinite (fx fy : fmt) s r : is_finite fx = true ->
  is_finite_strict fy = true ->
  overflow_wires E M s (B2R fx / B2R fy) r -> is_finite (ieee_div E M fx fy) = false.
Proof.
  intros Fx Fy H. apply overflow_large in H.
  assert (Hn : B2R fy <> 0%R).
  { destruct fy; try discriminate. cbn [B2R]. intros H0. apply eq_0_F2R in H0.
    destruct s0; discriminate. }
  pose proof (Bdiv_correct _ _ _ _ mode_NE fx fy Hn) as H1. unfold rne in H.
  rewrite Rlt_bool_false in H1 by exact H. eapply overflow_infinite, H1.
Qed.

Lemma add_overflow_infinite (fx fy : fmt) s r : is_finite fx = true -> is_finite fy = true ->
  overflow_wires E M s (B2R fx + B2R fy) r -> is_finite (ieee_add E M fx fy) = false.
Proof.
  intros Fx Fy H. apply overflow_large in H.
  pose proof (Bplus_correct _ _ _ _ mode_NE fx fy Fx Fy) as H1. unfold rne in H.
  rewrite Rlt_bool_false in H1 by exact H. eapply overflow_infinite, (proj1 H1).
Qed.

Lemma mul_safe x y (fx fy : fmt) r : pow2_size E M mod b = 0 ->
  represents x fx -> represents y fy ->
  (is_finite fx = true -> is_finite fy = true -> is_finite (ieee_mul E M fx fy) = true) ->
  sat b (Mul E M x y) r -> represents r (ieee_mul E M fx fy).
Proof.
  intros Hd Hx Hy Hf H. destruct (mul_sound_exact x y fx fy r Hd Hx Hy H) as [H'|(F1 & F2 & O)];
    [exact H'|]. rewrite (mul_overflow_infinite _ _ _ _ F1 F2 O) in Hf.
  specialize (Hf F1 F2). discriminate.
Qed.

Lemma div_safe x y (fx fy : fmt) r : pow2_size E M mod b = 0 ->
  represents x fx -> represents y fy ->
  (is_finite fx = true -> is_finite_strict fy = true -> is_finite (ieee_div E M fx fy) = true) ->
  sat b (Div E M x y) r -> represents r (ieee_div E M fx fy).
Proof.
  intros Hd Hx Hy Hf H. destruct (div_sound_exact x y fx fy r Hd Hx Hy H) as [H'|(F1 & F2 & O)];
    [exact H'|]. rewrite (div_overflow_infinite _ _ _ _ F1 F2 O) in Hf.
  specialize (Hf F1 F2). discriminate.
Qed.

(** An accepted sum that does not overflow is one of the outcomes. *)
Lemma add_bounded x y (fx fy : fmt) r : pow2_size E M mod b = 0 ->
  represents x fx -> represents y fy ->
  (is_finite fx = true -> is_finite fy = true -> is_finite (ieee_add E M fx fy) = true) ->
  sat b (Add E M x y) r -> exists f, represents r f /\ sum_outcome fx fy f.
Proof.
  intros Hd Hx Hy Hf Hr. destruct (add_sound_exact x y fx fy r Hd Hx Hy Hr)
      as [H|(Fx & Fy & [H|(Hs & Hv & [H|(Hm & s & H)])])].
  + exists (ieee_add E M fx fy). split; [exact H|left; reflexivity].
  + rewrite (add_overflow_infinite _ _ _ _ Fx Fy H) in Hf. specialize (Hf Fx Fy). discriminate.
  + exists (B754_zero true). split; [exact H|]. right. split; [repeat split; assumption|].
    left. exists true. reflexivity.
  + exists (B754_infinity s). split; [exact H|]. right. split; [repeat split; assumption|].
    right. split; [exact Hm|]. exists s. reflexivity.
Qed.

Lemma sub_bounded x y (fx fy : fmt) r : pow2_size E M mod b = 0 ->
  represents x fx -> represents y fy ->
  (is_finite fx = true -> is_finite fy = true -> is_finite (ieee_sub E M fx fy) = true) ->
  sat b (Sub E M x y) r -> exists f, represents r f /\ diff_outcome fx fy f.
Proof.
  intros Hd Hx Hy Hf Hr. unfold diff_outcome. rewrite minus_plus_opp in *.
  apply (add_bounded x (Neg y) fx (ieee_neg E M fy) r Hd Hx (neg_spec y fy Hy)); [|exact Hr].
  rewrite neg_finite. exact Hf.
Qed.

Lemma add_safe x y (fx fy : fmt) r : pow2_size E M mod b = 0 ->
  represents x fx -> represents y fy -> ~ cancels fx fy ->
  (is_finite fx = true -> is_finite fy = true -> is_finite (ieee_add E M fx fy) = true) ->
  sat b (Add E M x y) r -> represents r (ieee_add E M fx fy).
Proof.
  intros Hd Hx Hy Hc Hf Hr.
  destruct (add_bounded x y fx fy r Hd Hx Hy Hf Hr) as (f & H & [->|[C _]]);
    [exact H|contradiction].
Qed.

Lemma sub_safe x y (fx fy : fmt) r : pow2_size E M mod b = 0 ->
  represents x fx -> represents y fy -> ~ cancels fx (ieee_neg E M fy) ->
  (is_finite fx = true -> is_finite fy = true -> is_finite (ieee_sub E M fx fy) = true) ->
  sat b (Sub E M x y) r -> represents r (ieee_sub E M fx fy).
Proof.
  intros Hd Hx Hy Hc Hf Hr.
  destruct (sub_bounded x y fx fy r Hd Hx Hy Hf Hr) as (f & H & [->|[C _]]);
    [exact H|contradiction].
Qed.

Lemma compare_circ_spec c x y (fx fy : fmt) : represents x fx -> represents y fy ->
  exec b (compare_circ E M c x y) = Some (emb (Z.b2z (ieee_compare E M c fx fy))) /\
  (forall r, sat b (compare_circ E M c x y) r -> r = emb (Z.b2z (ieee_compare E M c fx fy))).
Proof.
  intros Hx Hy. destruct (cmp_complete (b:=b) x y fx fy Hx Hy) as (C1 & C2 & C3 & C4).
  split.
  - destruct c; cbn [compare_circ ieee_compare]; [exact C1|exact C2|exact C3|exact C4].
  - intros r. destruct (cmp_sound (b:=b) x y fx fy r Hx Hy) as (S1 & S2 & S3 & S4).
    destruct c; cbn [compare_circ ieee_compare]; [exact S1|exact S2|exact S3|exact S4].
Qed.

(** What the repository's prover computes. *)
Fixpoint heval (e : expr) : fmt :=
  match e with
  | EInput v | EConst v => of_bits E M v
  | ENeg a => ieee_neg E M (heval a)
  | EAbs a => ieee_abs E M (heval a)
  | EAdd a b => honest_sum (heval a) (heval b)
  | ESub a b => honest_diff (heval a) (heval b)
  | EMul a b => ieee_mul E M (heval a) (heval b)
  | EDiv a b => ieee_div E M (heval a) (heval b)
  | ESqrt a => ieee_sqrt E M (heval a)
  | ETrunc a => ieee_trunc E M (heval a)
  | EFloor a => ieee_floor E M (heval a)
  | ECeil a => ieee_ceil E M (heval a)
  | ESelect c a b x y => if ieee_compare E M c (heval a) (heval b) then heval x else heval y
  end.

Lemma compile_runs e : leaves E M e -> runs (b:=b) (compile E M e) (heval e).
Proof.
  induction e; cbn [leaves compile heval]; intros HL.
  - exists (NewConstant E M v). split; [exact (proj1 (newfloat_complete v HL))|exact (newconst_spec v HL)].
  - exists (NewConstant E M v). split; [reflexivity|exact (newconst_spec v HL)].
  - destruct (IHe HL) as (r & H1 & H2). exists (Neg r).
    rewrite (exec_bind_eq _ _ _ _ H1). split; [reflexivity|apply neg_spec, H2].
  - destruct (IHe HL) as (r & H1 & H2). exists (FAbs r).
    rewrite (exec_bind_eq _ _ _ _ H1). split; [reflexivity|apply abs_spec, H2].
  - destruct (IHe1 (proj1 HL)) as (r1 & A1 & A2). destruct (IHe2 (proj2 HL)) as (r2 & B1 & B2).
    unfold runs. rewrite (exec_bind_eq _ _ _ _ A1), (exec_bind_eq _ _ _ _ B1).
    exact (add_runs r1 r2 _ _ A2 B2).
  - destruct (IHe1 (proj1 HL)) as (r1 & A1 & A2). destruct (IHe2 (proj2 HL)) as (r2 & B1 & B2).
    unfold runs. rewrite (exec_bind_eq _ _ _ _ A1), (exec_bind_eq _ _ _ _ B1).
    exact (sub_runs r1 r2 _ _ A2 B2).
  - destruct (IHe1 (proj1 HL)) as (r1 & A1 & A2). destruct (IHe2 (proj2 HL)) as (r2 & B1 & B2).
    unfold runs. rewrite (exec_bind_eq _ _ _ _ A1), (exec_bind_eq _ _ _ _ B1).
    exact (mul_complete r1 r2 _ _ A2 B2).
  - destruct (IHe1 (proj1 HL)) as (r1 & A1 & A2). destruct (IHe2 (proj2 HL)) as (r2 & B1 & B2).
    unfold runs. rewrite (exec_bind_eq _ _ _ _ A1), (exec_bind_eq _ _ _ _ B1).
    exact (div_complete r1 r2 _ _ A2 B2).
  - destruct (IHe HL) as (r & H1 & H2). unfold runs. rewrite (exec_bind_eq _ _ _ _ H1).
    exact (sqrt_complete r _ H2).
  - destruct (IHe HL) as (r & H1 & H2). unfold runs. rewrite (exec_bind_eq _ _ _ _ H1).
    exact (trunc_complete r _ H2).
  - destruct (IHe HL) as (r & H1 & H2). unfold runs. rewrite (exec_bind_eq _ _ _ _ H1).
    exact (floor_complete r _ H2).
  - destruct (IHe HL) as (r & H1 & H2). unfold runs. rewrite (exec_bind_eq _ _ _ _ H1).
    exact (ceil_complete r _ H2).
  - destruct HL as (L1 & L2 & L3 & L4).
    destruct (IHe1 L1) as (r1 & A1 & A2). destruct (IHe2 L2) as (r2 & B1 & B2).
    destruct (IHe3 L3) as (r3 & C1 & C2). destruct (IHe4 L4) as (r4 & D1 & D2).
    destruct (compare_circ_spec c r1 r2 _ _ A2 B2) as [T _].
    unfold runs. rewrite (exec_bind_eq _ _ _ _ A1), (exec_bind_eq _ _ _ _ B1).
    rewrite (exec_bind_eq _ _ _ _ T), (exec_bind_eq _ _ _ _ C1), (exec_bind_eq _ _ _ _ D1).
    rewrite (proj1 (select_spec (ieee_compare E M c (heval e1) (heval e2)) r3 r4)).
    eexists. split; [reflexivity|]. destruct (ieee_compare E M c (heval e1) (heval e2)); assumption.
Qed.

Lemma honest_sum_ieee (x y : fmt) : ~ max_cancel E M x y -> honest_sum x y = ieee_add E M x y.
Proof.
  intros H. unfold honest_sum. pose proof (max_cancelb_spec x y) as S.
  destruct (max_cancelb x y); [contradiction|reflexivity].
Qed.

Lemma honest_diff_ieee (x y : fmt) : ~ max_cancel E M x (ieee_neg E M y) ->
  honest_diff x y = ieee_sub E M x y.
Proof.
  intros H. unfold honest_diff. pose proof (max_cancelb_spec x (ieee_neg E M y)) as S.
  destruct (max_cancelb x (ieee_neg E M y)); [contradiction|reflexivity].
Qed.

Lemma heval_ieval e : no_max_cancel E M e -> heval e = ieval E M e.
Proof.
  induction e; cbn [no_max_cancel heval ieval]; intros H.
  - reflexivity.
  - reflexivity.
  - rewrite (IHe H). reflexivity.
  - rewrite (IHe H). reflexivity.
  - destruct H as (H1 & H2 & H3). rewrite (IHe1 H1), (IHe2 H2). apply honest_sum_ieee, H3.
  - destruct H as (H1 & H2 & H3). rewrite (IHe1 H1), (IHe2 H2). apply honest_diff_ieee, H3.
  - destruct H as (H1 & H2). rewrite (IHe1 H1), (IHe2 H2). reflexivity.
  - destruct H as (H1 & H2). rewrite (IHe1 H1), (IHe2 H2). reflexivity.
  - rewrite (IHe H). reflexivity.
  - rewrite (IHe H). reflexivity.
  - rewrite (IHe H). reflexivity.
  - rewrite (IHe H). reflexivity.
  - destruct H as (H1 & H2 & H3 & H4). rewrite (IHe1 H1), (IHe2 H2), (IHe3 H3), (IHe4 H4).
    reflexivity.
Qed.

(** C27 *)
Theorem expr_well_formed e : leaves E M e ->
  exists r, exec b (compile E M e) = Some r /\ well_formed E M r.
Proof.
  intros H. destruct (compile_runs e H) as (r & H1 & H2). exists r. split; [exact H1|].
  exact (represents_well_formed r _ H2).
Qed.

(** C28 *)
Theorem expr_complete e : leaves E M e -> no_max_cancel E M e ->
  exists r, exec b (compile E M e) = Some r /\ represents r (ieval E M e).
Proof. intros H1 H2. rewrite <- (heval_ieval e H2). exact (compile_runs e H1). Qed.

Theorem expr_sound e r : pow2_size E M mod b = 0 -> leaves E M e -> safe E M e ->
  sat b (compile E M e) r -> represents r (ieval E M e).
Proof.
  intros Hd. revert r.
  induction e; intros r HL HS H; cbn [leaves safe] in HL, HS; cbn [compile] in H.
  - destruct (new_pows (E:=E) (M:=M) (b:=b)) as [Hp _].
    apply newfloat_sound in H; [|lia]. destruct H as [_ ->]. exact (newconst_spec v HL).
  - apply sat_ret in H. subst r. exact (newconst_spec v HL).
  - apply sat_bind in H. destruct H as [x [H1 H2]]. apply sat_ret in H2. subst r.
    apply neg_spec. exact (IHe x HL HS H1).
  - apply sat_bind in H. destruct H as [x [H1 H2]]. apply sat_ret in H2. subst r.
    apply abs_spec. exact (IHe x HL HS H1).
  - destruct HL as [L1 L2]. destruct HS as (S1 & S2 & S3 & S4).
    apply sat_bind in H. destruct H as [x [H1 H]]. apply sat_bind in H. destruct H as [y [H2 H]].
    exact (add_safe x y _ _ r Hd (IHe1 x L1 S1 H1) (IHe2 y L2 S2 H2) S3 S4 H).
  - destruct HL as [L1 L2]. destruct HS as (S1 & S2 & S3 & S4).
    apply sat_bind in H. destruct H as [x [H1 H]]. apply sat_bind in H. destruct H as [y [H2 H]].
    exact (sub_safe x y _ _ r Hd (IHe1 x L1 S1 H1) (IHe2 y L2 S2 H2) S3 S4 H).
  - destruct HL as [L1 L2]. destruct HS as (S1 & S2 & S4).
    apply sat_bind in H. destruct H as [x [H1 H]]. apply sat_bind in H. destruct H as [y [H2 H]].
    exact (mul_safe x y _ _ r Hd (IHe1 x L1 S1 H1) (IHe2 y L2 S2 H2) S4 H).
  - destruct HL as [L1 L2]. destruct HS as (S1 & S2 & S4).
    apply sat_bind in H. destruct H as [x [H1 H]]. apply sat_bind in H. destruct H as [y [H2 H]].
    exact (div_safe x y _ _ r Hd (IHe1 x L1 S1 H1) (IHe2 y L2 S2 H2) S4 H).
  - apply sat_bind in H. destruct H as [x [H1 H]].
    exact (sqrt_sound x _ r Hd (IHe x HL HS H1) H).
  - apply sat_bind in H. destruct H as [x [H1 H]]. destruct HS as [S1 S2].
    destruct (trunc_sound x _ r Hd (IHe x HL S1 H1) H) as [H'|[H' _]]; [exact H'|contradiction].
  - apply sat_bind in H. destruct H as [x [H1 H]]. destruct HS as [S1 S2].
    destruct (floor_sound x _ r Hd (IHe x HL S1 H1) H) as [H'|[H' _]]; [exact H'|contradiction].
  - apply sat_bind in H. destruct H as [x [H1 H]]. destruct HS as [S1 S2].
    destruct (ceil_sound x _ r Hd (IHe x HL S1 H1) H) as [H'|[H' _]]; [exact H'|contradiction].
  - destruct HL as (L1 & L2 & L3 & L4). destruct HS as (S1 & S2 & S3 & S4).
    apply sat_bind in H. destruct H as [x1 [H1 H]]. apply sat_bind in H. destruct H as [x2 [H2 H]].
    apply sat_bind in H. destruct H as [t [HT H]].
    apply sat_bind in H. destruct H as [x3 [H3 H]]. apply sat_bind in H. destruct H as [x4 [H4 H]].
    destruct (compare_circ_spec c x1 x2 _ _ (IHe1 x1 L1 S1 H1) (IHe2 x2 L2 S2 H2)) as [_ T].
    apply T in HT. subst t. apply (proj2 (select_spec _ x3 x4)) in H. subst r. cbn [ieval].
    destruct (ieee_compare E M c (ieval E M e1) (ieval E M e2));
      [exact (IHe3 x3 L3 S3 H3)|exact (IHe4 x4 L4 S4 H4)].
Qed.

(** Anything the outcomes allow, a prover can obtain. *)
Theorem expr_forgeable e f : pow2_size E M mod b = 0 -> leaves E M e -> may E M e f ->
  exists r, sat b (compile E M e) r /\ represents r f.
Proof.
  intros Hd. revert f.
  induction e; intros f HL HM; cbn [leaves may] in HL, HM; cbn [compile].
  - subst f. exists (NewConstant E M v).
    split; [apply exec_sat, (proj1 (newfloat_complete v HL))|exact (newconst_spec v HL)].
  - subst f. exists (NewConstant E M v). split; [apply sat_ret; reflexivity|exact (newconst_spec v HL)].
  - destruct HM as (x & Hx & ->). destruct (IHe x HL Hx) as (r & H1 & H2). exists (Neg r).
    split; [|apply neg_spec, H2]. apply sat_bind. exists r. split; [exact H1|apply sat_ret; reflexivity].
  - destruct HM as (x & Hx & ->). destruct (IHe x HL Hx) as (r & H1 & H2). exists (FAbs r).
    split; [|apply abs_spec, H2]. apply sat_bind. exists r. split; [exact H1|apply sat_ret; reflexivity].
  - destruct HL as [L1 L2]. destruct HM as (x & y & Hx & Hy & Hf).
    destruct (IHe1 x L1 Hx) as (r1 & A1 & A2). destruct (IHe2 y L2 Hy) as (r2 & B1 & B2).
    destruct (proj2 (add_yields r1 r2 x y Hd A2 B2) f Hf) as (r & H1 & H2). exists r.
    split; [|exact H2]. apply sat_bind. exists r1. split; [exact A1|].
    apply sat_bind. exists r2. split; [exact B1|exact H1].
  - destruct HL as [L1 L2]. destruct HM as (x & y & Hx & Hy & Hf).
    destruct (IHe1 x L1 Hx) as (r1 & A1 & A2). destruct (IHe2 y L2 Hy) as (r2 & B1 & B2).
    destruct (proj2 (sub_yields r1 r2 x y Hd A2 B2) f Hf) as (r & H1 & H2). exists r.
    split; [|exact H2]. apply sat_bind. exists r1. split; [exact A1|].
    apply sat_bind. exists r2. split; [exact B1|exact H1].
  - destruct HL as [L1 L2]. destruct HM as (x & y & Hx & Hy & Hf).
    destruct (IHe1 x L1 Hx) as (r1 & A1 & A2). destruct (IHe2 y L2 Hy) as (r2 & B1 & B2).
    destruct (proj2 (mul_yields r1 r2 x y Hd A2 B2) f Hf) as (r & H1 & H2). exists r.
    split; [|exact H2]. apply sat_bind. exists r1. split; [exact A1|].
    apply sat_bind. exists r2. split; [exact B1|exact H1].
  - destruct HL as [L1 L2]. destruct HM as (x & y & Hx & Hy & Hf).
    destruct (IHe1 x L1 Hx) as (r1 & A1 & A2). destruct (IHe2 y L2 Hy) as (r2 & B1 & B2).
    destruct (proj2 (div_yields r1 r2 x y Hd A2 B2) f Hf) as (r & H1 & H2). exists r.
    split; [|exact H2]. apply sat_bind. exists r1. split; [exact A1|].
    apply sat_bind. exists r2. split; [exact B1|exact H1].
  - destruct HM as (x & Hx & Hf). destruct (IHe x HL Hx) as (r1 & A1 & A2).
    destruct (proj2 (sqrt_yields r1 x Hd A2) f Hf) as (r & H1 & H2). exists r.
    split; [|exact H2]. apply sat_bind. exists r1. split; [exact A1|exact H1].
  - destruct HM as (x & Hx & Hf). destruct (IHe x HL Hx) as (r1 & A1 & A2).
    destruct (proj2 (trunc_yields r1 x Hd A2) f Hf) as (r & H1 & H2). exists r.
    split; [|exact H2]. apply sat_bind. exists r1. split; [exact A1|exact H1].
  - destruct HM as (x & Hx & Hf). destruct (IHe x HL Hx) as (r1 & A1 & A2).
    destruct (proj2 (floor_yields r1 x Hd A2) f Hf) as (r & H1 & H2). exists r.
    split; [|exact H2]. apply sat_bind. exists r1. split; [exact A1|exact H1].
  - destruct HM as (x & Hx & Hf). destruct (IHe x HL Hx) as (r1 & A1 & A2).
    destruct (proj2 (ceil_yields r1 x Hd A2) f Hf) as (r & H1 & H2). exists r.
    split; [|exact H2]. apply sat_bind. exists r1. split; [exact A1|exact H1].
  - destruct HL as (L1 & L2 & L3 & L4). destruct HM as (u & v & p & q & M1 & M2 & M3 & M4 & ->).
    destruct (IHe1 u L1 M1) as (r1 & A1 & A2). destruct (IHe2 v L2 M2) as (r2 & B1 & B2).
    destruct (IHe3 p L3 M3) as (r3 & C1 & C2). destruct (IHe4 q L4 M4) as (r4 & D1 & D2).
    destruct (compare_circ_spec c r1 r2 u v A2 B2) as [T _].
    exists (if ieee_compare E M c u v then r3 else r4).
    split; [|destruct (ieee_compare E M c u v); assumption].
    apply sat_bind. exists r1. split; [exact A1|]. apply sat_bind. exists r2. split; [exact B1|].
    apply sat_bind. eexists. split; [apply exec_sat, T|].
    apply sat_bind. exists r3. split; [exact C1|]. apply sat_bind. exists r4. split; [exact D1|].
    apply exec_sat. exact (proj1 (select_spec _ r3 r4)).
Qed.

Theorem expr_outcomes e r : pow2_size E M mod b = 0 -> leaves E M e -> bounded_run E M e ->
  sat b (compile E M e) r -> exists f, represents r f /\ may E M e f.
Proof.
  intros Hd. revert r.
  induction e; intros r HL HS H; cbn [leaves bounded_run] in HL, HS; cbn [compile] in H;
    cbn [may].
  - destruct (new_pows (E:=E) (M:=M) (b:=b)) as [Hp _].
    apply newfloat_sound in H; [|lia]. destruct H as [_ ->].
    exists (of_bits E M v). split; [exact (newconst_spec v HL)|reflexivity].
  - apply sat_ret in H. subst r. exists (of_bits E M v).
    split; [exact (newconst_spec v HL)|reflexivity].
  - apply sat_bind in H. destruct H as [x [H1 H2]]. apply sat_ret in H2. subst r.
    destruct (IHe x HL HS H1) as (f & Hf & Mf). exists (ieee_neg E M f).
    split; [apply neg_spec, Hf|exists f; auto].
  - apply sat_bind in H. destruct H as [x [H1 H2]]. apply sat_ret in H2. subst r.
    destruct (IHe x HL HS H1) as (f & Hf & Mf). exists (ieee_abs E M f).
    split; [apply abs_spec, Hf|exists f; auto].
  - destruct HL as [L1 L2]. destruct HS as (S1 & S2 & S3).
    apply sat_bind in H. destruct H as [x [H1 H]]. apply sat_bind in H. destruct H as [y [H2 H]].
    destruct (IHe1 x L1 S1 H1) as (f & Hf & Mf). destruct (IHe2 y L2 S2 H2) as (g & Hg & Mg).
    destruct (add_bounded x y f g r Hd Hf Hg (S3 f g Mf Mg) H) as (k & K1 & K2).
    exists k. split; [exact K1|]. exists f, g. auto.
  - destruct HL as [L1 L2]. destruct HS as (S1 & S2 & S3).
    apply sat_bind in H. destruct H as [x [H1 H]]. apply sat_bind in H. destruct H as [y [H2 H]].
    destruct (IHe1 x L1 S1 H1) as (f & Hf & Mf). destruct (IHe2 y L2 S2 H2) as (g & Hg & Mg).
    destruct (sub_bounded x y f g r Hd Hf Hg (S3 f g Mf Mg) H) as (k & K1 & K2).
    exists k. split; [exact K1|]. exists f, g. auto.
  - destruct HL as [L1 L2]. destruct HS as (S1 & S2 & S3).
    apply sat_bind in H. destruct H as [x [H1 H]]. apply sat_bind in H. destruct H as [y [H2 H]].
    destruct (IHe1 x L1 S1 H1) as (f & Hf & Mf). destruct (IHe2 y L2 S2 H2) as (g & Hg & Mg).
    exists (ieee_mul E M f g). split; [exact (mul_safe x y f g r Hd Hf Hg (S3 f g Mf Mg) H)|].
    exists f, g. auto.
  - destruct HL as [L1 L2]. destruct HS as (S1 & S2 & S3).
    apply sat_bind in H. destruct H as [x [H1 H]]. apply sat_bind in H. destruct H as [y [H2 H]].
    destruct (IHe1 x L1 S1 H1) as (f & Hf & Mf). destruct (IHe2 y L2 S2 H2) as (g & Hg & Mg).
    exists (ieee_div E M f g). split; [exact (div_safe x y f g r Hd Hf Hg (S3 f g Mf Mg) H)|].
    exists f, g. auto.
  - apply sat_bind in H. destruct H as [x [H1 H]]. destruct (IHe x HL HS H1) as (f & Hf & Mf).
    exists (ieee_sqrt E M f). split; [exact (sqrt_sound x f r Hd Hf H)|]. exists f. auto.
  - apply sat_bind in H. destruct H as [x [H1 H]]. destruct (IHe x HL HS H1) as (f & Hf & Mf).
    destruct (trunc_sound x f r Hd Hf H) as [K|[Hi K]]; eexists; (split; [exact K|]); exists f;
      (split; [exact Mf|]); [left; reflexivity|right; split; [exact Hi|reflexivity]].
  - apply sat_bind in H. destruct H as [x [H1 H]]. destruct (IHe x HL HS H1) as (f & Hf & Mf).
    destruct (floor_sound x f r Hd Hf H) as [K|[Hi K]]; eexists; (split; [exact K|]); exists f;
      (split; [exact Mf|]); [left; reflexivity|right; split; [exact Hi|reflexivity]].
  - apply sat_bind in H. destruct H as [x [H1 H]]. destruct (IHe x HL HS H1) as (f & Hf & Mf).
    destruct (ceil_sound x f r Hd Hf H) as [K|[Hi K]]; eexists; (split; [exact K|]); exists f;
      (split; [exact Mf|]); [left; reflexivity|right; split; [exact Hi|reflexivity]].
  - destruct HL as (L1 & L2 & L3 & L4). destruct HS as (S1 & S2 & S3 & S4).
    apply sat_bind in H. destruct H as [x1 [H1 H]]. apply sat_bind in H. destruct H as [x2 [H2 H]].
    apply sat_bind in H. destruct H as [t [HT H]].
    apply sat_bind in H. destruct H as [x3 [H3 H]]. apply sat_bind in H. destruct H as [x4 [H4 H]].
    destruct (IHe1 x1 L1 S1 H1) as (f1 & A1 & A2). destruct (IHe2 x2 L2 S2 H2) as (f2 & B1 & B2).
    destruct (IHe3 x3 L3 S3 H3) as (f3 & C1 & C2). destruct (IHe4 x4 L4 S4 H4) as (f4 & D1 & D2).
    destruct (compare_circ_spec c x1 x2 f1 f2 A1 B1) as [_ T].
    apply T in HT. subst t. apply (proj2 (select_spec _ x3 x4)) in H. subst r.
    exists (if ieee_compare E M c f1 f2 then f3 else f4).
    split; [destruct (ieee_compare E M c f1 f2); assumption|].
    exists f1, f2, f3, f4. auto 6.
Qed.

End ExprFacts.
