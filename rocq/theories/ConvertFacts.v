(** Facts about Convert.v. *)
From Coq Require Import ZArith Reals Lra Lia Bool Ascii String List.
From Flocq Require Import Core BinarySingleNaN.
From Verif Require Import Spec MathSpec RoundFacts RepFacts ErrorFacts ValueFacts CompFacts SinError SinAccuracy Text TextFacts RegexFacts
  TextParse Convert.
Import ListNotations.
Local Open Scope Z_scope.

(** ** Specification: the number a decimal text stands for *)
Inductive decimal : string -> R -> Prop :=
| decimal_point (s : bool) i f I F : i <> ""%string -> f <> ""%string -> dec_numeral i I -> dec_numeral f F ->
    decimal ((if s then "-" else "") ++ i ++ "." ++ f)%string
      (sgn s * (IZR I + IZR F / IZR (10 ^ len f)))%R.

Lemma digits_point i : forall i' f f', all is_digit i = true -> all is_digit i' = true ->
  (i ++ "." ++ f)%string = (i' ++ "." ++ f')%string -> i = i' /\ f = f'.
Proof.
  induction i as [|c i IH]; intros [|c' i'] f f' H H' E; cbn [append all] in *.
  - injection E as ->. auto.
  - injection E as <- _. discriminate H'.
  - injection E as -> _. discriminate H.
  - apply andb_prop in H, H'. injection E as -> E.
    destruct (IH i' f f' (proj2 H) (proj2 H') E) as [-> ->]. auto.
Qed.

Lemma decimal_fun s v w : decimal s v -> decimal s w -> v = w.
Proof.
  intros H. destruct H as [b i f I F Ni Nf Hi Hf]. remember (_ ++ _)%string as t eqn:Et. intros H.
  destruct H as [b' i' f' I' F' Ni' Nf' Hi' Hf'].
  pose proof (dec_run _ _ Hi) as Ri. pose proof (dec_run _ _ Hi') as Ri'.
  assert (X : b' = b /\ (i' ++ "." ++ f')%string = (i ++ "." ++ f)%string).
  { destruct b, b'; cbn [append] in Et.
    - injection Et as Et. auto.
    - exfalso. destruct i' as [|c i']; [contradiction|]. cbn [append] in Et. injection Et as -> _. discriminate Ri'.
    - exfalso. destruct i as [|c i]; [contradiction|]. cbn [append] in Et. injection Et as <- _. discriminate Ri.
    - auto. }
  destruct X as [-> X]. destruct (digits_point _ _ _ _ Ri' Ri X) as [-> ->].
  apply dec_numeral_iff in Hi, Hf, Hi', Hf'.
  rewrite (num_fun _ _ _ _ Hi Hi'), (num_fun _ _ _ _ Hf Hf'). reflexivity.
Qed.

(** ** The text *)
Lemma pad_num k : forall v acc a, 0 <= v < 10 ^ Z.of_nat k -> numeral (digit_of 10) 10 acc a ->
  numeral (digit_of 10) 10 (pad k v acc) (v * 10 ^ len acc + a) /\ len (pad k v acc) = len acc + Z.of_nat k.
Proof.
  induction k as [|k IH]; intros v acc a Hv Ha; cbn [pad].
  - change (10 ^ Z.of_nat 0) with 1 in Hv. replace v with 0 by lia. split; [exact Ha|lia].
  - rewrite Nat2Z.inj_succ, Z.pow_succ_r in Hv by lia.
    pose proof (Z.mod_pos_bound v 10 ltac:(lia)) as Hm. pose proof (Z.div_mod v 10 ltac:(lia)) as Hd.
    assert (H1 : numeral (digit_of 10) 10 (String (digit (v mod 10)) acc) (v mod 10 * 10 ^ len acc + a)).
    { constructor; [|exact Ha]. apply digit_ok; lia. }
    destruct (IH (v / 10) _ _ ltac:(lia) H1) as [I1 I2]. rewrite len_cons in I1, I2.
    split; [|rewrite I2; lia].
    replace (v * 10 ^ len acc + a) with (v / 10 * 10 ^ (len acc + 1) + (v mod 10 * 10 ^ len acc + a)); [exact I1|].
    rewrite Z.pow_add_r by (pose proof (len_nonneg acc); lia). rewrite Hd at 3. ring.
Qed.

Lemma format_some k v acc : format 10 (S k) v acc <> ""%string.
Proof.
  revert v acc. induction k as [|k IH]; intros v acc.
  - cbn [format]. destruct (v <? 10); discriminate.
  - remember (S k) as k' eqn:Ek. cbn [format]. subst k'. destruct (v <? 10); [discriminate|]. apply IH.
Qed.

Lemma fixed_decimal s n : 0 <= n < 10 ^ 339 -> decimal (fixed 30 s n) (sgn s * (IZR n / IZR (10 ^ 30))).
Proof.
  intros Hn. unfold fixed. change (Z.of_nat 30) with 30.
  pose proof (Z.mod_pos_bound n (10 ^ 30) ltac:(lia)) as Hm. pose proof (Z.div_mod n (10 ^ 30) ltac:(lia)) as Hd.
  assert (Hq : 0 <= n / 10 ^ 30 < 10 ^ Z.of_nat 310).
  { split; [apply Z.div_pos; lia|]. apply Z.div_lt_upper_bound; [lia|].
    change (10 ^ 30 * 10 ^ Z.of_nat 310) with (10 ^ 339 * 10). lia. }
  pose proof (format_num 10 ltac:(lia) 310 _ "" 0 Hq (num_nil _ _) ltac:(discriminate)) as H1.
  destruct (pad_num 30 _ "" 0 Hm (num_nil _ _)) as [H2 H3].
  change (len "") with 0 in *. rewrite Z.pow_0_r, Z.mul_1_r, Z.add_0_r in H1, H2.
  replace (IZR n / IZR (10 ^ 30))%R with
    (IZR (n / 10 ^ 30) + IZR (n mod 10 ^ 30) / IZR (10 ^ len (pad 30 (n mod 10 ^ 30) "")))%R.
  - constructor; [| |apply dec_numeral_iff; assumption..].
    + apply format_some.
    + intros X. rewrite X in H3. discriminate H3.
  - rewrite H3. change (0 + Z.of_nat 30) with 30.
    assert (P : (0 < IZR (10 ^ 30))%R) by (apply IZR_lt; lia).
    rewrite Hd at 3. rewrite plus_IZR, mult_IZR. field. lra.
Qed.

(** Ties go to the even integer. *)
Lemma half_even_nearest n d : 0 < d -> half_even n d = ZnearestE (IZR n / IZR d).
Proof.
  intros Hd. pose proof (Z.mod_pos_bound n d Hd) as Hm. pose proof (Z.div_mod n d ltac:(lia)) as E.
  assert (P : (0 < IZR d)%R) by (apply IZR_lt; lia).
  assert (Fl : Zfloor (IZR n / IZR d) = n / d) by (apply Zfloor_div; lia).
  unfold Znearest. rewrite Fl.
  replace (IZR n / IZR d - IZR (n / d))%R with (IZR (n mod d) / IZR d)%R
    by (apply (f_equal IZR) in E; rewrite plus_IZR, mult_IZR in E; rewrite E; field; lra).
  assert (Cl : 0 < n mod d -> Zceil (IZR n / IZR d) = n / d + 1).
  { intros H0. rewrite <- Fl. apply Zceil_floor_neq. rewrite Fl. intros X.
    apply (f_equal IZR) in E. rewrite plus_IZR, mult_IZR, X in E. apply IZR_lt in H0.
    assert (IZR d * (IZR n / IZR d) = IZR n)%R by (field; lra). lra. }
  assert (Cmp : Rcompare (IZR (n mod d) / IZR d) (/ 2) = Z.compare (2 * (n mod d)) d).
  { rewrite <- (Rcompare_mult_r (2 * IZR d)) by lra.
    replace (IZR (n mod d) / IZR d * (2 * IZR d))%R with (IZR (2 * (n mod d))) by (rewrite mult_IZR; field; lra).
    replace (/ 2 * (2 * IZR d))%R with (IZR d) by field. apply Rcompare_IZR. }
  rewrite Cmp. unfold half_even.
  destruct (Z.compare_spec (2 * (n mod d)) d) as [H|H|H].
  - rewrite (proj2 (Z.ltb_ge _ _)), (proj2 (Z.ltb_ge _ _)), Cl by lia. rewrite Zmod_even.
    destruct (Z.even (n / d)); cbn [negb]; lia.
  - rewrite (proj2 (Z.ltb_lt _ _)) by lia. reflexivity.
  - rewrite (proj2 (Z.ltb_ge _ _)), (proj2 (Z.ltb_lt _ _)), Cl by lia. reflexivity.
Qed.

Lemma half_even_range n d : 0 < d -> 0 <= n -> 0 <= half_even n d <= n + 1.
Proof.
  intros Hd Hn. pose proof (Z.div_pos n d Hn Hd). pose proof (Z.mod_pos_bound (n / d) 2 ltac:(lia)).
  assert (n / d <= n) by (apply Z.div_le_upper_bound; nia).
  unfold half_even. destruct (Z.ltb_spec (2 * (n mod d)) d); [lia|]. destruct (Z.ltb_spec d (2 * (n mod d))); lia.
Qed.

Lemma nearest_IZR n : ZnearestE (IZR n) = n.
Proof. apply Znearest_imp. rewrite Rminus_diag_eq, Rabs_R0 by reflexivity. lra. Qed.

(** The text is the exact value, rounded to thirty decimals. *)
Theorem text_exact x : is_finite x = true ->
  decimal (Sprintf30f x) (sgn (Bsign x) * (IZR (ZnearestE (Rabs (B2R x) * IZR (10 ^ 30))) / IZR (10 ^ 30))).
Proof.
  destruct x as [s|s| |s m e H]; intros Fx; try discriminate Fx; cbn [Sprintf30f B2R Bsign].
  - rewrite Rabs_R0, Rmult_0_l. change 0%R with (IZR 0) at 1. rewrite nearest_IZR. apply fixed_decimal. lia.
  - assert (Be : e <= 971 /\ Z.pos m < 2 ^ 53).
    { pose proof H as Hb. unfold SpecFloat.bounded in Hb. apply andb_prop in Hb. destruct Hb as [H1 H2].
      apply Z.leb_le in H2. change (prec 52) with 53 in *. change (emax 11) with 1024 in *. split; [lia|].
      unfold SpecFloat.canonical_mantissa, SpecFloat.fexp in H1. apply Zeq_bool_eq in H1.
      rewrite Digits.Zpos_digits2_pos in H1.
      apply (Digits.Zpower_gt_Zdigits radix2 53 (Z.pos m)). lia. }
    destruct Be as [Be Bm]. pose proof (bpow_gt_0 radix2 e) as Pe.
    assert (A : Rabs (F2R (Float radix2 (cond_Zopp s (Z.pos m)) e)) = (IZR (Z.pos m) * bpow radix2 e)%R).
    { unfold F2R. cbn [Fnum Fexp]. rewrite sgn_IZR, Rmult_assoc, sgn_abs. apply Rabs_pos_eq.
      apply Rmult_le_pos; [apply IZR_le; lia|lra]. }
    rewrite A. destruct (Z.leb_spec 0 e) as [He|He].
    + assert (V : (IZR (Z.pos m) * bpow radix2 e * IZR (10 ^ 30) = IZR (Z.pos m * 2 ^ e * 10 ^ 30))%R).
      { rewrite !mult_IZR. do 2 f_equal. symmetry. apply (IZR_Zpower radix2). lia. }
      rewrite V, nearest_IZR. apply fixed_decimal. assert (2 ^ e <= 2 ^ 971) by (apply Z.pow_le_mono_r; lia).
      assert (0 < 2 ^ e) by (apply Z.pow_pos_nonneg; lia).
      assert (2 ^ 53 * 2 ^ 971 * 10 ^ 30 < 10 ^ 339) by reflexivity. split; [nia|].
      assert (Z.pos m * 2 ^ e <= 2 ^ 53 * 2 ^ 971) by nia. nia.
    + assert (D : 0 < 2 ^ (- e)) by (apply Z.pow_pos_nonneg; lia).
      assert (V : (IZR (Z.pos m) * bpow radix2 e * IZR (10 ^ 30) = IZR (Z.pos m * 10 ^ 30) / IZR (2 ^ (- e)))%R).
      { assert (B : IZR (2 ^ (- e)) = (/ bpow radix2 e)%R).
        { rewrite <- bpow_opp. apply (IZR_Zpower radix2). lia. }
        rewrite B, mult_IZR. field. lra. }
      rewrite V, <- half_even_nearest by exact D. apply fixed_decimal.
      pose proof (half_even_range (Z.pos m * 10 ^ 30) _ D ltac:(lia)).
      assert (2 ^ 53 * 10 ^ 30 + 1 < 10 ^ 339) by reflexivity. lia.
Qed.

Theorem text_near x : is_finite x = true ->
  exists v, decimal (Sprintf30f x) v /\ (Rabs (v - B2R x) <= / 2 / IZR (10 ^ 30))%R.
Proof.
  intros Fx. eexists. split; [apply text_exact, Fx|].
  assert (P : (0 < IZR (10 ^ 30))%R) by (apply IZR_lt; lia).
  assert (S : B2R x = (sgn (Bsign x) * Rabs (B2R x))%R).
  { destruct x as [s|s| |s m e H]; try discriminate Fx; cbn [B2R Bsign]; [rewrite Rabs_R0; ring|].
    unfold F2R. cbn [Fnum Fexp]. rewrite sgn_IZR, Rmult_assoc, sgn_abs, Rabs_pos_eq; [reflexivity|].
    apply Rmult_le_pos; [apply IZR_le; lia|apply bpow_ge_0]. }
  rewrite S at 2. clear S. set (a := Rabs (B2R x)). set (t := (a * IZR (10 ^ 30))%R).
  pose proof (Znearest_half (fun x => negb (Z.even x)) t) as Hn. rewrite Rabs_minus_sym in Hn.
  set (k := IZR (ZnearestE t)) in *.
  replace (sgn (Bsign x) * (k / IZR (10 ^ 30)) - sgn (Bsign x) * a)%R with (sgn (Bsign x) * ((k - t) * / IZR (10 ^ 30)))%R
    by (unfold t; field; lra).
  rewrite sgn_abs, Rabs_mult, (Rabs_pos_eq (/ _)) by (apply Rlt_le, Rinv_0_lt_compat; exact P).
  unfold Rdiv. apply Rmult_le_compat_r; [apply Rlt_le, Rinv_0_lt_compat; exact P|exact Hn].
Qed.

(** ** Reading it back *)
Lemma read_back (x : float64) v : (bpow radix2 (-46) <= Rabs (B2R x))%R ->
  (Rabs (v - B2R x) < bpow radix2 (-100))%R -> rne 11 52 v = B2R x.
Proof.
  intros Hx Hv. pose proof (B2R_in_format x) as G. unfold in_format in G.
  set (X := B2R x) in *. change (emin 11 52) with (-1074) in G. change (prec 52) with 53 in G.
  assert (X0 : X <> 0%R). { intros E. rewrite E, Rabs_R0 in Hx. pose proof (bpow_gt_0 radix2 (-46)). lra. }
  assert (He' : exists e : Z, e = mag radix2 X /\ (bpow radix2 (e - 1) <= Rabs X < bpow radix2 e)%R).
  { exists (mag radix2 X). split; [reflexivity|]. destruct (mag radix2 X) as [e He]. exact (He X0). }
  destruct He' as (e & Em & He').
  assert (Ee : -45 <= e).
  { destruct (Z_lt_le_dec e (-45)) as [L|L]; [exfalso|lia].
    assert (bpow radix2 e <= bpow radix2 (-46))%R by (apply bpow_le; lia). lra. }
  set (k := Ztrunc (scaled_mantissa radix2 (FLT_exp (-1074) 53) X)).
  assert (Ck : cexp radix2 (FLT_exp (-1074) 53) X = e - 53).
  { unfold cexp, FLT_exp. rewrite <- Em. lia. }
  assert (Xk : X = (IZR k * bpow radix2 (e - 53))%R).
  { rewrite G at 1. unfold F2R. cbn [Fnum Fexp]. rewrite Ck. reflexivity. }
  pose proof (bpow_gt_0 radix2 (e - 53)) as Pe.
  assert (Hk : Z.abs k <= 2 ^ 53 - 1).
  { destruct He' as [_ L]. rewrite Xk, Rabs_mult, (Rabs_pos_eq (bpow _ _)) in L by lra.
    replace e with (53 + (e - 53)) in L at 2 by lia. rewrite bpow_plus in L.
    apply Rmult_lt_reg_r in L; [|exact Pe]. rewrite <- abs_IZR in L.
    change (bpow radix2 53) with (IZR (2 ^ 53)) in L. apply lt_IZR in L. lia. }
  assert (Up : (Rabs X <= bpow radix2 e - bpow radix2 (e - 53))%R).
  { rewrite Xk, Rabs_mult, (Rabs_pos_eq (bpow _ _)), <- abs_IZR by lra. apply IZR_le in Hk.
    replace (bpow radix2 e) with (bpow radix2 53 * bpow radix2 (e - 53))%R
      by (rewrite <- bpow_plus; f_equal; lia).
    rewrite minus_IZR in Hk. change (IZR (2 ^ 53)) with (bpow radix2 53) in Hk. nra. }
  assert (S1 : (bpow radix2 (-100) <= bpow radix2 (e - 53))%R) by (apply bpow_le; lia).
  assert (S2 : (bpow radix2 (-100) <= bpow radix2 (e - 2))%R) by (apply bpow_le; lia).
  pose proof (Rabs_triang_inv X v) as T1. pose proof (Rabs_triang_inv v X) as T2.
  rewrite Rabs_minus_sym in T1.
  assert (L1 : (bpow radix2 (e - 2) <= Rabs v)%R).
  { replace (bpow radix2 (e - 1)) with (2 * bpow radix2 (e - 2))%R in He'.
    - lra.
    - replace (e - 1) with (1 + (e - 2)) by lia. rewrite bpow_plus. reflexivity. }
  assert (L2 : (Rabs v < bpow radix2 e)%R) by lra.
  assert (V0 : v <> 0%R). { intros E. rewrite E, Rabs_R0 in L1. pose proof (bpow_gt_0 radix2 (e - 2)). lra. }
  assert (M1 : e - 1 <= mag radix2 v) by (apply mag_ge_bpow; replace (e - 1 - 1) with (e - 2) by lia; exact L1).
  assert (M2 : mag radix2 v <= e) by (apply mag_le_bpow; [exact V0|exact L2]).
  unfold rne, Generic_fmt.round. change (FLT_exp (emin 11 52) (prec 52)) with (FLT_exp (-1074) 53).
  set (c := cexp radix2 (FLT_exp (-1074) 53) v).
  assert (Cv : c = mag radix2 v - 53) by (unfold c, cexp, FLT_exp; lia).
  assert (R1 : ZnearestE (scaled_mantissa radix2 (FLT_exp (-1074) 53) v) = k * 2 ^ (e - 53 - c)).
  { apply Znearest_imp. unfold scaled_mantissa. fold c. rewrite mult_IZR.
    replace (IZR (2 ^ (e - 53 - c))) with (bpow radix2 (e - 53 - c)) by (symmetry; apply (IZR_Zpower radix2); lia).
    replace (IZR k * bpow radix2 (e - 53 - c))%R with (X * bpow radix2 (- c))%R
      by (rewrite Xk, Rmult_assoc, <- bpow_plus; do 2 f_equal; lia).
    rewrite <- Rmult_minus_distr_r, Rabs_mult, (Rabs_pos_eq (bpow _ _)) by apply bpow_ge_0.
    apply Rlt_le_trans with (bpow radix2 (-100) * bpow radix2 (- c))%R.
    - apply Rmult_lt_compat_r; [apply bpow_gt_0|exact Hv].
    - rewrite <- bpow_plus. change (/ 2)%R with (bpow radix2 (-1)). apply bpow_le. lia. }
  rewrite R1. unfold F2R. cbn [Fnum Fexp]. rewrite mult_IZR.
  replace (IZR (2 ^ (e - 53 - c))) with (bpow radix2 (e - 53 - c)) by (symmetry; apply (IZR_Zpower radix2); lia).
  rewrite Rmult_assoc, <- bpow_plus, Xk. do 2 f_equal. lia.
Qed.

Lemma half_last : (/ 2 / IZR (10 ^ 30) < bpow radix2 (-100))%R.
Proof.
  replace (bpow radix2 (-100)) with (/ IZR (2 ^ 100))%R by (symmetry; apply (bpow_opp radix2 100)).
  assert (0 < IZR (2 ^ 100))%R by (apply IZR_lt; reflexivity).
  unfold Rdiv. rewrite <- Rinv_mult. apply Rinv_lt_contravar.
  - apply Rmult_lt_0_compat; [assumption|]. apply Rmult_lt_0_compat; [lra|apply IZR_lt; reflexivity].
  - rewrite <- mult_IZR. apply IZR_lt. reflexivity.
Qed.

Theorem text_read x v : is_finite x = true -> B2R x = 0%R \/ (bpow radix2 (-46) <= Rabs (B2R x))%R ->
  decimal (Sprintf30f x) v -> rne 11 52 v = B2R x.
Proof.
  intros Fx [X0|Hx] Hv.
  - destruct x as [s|s| |s m e H]; try discriminate Fx.
    + rewrite (decimal_fun _ _ _ Hv (fixed_decimal s 0 ltac:(lia))). cbn [B2R].
      replace (sgn s * (0 / IZR (10 ^ 30)))%R with 0%R by (unfold Rdiv; ring). apply round_0. apply valid_rnd_N.
    + exfalso. cbn [B2R] in X0. apply eq_0_F2R in X0. destruct s; discriminate X0.
  - destruct (text_near x Fx) as (w & Hw & Ew). rewrite (decimal_fun _ _ _ Hv Hw). apply read_back; [exact Hx|].
    pose proof half_last. lra.
Qed.

(** ** Degrees *)
Lemma degrees_value : is_finite degrees_per_radian = true /\
  B2R degrees_per_radian = (8063664102031864 / 140737488355328)%R.
Proof.
  assert (H : B2SF degrees_per_radian = SpecFloat.S754_finite false 8063664102031864 (- (47))) by (vm_compute; reflexivity).
  destruct (B2R_of_SF _ _ _ _ H) as (-> & F & _). split; [exact F|]. unfold F2R. cbn. lra.
Qed.

Lemma degrees_close : (Rabs (B2R degrees_per_radian * (PI / 180) - 1) <= 35 / 1000000000000000000)%R.
Proof. rewrite (proj2 degrees_value). pose proof pi_bounds. apply Rabs_le. lra. Qed.

Notation eta := (half_min 11 52).
Lemma u64 : unit_ro 52 = (/ 9007199254740992)%R.
Proof. reflexivity. Qed.
Lemma eta_small : (eta <= 1 / 1000000000000000000000000000000)%R.
Proof.
  unfold half_min. apply Rle_trans with (bpow radix2 (-100)).
  - apply bpow_le. vm_compute. congruence.
  - replace (bpow radix2 (-100)) with (/ IZR (2 ^ 100))%R by (symmetry; apply (bpow_opp radix2 100)).
    unfold Rdiv. rewrite Rmult_1_l. apply Rinv_le; [lra|]. apply IZR_le. vm_compute. congruence.
Qed.

Theorem degrees_error (x : float64) : is_finite x = true -> (Rabs (B2R x) <= bpow radix2 1000)%R ->
  is_finite (RadiansToDegrees x) = true /\
  (Rabs (B2R (RadiansToDegrees x) - B2R x * (180 / PI)) <= 15 / 100000000000000000 * Rabs (B2R x * (180 / PI)) + eta)%R.
Proof.
  intros Fx Bx. destruct degrees_value as [Fd Vd].
  assert (Pd : (0 < B2R degrees_per_radian <= bpow radix2 6)%R).
  { rewrite Vd. change (bpow radix2 6) with 64%R. lra. }
  assert (Ft : fits (E:=11) (rne 11 52 (B2R x * B2R degrees_per_radian))).
  { unfold fits. eapply Rle_lt_trans; [apply (rne_bound (E:=11) (M:=52) _ 1006)|apply bpow_lt; reflexivity].
    - rewrite Rabs_mult, (Rabs_pos_eq (B2R degrees_per_radian)) by lra.
      change 1006 with (1000 + 6). rewrite bpow_plus. apply Rmult_le_compat; [apply Rabs_pos|lra|exact Bx|lra].
    - vm_compute. congruence. }
  destruct (mul_fin (E:=11) (M:=52) x degrees_per_radian Fx Fd Ft) as [F V]. split; [exact F|]. unfold RadiansToDegrees. rewrite V.
  destruct (rne_err (E:=11) (M:=52) (B2R x * B2R degrees_per_radian)) as (d & e & Hd & He & ->).
  pose proof degrees_close as Hc. pose proof PI_RGT_0 as HP. rewrite u64 in Hd.
  set (C := B2R degrees_per_radian) in *. set (v := (B2R x * (180 / PI))%R).
  set (g := (C * (PI / 180) - 1)%R) in *.
  assert (Hx : (B2R x * C = v * (1 + g))%R) by (unfold v, g; field; lra).
  rewrite Hx. replace (v * (1 + g) * (1 + d) + e - v)%R with (v * (g + d + g * d) + e)%R by ring.
  eapply Rle_trans; [apply Rabs_triang|]. apply Rplus_le_compat; [|exact He].
  rewrite Rabs_mult, Rmult_comm. apply Rmult_le_compat_r; [apply Rabs_pos|].
  apply Rabs_le_inv in Hc. apply Rabs_le_inv in Hd. apply Rabs_le. clear - Hc Hd.
  assert (- (1 / 10000000000000000000000) <= g * d <= 1 / 10000000000000000000000)%R by nra.
  lra.
Qed.

(** ** Scaled integers *)
Lemma scale_value : B2R ScaleFactor = 1000000000%R.
Proof.
  assert (H : B2SF ScaleFactor = SpecFloat.S754_finite false 8388608000000000 (- (23))) by (vm_compute; reflexivity).
  destruct (B2R_of_SF _ _ _ _ H) as (-> & _). unfold F2R. cbn. lra.
Qed.

Lemma rne_fits v : (Rabs v <= bpow radix2 1000)%R -> fits (E:=11) (rne 11 52 v).
Proof.
  intros H. unfold fits. eapply Rle_lt_trans; [apply (rne_bound (E:=11) (M:=52) _ 1000 H)|apply bpow_lt; reflexivity].
  vm_compute. congruence.
Qed.

Lemma of_int_value n : Z.abs n <= 2 ^ 63 ->
  is_finite (float64_of_int n) = true /\ B2R (float64_of_int n) = rne 11 52 (IZR n).
Proof.
  intros Hn.
  pose proof (binary_normalize_correct _ _ (fmt_prec_gt_0 11 52) (fmt_prec_lt_emax 11 52) mode_NE n 0 false) as C.
  assert (Hv : F2R (Float radix2 n 0) = IZR n) by (unfold F2R; cbn; ring).
  cbv zeta in C. rewrite Hv, Rlt_bool_true in C.
  - destruct C as (C1 & C2 & _). split; assumption.
  - apply rne_fits. rewrite <- abs_IZR. apply Rle_trans with (bpow radix2 63); [|apply bpow_le; lia].
    change (bpow radix2 63) with (IZR (2 ^ 63)). apply IZR_le, Hn.
Qed.

Lemma of_int_exact n : Z.abs n <= 2 ^ 53 -> B2R (float64_of_int n) = IZR n.
Proof.
  intros Hn. rewrite (proj2 (of_int_value n ltac:(lia))). apply round_generic; [apply valid_rnd_N|].
  apply (generic_format_FLT radix2 (emin 11 52) (prec 52)).
  destruct (Z_lt_le_dec (Z.abs n) (2 ^ 53)) as [H|H].
  - exists (Float radix2 n 0); [unfold F2R; cbn; ring|exact H|vm_compute; congruence].
  - assert (N : n = 2 ^ 53 \/ n = - 2 ^ 53) by lia. destruct N as [-> | ->].
    + exists (Float radix2 1 53); [unfold F2R; cbn; lra|reflexivity|vm_compute; congruence].
    + exists (Float radix2 (-1) 53); [unfold F2R; cbn; lra|reflexivity|vm_compute; congruence].
Qed.

Lemma scaled_div n : Z.abs n <= 2 ^ 63 -> is_finite (ScaledIntToFloat64 n) = true /\
  B2R (ScaledIntToFloat64 n) = rne 11 52 (rne 11 52 (IZR n) / 1000000000).
Proof.
  intros Hn. destruct (of_int_value n Hn) as [F V].
  pose proof (div_fin (E:=11) (M:=52) (float64_of_int n) ScaleFactor F) as D. rewrite scale_value, V in D.
  apply D; [lra|]. apply rne_fits.
  assert (B : (Rabs (rne 11 52 (IZR n)) <= bpow radix2 63)%R).
  { apply (rne_bound (E:=11) (M:=52)); [|vm_compute; congruence]. rewrite <- abs_IZR.
    change (bpow radix2 63) with (IZR (2 ^ 63)). apply IZR_le, Hn. }
  unfold Rdiv. rewrite Rabs_mult, (Rabs_pos_eq (/ _)) by lra.
  assert (bpow radix2 63 <= bpow radix2 1000)%R by (apply bpow_le; lia). pose proof (Rabs_pos (rne 11 52 (IZR n))). lra.
Qed.

Theorem scaled_exact n : Z.abs n <= 2 ^ 53 -> is_finite (ScaledIntToFloat64 n) = true /\
  B2R (ScaledIntToFloat64 n) = rne 11 52 (IZR n / 1000000000).
Proof.
  intros Hn. destruct (scaled_div n ltac:(lia)) as [F V]. split; [exact F|]. rewrite V.
  rewrite <- (proj2 (of_int_value n ltac:(lia))), of_int_exact by exact Hn. reflexivity.
Qed.

Theorem scaled_error n : Z.abs n <= 2 ^ 63 -> is_finite (ScaledIntToFloat64 n) = true /\
  (Rabs (B2R (ScaledIntToFloat64 n) - IZR n / 1000000000) <=
   23 / 100000000000000000 * Rabs (IZR n / 1000000000) + 2 / 1000000000000000000000000000000)%R.
Proof.
  intros Hn. destruct (scaled_div n Hn) as [F V]. split; [exact F|]. rewrite V. pose proof eta_small as He0.
  destruct (rne_err (E:=11) (M:=52) (IZR n)) as (d & e & Hd & He & ->).
  match goal with |- context [rne 11 52 ?w] => destruct (rne_err (E:=11) (M:=52) w) as (d' & e' & Hd' & He' & ->) end.
  rewrite u64 in *. set (v := (IZR n / 1000000000)%R).
  replace ((IZR n * (1 + d) + e) / 1000000000 * (1 + d') + e' - v)%R
    with (v * (d + d' + d * d') + (e / 1000000000 * (1 + d') + e'))%R by (unfold v; field).
  eapply Rle_trans; [apply Rabs_triang|]. apply Rabs_le_inv in Hd, Hd', He, He'. apply Rplus_le_compat.
  - rewrite Rabs_mult, Rmult_comm. apply Rmult_le_compat_r; [apply Rabs_pos|]. apply Rabs_le. clear - Hd Hd'. nra.
  - apply Rabs_le. clear - He He' He0 Hd'. set (h := eta) in *.
    assert (- (1 / 2 * h) <= e / 1000000000 * (1 + d') <= 1 / 2 * h)%R by nra. lra.
Qed.

(** The scaled integer can be read off. *)
Theorem scaled_back n : Z.abs n < 2 ^ 52 -> ZnearestE (B2R (ScaledIntToFloat64 n) * 1000000000) = n.
Proof.
  intros Hn. destruct (scaled_exact n ltac:(lia)) as [_ ->]. apply Znearest_imp. pose proof eta_small as He0.
  destruct (rne_err (E:=11) (M:=52) (IZR n / 1000000000)) as (d & e & Hd & He & ->). rewrite u64 in Hd.
  replace ((IZR n / 1000000000 * (1 + d) + e) * 1000000000 - IZR n)%R with (IZR n * d + e * 1000000000)%R by field.
  assert (N : (Rabs (IZR n) <= 4503599627370495)%R) by (rewrite <- abs_IZR; apply IZR_le; lia).
  eapply Rle_lt_trans; [apply Rabs_triang|]. rewrite !Rabs_mult, (Rabs_pos_eq 1000000000) by lra.
  pose proof (Rabs_pos d). pose proof (Rabs_pos (IZR n)).
  assert (Rabs (IZR n) * Rabs d <= 4503599627370495 * / 9007199254740992)%R by (apply Rmult_le_compat; lra).
  lra.
Qed.
