(** The constants of the repository meet the conditions of the theorems. *)
From Coq Require Import ZArith Reals Lra Lia Bool List.
From Flocq Require Import Core BinarySingleNaN.
From Verif Require Import Field FloatModel RoundFacts Spec RepFacts MathSpec Math Witness Loc2Index LocConst ScaleFacts
  ClosestFacts.
Import ListNotations.
Local Open Scope Z_scope.

(** ** Powers of the square root of 7 *)

Definition powers_ok (E M : Z) {HF : Format E M} (powers : list Z) : bool :=
  (length powers =? 4)%nat &&
  forallb (fun p => (0 <=? p) && (p <? 2 ^ (E + M + 1)) && is_finite (of_bits E M p)
                    && negb (Bsign (of_bits E M p))) powers &&
  forallb (fun i => products_finite (map (fun k => Z.testbit (Z.of_nat i) (Z.of_nat k)) (seq 0 4))
    (map (of_bits E M) powers) (of_bits E M (int_bits E M 1))) (seq 0 16).

Lemma powers_ok_good (E M : Z) {HF : Format E M} powers :
  powers_ok E M powers = true -> good_powers (E:=E) (M:=M) powers.
Proof.
  intros H. unfold powers_ok in H. apply andb_prop in H. destruct H as [H H3].
  apply andb_prop in H. destruct H as [H1 H2]. split; [apply Nat.eqb_eq, H1|]. split.
  - rewrite forallb_forall in H2. apply Forall_forall. intros p Hp. specialize (H2 p Hp).
    repeat (apply andb_prop in H2; destruct H2 as [H2 ?]). unfold positive.
    destruct (Bsign (of_bits E M p)); [discriminate|]. repeat split; try lia; assumption.
  - intros res Hres. rewrite forallb_forall in H3.
    specialize (H3 (Z.to_nat res) ltac:(apply in_seq; lia)). rewrite Z2Nat.id in H3 by lia. exact H3.
Qed.

Lemma good_powers_32 : good_powers (E:=8) (M:=23) (k_powers constants32).
Proof. apply powers_ok_good. vm_compute. reflexivity. Qed.
Lemma good_powers_64 : good_powers (E:=11) (M:=52) (k_powers constants64).
Proof. apply powers_ok_good. vm_compute. reflexivity. Qed.

(** Closeness of a float to the square root of [n], decided on integers. *)
Definition near_sqrtb {E M : Z} (f : fmt E M) (n k : Z) : bool :=
  match f with
  | B754_finite false m e _ =>
      (e <=? 0) && (Z.abs (Zpos m ^ 2 - n * 2 ^ (-2 * e)) * 2 ^ k <=? n * 2 ^ (-2 * e))
  | _ => false
  end.

Lemma near_square (x s ep : R) : (0 <= ep -> 0 <= x -> 0 < s -> Rabs (x * x - s * s) <= ep * (s * s) ->
  Rabs (x - s) <= ep * s)%R.
Proof.
  intros He Hx Hs H. replace (x * x - s * s)%R with ((x - s) * (x + s))%R in H by ring.
  rewrite Rabs_mult, (Rabs_pos_eq (x + s)) in H by lra.
  pose proof (Rabs_pos (x - s)) as Hp.
  assert (Rabs (x - s) * s <= ep * s * s)%R by nra.
  apply (Rmult_le_reg_r s); [exact Hs|exact H0].
Qed.

Lemma near_sqrt {E M : Z} (f : fmt E M) n k : 0 < n -> 0 <= k -> near_sqrtb f n k = true ->
  (Rabs (B2R f - sqrt (IZR n)) <= bpow radix2 (- k) * sqrt (IZR n))%R.
Proof.
  intros Hn Hk H. destruct f as [s|s| |[] m e He]; try discriminate. cbn [near_sqrtb] in H.
  apply andb_prop in H. destruct H as [H1 H2]. apply Z.leb_le in H1, H2.
  assert (Hn' : (0 < IZR n)%R) by (apply IZR_lt; exact Hn).
  apply near_square; [apply bpow_ge_0| |apply sqrt_lt_R0, Hn'|].
  { apply F2R_ge_0. cbn. lia. }
  rewrite sqrt_sqrt by lra. cbn [B2R]. unfold F2R. cbn [cond_Zopp Fnum Fexp].
  apply IZR_le in H2. rewrite !mult_IZR, abs_IZR, minus_IZR, mult_IZR in H2.
  assert (Hm2 : IZR (Z.pos m ^ 2) = (IZR (Z.pos m) * IZR (Z.pos m))%R)
    by (rewrite <- mult_IZR; f_equal; ring).
  rewrite Hm2 in H2.
  rewrite !(IZR_Zpower radix2) in H2 by lia.
  set (B := bpow radix2 (- 2 * e)) in *. set (A := IZR (Z.pos m)) in *.
  assert (HB : (bpow radix2 e * bpow radix2 e * B = 1)%R).
  { unfold B. rewrite <- !bpow_plus. replace (e + e + -2 * e) with 0 by ring. reflexivity. }
  assert (HB0 : (0 < B)%R) by apply bpow_gt_0.
  assert (Hkk : (bpow radix2 (- k) * bpow radix2 k = 1)%R) by (rewrite <- bpow_plus, Z.add_opp_diag_l; reflexivity).
  pose proof (bpow_gt_0 radix2 k) as Hk0. pose proof (bpow_gt_0 radix2 (- k)) as Hk1.
  apply (Rmult_le_reg_r (B * bpow radix2 k)); [nra|].
  replace (bpow radix2 (- k) * IZR n * (B * bpow radix2 k))%R with (IZR n * B * (bpow radix2 (- k) * bpow radix2 k))%R by ring.
  rewrite Hkk, Rmult_1_r. eapply Rle_trans; [|exact H2].
  rewrite <- Rmult_assoc. apply Rmult_le_compat_r; [lra|].
  rewrite <- (Rabs_pos_eq B) at 1 by lra. rewrite <- Rabs_mult. apply Req_le. f_equal.
  replace ((A * bpow radix2 e * (A * bpow radix2 e) - IZR n) * B)%R
    with (A * A * (bpow radix2 e * bpow radix2 e * B) - IZR n * B)%R by ring. rewrite HB. ring.
Qed.

Lemma sqrt7_pow n : sqrt (IZR (7 ^ Z.of_nat n)) = (sqrt 7 ^ n)%R.
Proof.
  rewrite <- pow_IZR. induction n as [|n IH]; [apply sqrt_1|].
  cbn [pow]. rewrite sqrt_mult_alt, IH by (apply IZR_le; lia). reflexivity.
Qed.

Lemma scale_accuracy {E M : Z} {HF : Format E M} powers k : 0 <= k ->
  forallb (fun i => near_sqrtb (ieee_scale (map (of_bits E M) powers) (Z.of_nat i)) (7 ^ Z.of_nat i) k)
    (seq 0 16) = true ->
  forall res, 0 <= res < 16 ->
  (Rabs (B2R (ieee_scale (map (of_bits E M) powers) res) - sqrt 7 ^ Z.to_nat res) <=
   bpow radix2 (- k) * sqrt 7 ^ Z.to_nat res)%R.
Proof.
  intros Hk H res Hres. rewrite forallb_forall in H.
  specialize (H (Z.to_nat res) ltac:(apply in_seq; lia)).
  rewrite <- sqrt7_pow. rewrite <- (Z2Nat.id res) at 1 by lia.
  apply near_sqrt; [|exact Hk|exact H]. apply Z.pow_pos_nonneg; lia.
Qed.

(** Each of the four powers is the square of the previous one, rounded. *)
Fixpoint squaresb (E M : Z) {HF : Format E M} (fs : list (fmt E M)) : bool :=
  match fs with
  | f :: ((g :: _) as fs') => Beqb (ieee_mul E M f f) g && squaresb E M fs'
  | _ => true
  end.

(** ** Faces *)
Definition face_ok (E M : Z) {HF : Format E M} (f : face) : bool :=
  forallb (fun p => (0 <=? p) && (p <? 2 ^ (E + M + 1)))
    [centre_x f; centre_y f; centre_z f; c_sinFaceLat f; c_cosFaceLat f; c_sinFaceLng f; c_cosFaceLng f;
     c_sinAzimuth f; c_cosAzimuth f; c_sinAzimuthRot f; c_cosAzimuthRot f] &&
  forallb (fun p => is_finite (of_bits E M p) && 
    Bltb (Babs (of_bits E M p)) (lit 1 (emax E - 1 - M - 1)))
    [centre_x f; centre_y f; centre_z f].

Lemma face_ok_good (E M : Z) {HF : Format E M} f : emin E M <= emax E - 1 - M - 1 ->
  face_ok E M f = true -> good_face (E:=E) (M:=M) f.
Proof.
  intros He H. unfold face_ok in H. apply andb_prop in H. destruct H as [H1 H2].
  rewrite forallb_forall in H1, H2. split; apply Forall_forall; intros p Hp.
  - specialize (H1 p Hp). lia.
  - specialize (H2 p Hp). apply andb_prop in H2. destruct H2 as [F2 H2]. split; [exact F2|].
    destruct (lit_exact (E:=E) (M:=M) 1 (emax E - 1 - M - 1)) as [L1 L2].
    { destruct (fmt_M (E:=E) (M:=M)) as [HM _]. unfold prec. apply (Z.pow_gt_1 2 (M + 1)); lia. }
    { exact He. }
    { unfold prec. lia. }
    rewrite Bltb_correct in H2; [|rewrite is_finite_Babs; exact F2|exact L2].
    rewrite B2R_Babs, L1 in H2. revert H2. case Rlt_bool_spec; [|discriminate]. intros H _.
    eapply Rlt_le_trans; [exact H|]. rewrite Rmult_1_l. apply bpow_le.
    destruct (fmt_M (E:=E) (M:=M)) as [HM _]. lia.
Qed.

Lemma good_faces_32 : Forall (good_face (E:=8) (M:=23)) faces32.
Proof.
  assert (H : forallb (face_ok 8 23) faces32 = true) by (vm_compute; reflexivity).
  rewrite forallb_forall in H. apply Forall_forall. intros f Hf.
  apply face_ok_good; [vm_compute; discriminate|exact (H f Hf)].
Qed.
Lemma good_faces_64 : Forall (good_face (E:=11) (M:=52)) faces64.
Proof.
  assert (H : forallb (face_ok 11 52) faces64 = true) by (vm_compute; reflexivity).
  rewrite forallb_forall in H. apply Forall_forall. intros f Hf.
  apply face_ok_good; [vm_compute; discriminate|exact (H f Hf)].
Qed.
