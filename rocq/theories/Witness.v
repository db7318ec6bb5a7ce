(** Concrete instances: the BN254 scalar field, the wires of a given IEEE
    datum, and an evaluator for prover-chosen hint values, used to exhibit
    forged witnesses by computation. *)
From Coq Require Import ZArith Reals List Bool Lia.
From Flocq Require Import Core BinarySingleNaN.
From Verif Require Import Field FieldFacts Circuit RangeCheck FloatModel CircuitFacts
  RangeFacts GadgetFacts RoundFacts Spec.
Import ListNotations.
Local Open Scope Z_scope.

Definition bn254 : Modulus := bn254_r.

Lemma params32 b : 2 <= b <= 17 -> @Params bn254 8 23 b.
Proof. intros H. constructor; try exact H; vm_compute; congruence. Qed.
Lemma params64 b : 2 <= b <= 17 -> @Params bn254 11 52 b.
Proof. intros H. constructor; try exact H; vm_compute; congruence. Qed.

Section Forge.
Context {MOD : Modulus}.

(** Running a circuit with some hints replaced: [Some w] in the tape is the
    prover's own value for that hint, [None] (or a tape that has run out) the
    honest value. *)
Fixpoint forge (b : Z) {A} (c : circ A) (tape : list (option Z)) : option A :=
  match c with
  | Ret a => Some a
  | Hint h k =>
      match tape with
      | Some w :: t => if (0 <=? w) && (w <? modulus) then forge b (k w) t else None
      | None :: t => match h with Some w => forge b (k (emb w)) t | None => None end
      | [] => match h with Some w => forge b (k (emb w)) [] | None => None end
      end
  | Assert c k => if c then forge b k tape else None
  | Check v n m k => if range_exec b v n m then forge b k tape else None
  | Query size v k => if in_pow2_table size v then forge b k tape else None
  end.

Lemma forge_sat {HB : BigMod} b {A} (c : circ A) tape r :
  forge b c tape = Some r -> sat b c r.
Proof.
  revert tape. unfold sat.
  induction c as [a|h k IH|p k IH|v n m k IH|s v k IH]; intros tape; simpl.
  - congruence.
  - destruct tape as [|[w|] t].
    + destruct h as [w|]; [|discriminate]. intros H. exists (emb w).
      split; [apply emb_range|]. eapply IH, H.
    + destruct ((0 <=? w) && (w <? modulus)) eqn:Ew; [|discriminate]. intros H.
      exists w. split; [lia|]. eapply IH, H.
    + destruct h as [w|]; [|discriminate]. intros H. exists (emb w).
      split; [apply emb_range|]. eapply IH, H.
  - destruct p; [|discriminate]. intros H. split; [reflexivity|]. eapply IH, H.
  - destruct (range_exec b v n m) eqn:Er; [|discriminate]. intros H.
    split; [apply range_exec_ok, Er|]. eapply IH, H.
  - destruct (in_pow2_table s v); [|discriminate]. intros H.
    split; [reflexivity|]. eapply IH, H.
Qed.

(** The canonical components and wires of a datum. *)
Definition comps {E M : Z} (f : fmt E M) : zf :=
  match f with
  | B754_zero s => mkZ s (emin E M - 1) 0 false
  | B754_infinity s => mkZ s (emax E) (2 ^ M) true
  | B754_nan => mkZ false (emax E) 0 true
  | B754_finite s m e _ =>
      let d := Zpos (digits2_pos m) in
      mkZ s (e + d - 1) (Zpos m * 2 ^ (prec M - d)) false
  end.
Definition wires {E M : Z} (f : fmt E M) : FloatVar := embF (comps f).

Lemma comps_zrep {E M : Z} (f : fmt E M) : zrep E M (comps f) f.
Proof. destruct f; simpl; try reflexivity. exists false. reflexivity. Qed.

Lemma wires_represents {E M : Z} (f : fmt E M) : represents (wires f) f.
Proof. exists (comps f). split; [reflexivity|apply comps_zrep]. Qed.

End Forge.

#[global] Instance bn254_big : @BigMod bn254.
Proof. vm_compute. reflexivity. Qed.

(** The datum nearest to [m * 2^e]; for writing examples. *)
Definition lit {E M : Z} {HF : Format E M} (m e : Z) : fmt E M :=
  binary_normalize (prec M) (emax E) (fmt_prec_gt_0 E M) (fmt_prec_lt_emax E M) mode_NE m e false.

Lemma lit_exact {E M : Z} {HF : Format E M} m e : Z.abs m < 2 ^ prec M -> emin E M <= e ->
  e + prec M <= emax E ->
  B2R (lit (E:=E) (M:=M) m e) = (IZR m * bpow radix2 e)%R /\
  is_finite (lit (E:=E) (M:=M) m e) = true.
Proof.
  intros Hm He He2. pose proof (fmt_prec_gt_0 E M) as Hp. unfold Prec_gt_0 in Hp. unfold lit.
  pose proof (binary_normalize_correct (prec M) (emax E) (fmt_prec_gt_0 E M)
    (fmt_prec_lt_emax E M) mode_NE m e false) as H. cbv zeta in H.
  assert (Hg : generic_format radix2 (SpecFloat.fexp (prec M) (emax E)) (F2R (Float radix2 m e))).
  { apply generic_format_FLT. exists (Float radix2 m e); [reflexivity|exact Hm|].
    cbn [Fexp]. unfold emin in He. unfold SpecFloat.emin. lia. }
  rewrite round_generic in H; [|apply valid_rnd_round_mode|exact Hg].
  rewrite Rlt_bool_true in H; [split; [exact (proj1 H)|exact (proj1 (proj2 H))]|].
  rewrite <- F2R_Zabs. apply Rlt_le_trans with (bpow radix2 (prec M + e)).
  - rewrite bpow_plus. unfold F2R. cbn [Fnum Fexp]. apply Rmult_lt_compat_r; [apply bpow_gt_0|].
    rewrite <- IZR_Zpower by lia. apply IZR_lt. exact Hm.
  - apply bpow_le. lia.
Qed.

(** Data used in the examples: [m * 2^e] in binary32 and binary64. *)
Definition f32 (m e : Z) : fmt 8 23 := lit m e.
Definition f64 (m e : Z) : fmt 11 52 := lit m e.
Definition max32 : fmt 8 23 := f32 (2 ^ 24 - 1) 104.
Definition max64 : fmt 11 52 := f64 (2 ^ 53 - 1) 971.

Definition w32 : fmt 8 23 -> FloatVar := wires (MOD:=bn254).
Definition w64 : fmt 11 52 -> FloatVar := wires (MOD:=bn254).

(** Circuits over BN254. *)
Definition run {A} (b : Z) (c : circ A) : option A := exec (MOD:=bn254) b c.
Definition accepted {A} (b : Z) (c : circ A) (r : A) : Prop := sat (MOD:=bn254) b c r.

Lemma accepted_run {A} b (c : circ A) r : run b c = Some r -> accepted b c r.
Proof. apply (exec_sat (MOD:=bn254)). Qed.
Lemma accepted_forge {A} b (c : circ A) tape r :
  forge (MOD:=bn254) b c tape = Some r -> accepted b c r.
Proof. apply (forge_sat (MOD:=bn254)). Qed.

Definition honest (n : nat) : list (option Z) := repeat None n.
