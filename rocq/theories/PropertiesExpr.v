(** Properties C27 and C28: programs over the float API. *)
From Coq Require Import ZArith Reals Bool List.
From Flocq Require Import Core BinarySingleNaN.
From Verif Require Import Field Circuit RangeCheck FloatModel RoundFacts Spec Outcomes
  Witness Expr ExprFacts.
Import ListNotations.
Local Open Scope Z_scope.

(** ** C27: well-formedness *)

(** The honest run of every program over bit patterns succeeds, at every base
    width, and its result is well formed. *)
Theorem C27_well_formed {MOD : Modulus} {E M b : Z} {HP : Params E M b} {HF : Format E M} e :
  leaves E M e -> exists r, exec b (compile E M e) = Some r /\ well_formed E M r.
Proof. exact (expr_well_formed e). Qed.
Print Assumptions C27_well_formed.

(** The well-formed wires are those standing for an IEEE datum, which is all the
    operations require. *)
Theorem C27_well_formed_represents {MOD : Modulus} {E M : Z} {HF : Format E M} x :
  well_formed E M x <-> exists f : fmt E M, represents x f.
Proof.
  split; [exact (well_formed_represents x)|]. intros [f H]. exact (represents_well_formed x f H).
Qed.
Print Assumptions C27_well_formed_represents.

(** sqrt(3 * 3 + 4 * 4), rounded down and halved. *)
Definition hypot : expr :=
  ESqrt (EAdd (EMul (EInput 0x40400000) (EInput 0x40400000))
              (EMul (EInput 0x40800000) (EInput 0x40800000))).
Definition sample : expr := EDiv (EFloor hypot) (EConst 0x40000000).

Example C27_ex : leaves 8 23 sample /\
  run 8 (compile (MOD:=bn254) 8 23 sample) = Some (w32 (f32 5 (-1))).
Proof.
  split; [cbn [leaves sample hypot]; repeat apply conj; vm_compute; congruence|].
  vm_compute. reflexivity.
Qed.

(** Infinities and NaN are values like any other: sqrt(-1) * (1 / 0). *)
Example C27_ex_special :
  run 8 (compile (MOD:=bn254) 8 23
    (EMul (ESqrt (EConst 0xBF800000)) (EDiv (EConst 0x3F800000) (EConst 0))))
  = Some (embF (MOD:=bn254) (mkZ true 128 0 true)).
Proof. vm_compute. reflexivity. Qed.

(** ** C28: evaluation *)

Theorem C28_complete {MOD : Modulus} {E M b : Z} {HP : Params E M b} {HF : Format E M} e :
  leaves E M e -> no_max_cancel E M e ->
  exists r, exec b (compile E M e) = Some r /\ represents r (ieval E M e).
Proof. exact (expr_complete e). Qed.
Print Assumptions C28_complete.

Theorem C28_sound {MOD : Modulus} {E M b : Z} {HP : Params E M b} {HF : Format E M} e r :
  pow2_size E M mod b = 0 -> leaves E M e -> safe E M e ->
  sat b (compile E M e) r -> represents r (ieval E M e).
Proof. exact (expr_sound e r). Qed.
Print Assumptions C28_sound.

(** The results a prover can obtain are those reachable by the outcomes of the
    operations, as long as no reachable result overflows. *)
Theorem C28_outcomes {MOD : Modulus} {E M b : Z} {HP : Params E M b} {HF : Format E M} e r :
  pow2_size E M mod b = 0 -> leaves E M e -> bounded_run E M e ->
  sat b (compile E M e) r -> exists f, represents r f /\ may E M e f.
Proof. exact (expr_outcomes e r). Qed.
Print Assumptions C28_outcomes.

Theorem C28_forgeable {MOD : Modulus} {E M b : Z} {HP : Params E M b} {HF : Format E M} e f :
  pow2_size E M mod b = 0 -> leaves E M e -> may E M e f ->
  exists r, sat b (compile E M e) r /\ represents r f.
Proof. exact (expr_forgeable e f). Qed.
Print Assumptions C28_forgeable.

Lemma not_in_1_2 (f : fmt 8 23) (g : fmt 8 23) : g = f32 2 0 -> Bleb g f = true ->
  Bsign f = false -> is_finite f = true -> ~ in_1_2 8 23 f.
Proof.
  intros -> H1 H2 H3 (_ & _ & H4).
  rewrite Bleb_correct in H1 by (try reflexivity; exact H3).
  revert H1. case Rle_bool_spec; intros H; [intros _|discriminate].
  assert (B2R (f32 2 0) = 2)%R as E2.
  { unfold f32.
    rewrite (proj1 (lit_exact (E:=8) (M:=23) 2 0 eq_refl ltac:(discriminate) ltac:(discriminate))).
    cbn [bpow]. apply Rmult_1_r. }
  rewrite E2 in H. apply (Rlt_irrefl 2). apply Rle_lt_trans with (Rabs (B2R f)); [|exact H4].
  apply Rle_trans with (B2R f); [exact H|apply Rle_abs].
Qed.

Example C28_ex : leaves 8 23 sample /\ no_max_cancel 8 23 sample /\ safe 8 23 sample /\
  ieval 8 23 sample = f32 5 (-1).
Proof.
  split; [cbn [leaves sample hypot]; repeat apply conj; vm_compute; congruence|].
  split.
  { cbn [no_max_cancel sample hypot]. repeat apply conj; try exact I.
    intros (_ & _ & H & _).
      assert (P : forall f g : fmt 8 23, Bleb (f32 0 0) f = true -> is_finite f = true ->
        Bltb (f32 0 0) g = true -> is_finite g = true -> B2R f = (- B2R g)%R -> False).
      { intros f g P1 P2 P3 P4 P5. rewrite Bleb_correct in P1 by (try reflexivity; exact P2).
        rewrite Bltb_correct in P3 by (try reflexivity; exact P4).
        revert P1 P3. case Rle_bool_spec; intros H1; [intros _|discriminate].
        case Rlt_bool_spec; intros H2; [intros _|discriminate].
        assert (Z0 : B2R (f32 0 0) = 0%R) by (vm_compute; reflexivity).
        rewrite Z0 in *. rewrite P5 in *. Lra.lra. }
      refine (P _ _ _ _ _ _ H); vm_compute; reflexivity. }
  split.
  { cbn [safe sample hypot]. repeat apply conj; try exact I; try (intros _ _; vm_compute; reflexivity).
    - intros (_ & _ & H & _). apply H. vm_compute. reflexivity.
    - apply (not_in_1_2 _ _ eq_refl); vm_compute; reflexivity. }
  apply B2SF_inj. vm_compute. reflexivity.
Qed.

(** Outside [safe] the result is the prover's choice: 1 / (5 - 5) < 0 ? 1 : 0. *)
Definition sign_of_zero : expr :=
  ESelect OpLt (EDiv (EConst 0x3F800000) (ESub (EInput 0x40A00000) (EInput 0x40A00000)))
    (EConst 0) (EConst 0x3F800000) (EConst 0).

Theorem C28_always_ieee_refuted : leaves 8 23 sign_of_zero /\
  ieval 8 23 sign_of_zero = B754_zero false /\
  accepted 8 (compile (MOD:=bn254) 8 23 sign_of_zero) (w32 (f32 1 0)).
Proof.
  split; [cbn [leaves sign_of_zero]; repeat apply conj; vm_compute; congruence|].
  split; [apply B2SF_inj; vm_compute; reflexivity|].
  apply (accepted_forge 8 _ (honest 13 ++ [Some 0])). vm_compute. reflexivity.
Qed.
Print Assumptions C28_always_ieee_refuted.
