(** The hint-based location circuits: what they check of the location. *)
From Coq Require Import ZArith Reals Lra Lia Bool List.
From Flocq Require Import Core BinarySingleNaN.
From Verif Require Import Field FieldFacts Circuit CircuitFacts RangeCheck RangeFacts Gadget
  GadgetFacts Util FloatModel Tactics RoundFacts Spec RoundCore RepFacts MulFacts
  AddFacts AddSpec Forge CompFacts NewFacts CmpFacts EqFacts Outcomes Circuits CircuitSpec Expr ExprFacts
  Math Loc2Index.
Import ListNotations.
Local Open Scope Z_scope.

Section Sat.
Context {MOD : Modulus} {E M b : Z} {HP : Params E M b} {HF : Format E M}.
#[local] Instance Wn : Width b (4 * M + 44) := params_width E M b HP.
#[local] Instance Bn : BigMod := width_big b _ _.

(** The value of a hint does not matter to an arbitrary prover. *)
Lemma sat_hint_float h h' i x : sat b (hint_float h i) x -> sat b (hint_float h' i) x.
Proof. intros H. exact H. Qed.

Lemma sat_bind_mono {A B} (c c' : circ A) (k k' : A -> circ B) u :
  (forall x, sat b c x -> sat b c' x) -> (forall x, sat b (k x) u -> sat b (k' x) u) ->
  sat b (bind c k) u -> sat b (bind c' k') u.
Proof. intros H1 H2 H. apply sat_bind in H. destruct H as [x [Hx H]]. apply sat_bind. exists x. auto. Qed.

Lemma sat_precompute h h' x : sat b (precompute E M h) x -> sat b (precompute E M h') x.
Proof.
  unfold precompute.
  do 4 (apply sat_bind_mono; [intros ? G; exact G|intros _]).
  do 4 (apply sat_bind_mono; [apply sat_hint_float|intros ?]).
  intros G; exact G.
Qed.

(** [lng] and the hints are irrelevant. *)
Lemma locate_lng K faces lng lng' cl cn z sn res I J K_ :
  locate E M K faces lng cl cn z sn res I J K_ = locate E M K faces lng' cl cn z sn res I J K_.
Proof. reflexivity. Qed.

Lemma sat_hint_circuit K faces l1 l2 h1 h2 h1' h2' lng lng' res I J K_ u :
  sat b (hint_circuit E M K faces l1 l2 h1 h2 lng res I J K_) u ->
  sat b (hint_circuit E M K faces l1 l2 h1' h2' lng' res I J K_) u.
Proof.
  unfold hint_circuit.
  apply sat_bind_mono; [apply sat_precompute|]. intros [[[a be] g] d].
  apply sat_bind_mono; [apply sat_precompute|]. intros [[[a' be'] g'] d'].
  cbv zeta. do 2 (apply sat_bind_mono; [intros ? G; exact G|intros ?]).
  rewrite (locate_lng K faces lng lng'). intros G; exact G.
Qed.

(** The comparisons with the upper bounds. *)
Lemma sat_gt_zero {A} x (fx : fmt E M) p (k : circ A) u : represents x fx -> 0 <= p < 2 ^ (E + M + 1) ->
  (sat b (a <- IsGt E M x (NewConstant E M p) ;; assert_eq a (emb 0) ;;; k) u <->
   ieee_lt E M (of_bits E M p) fx = false /\ sat b k u).
Proof.
  intros Hx Hp. pose proof (newconst_spec p Hp) as Hc. rewrite sat_bind. split.
  - intros [a [Ha H]]. pose proof (proj1 (proj2 (proj2 (cmp_sound (b:=b) x _ fx _ a Hx Hc))) Ha) as G. clear Ha. subst a.
    apply sat_bind in H. destruct H as [[] [H1 H2]]. apply sat_assert_eq in H1.
    split; [|exact H2]. destruct (ieee_lt E M (of_bits E M p) fx); [|reflexivity].
    change (emb 0) with (emb (Z.b2z false)) in H1. apply b2z_inj in H1. discriminate.
  - intros [H1 H2]. exists (emb 0). split.
    + apply exec_sat. destruct (cmp_complete (b:=b) x _ fx _ Hx Hc) as (_ & _ & G & _). rewrite G, H1. reflexivity.
    + apply sat_bind. exists tt. split; [apply sat_assert_eq; reflexivity|exact H2].
Qed.

Lemma sat_bounds {A} lat lng (fa fn : fmt E M) pi hp res (k : circ A) u :
  represents lat fa -> represents lng fn -> 0 <= pi < 2 ^ (E + M + 1) -> 0 <= hp < 2 ^ (E + M + 1) ->
  (sat b (bounds E M pi hp lat lng res ;;; k) u <->
   ieee_lt E M (of_bits E M hp) fa = false /\ ieee_lt E M (of_bits E M pi) fn = false /\
   res <= 15 /\ sat b k u).
Proof.
  intros Ha Hn Hpi Hhp. unfold bounds.
  assert (Q : sat b ((a <- IsGt E M lat (NewConstant E M hp) ;; assert_eq a (emb 0) ;;;
      (b0 <- IsGt E M lng (NewConstant E M pi) ;; assert_eq b0 (emb 0) ;;; assert_le_const res 15)) ;;; k) u
    <-> sat b (a <- IsGt E M lat (NewConstant E M hp) ;; assert_eq a (emb 0) ;;;
      (b0 <- IsGt E M lng (NewConstant E M pi) ;; assert_eq b0 (emb 0) ;;; assert_le_const res 15)) tt /\ sat b k u).
  { rewrite sat_bind. split; [intros [[] H]; exact H|intros H; exists tt; exact H]. }
  rewrite Q, (sat_gt_zero lat fa hp _ _ Ha Hhp), (sat_gt_zero lng fn pi _ _ Hn Hpi).
  unfold assert_le_const. rewrite sat_assert, Z.leb_le. intuition.
Qed.

End Sat.

(** A position the circuits let through: latitude not above pi/2, longitude not
    above pi, as IEEE comparisons.  Nothing else is asked. *)
Definition position_ok (E M : Z) {HF : Format E M} (halfPi pi Lat Lng : Z) : Prop :=
  0 <= Lat < 2 ^ (E + M + 1) /\ 0 <= Lng < 2 ^ (E + M + 1) /\
  ieee_lt E M (of_bits E M halfPi) (of_bits E M Lat) = false /\
  ieee_lt E M (of_bits E M pi) (of_bits E M Lng) = false.

Section Circuits.
Context {MOD : Modulus} {b : Z}.

(** What remains once the position is dropped. *)
Definition index_circuit32 (K : constants) (faces : list face) (res I J K_ : Z) : circ unit :=
  let c := fun x y => AssertIsEqualOrCustomULP 8 23 x y one_32 in
  hint_circuit 8 23 K faces [c; c; c] [c; c; c] (fun _ => None) (fun _ => None)
    (NewConstant 8 23 0) res I J K_.
Definition index_circuit64 (K : constants) (faces : list face) (res I J K_ : Z) : circ unit :=
  let c := fun x y => AssertIsEqualOrCustomULP 11 52 x y two_64 in
  let u := AssertIsEqualOrULP 52 in
  hint_circuit 11 52 K faces [c; c; u] [c; u; u] (fun _ => None) (fun _ => None)
    (NewConstant 11 52 0) res I J K_.

Theorem loc32_sat {HP : Params 8 23 b} K faces trig Lat Lng res I J K_ :
  0 <= Lat < modulus -> 0 <= Lng < modulus ->
  (sat b (loc2Index32Circuit K faces trig Lat Lng res I J K_) tt <->
   position_ok 8 23 half_pi_32 pi_32 Lat Lng /\ res <= 15 /\
   sat b (index_circuit32 K faces res I J K_) tt).
Proof.
  intros Ha Hn. unfold loc2Index32Circuit, position_ok.
  rewrite (new_step (E:=8) (M:=23) Lat _ _ Ha), (new_step (E:=8) (M:=23) Lng _ _ Hn).
  assert (Hpi : 0 <= pi_32 < 2 ^ (8 + 23 + 1)) by (split; vm_compute; congruence).
  assert (Hhp : 0 <= half_pi_32 < 2 ^ (8 + 23 + 1)) by (split; vm_compute; congruence).
  split.
  - intros (P1 & P2 & H).
    apply (sat_bounds (E:=8) (M:=23) _ _ _ _ _ _ _ _ _ (newconst_spec Lat P1) (newconst_spec Lng P2) Hpi Hhp) in H.
    destruct H as (H1 & H2 & H3 & H4). split; [exact (conj P1 (conj P2 (conj H1 H2)))|]. split; [exact H3|].
    exact (sat_hint_circuit (E:=8) (M:=23) K faces _ _ _ _ _ _ _ _ res I J K_ tt H4).
  - intros ((P1 & P2 & H1 & H2) & H3 & H4). split; [exact P1|]. split; [exact P2|].
    apply (sat_bounds (E:=8) (M:=23) _ _ _ _ _ _ _ _ _ (newconst_spec Lat P1) (newconst_spec Lng P2) Hpi Hhp).
    split; [exact H1|]. split; [exact H2|]. split; [exact H3|].
    exact (sat_hint_circuit (E:=8) (M:=23) K faces _ _ _ _ _ _ _ _ res I J K_ tt H4).
Qed.

(** The computations of loc2Index64Circuit whose results are dropped. *)
Lemma leftover_exec {HP : Params 11 52 b} lat lng (fa fn : fmt 11 52) : represents lat fa -> represents lng fn ->
  exec b (leftover_64 lat lng) = Some tt.
Proof.
  intros Ha Hn. unfold leftover_64.
  pose proof (width_big b _ (params_width 11 52 b HP)) as HB.
  assert (Hpi : 0 <= pi_64 < 2 ^ (11 + 52 + 1)) by (split; vm_compute; congruence).
  assert (Hhp : 0 <= half_pi_64 < 2 ^ (11 + 52 + 1)) by (split; vm_compute; congruence).
  assert (Hdp : 0 <= double_pi_64 < 2 ^ (11 + 52 + 1)) by (split; vm_compute; congruence).
  destruct (add_runs (b:=b) lat _ _ _ Ha (newconst_spec _ Hhp)) as (r1 & E1 & _).
  rewrite (exec_bind_eq _ _ _ _ E1).
  destruct (add_runs (b:=b) lng _ _ _ Hn (newconst_spec _ Hhp)) as (r2 & E2 & R2).
  rewrite (exec_bind_eq _ _ _ _ E2).
  destruct (cmp_complete (b:=b) r2 _ _ _ R2 (newconst_spec _ Hpi)) as (_ & _ & E3 & _).
  rewrite (exec_bind_eq _ _ _ _ E3).
  destruct (sub_runs (b:=b) r2 _ _ _ R2 (newconst_spec _ Hdp)) as (r4 & E4 & _).
  rewrite (exec_bind_eq _ _ _ _ E4).
  do 3 (rewrite (exec_bind_eq _ _ _ _ (exec_select _ _ _ _))). reflexivity.
Qed.

Theorem loc64_sat {HP : Params 11 52 b} K faces trig Lat Lng res I J K_ :
  0 <= Lat < modulus -> 0 <= Lng < modulus ->
  (sat b (loc2Index64Circuit K faces trig Lat Lng res I J K_) tt <->
   position_ok 11 52 half_pi_64 pi_64 Lat Lng /\ res <= 15 /\
   sat b (index_circuit64 K faces res I J K_) tt).
Proof.
  intros Ha Hn. unfold loc2Index64Circuit, position_ok.
  pose proof (width_big b _ (params_width 11 52 b HP)) as HB.
  rewrite (new_step (E:=11) (M:=52) Lat _ _ Ha), (new_step (E:=11) (M:=52) Lng _ _ Hn).
  assert (Hpi : 0 <= pi_64 < 2 ^ (11 + 52 + 1)) by (split; vm_compute; congruence).
  assert (Hhp : 0 <= half_pi_64 < 2 ^ (11 + 52 + 1)) by (split; vm_compute; congruence).
  split.
  - intros (P1 & P2 & H).
    apply (sat_bounds (E:=11) (M:=52) _ _ _ _ _ _ _ _ _ (newconst_spec Lat P1) (newconst_spec Lng P2) Hpi Hhp) in H.
    destruct H as (H1 & H2 & H3 & H4). split; [exact (conj P1 (conj P2 (conj H1 H2)))|]. split; [exact H3|].
    apply sat_bind in H4. destruct H4 as [_ [_ H4]].
    exact (sat_hint_circuit (E:=11) (M:=52) K faces _ _ _ _ _ _ _ _ res I J K_ tt H4).
  - intros ((P1 & P2 & H1 & H2) & H3 & H4). split; [exact P1|]. split; [exact P2|].
    apply (sat_bounds (E:=11) (M:=52) _ _ _ _ _ _ _ _ _ (newconst_spec Lat P1) (newconst_spec Lng P2) Hpi Hhp).
    split; [exact H1|]. split; [exact H2|]. split; [exact H3|].
    apply sat_bind. exists tt. 
    split; [apply exec_sat, (leftover_exec _ _ _ _ (newconst_spec Lat P1) (newconst_spec Lng P2))|].
    exact (sat_hint_circuit (E:=11) (M:=52) K faces _ _ _ _ _ _ _ _ res I J K_ tt H4).
Qed.

End Circuits.

(** Negative data and NaN pass. *)
Lemma lt_negative {E M : Z} {HF : Format E M} (p x : fmt E M) :
  is_finite p = true -> Bsign p = false -> is_nan x = true \/ Bsign x = true -> ieee_lt E M p x = false.
Proof.
  intros Fp Sp Hx. unfold ieee_lt, Bltb, SpecFloat.SFltb.
  destruct p as [s|s| |s m e Hp]; try discriminate; cbn [Bsign] in Sp; subst s;
    destruct x as [t|t| |t m' e' Hx']; cbn [B2SF SpecFloat.SFcompare];
    try reflexivity; destruct Hx as [Hx|Hx]; try discriminate; cbn [Bsign] in Hx; subst t; reflexivity.
Qed.
