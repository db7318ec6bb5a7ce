(** Property C59: the published coordinates do not tell the face. *)
From Coq Require Import ZArith Reals Lra Lia Bool List.
From Flocq Require Import Core BinarySingleNaN.
From Verif Require Import Field FieldFacts Circuit RangeCheck RangeFacts GadgetFacts FloatModel Math
  MathSpec RoundFacts Spec RoundCore RepFacts NewFacts Outcomes Witness WrapperFacts Loc2Index LocConst NormFacts
  PipeFacts HexCell TableFacts Angles PlaneError Gnomonic CellFacts FaceFree PropertiesWhere.
Import ListNotations.
Local Open Scope Z_scope.

(** The honest prover, with whatever sines and cosines [dl] off, is accepted at the
    position with the cell [c] and with no other; and there are such sines and
    cosines. *)
Definition only_cell {MOD : Modulus} (E M b : Z) {HF : Format E M} (K : constants) (faces : list face)
    (dl : R) (res : Z) (p : R * R) (c : Z * Z * Z) : Prop :=
  let close (f : fmt E M) (x : R) := is_finite f = true /\ (Rabs (B2R f - x) <= dl)%R in
  let close4 (sl cl sg cg : fmt E M) :=
    close sl (sin (fst p)) /\ close cl (cos (fst p)) /\ close sg (sin (snd p)) /\ close cg (cos (snd p)) in
  (exists sl cl sg cg, close4 sl cl sg cg) /\
  forall lng' cosLat cosLng z sinLng sl cl sg cg,
  represents z sl -> represents cosLat cl -> represents sinLng sg -> represents cosLng cg -> close4 sl cl sg cg ->
  forall I J K_, exec b (locate E M K faces lng' cosLat cosLng z sinLng res I J K_) = Some tt <-> (I, J, K_) = embed3 c.

(** Every cell but the one at the origin, up to a quarter of the radius of the
    sphere from the centre of the face, at every resolution at which the errors do
    not exceed half a cell: there are 20 positions, one around each face, at least
    a fifth of the radius apart, which all give this one cell. *)
Definition ambiguous {MOD : Modulus} (E M b : Z) {HF : Format E M} (K : constants) (faces : list face) (dl : R) : Prop :=
  forall res c, 0 <= res < 16 -> (960 * sqrt 7 ^ Z.to_nat res * dl <= 1)%R -> reduced c -> c <> (0, 0, 0) ->
  (dist2 (hex_centre c) (0, 0) <= (unit_of res / 4) ^ 2)%R ->
  exists ps, length ps = 20%nat /\
  (forall m p, nth_error ps m = Some p -> (- (PI / 2) <= fst p <= PI / 2)%R /\ only_cell E M b K faces dl res p c) /\
  (forall m n p q, m <> n -> nth_error ps m = Some p -> nth_error ps n = Some q -> (1 / 5 <= distance p q)%R).

Lemma choose_places {A B} (P : A -> B -> Prop) (ls : list A) : (forall l, In l ls -> exists p, P l p) -> exists ps, Forall2 P ls ps.
Proof.
  induction ls as [|l ls IH]; intros H; [exists []; constructor|].
  destruct (H l (or_introl eq_refl)) as [p Hp]. destruct (IH (fun a Ha => H a (or_intror Ha))) as [ps Hs].
  exists (p :: ps). constructor; assumption.
Qed.

Lemma places_nth {A B} (P : A -> B -> Prop) ls ps : Forall2 P ls ps -> forall m p, nth_error ps m = Some p ->
  exists l, nth_error ls m = Some l /\ P l p.
Proof.
  induction 1 as [|l p ls ps HP H IH]; intros m q Hq; [destruct m; discriminate|].
  destruct m as [|m]; cbn [nth_error] in *; [injection Hq as <-; eauto|]. exact (IH m q Hq).
Qed.

Lemma places_length {A B} (P : A -> B -> Prop) ls ps : Forall2 P ls ps -> length ps = length ls.
Proof. induction 1; cbn [length]; congruence. Qed.

Theorem face_free {MOD : Modulus} {E M b : Z} {HF : Format E M} K faces dl : 8 <= E -> 23 <= M <= 52 ->
  (bpow radix2 (- M) <= dl <= 1 / 10000)%R -> finds_cell E M b K faces dl -> ambiguous E M b K faces dl.
Proof.
  intros HE HM D HC res c Hr Hd Rc Nc HQ.
  destruct (choose_places (fun l p => (- (PI / 2) <= fst p <= PI / 2)%R /\ (apart l (fst p) (snd p) <= 1 / 4)%R /\
    only_cell E M b K faces dl res p c) literals) as (ps & HP).
  - intros l Hl. destruct (hex_centre c) as [X Y] eqn:EC.
    destruct (unproject l res X Y Hr) as (lat & lng & HB & EX & EY & HU & HW).
    pose proof (centre_norm c Rc Nc) as N1. rewrite EC in N1. cbn [fst snd] in N1.
    pose proof res0_bounds as R0. pose proof (sqrt7_bounds res Hr) as S7.
    assert (Uq : (0 < unit_of res <= 262 / 100 * sqrt 7 ^ Z.to_nat res)%R).
    { unfold unit_of. split; [apply Rdiv_lt_0_compat; lra|]. apply Rmult_le_reg_r with res0_unit; [lra|]. unfold Rdiv.
      rewrite Rmult_assoc, Rinv_l by lra. nra. }
    unfold dist2 in HQ. cbn [fst snd] in HQ. set (q := unit_of res) in *.
    set (t := sqrt ((X * X + Y * Y) / (q * q))).
    assert (T0 : (0 <= (X * X + Y * Y) / (q * q))%R) by (apply Rmult_le_pos; [lra|]; apply Rlt_le, Rinv_0_lt_compat; nra).
    assert (T : (t * t = (X * X + Y * Y) / (q * q))%R) by (apply sqrt_sqrt; exact T0).
    assert (TP : (0 <= t)%R) by apply sqrt_pos.
    assert (TQ : (t * t * (q * q) = X * X + Y * Y)%R) by (rewrite T; field; lra).
    assert (T1 : (t <= 1 / 4)%R). { clear - TQ HQ TP Uq. assert (t * t * (q * q) <= / 16 * (q * q))%R by (rewrite TQ; lra). assert (0 < q * q)%R by nra. assert (t * t <= / 16)%R by nra. nra. }
    assert (T2 : (1 <= t * q)%R) by (clear - TQ N1 TP Uq; assert (0 <= t * q)%R by nra; assert (1 <= (t * q) * (t * q))%R by lra; nra).
    rewrite <- T in HW. destruct (unproject_apart l lat lng t HU ltac:(lra) HW) as [A1 A2].
    exists (lat, lng). cbn [fst snd]. split; [exact HB|]. split; [lra|].
    split.
    + assert (B1 : forall a, (Rabs (sin a) <= 1)%R) by (intros a; apply Rabs_le, SIN_bound).
      assert (B2 : forall a, (Rabs (cos a) <= 1)%R) by (intros a; apply Rabs_le, COS_bound).
      destruct (datum_near (sin lat) HE HM (B1 _)) as (sl & F1 & V1). destruct (datum_near (cos lat) HE HM (B2 _)) as (cl & F2 & V2).
      destruct (datum_near (sin lng) HE HM (B1 _)) as (sg & F3 & V3). destruct (datum_near (cos lng) HE HM (B2 _)) as (cg & F4 & V4).
      exists sl, cl, sg, cg. cbn [fst snd]. repeat split; try assumption; lra.
    + cbn [fst snd]. intros lng' cosLat cosLng z sinLng sl cl sg cg Rsl Rcl Rsg Rcg ([F1 V1] & [F2 V2] & [F3 V3] & [F4 V4]) I J K_.
      destruct (HC lng' cosLat cosLng z sinLng lat lng sl cl sg cg Rsl Rcl Rsg Rcg F1 F2 F3 F4 V1 V2 V3 V4 res Hr)
        as (l' & Hl' & _ & HG & HX).
      assert (l' = l).
      { pose proof (HG l Hl) as HG'.
        apply In_nth_error in Hl as [m Hm]. apply In_nth_error in Hl' as [n Hn].
        destruct (Nat.eq_dec m n) as [->|Hmn]; [congruence|exfalso].
        pose proof (centres_far m n l l' Hmn Hm Hn) as CF.
        rewrite apart_distance in A2, HG', CF. rewrite (apart_distance l lat lng) in HG'.
        pose proof (distance_triangle (face_lat l, face_lng l) (lat, lng) (face_lat l', face_lng l')) as TR.
        rewrite (distance_sym (lat, lng)) in TR. lra. }
      subst l'. destruct HX as [(c' & Rc' & Hc' & HE') _].
      { clear - A1 T2 Hd Uq D TP. assert (unit_ro : (0 <= dl)%R) by (pose proof (bpow_ge_0 radix2 (- M)); lra).
        assert (960 * (q * dl) <= 262 / 100)%R by nra.
        assert (dl <= t * (q * dl))%R by nra. nra. }
      assert (c' = c).
      { eapply centre_cell; [|exact Rc|exact Rc'|]; [|rewrite EC; rewrite <- EX, <- EY; exact Hc']. lra. }
      subst c'. apply HE'.
  - exists ps. split; [rewrite (places_length _ _ _ HP); reflexivity|]. split.
    + intros m p Hp. destruct (places_nth _ _ _ HP m p Hp) as (l & _ & H1 & _ & H2). auto.
    + intros m n p q Hmn Hp Hq. destruct (places_nth _ _ _ HP m p Hp) as (l & L1 & _ & A1 & _).
      destruct (places_nth _ _ _ HP n q Hq) as (g & L2 & _ & A2 & _). exact (places_far m n l g p q Hmn L1 L2 A1 A2).
Qed.

(** 32 bits, up to resolution 6. *)
Theorem C59_ambiguous_32 {MOD : Modulus} {b : Z} {HP : Params 8 23 b} dl : (bpow radix2 (-19) <= dl <= 1 / 10000)%R ->
  ambiguous 8 23 b constants32 faces32 dl.
Proof.
  intros D. apply face_free; [lia|lia| |apply C57_cell_32; exact D].
  assert (bpow radix2 (-23) <= bpow radix2 (-19))%R by (apply bpow_le; lia). change (- (23)) with (-23). lra.
Qed.
Print Assumptions C59_ambiguous_32.

(** 64 bits, at all resolutions. *)
Theorem C59_ambiguous_64 {MOD : Modulus} {b : Z} {HP : Params 11 52 b} dl : (bpow radix2 (-47) <= dl <= 1 / 10000)%R ->
  ambiguous 11 52 b constants64 faces64 dl.
Proof.
  intros D. apply face_free; [lia|lia| |apply C57_cell_64; exact D].
  assert (bpow radix2 (-52) <= bpow radix2 (-47))%R by (apply bpow_le; lia). change (- (52)) with (-52). lra.
Qed.
Print Assumptions C59_ambiguous_64.

(** Two positions a fifth of the radius apart (1274 km), both accepted for the
    published coordinates (7, 3, 0) at resolution 12, whose cells are some 20 m
    wide. *)
Lemma sqrt7_even n : (sqrt 7 ^ (2 * n) = 7 ^ n)%R.
Proof. rewrite pow_mult. f_equal. simpl. rewrite Rmult_1_r. apply sqrt_sqrt. lra. Qed.

Example C59_ex : exists p q, (1 / 5 <= distance p q)%R /\
  forall r, r = p \/ r = q -> only_cell (MOD:=bn254) 11 52 8 constants64 faces64 (bpow radix2 (-47)) 12 r (7, 3, 0).
Proof.
  pose proof (params64 8 ltac:(lia)) as HP.
  assert (D : (bpow radix2 (-47) <= bpow radix2 (-47) <= 1 / 10000)%R) by (change (bpow radix2 (-47)) with (/ 140737488355328)%R; lra).
  assert (S : (sqrt 7 ^ Z.to_nat 12 = 117649)%R) by (change (Z.to_nat 12) with (2 * 6)%nat; rewrite sqrt7_even; simpl; lra).
  destruct (C59_ambiguous_64 (MOD:=bn254) (b:=8) (HP:=HP) (bpow radix2 (-47)) D 12 (7, 3, 0)) as (ps & HL & HC & HF).
  - lia.
  - rewrite S. change (bpow radix2 (-47)) with (/ 140737488355328)%R. lra.
  - unfold reduced. lia.
  - discriminate.
  - unfold dist2, hex_centre, unit_of. rewrite S. cbn [fst snd]. change (7 - 0) with 7. change (3 - 0) with 3.
    pose proof res0_bounds as R0. pose proof sqrt3 as T.
    assert (Q : (294000 <= 117649 / res0_unit)%R).
    { apply Rmult_le_reg_r with res0_unit; [lra|]. unfold Rdiv. rewrite Rmult_assoc, Rinv_l by lra. lra. }
    set (w := (117649 / res0_unit)%R) in *. nra.
  - destruct ps as [|p [|q ps]]; try discriminate HL. exists p, q. split; [exact (HF 0%nat 1%nat p q ltac:(lia) eq_refl eq_refl)|].
    intros r [->| ->]; [exact (proj2 (HC 0%nat p eq_refl))|exact (proj2 (HC 1%nat q eq_refl))].
Qed.
