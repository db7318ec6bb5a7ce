(** NormalizeIJK: the canonical hexagonal coordinates, for every prover. *)
From Coq Require Import ZArith List Bool Lia.
From Verif Require Import Field FieldFacts Circuit CircuitFacts RangeCheck RangeFacts Gadget
  GadgetFacts Loc2Index.
Import ListNotations.
Local Open Scope Z_scope.

(** ** Specification, independent of the circuit *)

(** H3's [_ijkNormalize] (coordijk.c of the H3 library). *)
Definition h3_normalize (c : Z * Z * Z) : Z * Z * Z :=
  let '(i, j, k) := c in
  let '(i, j, k) := if i <? 0 then (0, j - i, k - i) else (i, j, k) in
  let '(i, j, k) := if j <? 0 then (i - j, 0, k - j) else (i, j, k) in
  let '(i, j, k) := if k <? 0 then (i - k, j - k, 0) else (i, j, k) in
  let m := if j <? i then j else i in
  let m := if k <? m then k else m in
  if 0 <? m then (i - m, j - m, k - m) else (i, j, k).

(** Canonical coordinates of the class of [c] modulo (1,1,1). *)
Definition canonical (c d : Z * Z * Z) : Prop :=
  let '(i, j, k) := c in
  let '(i', j', k') := d in
  0 <= i' /\ 0 <= j' /\ 0 <= k' /\ (i' = 0 \/ j' = 0 \/ k' = 0) /\
  exists t, i = i' + t /\ j = j' + t /\ k = k' + t.

(** A sign wire and a magnitude wire. *)
Definition signed (s : bool) (a : Z) : Z := if s then - a else a.

Definition embed3 {MOD : Modulus} (c : Z * Z * Z) : Z * Z * Z :=
  let '(i, j, k) := c in (emb i, emb j, emb k).

Lemma canonical_unique c d e : canonical c d -> canonical c e -> d = e.
Proof.
  destruct c as [[i j] k], d as [[x y] z], e as [[u v] w].
  intros (H1 & H2 & H3 & H4 & t & Ht) (G1 & G2 & G3 & G4 & s & Gs).
  assert (t = s) by lia. subst s. f_equal; [f_equal|]; lia.
Qed.

Lemma h3_canonical c : canonical c (h3_normalize c).
Proof.
  destruct c as [[i j] k]. unfold h3_normalize.
  assert (F : forall t x y z, 0 <= x -> 0 <= y -> 0 <= z -> i = x + t -> j = y + t -> k = z + t ->
    canonical (i, j, k) (let m := if y <? x then y else x in
      let m := if z <? m then z else m in
      if 0 <? m then (x - m, y - m, z - m) else (x, y, z))).
  { intros t x y z Hx Hy Hz Ei Ej Ek.
    assert (Hm : forall p q, (if q <? p then q else p) = Z.min p q)
      by (intros p q; destruct (Z.ltb_spec q p); lia).
    cbv zeta. rewrite !Hm. set (m := Z.min (Z.min x y) z).
    destruct (Z.ltb_spec 0 m); unfold canonical.
    - repeat split; try lia. exists (t + m). lia.
    - repeat split; try lia. exists t. lia. }
  destruct (Z.ltb_spec i 0); cbv beta iota.
  - destruct (Z.ltb_spec (j - i) 0); cbv beta iota.
    + destruct (Z.ltb_spec (k - i - (j - i)) 0); cbv beta iota; [apply (F k)|apply (F j)]; lia.
    + destruct (Z.ltb_spec (k - i) 0); cbv beta iota; [apply (F k)|apply (F i)]; lia.
  - destruct (Z.ltb_spec j 0); cbv beta iota.
    + destruct (Z.ltb_spec (k - j) 0); cbv beta iota; [apply (F k)|apply (F j)]; lia.
    + destruct (Z.ltb_spec k 0); cbv beta iota; [apply (F k)|apply (F 0)]; lia.
Qed.

Section Norm.
Context {MOD : Modulus} {b K : Z} {HW : Width b K}.
#[local] Instance norm_big : BigMod := width_big b K HW.

Lemma sat_pos_diff x y n : 1 <= n -> n + b <= K -> - 2 ^ (K - 1) <= x - y <= 2 ^ (K - 1) -> forall r,
  sat b (IsPositive (fsub (emb x) (emb y)) n) r ->
  exists c, r = emb (Z.b2z c) /\ (c = true -> y <= x) /\ (c = false -> x <= y).
Proof.
  intros Hn HK Hd r H. rewrite fsub_emb in H. apply sat_IsPositive in H; [|lia..].
  destruct H as [c [-> [H1 [H2 _]]]]. exists c. split; [reflexivity|].
  split; intros ->; [destruct (Z_lt_le_dec x y); [|lia]|destruct (Z_lt_le_dec y x); [|lia]];
    [discriminate H2; lia|discriminate H1; lia].
Qed.

Lemma exec_pos_diff x y n : 1 <= n -> n + b <= K -> - 2 ^ n < x - y < 2 ^ n ->
  exec b (IsPositive (fsub (emb x) (emb y)) n) = Some (emb (Z.b2z (0 <=? x - y))).
Proof. intros Hn HK Hd. rewrite fsub_emb. apply exec_IsPositive; lia. Qed.

Lemma sat_sel (c : bool) x y r : sat b (select (emb (Z.b2z c)) x y) r -> r = if c then x else y.
Proof. intros H. apply sat_select in H as [c' [Hc ->]]. apply b2z_inj in Hc. subst. reflexivity. Qed.

(** Constants as truth values. *)
Lemma emb_zero : emb 0 = emb (Z.b2z false). Proof. reflexivity. Qed.
Lemma emb_one : emb 1 = emb (Z.b2z true). Proof. reflexivity. Qed.

Lemma if_emb (c : bool) x y : (if c then emb x else emb y) = emb (if c then x else y).
Proof. destruct c; reflexivity. Qed.

Lemma if_b2z (c d e : bool) :
  (if c then emb (Z.b2z d) else emb (Z.b2z e)) = emb (Z.b2z (if c then d else e)).
Proof. destruct c; reflexivity. Qed.

(** One accumulation step of the code: [x] signed by [s] plus the magnitude [a],
    as sign and magnitude. *)
Definition step_mag (s p : bool) (a x : Z) : Z := if s then (if p then a - x else x - a) else a + x.
Definition step_neg (s p : bool) : bool := if s then negb p else false.

Lemma step_value s p a x : (p = true -> x <= a) -> (p = false -> a <= x) ->
  signed (step_neg s p) (step_mag s p a x) = signed s x + a.
Proof. unfold signed, step_mag, step_neg. destruct s, p; simpl; lia. Qed.

Lemma step_bound s p a x : 0 <= a -> 0 <= x -> (p = true -> x <= a) -> (p = false -> a <= x) ->
  0 <= step_mag s p a x <= a + x.
Proof. unfold step_mag. destruct s, p; simpl; intros; intuition lia. Qed.

Lemma exec_sel (c : bool) x y v : (if c then x else y) = v -> exec b (select (emb (Z.b2z c)) x y) = Some v.
Proof. intros <-. apply exec_select. Qed.

(** A selection between wires of known content. *)
Ltac known_if := rewrite ?not_emb, ?fsub_emb, ?fadd_emb;
  first [rewrite if_b2z; reflexivity
        |lazymatch goal with |- context [Z.b2z] =>
           change (emb 0) with (emb (Z.b2z false)); rewrite if_b2z; reflexivity end
        |rewrite if_emb; reflexivity].
Ltac ssel H :=
  let H1 := fresh "Hs" in let x := fresh "wx" in
  apply sat_bind in H as [x [H1 H]]; apply sat_sel in H1;
  let H2 := fresh "Hs" in
  eassert (H2 : _ = _) by (etransitivity; [exact H1|known_if]);
  rewrite H2 in H; clear H1 H2 x.
Ltac xsel := erewrite exec_bind_eq by (eapply exec_sel; known_if).

Context (HbK : 32 + b <= K).
Let HK : 44 <= K := width_K (b:=b).

Lemma normalize_sound si i sj j sk k r :
  0 <= i < 2 ^ (K - 4) -> 0 <= j < 2 ^ (K - 4) -> 0 <= k < 2 ^ (K - 4) ->
  sat b (NormalizeIJK (emb (Z.b2z si)) (emb i) (emb (Z.b2z sj)) (emb j) (emb (Z.b2z sk)) (emb k)) r ->
  r = embed3 (h3_normalize (signed si i, signed sj j, signed sk k)).
Proof.
  intros Hi Hj Hk H.
  assert (HR : 2 ^ (K - 1) = 2 ^ 3 * 2 ^ (K - 4)) by (rewrite <- Z.pow_add_r by lia; f_equal; lia).
  change (2 ^ 3) with 8 in HR. set (B := 2 ^ (K - 4)) in *. clearbody B.
  unfold NormalizeIJK in H.
  apply sat_bind in H as [? [H1 H]]. apply sat_pos_diff in H1; [|lia..].
  destruct H1 as [p1 [-> [P1 Q1]]].
  ssel H.
  ssel H.
  fold (step_mag sj p1 i j) in H.
  ssel H.
  fold (step_neg sj p1) in H.
  apply sat_bind in H as [? [H1 H]]. apply sat_pos_diff in H1; [|lia..].
  destruct H1 as [p2 [-> [P2 Q2]]].
  ssel H.
  ssel H.
  fold (step_mag sk p2 i k) in H.
  ssel H.
  fold (step_neg sk p2) in H.
  pose proof (step_value sj p1 i j P1 Q1) as V1. pose proof (step_value sk p2 i k P2 Q2) as V2.
  pose proof (step_bound sj p1 i j ltac:(lia) ltac:(lia) P1 Q1) as B1.
  pose proof (step_bound sk p2 i k ltac:(lia) ltac:(lia) P2 Q2) as B2.
  set (j1 := step_mag sj p1 i j) in *. set (k1 := step_mag sk p2 i k) in *.
  set (sj1 := step_neg sj p1) in *. set (sk1 := step_neg sk p2) in *.
  clearbody j1 k1 sj1 sk1. clear P1 Q1 P2 Q2 p1 p2.
  do 5 (ssel H).
  set (i2 := if si then 0 else i) in *. set (j2 := if si then j1 else j) in *.
  set (k2 := if si then k1 else k) in *. set (sj2 := if si then sj1 else sj) in *.
  set (sk2 := if si then sk1 else sk) in *.
  assert (E2 : exists t, t <= 0 /\ t <= signed si i /\ (t = 0 \/ t = signed si i) /\ i2 = signed si i - t /\
    signed sj2 j2 = signed sj j - t /\ signed sk2 k2 = signed sk k - t).
  { exists (if si then - i else 0). unfold i2, j2, k2, sj2, sk2. destruct si; simpl; lia. }
  assert (B3 : 0 <= i2 < B /\ 0 <= j2 < 2 * B /\ 0 <= k2 < 2 * B)
    by (unfold i2, j2, k2; destruct si; lia).
  clearbody i2 j2 k2 sj2 sk2. clear V1 V2 B1 B2 j1 k1 sj1 sk1.
  apply sat_bind in H as [? [H1 H]]. apply sat_pos_diff in H1; [|lia..].
  destruct H1 as [p3 [-> [P3 Q3]]].
  ssel H.
  ssel H.
  fold (step_mag sk2 p3 j2 k2) in H.
  ssel H.
  fold (step_neg sk2 p3) in H.
  pose proof (step_value sk2 p3 j2 k2 P3 Q3) as V3.
  pose proof (step_bound sk2 p3 j2 k2 ltac:(lia) ltac:(lia) P3 Q3) as B4.
  set (k3 := step_mag sk2 p3 j2 k2) in *. set (sk3 := step_neg sk2 p3) in *.
  clearbody k3 sk3. clear P3 Q3 p3.
  do 4 (ssel H).
  set (i4 := if sj2 then i2 + j2 else i2) in *. set (j4 := if sj2 then 0 else j2) in *.
  set (k4 := if sj2 then k3 else k2) in *. set (sk4 := if sj2 then sk3 else sk2) in *.
  assert (E4 : exists t, i4 = signed si i - t /\ j4 = signed sj j - t /\ signed sk4 k4 = signed sk k - t).
  { destruct E2 as [t E2]. exists (if sj2 then t - j2 else t). unfold i4, j4, k4, sk4. revert E2 V3.
    destruct sj2; [change (signed true j2) with (- j2)|change (signed false j2) with j2]; lia. }
  assert (B5 : 0 <= i4 < 3 * B /\ 0 <= j4 < 2 * B /\ 0 <= k4 < 4 * B)
    by (unfold i4, j4, k4; destruct sj2; lia).
  clearbody i4 j4 k4 sk4. clear V3 B4 E2 B3 k3 sk3.
  do 3 (ssel H).
  set (i5 := if sk4 then i4 + k4 else i4) in *. set (j5 := if sk4 then j4 + k4 else j4) in *.
  set (k5 := if sk4 then 0 else k4) in *.
  assert (E5 : exists t, i5 = signed si i - t /\ j5 = signed sj j - t /\ k5 = signed sk k - t).
  { destruct E4 as [t E4]. exists (if sk4 then t - k4 else t). unfold i5, j5, k5. revert E4.
    destruct sk4; [change (signed true k4) with (- k4)|change (signed false k4) with k4]; lia. }
  assert (B6 : 0 <= i5 < 7 * B /\ 0 <= j5 < 7 * B /\ 0 <= k5 < 7 * B)
    by (unfold i5, j5, k5; destruct sk4; lia).
  clearbody i5 j5 k5. clear E4 B5.
  apply sat_bind in H as [? [H1 H]]. apply sat_pos_diff in H1; [|lia..].
  destruct H1 as [p4 [-> [P4 Q4]]].
  ssel H.
  set (m := if p4 then j5 else i5) in *.
  assert (Hm : (m = i5 \/ m = j5) /\ m <= i5 /\ m <= j5) by (unfold m; destruct p4; lia).
  clearbody m.
  apply sat_bind in H as [? [H1 H]]. apply sat_pos_diff in H1; [|lia..].
  destruct H1 as [p5 [-> [P5 Q5]]].
  ssel H. rewrite !fsub_emb in H.
  set (m' := if p5 then k5 else m) in *.
  assert (Hm' : (m' = i5 \/ m' = j5 \/ m' = k5) /\ m' <= i5 /\ m' <= j5 /\ m' <= k5)
    by (unfold m'; destruct p5; lia).
  clearbody m'. apply sat_ret_inv in H. subst r.
  change (embed3 (i5 - m', j5 - m', k5 - m') =
    embed3 (h3_normalize (signed si i, signed sj j, signed sk k))).
  f_equal. apply (canonical_unique (signed si i, signed sj j, signed sk k)); [|apply h3_canonical].
  destruct E5 as [t E5]. unfold canonical. repeat split; try lia.
  exists (t + m'). lia.
Qed.

(** The same along the honest run. *)
Lemma normalize_complete si i sj j sk k :
  0 <= i < 2 ^ 31 -> 0 <= j < 2 ^ 31 -> 0 <= k < 2 ^ 31 ->
  exec b (NormalizeIJK (emb (Z.b2z si)) (emb i) (emb (Z.b2z sj)) (emb j) (emb (Z.b2z sk)) (emb k))
  = Some (embed3 (h3_normalize (signed si i, signed sj j, signed sk k))).
Proof.
  intros Hi Hj Hk. enough (Hx : exists r, exec b (NormalizeIJK (emb (Z.b2z si)) (emb i)
    (emb (Z.b2z sj)) (emb j) (emb (Z.b2z sk)) (emb k)) = Some r).
  { destruct Hx as [r Hr]. rewrite Hr. f_equal. pose proof (Z.pow_le_mono_r 2 31 (K - 4) ltac:(lia) ltac:(lia)). apply normalize_sound; try lia.
    apply exec_sat, Hr. }
  change (2 ^ 31) with 2147483648 in *. assert (E32 : 2 ^ 32 = 4294967296) by reflexivity.
  unfold NormalizeIJK.
  erewrite exec_bind_eq by (apply exec_pos_diff; lia).
  set (p1 := 0 <=? i - j) in *.
  assert (P1 : (p1 = true -> j <= i)) by (unfold p1; lia).
  assert (Q1 : (p1 = false -> i <= j)) by (unfold p1; lia). clearbody p1.
  xsel.
  xsel.
  fold (step_mag sj p1 i j).
  xsel.
  fold (step_neg sj p1).
  erewrite exec_bind_eq by (apply exec_pos_diff; lia).
  set (p2 := 0 <=? i - k) in *.
  assert (P2 : (p2 = true -> k <= i)) by (unfold p2; lia).
  assert (Q2 : (p2 = false -> i <= k)) by (unfold p2; lia). clearbody p2.
  xsel.
  xsel.
  fold (step_mag sk p2 i k).
  xsel.
  fold (step_neg sk p2).
  pose proof (step_value sj p1 i j P1 Q1) as V1. pose proof (step_value sk p2 i k P2 Q2) as V2.
  pose proof (step_bound sj p1 i j ltac:(lia) ltac:(lia) P1 Q1) as B1.
  pose proof (step_bound sk p2 i k ltac:(lia) ltac:(lia) P2 Q2) as B2.
  set (j1 := step_mag sj p1 i j) in *. set (k1 := step_mag sk p2 i k) in *.
  set (sj1 := step_neg sj p1) in *. set (sk1 := step_neg sk p2) in *.
  clearbody j1 k1 sj1 sk1. clear P1 Q1 P2 Q2 p1 p2.
  do 5 xsel.
  set (i2 := if si then 0 else i) in *. set (j2 := if si then j1 else j) in *.
  set (k2 := if si then k1 else k) in *. set (sj2 := if si then sj1 else sj) in *.
  set (sk2 := if si then sk1 else sk) in *.
  assert (E2 : exists t, i2 = signed si i - t /\
    signed sj2 j2 = signed sj j - t /\ signed sk2 k2 = signed sk k - t).
  { exists (if si then - i else 0). unfold i2, j2, k2, sj2, sk2. destruct si; simpl; lia. }
  assert (B3 : 0 <= i2 < 2147483648 /\ 0 <= j2 < 4294967296 /\ 0 <= k2 < 4294967296)
    by (unfold i2, j2, k2; destruct si; lia).
  clearbody i2 j2 k2 sj2 sk2. clear V1 V2 B1 B2 j1 k1 sj1 sk1.
  erewrite exec_bind_eq by (apply exec_pos_diff; lia).
  set (p3 := 0 <=? j2 - k2) in *.
  assert (P3 : (p3 = true -> k2 <= j2)) by (unfold p3; lia).
  assert (Q3 : (p3 = false -> j2 <= k2)) by (unfold p3; lia). clearbody p3.
  xsel.
  xsel.
  fold (step_mag sk2 p3 j2 k2).
  xsel.
  fold (step_neg sk2 p3).
  pose proof (step_value sk2 p3 j2 k2 P3 Q3) as V3.
  pose proof (step_bound sk2 p3 j2 k2 ltac:(lia) ltac:(lia) P3 Q3) as B4.
  set (k3 := step_mag sk2 p3 j2 k2) in *. set (sk3 := step_neg sk2 p3) in *.
  clearbody k3 sk3. clear P3 Q3 p3.
  do 4 xsel.
  set (i4 := if sj2 then i2 + j2 else i2) in *. set (j4 := if sj2 then 0 else j2) in *.
  set (k4 := if sj2 then k3 else k2) in *. set (sk4 := if sj2 then sk3 else sk2) in *.
  assert (E4 : exists t, i4 = signed si i - t /\ j4 = signed sj j - t /\ signed sk4 k4 = signed sk k - t).
  { destruct E2 as [t E2]. exists (if sj2 then t - j2 else t). unfold i4, j4, k4, sk4. revert E2 V3.
    destruct sj2; [change (signed true j2) with (- j2)|change (signed false j2) with j2]; lia. }
  clearbody i4 j4 k4 sk4. clear V3 B4 E2 B3 k3 sk3.
  do 3 xsel.
  set (i5 := if sk4 then i4 + k4 else i4) in *. set (j5 := if sk4 then j4 + k4 else j4) in *.
  set (k5 := if sk4 then 0 else k4) in *.
  assert (E5 : exists t, i5 = signed si i - t /\ j5 = signed sj j - t /\ k5 = signed sk k - t).
  { destruct E4 as [t E4]. exists (if sk4 then t - k4 else t). unfold i5, j5, k5. revert E4.
    destruct sk4; [change (signed true k4) with (- k4)|change (signed false k4) with k4]; lia. }
  clearbody i5 j5 k5. clear E4.
  assert (Hij : - 4294967296 < i5 - j5 < 4294967296 /\ - 4294967296 < i5 - k5 < 4294967296 /\
    - 4294967296 < j5 - k5 < 4294967296).
  { destruct E5 as [t E5]. revert E5. unfold signed. destruct si, sj, sk; lia. }
  erewrite exec_bind_eq by (apply exec_pos_diff; lia).
  xsel.
  erewrite exec_bind_eq by (apply exec_pos_diff; [lia..|]; destruct (0 <=? i5 - j5); lia).
  xsel. eexists. reflexivity.
Qed.

End Norm.
