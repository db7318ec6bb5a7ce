(** Every point of the sphere is close to the centre of a face. *)
From Coq Require Import ZArith Reals Lra Lia Bool List.
From Flocq Require Import Core BinarySingleNaN Operations.
From Verif Require Import FloatModel Spec Loc2Index TableFacts.
Import ListNotations.
Local Open Scope R_scope.

(** ** Moments of a list of vectors *)
Definition vec : Type := R * R * R.
Definition sum (g : vec -> R) (l : list vec) : R := fold_right (fun v s => g v + s) 0 l.
Definition mono (a b c : nat) (v : vec) : R := let '(x, y, z) := v in x ^ a * y ^ b * z ^ c.
Definition dot (v w : vec) : R := let '(x, y, z) := v in let '(a, b, c) := w in x * a + y * b + z * c.

Lemma sum_le g h l : (forall v, In v l -> g v <= h v) -> sum g l <= sum h l.
Proof.
  induction l as [|v l IH]; intros H; [apply Rle_refl|]. cbn [sum fold_right].
  apply Rplus_le_compat; [apply H; left; reflexivity|apply IH; intros; apply H; right; assumption].
Qed.

Lemma sum_scale k g l : sum (fun v => k * g v) l = k * sum g l.
Proof. induction l as [|v l IH]; cbn [sum fold_right]; [ring|]. fold (sum (fun v => k * g v) l). rewrite IH. unfold sum. ring. Qed.

Lemma sum_dot2 l x y z : sum (fun v => dot v (x, y, z) ^ 2) l =
  x ^ 2 * sum (mono 2 0 0) l + y ^ 2 * sum (mono 0 2 0) l + z ^ 2 * sum (mono 0 0 2) l +
  2 * (x * y) * sum (mono 1 1 0) l + 2 * (x * z) * sum (mono 1 0 1) l + 2 * (y * z) * sum (mono 0 1 1) l.
Proof.
  induction l as [|[[a b] c] l IH]; unfold sum in *; cbn [fold_right] in *; [ring|]. rewrite IH.
  unfold mono, dot. ring.
Qed.

Lemma sum_dot4 l x y z : sum (fun v => dot v (x, y, z) ^ 4) l =
  x ^ 4 * sum (mono 4 0 0) l + y ^ 4 * sum (mono 0 4 0) l + z ^ 4 * sum (mono 0 0 4) l +
  6 * (x ^ 2 * y ^ 2) * sum (mono 2 2 0) l + 6 * (x ^ 2 * z ^ 2) * sum (mono 2 0 2) l +
  6 * (y ^ 2 * z ^ 2) * sum (mono 0 2 2) l +
  4 * (x ^ 3 * y) * sum (mono 3 1 0) l + 4 * (x ^ 3 * z) * sum (mono 3 0 1) l +
  4 * (x * y ^ 3) * sum (mono 1 3 0) l + 4 * (y ^ 3 * z) * sum (mono 0 3 1) l +
  4 * (x * z ^ 3) * sum (mono 1 0 3) l + 4 * (y * z ^ 3) * sum (mono 0 1 3) l +
  12 * (x ^ 2 * y * z) * sum (mono 2 1 1) l + 12 * (x * y ^ 2 * z) * sum (mono 1 2 1) l +
  12 * (x * y * z ^ 2) * sum (mono 1 1 2) l.
Proof.
  induction l as [|[[a b] c] l IH]; unfold sum in *; cbn [fold_right] in *; [ring|]. rewrite IH.
  unfold mono, dot. ring.
Qed.

(** The moments of the vertices of a regular dodecahedron, up to [e]. *)
Definition balanced (e : R) (l : list vec) : Prop :=
  let m a b c := sum (mono a b c) l in
  near e (m 2 0 0)%nat (20 / 3) /\ near e (m 0 2 0)%nat (20 / 3) /\ near e (m 0 0 2)%nat (20 / 3) /\
  near e (m 1 1 0)%nat 0 /\ near e (m 1 0 1)%nat 0 /\ near e (m 0 1 1)%nat 0 /\
  near e (m 4 0 0)%nat 4 /\ near e (m 0 4 0)%nat 4 /\ near e (m 0 0 4)%nat 4 /\
  near e (m 2 2 0)%nat (4 / 3) /\ near e (m 2 0 2)%nat (4 / 3) /\ near e (m 0 2 2)%nat (4 / 3) /\
  near e (m 3 1 0)%nat 0 /\ near e (m 3 0 1)%nat 0 /\ near e (m 1 3 0)%nat 0 /\ near e (m 0 3 1)%nat 0 /\
  near e (m 1 0 3)%nat 0 /\ near e (m 0 1 3)%nat 0 /\
  near e (m 2 1 1)%nat 0 /\ near e (m 1 2 1)%nat 0 /\ near e (m 1 1 2)%nat 0.

(** Every vector has its opposite in the list. *)
Definition antipodal (e : R) (l : list vec) : Prop :=
  forall a b c, In (a, b, c) l -> exists a' b' c', In (a', b', c') l /\ near e a' (- a) /\ near e b' (- b) /\ near e c' (- c).

Lemma term_near c t m v e : Rabs t <= 1 -> 0 <= c -> near e m v -> Rabs (c * t * m - c * t * v) <= c * e.
Proof.
  unfold near. intros T C H. replace (c * t * m - c * t * v) with (c * (t * (m - v))) by ring.
  rewrite Rabs_mult, (Rabs_pos_eq c) by exact C. apply Rmult_le_compat_l; [exact C|].
  rewrite Rabs_mult. apply Rle_trans with (1 * e); [apply Rmult_le_compat; auto using Rabs_pos|lra].
Qed.

Lemma mono_small x y z a b c : Rabs x <= 1 -> Rabs y <= 1 -> Rabs z <= 1 -> Rabs (x ^ a * y ^ b * z ^ c) <= 1.
Proof.
  intros X Y Z. assert (P : forall t n, Rabs t <= 1 -> 0 <= Rabs (t ^ n) <= 1).
  { intros t n T. split; [apply Rabs_pos|]. rewrite <- RPow_abs. rewrite <- (pow1 n). apply pow_incr. split; [apply Rabs_pos|exact T]. }
  rewrite !Rabs_mult. destruct (P x a X), (P y b Y), (P z c Z).
  assert (0 <= Rabs (x ^ a) * Rabs (y ^ b) <= 1).
  { split; [apply Rmult_le_pos; assumption|]. replace 1 with (1 * 1) by ring. apply Rmult_le_compat; assumption. }
  replace 1 with (1 * 1) by ring. apply Rmult_le_compat; lra.
Qed.

Theorem covering e l x y z : balanced e l -> antipodal e l -> 0 <= e <= 1 / 100000 ->
  x * x + y * y + z * z = 1 -> exists v, In v l /\ 772 / 1000 <= dot v (x, y, z).
Proof.
  intros B A He U.
  destruct (Exists_dec (fun v => 772 / 1000 <= dot v (x, y, z)) l) as [H|H].
  { intros v. destruct (Rle_dec (772 / 1000) (dot v (x, y, z))); [left; assumption|right; assumption]. }
  { apply Exists_exists in H as (v & Hv & H). exists v. auto. }
  exfalso. apply Forall_Exists_neg in H. rewrite Forall_forall in H.
  assert (X : Rabs x <= 1) by (apply Rabs_le; nra).
  assert (Y : Rabs y <= 1) by (apply Rabs_le; nra).
  assert (Z : Rabs z <= 1) by (apply Rabs_le; nra).
  assert (T : forall v, In v l -> dot v (x, y, z) ^ 2 <= 597 / 1000).
  { intros [[a b] c] Hv. pose proof (H _ Hv) as H1. cbn [dot] in *.
    destruct (A a b c Hv) as (a' & b' & c' & Hv' & Ea & Eb & Ec). pose proof (H _ Hv') as H2. cbn [dot] in H2.
    unfold near in *. 
    assert (Q : Rabs ((a' + a) * x + (b' + b) * y + (c' + c) * z) <= 3 * e).
    { assert (P : forall p t, Rabs (p - t) <= e -> forall w, Rabs w <= 1 -> Rabs ((p - t) * w) <= e).
      { intros p t Hp w Hw. rewrite Rabs_mult. apply Rle_trans with (e * 1); [apply Rmult_le_compat; auto using Rabs_pos|lra]. }
      pose proof (P _ _ Ea _ X) as Q1. pose proof (P _ _ Eb _ Y) as Q2. pose proof (P _ _ Ec _ Z) as Q3.
      replace ((a' + a) * x + (b' + b) * y + (c' + c) * z) with ((a' - - a) * x + ((b' - - b) * y + (c' - - c) * z)) by ring.
      eapply Rle_trans; [apply Rabs_triang|]. eapply Rle_trans; [apply Rplus_le_compat_l, Rabs_triang|]. lra. }
    apply Rabs_le_inv in Q. set (t := a * x + b * y + c * z) in *.
    assert (a' * x + b' * y + c' * z = (a' + a) * x + (b' + b) * y + (c' + c) * z - t) by (unfold t; ring).
    assert (-7721 / 10000 <= t <= 7721 / 10000) by lra. simpl. nra. }
  assert (S : sum (fun v => dot v (x, y, z) ^ 4) l <= 597 / 1000 * sum (fun v => dot v (x, y, z) ^ 2) l).
  { rewrite <- sum_scale. apply sum_le. intros v Hv. specialize (T v Hv).
    replace (dot v (x, y, z) ^ 4) with (dot v (x, y, z) ^ 2 * dot v (x, y, z) ^ 2) by ring.
    apply Rmult_le_compat_r; [apply pow2_ge_0|exact T]. }
  rewrite sum_dot4, sum_dot2 in S.
  destruct B as (B1 & B2 & B3 & B4 & B5 & B6 & B7 & B8 & B9 & B10 & B11 & B12 & B13 & B14 & B15 & B16 & B17 & B18 & B19 & B20 & B21).
  assert (ms : forall a b c, Rabs (x ^ a * y ^ b * z ^ c) <= 1) by (intros; apply mono_small; assumption).
  assert (K : forall k a b c m v t, x ^ a * y ^ b * z ^ c = t -> 0 <= k -> near e m v ->
    k * t * v - k * e <= k * t * m <= k * t * v + k * e).
  { intros k a b c m v t Ht Hk Hm. pose proof (term_near k t m v e ltac:(rewrite <- Ht; apply ms) Hk Hm) as Q.
    apply Rabs_le_inv in Q. lra. }
  pose proof (K 1 2%nat 0%nat 0%nat _ _ (x ^ 2) ltac:(ring) ltac:(lra) B1) as C1.
  pose proof (K 1 0%nat 2%nat 0%nat _ _ (y ^ 2) ltac:(ring) ltac:(lra) B2) as C2.
  pose proof (K 1 0%nat 0%nat 2%nat _ _ (z ^ 2) ltac:(ring) ltac:(lra) B3) as C3.
  pose proof (K 2 1%nat 1%nat 0%nat _ _ (x * y) ltac:(ring) ltac:(lra) B4) as C4.
  pose proof (K 2 1%nat 0%nat 1%nat _ _ (x * z) ltac:(ring) ltac:(lra) B5) as C5.
  pose proof (K 2 0%nat 1%nat 1%nat _ _ (y * z) ltac:(ring) ltac:(lra) B6) as C6.
  pose proof (K 1 4%nat 0%nat 0%nat _ _ (x ^ 4) ltac:(ring) ltac:(lra) B7) as C7.
  pose proof (K 1 0%nat 4%nat 0%nat _ _ (y ^ 4) ltac:(ring) ltac:(lra) B8) as C8.
  pose proof (K 1 0%nat 0%nat 4%nat _ _ (z ^ 4) ltac:(ring) ltac:(lra) B9) as C9.
  pose proof (K 6 2%nat 2%nat 0%nat _ _ (x ^ 2 * y ^ 2) ltac:(ring) ltac:(lra) B10) as C10.
  pose proof (K 6 2%nat 0%nat 2%nat _ _ (x ^ 2 * z ^ 2) ltac:(ring) ltac:(lra) B11) as C11.
  pose proof (K 6 0%nat 2%nat 2%nat _ _ (y ^ 2 * z ^ 2) ltac:(ring) ltac:(lra) B12) as C12.
  pose proof (K 4 3%nat 1%nat 0%nat _ _ (x ^ 3 * y) ltac:(ring) ltac:(lra) B13) as C13.
  pose proof (K 4 3%nat 0%nat 1%nat _ _ (x ^ 3 * z) ltac:(ring) ltac:(lra) B14) as C14.
  pose proof (K 4 1%nat 3%nat 0%nat _ _ (x * y ^ 3) ltac:(ring) ltac:(lra) B15) as C15.
  pose proof (K 4 0%nat 3%nat 1%nat _ _ (y ^ 3 * z) ltac:(ring) ltac:(lra) B16) as C16.
  pose proof (K 4 1%nat 0%nat 3%nat _ _ (x * z ^ 3) ltac:(ring) ltac:(lra) B17) as C17.
  pose proof (K 4 0%nat 1%nat 3%nat _ _ (y * z ^ 3) ltac:(ring) ltac:(lra) B18) as C18.
  pose proof (K 12 2%nat 1%nat 1%nat _ _ (x ^ 2 * y * z) ltac:(ring) ltac:(lra) B19) as C19.
  pose proof (K 12 1%nat 2%nat 1%nat _ _ (x * y ^ 2 * z) ltac:(ring) ltac:(lra) B20) as C20.
  pose proof (K 12 1%nat 1%nat 2%nat _ _ (x * y * z ^ 2) ltac:(ring) ltac:(lra) B21) as C21.
  assert (U2 : x ^ 2 + y ^ 2 + z ^ 2 = 1) by (simpl; lra).
  assert (U4 : x ^ 4 + y ^ 4 + z ^ 4 + 2 * (x ^ 2 * y ^ 2) + 2 * (x ^ 2 * z ^ 2) + 2 * (y ^ 2 * z ^ 2) = 1).
  { replace 1 with ((x ^ 2 + y ^ 2 + z ^ 2) * (x ^ 2 + y ^ 2 + z ^ 2)) by (rewrite U2; ring). ring. }
  clear - S He U2 U4 C1 C2 C3 C4 C5 C6 C7 C8 C9 C10 C11 C12 C13 C14 C15 C16 C17 C18 C19 C20 C21. lra.
Qed.

(** ** Checking the tables *)
Section Check.
Context {E M : Z} {HF : Format E M}.
Notation fvl := (fv (E:=E) (M:=M)).
Definition centre_vec (f : face) : vec := (val (E:=E) (M:=M) (centre_x f), val (E:=E) (M:=M) (centre_y f), val (E:=E) (M:=M) (centre_z f)).
Fixpoint fpow (x : flt) (n : nat) : flt := match n with O => fz 1 | S n => Fmult x (fpow x n) end.
Definition fmono (a b c : nat) (f : face) : flt :=
  Fmult (Fmult (fpow (fvl (centre_x f)) a) (fpow (fvl (centre_y f)) b)) (fpow (fvl (centre_z f)) c).
Definition fsum (a b c : nat) (l : list face) : flt := fold_right (fun f s => Fplus (fmono a b c f) s) (fz 0) l.

Lemma fpow_val x n : F2R (fpow x n) = F2R x ^ n.
Proof. induction n as [|n IH]; [apply fz_val|]. cbn [fpow]. rewrite F2R_mult, IH. reflexivity. Qed.

Lemma fsum_val a b c l : F2R (fsum a b c l) = sum (mono a b c) (map centre_vec l).
Proof.
  induction l as [|f l IH]; [apply fz_val|]. cbn [fsum fold_right map sum].
  fold (fsum a b c l). fold (sum (mono a b c) (map centre_vec l)). rewrite F2R_plus, IH. f_equal.
  unfold fmono. rewrite !F2R_mult, !fpow_val, !fv_val. reflexivity.
Qed.

Variable j : Z.
Notation eps := (bpow radix2 (- j)).
Definition momentb (l : list face) (t : nat * nat * nat * Z * Z) : bool :=
  let '(a, b, c, n, d) := t in nearq j d n (fsum a b c l).
Definition moments : list (nat * nat * nat * Z * Z) :=
  [(2,0,0,20%Z,3%Z); (0,2,0,20%Z,3%Z); (0,0,2,20%Z,3%Z); (1,1,0,0%Z,1%Z); (1,0,1,0%Z,1%Z); (0,1,1,0%Z,1%Z);
   (4,0,0,4%Z,1%Z); (0,4,0,4%Z,1%Z); (0,0,4,4%Z,1%Z); (2,2,0,4%Z,3%Z); (2,0,2,4%Z,3%Z); (0,2,2,4%Z,3%Z);
   (3,1,0,0%Z,1%Z); (3,0,1,0%Z,1%Z); (1,3,0,0%Z,1%Z); (0,3,1,0%Z,1%Z); (1,0,3,0%Z,1%Z); (0,1,3,0%Z,1%Z);
   (2,1,1,0%Z,1%Z); (1,2,1,0%Z,1%Z); (1,1,2,0%Z,1%Z)]%nat.
Definition oppositeb (f g : face) : bool :=
  tiny 1 j (Fplus (fvl (centre_x g)) (fvl (centre_x f))) && tiny 1 j (Fplus (fvl (centre_y g)) (fvl (centre_y f))) &&
  tiny 1 j (Fplus (fvl (centre_z g)) (fvl (centre_z f))).
Definition coveringb (l : list face) : bool :=
  forallb (momentb l) moments && forallb (fun f => existsb (oppositeb f) l) l.

Lemma coveringb_spec l : coveringb l = true -> balanced eps (map centre_vec l) /\ antipodal eps (map centre_vec l).
Proof.
  intros H. apply andb_prop in H as [H1 H2]. split.
  - assert (K : forall t, In t moments -> let '(a, b, c, n, d) := t in (0 < d)%Z -> near eps (sum (mono a b c) (map centre_vec l)) (IZR n / IZR d)).
    { intros [[[[a b] c] n] d] Ht Hd. pose proof (proj1 (forallb_forall _ _) H1 _ Ht) as Q. cbn [momentb] in Q.
      apply nearq_spec in Q; [|exact Hd]. rewrite fsum_val in Q. exact Q. }
    assert (D0 : 0 / 1 = 0) by field. assert (D4 : 4 / 1 = 4) by field.
    unfold balanced.
    repeat match goal with |- near _ (sum (mono ?a ?b ?c) _) (?n / ?d) /\ _ =>
        split; [refine (K (a, b, c, _, _) _ _); [cbn; tauto|lia]|]
      | |- near _ (sum (mono ?a ?b ?c) _) 0 /\ _ =>
        split; [rewrite <- D0; refine (K (a, b, c, 0%Z, 1%Z) _ _); [cbn; tauto|lia]|]
      | |- near _ (sum (mono ?a ?b ?c) _) 4 /\ _ =>
        split; [rewrite <- D4; refine (K (a, b, c, 4%Z, 1%Z) _ _); [cbn; tauto|lia]|] end.
    rewrite <- D0; refine (K (1, 1, 2, 0%Z, 1%Z)%nat _ _); [cbn; tauto|lia].
  - intros a b c Hv. apply in_map_iff in Hv as (f & Ef & Hf). injection Ef as <- <- <-.
    pose proof (proj1 (forallb_forall _ _) H2 f Hf) as Q. apply existsb_exists in Q as (g & Hg & Q).
    apply andb_prop in Q as [Q Q3]. apply andb_prop in Q as [Q1 Q2].
    apply tiny_spec in Q1, Q2, Q3. rewrite F2R_plus, !fv_val, Rmult_1_l in Q1, Q2, Q3.
    exists (val (E:=E) (M:=M) (centre_x g)), (val (E:=E) (M:=M) (centre_y g)), (val (E:=E) (M:=M) (centre_z g)).
    split; [apply in_map_iff; exists g; split; [reflexivity|exact Hg]|].
    unfold near. unfold Rminus. rewrite !Ropp_involutive. auto.
Qed.
End Check.
