(** Distance between a polynomial with dyadic coefficients and the arctangent on
    [0, 1]: the derivative of the difference is bounded by subdivision, in
    integer arithmetic. *)
From Coq Require Import ZArith Reals Lra Lia Bool List.
From Flocq Require Import Core.
From Verif Require Import MathSpec ErrorFacts.
Import ListNotations.
Local Open Scope Z_scope.

(** ** Polynomials with integer coefficients, constant first *)

Definition polyZ (p : list Z) (x : R) : R := poly (map IZR p) x.

Fixpoint padd (p q : list Z) : list Z :=
  match p, q with
  | [], _ => q
  | _, [] => p
  | c :: p', d :: q' => (c + d) :: padd p' q'
  end.
Definition pscale (k : Z) (p : list Z) : list Z := map (Z.mul k) p.
(** The derivative. *)
Fixpoint pderiv (p : list Z) : list Z :=
  match p with [] => [] | _ :: p' => padd p' (0 :: pderiv p') end.
(** [n^(length p) * p (x / n)]. *)
Fixpoint pstretch (n : Z) (p : list Z) : list Z :=
  match p with
  | [] => []
  | c :: p' => c * n ^ Z.of_nat (S (length p')) :: pstretch n p'
  end.
(** [p (k + x)]. *)
Fixpoint pshift (k : Z) (p : list Z) : list Z :=
  match p with
  | [] => []
  | c :: p' => let s := pshift k p' in padd [c] (padd (pscale k s) (0 :: s))
  end.
Definition psum (p : list Z) : Z := fold_right (fun c acc => Z.abs c + acc) 0 p.

Lemma polyZ_cons c p x : polyZ (c :: p) x = (IZR c + x * polyZ p x)%R.
Proof. reflexivity. Qed.
Lemma polyZ_nil x : polyZ [] x = 0%R.
Proof. reflexivity. Qed.

Lemma padd_value p : forall q x, polyZ (padd p q) x = (polyZ p x + polyZ q x)%R.
Proof.
  induction p as [|c p IH]; intros [|d q] x; cbn [padd]; rewrite ?polyZ_cons, ?polyZ_nil; try ring.
  rewrite IH, plus_IZR. ring.
Qed.
Lemma pscale_value k p x : polyZ (pscale k p) x = (IZR k * polyZ p x)%R.
Proof.
  induction p as [|c p IH]; unfold pscale in *; cbn [map]; rewrite ?polyZ_cons, ?polyZ_nil; [ring|].
  rewrite IH, mult_IZR. ring.
Qed.
Lemma pstretch_value n p x : 0 < n ->
  polyZ (pstretch n p) x = (IZR n ^ length p * polyZ p (x / IZR n))%R.
Proof.
  intros Hn. assert (Hn' : (IZR n <> 0)%R) by (apply IZR_neq; lia).
  induction p as [|c p IH]; cbn [pstretch length]; rewrite ?polyZ_cons, ?polyZ_nil; [ring|].
  rewrite IH, mult_IZR, <- pow_IZR. cbn [pow]. field. exact Hn'.
Qed.
Lemma pshift_value k p x : polyZ (pshift k p) x = polyZ p (IZR k + x).
Proof.
  induction p as [|c p IH]; cbn [pshift]; rewrite ?polyZ_cons, ?polyZ_nil; [reflexivity|].
  rewrite !padd_value, pscale_value, !polyZ_cons, polyZ_nil, IH. ring.
Qed.
Lemma psum_bound p x : (Rabs x <= 1)%R -> (Rabs (polyZ p x) <= IZR (psum p))%R.
Proof.
  intros Hx. induction p as [|c p IH]; cbn [psum fold_right]; rewrite ?polyZ_cons, ?polyZ_nil.
  - rewrite Rabs_R0. lra.
  - fold (psum p). rewrite plus_IZR, abs_IZR. eapply Rle_trans; [apply Rabs_triang|].
    rewrite Rabs_mult. pose proof (Rabs_pos (polyZ p x)). pose proof (Rabs_pos x). nra.
Qed.
Lemma pderiv_value p x : derivable_pt_lim (polyZ p) x (polyZ (pderiv p) x).
Proof.
  induction p as [|c p IH]; cbn [pderiv].
  - apply (derivable_pt_lim_const 0 x).
  - rewrite padd_value, polyZ_cons. 
    replace (polyZ p x + (0 + x * polyZ (pderiv p) x))%R
      with (0 + (1 * polyZ p x + x * polyZ (pderiv p) x))%R by ring.
    apply (derivable_pt_lim_plus (fct_cte (IZR c)) (id * polyZ p)%F x);
      [apply derivable_pt_lim_const|].
    apply (derivable_pt_lim_mult id (polyZ p) x); [apply derivable_pt_lim_id|exact IH].
Qed.

(** ** A bound on [0, 1] *)

(** [p] within [-B, B] on the [m] intervals of length two from -1 on. *)
Fixpoint bounded_from (m : nat) (p : list Z) (B : Z) : bool :=
  match m with
  | O => true
  | S m' => (psum p <=? B) && bounded_from m' (pshift 2 p) B
  end.
Definition bounded_on_unit (n : nat) (p : list Z) (B : Z) : bool :=
  let N := 2 * Z.of_nat n in
  bounded_from n (pshift 1 (pstretch N p)) (B * N ^ Z.of_nat (length p)).

Lemma bounded_from_spec B m : forall p x, (0 < m)%nat -> bounded_from m p B = true ->
  (-1 <= x <= 2 * INR m - 1)%R -> (Rabs (polyZ p x) <= IZR B)%R.
Proof.
  induction m as [|m IH]; intros p x Hm H Hx; [lia|]. cbn [bounded_from] in H.
  apply andb_true_iff in H. destruct H as [H1 H2]. apply Z.leb_le, IZR_le in H1. rewrite S_INR in Hx.
  destruct (Rle_lt_dec x 1) as [C|C].
  - eapply Rle_trans; [apply psum_bound, Rabs_le; lra|exact H1].
  - assert (Hm' : (0 < m)%nat) by (destruct m; [cbn in Hx; lra|lia]).
    specialize (IH (pshift 2 p) (x - 2)%R Hm' H2 ltac:(lra)). rewrite pshift_value in IH.
    replace (2 + (x - 2))%R with x in IH by ring. exact IH.
Qed.

Lemma bounded_on_unit_spec n p B x : (0 < n)%nat -> bounded_on_unit n p B = true ->
  (0 <= x <= 1)%R -> (Rabs (polyZ p x) <= IZR B)%R.
Proof.
  intros Hn H Hx. unfold bounded_on_unit in H. set (N := 2 * Z.of_nat n) in *.
  assert (HN : IZR N = (2 * INR n)%R) by (unfold N; rewrite mult_IZR, <- INR_IZR_INZ; reflexivity).
  assert (HN0 : (0 < IZR N)%R) by (apply IZR_lt; lia).
  assert (HP : (0 < IZR N ^ length p)%R) by (apply pow_lt, HN0).
  pose proof (bounded_from_spec _ _ _ (IZR N * x - 1)%R Hn H) as HB.
  rewrite pshift_value, pstretch_value in HB by lia.
  replace ((1 + (IZR N * x - 1)) / IZR N)%R with x in HB by (field; lra).
  rewrite mult_IZR, <- pow_IZR, Rabs_mult, (Rabs_pos_eq (_ ^ _)) in HB by lra.
  apply Rmult_le_reg_l with (IZR N ^ length p)%R; [exact HP|].
  rewrite (Rmult_comm _ (IZR B)). apply HB. nra.
Qed.

(** ** The arctangent *)

(** [2^s] times [p' (x) (1 + x^2) - 1] for [p] over [2^s]. *)
Definition atan_defect (s : Z) (p : list Z) : list Z :=
  let d := pderiv p in padd (padd d (0 :: 0 :: d)) [- 2 ^ s].

Lemma atan_defect_value s p x : 0 <= s ->
  polyZ (atan_defect s p) x = (polyZ (pderiv p) x * (1 + x * x) - IZR (2 ^ s))%R.
Proof.
  intros Hs. unfold atan_defect. cbv zeta. rewrite !padd_value, !polyZ_cons, polyZ_nil, opp_IZR. ring.
Qed.

(** A polynomial over [2^s] whose defect is at most [B / 2^s] on [0, 1]. *)
Theorem atan_poly_error s p n B x : 0 <= s -> (0 < n)%nat ->
  bounded_on_unit n (atan_defect s p) B = true -> (0 <= x <= 1)%R ->
  (Rabs (polyZ p x / IZR (2 ^ s) - atan x) <= IZR (Z.abs (hd 0%Z p) + B) / IZR (2 ^ s))%R.
Proof.
  intros Hs Hn HB Hx.
  assert (HS : (0 < IZR (2 ^ s))%R) by (apply IZR_lt, Z.pow_pos_nonneg; lia).
  set (S := IZR (2 ^ s)) in *.
  assert (B0 : (0 <= IZR B)%R).
  { eapply Rle_trans; [apply Rabs_pos|]. exact (bounded_on_unit_spec n _ B 0 Hn HB ltac:(lra)). }
  assert (H0 : (polyZ p 0 = IZR (hd 0%Z p))%R).
  { destruct p as [|c p]; [reflexivity|]. rewrite polyZ_cons. cbn [hd]. ring. }
  set (f := fun x => (polyZ p x * / S - atan x)%R).
  set (f' := fun x => (polyZ (pderiv p) x * / S - / (1 + x ^ 2))%R).
  assert (Hf : forall c, derivable_pt_lim f c (f' c)).
  { intros c. unfold f, f'.
    apply (derivable_pt_lim_minus (fun x => polyZ p x * / S)%R atan c); [|apply derivable_pt_lim_atan].
    replace (polyZ (pderiv p) c * / S)%R with (polyZ (pderiv p) c * / S + polyZ p c * 0)%R by ring.
    apply (derivable_pt_lim_mult (polyZ p) (fct_cte (/ S)) c); [apply pderiv_value|].
    apply derivable_pt_lim_const. }
  assert (Hf0 : f 0%R = (IZR (hd 0%Z p) / S)%R).
  { unfold f. rewrite H0, atan_0. unfold Rdiv. ring. }
  assert (Hb : forall c, (0 <= c <= 1)%R -> (Rabs (f' c) <= IZR B / S)%R).
  { intros c Hc. pose proof (bounded_on_unit_spec n _ B c Hn HB Hc) as D.
    rewrite atan_defect_value in D by exact Hs. fold S in D. unfold f'. replace (c ^ 2)%R with (c * c)%R by ring.
    assert (HQ : (1 <= 1 + c * c)%R) by nra.
    replace (polyZ (pderiv p) c * / S - / (1 + c * c))%R
      with ((polyZ (pderiv p) c * (1 + c * c) - S) * (/ S * / (1 + c * c)))%R by (field; lra).
    assert (HI : (0 < / S)%R) by (apply Rinv_0_lt_compat, HS).
    assert (HI2 : (0 < / (1 + c * c) <= 1)%R).
    { split; [apply Rinv_0_lt_compat; lra|]. rewrite <- Rinv_1. apply Rinv_le; lra. }
    rewrite Rabs_mult, (Rabs_pos_eq (/ S * _)) by nra. unfold Rdiv.
    apply Rmult_le_compat; try apply Rabs_pos; [nra|exact D|nra]. }
  replace (polyZ p x / S - atan x)%R with (f x) by reflexivity.
  rewrite plus_IZR, abs_IZR. unfold Rdiv. rewrite Rmult_plus_distr_r.
  assert (HI : (0 < / S)%R) by (apply Rinv_0_lt_compat, HS).
  destruct (Rle_lt_or_eq_dec 0 x (proj1 Hx)) as [Hp|He].
  - destruct (MVT_cor2 f f' 0 x Hp (fun c _ => Hf c)) as (c & Hc & Hc2).
    replace (f x) with (f 0%R + f' c * (x - 0))%R by lra.
    eapply Rle_trans; [apply Rabs_triang|]. apply Rplus_le_compat.
    + rewrite Hf0. unfold Rdiv. rewrite Rabs_mult, (Rabs_pos_eq (/ S)) by lra. lra.
    + rewrite Rabs_mult, (Rabs_pos_eq (x - 0)) by lra. pose proof (Hb c ltac:(lra)) as D. unfold Rdiv in D.
      pose proof (Rabs_pos (f' c)). nra.
  - rewrite <- He, Hf0. unfold Rdiv. rewrite Rabs_mult, (Rabs_pos_eq (/ S)) by lra.
    assert (0 <= IZR B * / S)%R by nra. lra.
Qed.

(** ** Facts about the arctangent *)

Lemma atan_pos x : (0 <= x)%R -> (0 <= atan x)%R.
Proof.
  intros [H| <-]; [|rewrite atan_0; lra]. rewrite <- atan_0. apply Rlt_le, atan_increasing, H.
Qed.

Lemma atan_lip x y : (Rabs (atan x - atan y) <= Rabs (x - y))%R.
Proof.
  assert (H : forall a c, (a < c)%R -> (Rabs (atan c - atan a) <= Rabs (c - a))%R).
  { intros a c Hac. destruct (MVT_cor2 atan (fun z => / (1 + z ^ 2))%R a c Hac
      (fun z _ => derivable_pt_lim_atan z)) as (z & -> & _).
    assert (HI : (0 < / (1 + z ^ 2) <= 1)%R).
    { pose proof (pow2_ge_0 z). split; [apply Rinv_0_lt_compat; lra|]. rewrite <- Rinv_1. apply Rinv_le; lra. }
    rewrite Rabs_mult, (Rabs_pos_eq (/ _)) by lra. pose proof (Rabs_pos (c - a)). nra. }
  destruct (Rtotal_order x y) as [C|[C|C]].
  - rewrite Rabs_minus_sym, (Rabs_minus_sym x). apply H, C.
  - subst y. rewrite !Rminus_eq_0. lra.
  - apply H, C.
Qed.

Lemma atan_abs x : atan (Rabs x) = Rabs (atan x).
Proof.
  destruct (Rle_lt_dec 0 x) as [C|C].
  - rewrite !Rabs_pos_eq; [reflexivity|apply atan_pos, C|exact C].
  - rewrite Rabs_left by exact C. rewrite atan_opp, Rabs_left1; [reflexivity|].
    rewrite <- atan_0. apply Rlt_le, atan_increasing, C.
Qed.
