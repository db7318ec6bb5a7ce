(** The log-derivative lookup argument behind the deferred range checks and the
    powers-of-two table.

    gadget/rangecheck.go:118-119 and gadget/gadget.go:33-35 call
    [logderivarg.Build(api, table, queries)] of gnark's standard library (a
    dependency, not part of the repository), which for one-column tables

    - asks the prover how often each table entry is queried ([countHint]),
    - obtains a challenge [x] from a commitment to all values so far,
    - asserts [sum_j mult_j / (x - table_j) = sum_i 1 / (x - query_i)], with
      [DivUnchecked] on the left and [Inverse] on the right. *)
From Coq Require Import ZArith Znumtheory List Bool Lia.
From Verif Require Import Field FieldFacts Circuit CircuitFacts RangeCheck Deferred Prime.
Import ListNotations.
Local Open Scope Z_scope.

Section Model.
Context {MOD : Modulus}.

(** [api.DivUnchecked e d]: a wire [w] with [w * d = e]; [0 / 0] leaves it free. *)
Definition div_unchecked (e d : Z) : circ Z :=
  w <- hint1 (Some (fmul e (inv_mod modulus d))) ;;
  assert (fmul w d =? e) ;;; Ret w.

Fixpoint sum_table (x : Z) (entries : list (Z * Z)) : circ Z :=
  match entries with
  | [] => Ret (emb 0)
  | (m, t) :: es =>
      w <- div_unchecked m (fsub x t) ;;
      s <- sum_table x es ;; Ret (fadd w s)
  end.

Fixpoint sum_queries (x : Z) (queries : list Z) : circ Z :=
  match queries with
  | [] => Ret (emb 0)
  | q :: qs =>
      w <- inverse (fsub x q) ;;
      s <- sum_queries x qs ;; Ret (fadd w s)
  end.

(** The assertion for challenge [x], given the multiplicities. *)
Definition lookup_argument (table mults queries : list Z) (x : Z) : circ unit :=
  lp <- sum_table x (combine mults table) ;;
  rp <- sum_queries x queries ;;
  assert_eq lp rp.

(** [countHint] *)
Definition countHint (table queries : list Z) : list Z :=
  map (fun t => Z.of_nat (count_occ Z.eq_dec queries t)) table.

(** gadget/rangecheck.go:51-57 *)
Definition buildTable (baseLength : Z) : list Z := map emb (zseq (2 ^ baseLength)).

(** The circuit with its lookup arguments: what the prover fixes before the
    challenge is known ([tape] and [limbs]: all hints of the circuit and of the
    range checker; the multiplicities of both tables), and the challenge.  Wires
    are field elements. *)
Definition wires_ok (ws : list Z) : Prop := Forall (fun w => 0 <= w < modulus) ws.
Definition queries_of (s : Z) (qs : list (Z * Z)) : list Z :=
  map snd (filter (fun q => fst q =? s) qs).
Definition passes (size : Z) (ft : frontend_type) {A} (c : circ A) (r : A)
    (tape limbs rmults : list Z) (pmults : Z -> list Z) (x : Z) : Prop :=
  exists cs qs ds,
    trace c tape = Some (r, cs, qs, []) /\
    trace (commit_items (baseLength size ft cs) cs) limbs = Some (ds, [], [], []) /\
    wires_ok ds /\ wires_ok (map snd qs) /\
    (cs <> [] -> satG no_check
       (lookup_argument (buildTable (baseLength size ft cs)) rmults ds x) tt) /\
    (forall s, satG no_check
       (lookup_argument (pow2_entries s) (pmults s) (queries_of s qs) x) tt).

End Model.

(** ** Polynomials modulo a prime *)
Fixpoint peval (l : list Z) (x : Z) : Z :=
  match l with [] => 0 | a :: t => a + x * peval t x end.
Fixpoint padd (l m : list Z) : list Z :=
  match l, m with
  | [], _ => m
  | _, [] => l
  | a :: l', b :: m' => (a + b) :: padd l' m'
  end.
Definition pscale (c : Z) (l : list Z) : list Z := map (Z.mul c) l.
(** Product of the [X - v]. *)
Fixpoint proots (vs : list Z) : list Z :=
  match vs with
  | [] => [1]
  | v :: t => padd (0 :: proots t) (pscale (- v) (proots t))
  end.

Lemma peval_add l : forall m x, peval (padd l m) x = peval l x + peval m x.
Proof.
  induction l as [|a l IH]; intros [|b m] x; cbn [padd peval]; try lia. rewrite IH. ring.
Qed.
Lemma peval_scale c l x : peval (pscale c l) x = c * peval l x.
Proof. induction l as [|a l IH]; cbn [pscale map peval]; [lia|]. fold (pscale c l). rewrite IH. ring. Qed.
Lemma peval_roots vs x : peval (proots vs) x = product (map (fun v => x - v) vs).
Proof.
  induction vs as [|v t IH]; [cbn [proots peval map]; change (product []) with 1; ring|]. cbn [proots]. rewrite peval_add, peval_scale. cbn [peval map].
  change (product (x - v :: map (fun v => x - v) t)) with ((x - v) * product (map (fun v => x - v) t)).
  rewrite <- IH. ring.
Qed.
Lemma length_add l : forall m, length (padd l m) = Nat.max (length l) (length m).
Proof. induction l as [|a l IH]; intros [|b m]; cbn [padd length]; try lia. rewrite IH. lia. Qed.
Lemma length_roots vs : length (proots vs) = S (length vs).
Proof.
  induction vs as [|v t IH]; [reflexivity|]. cbn [proots]. rewrite length_add. unfold pscale.
  rewrite map_length. cbn [length]. rewrite IH. lia.
Qed.

Lemma divide_root l x0 : l <> [] -> exists q, length q = pred (length l) /\
  forall y, peval l y = (y - x0) * peval q y + peval l x0.
Proof.
  induction l as [|a l IH]; intros H; [congruence|]. destruct l as [|b l].
  - exists []. split; [reflexivity|]. intros y. cbn [peval]. ring.
  - destruct (IH ltac:(discriminate)) as (q & Hl & Hq). exists (peval (b :: l) x0 :: q). split.
    + cbn [length pred] in *. lia.
    + intros y. change (peval (a :: b :: l) y) with (a + y * peval (b :: l) y).
      change (peval (a :: b :: l) x0) with (a + x0 * peval (b :: l) x0).
      rewrite (Hq y). cbn [peval]. ring.
Qed.

(** Fewer roots than coefficients unless all values vanish. *)
Lemma root_count p : prime p -> forall n l xs, length l = n -> NoDup xs ->
  (forall x, In x xs -> 0 <= x < p /\ peval l x mod p = 0) -> (length l <= length xs)%nat ->
  forall y, peval l y mod p = 0.
Proof.
  intros Hp. pose proof (prime_ge_2 p Hp) as P2.
  induction n as [|n IH]; intros l xs Hl Hd Hx Hn y.
  - destruct l; [|discriminate]. reflexivity.
  - destruct xs as [|x0 xs]; [cbn in Hn; lia|]. destruct (Hx x0 (or_introl eq_refl)) as [R0 V0].
    destruct (divide_root l x0 ltac:(intros ->; discriminate)) as (q & Hq & E).
    apply NoDup_cons_iff in Hd. destruct Hd as [N0 Nd].
    assert (Q : peval q y mod p = 0).
    { apply (IH q xs); [lia|exact Nd| |cbn in Hn; lia].
      intros x Hin. destruct (Hx x (or_intror Hin)) as [Rx Vx]. split; [exact Rx|].
      apply (prime_cancel p (x - x0)); [exact Hp| |].
      - intros C. apply Z.mod_divide in C; [|lia]. destruct C as [k Hk].
        assert (k = 0) by nia. apply N0. replace x0 with x by lia. exact Hin.
      - rewrite (E x), Zplus_mod, V0, Z.add_0_r, Z.mod_mod in Vx by lia. exact Vx. }
    rewrite (E y), Zplus_mod, V0, Z.add_0_r, Z.mod_mod, Z.mul_mod, Q, Z.mul_0_r by lia. apply Z.mod_0_l. lia.
Qed.

(** ** Soundness *)
Section Sound.
Context {MOD : Modulus} (Hp : prime modulus).

Lemma P2 : 2 <= modulus. Proof. exact (prime_ge_2 _ Hp). Qed.

(** Cofactor of [v]: the product of [X - w] over the other [w] of [vs]. *)
Definition others (vs : list Z) (v : Z) : list Z := remove Z.eq_dec v vs.
Definition cof (vs : list Z) (v x : Z) : Z := product (map (fun w => x - w) (others vs v)).
Definition all (vs : list Z) (x : Z) : Z := product (map (fun w => x - w) vs).

Lemma all_cof vs v x : NoDup vs -> In v vs -> all vs x = (x - v) * cof vs v x.
Proof.
  intros Hd Hv. unfold all, cof, others. induction vs as [|w t IH]; [destruct Hv|].
  apply NoDup_cons_iff in Hd. destruct Hd as [Nw Nd]. cbn [remove map].
  change (product (x - w :: map (fun w => x - w) t)) with ((x - w) * product (map (fun w => x - w) t)).
  destruct (Z.eq_dec v w) as [->|Ne].
  - rewrite notin_remove by exact Nw. reflexivity.
  - destruct Hv as [->|Hv]; [congruence|]. rewrite IH by assumption. cbn [map].
    change (product (x - w :: map (fun w => x - w) (remove Z.eq_dec v t)))
      with ((x - w) * product (map (fun w => x - w) (remove Z.eq_dec v t))). ring.
Qed.

Lemma sum_table_poly vs x : NoDup vs -> forall es s, (forall m t, In (m, t) es -> In t vs) ->
  satG no_check (sum_table x es) s ->
  (all vs x * s) mod modulus = fold_right (fun e acc => fst e * cof vs (snd e) x + acc) 0 es mod modulus.
Proof.
  intros Hd. pose proof P2 as P. induction es as [|[m t] es IH]; intros s Hes H; cbn [sum_table fold_right] in *.
  - cbn in H. subst s. unfold emb. rewrite Z.mod_0_l, Z.mul_0_r by lia. reflexivity.
  - apply satG_bind in H. destruct H as (w & H1 & H). apply satG_bind in H. destruct H as (s' & H2 & H).
    cbn in H. subst s. unfold div_unchecked in H1. apply satG_bind in H1. destruct H1 as (w' & Hw & H1).
    cbn in H1. destruct H1 as [H1 ->]. apply Z.eqb_eq in H1.
    specialize (IH s' (fun a b Hin => Hes a b (or_intror Hin)) H2).
    cbn [fst snd]. rewrite Zplus_mod, <- IH. unfold fadd, fmul, fsub in *.
    assert (A : (all vs x * w) mod modulus = (m * cof vs t x) mod modulus).
    { rewrite (all_cof vs t x Hd (Hes m t (or_introl eq_refl))). rewrite Z.mul_mod_idemp_r in H1 by lia.
      rewrite <- H1, Z.mul_mod_idemp_l by lia. f_equal. ring. }
    rewrite <- A, Z.mul_mod_idemp_r, <- Zplus_mod by lia. f_equal. ring.
Qed.

Lemma sum_queries_poly vs x : NoDup vs -> forall qs s, (forall q, In q qs -> In q vs) ->
  satG no_check (sum_queries x qs) s ->
  (all vs x * s) mod modulus = fold_right (fun q acc => cof vs q x + acc) 0 qs mod modulus.
Proof.
  intros Hd. pose proof P2 as P. induction qs as [|q qs IH]; intros s Hes H; cbn [sum_queries fold_right] in *.
  - cbn in H. subst s. unfold emb. rewrite Z.mod_0_l, Z.mul_0_r by lia. reflexivity.
  - apply satG_bind in H. destruct H as (w & H1 & H). apply satG_bind in H. destruct H as (s' & H2 & H).
    cbn in H. subst s. unfold inverse in H1. apply satG_bind in H1. destruct H1 as (w' & Hw & H1).
    cbn in H1. destruct H1 as [H1 ->]. apply Z.eqb_eq in H1.
    specialize (IH s' (fun b Hin => Hes b (or_intror Hin)) H2).
    rewrite Zplus_mod, <- IH. unfold fadd, fmul, fsub, emb in *.
    assert (A : (all vs x * w) mod modulus = cof vs q x mod modulus).
    { rewrite (all_cof vs q x Hd (Hes q (or_introl eq_refl))).
      rewrite Z.mul_mod_idemp_l, (Z.mod_small 1) in H1 by lia.
      replace ((x - q) * cof vs q x * w) with ((x - q) * w * cof vs q x) by ring.
      rewrite Z.mul_mod, H1, Z.mul_1_l, Z.mod_mod by lia. reflexivity. }
    rewrite <- A, Z.mul_mod_idemp_r, <- Zplus_mod by lia. f_equal. ring.
Qed.

(** The difference of both sides, cleared of denominators. *)
Definition cofp (vs : list Z) (v : Z) : list Z := proots (others vs v).
Definition qpoly (vs qs : list Z) : list Z := fold_right (fun q acc => padd (cofp vs q) acc) [] qs.
Definition tpoly (vs : list Z) (es : list (Z * Z)) : list Z :=
  fold_right (fun e acc => padd (pscale (fst e) (cofp vs (snd e))) acc) [] es.

Lemma cofp_eval vs v x : peval (cofp vs v) x = cof vs v x.
Proof. unfold cofp, cof. apply peval_roots. Qed.
Lemma cofp_length vs v : In v vs -> (length (cofp vs v) <= length vs)%nat.
Proof.
  intros H. unfold cofp. rewrite length_roots. unfold others.
  pose proof (remove_length_lt Z.eq_dec vs v H). lia.
Qed.
Lemma qpoly_eval vs qs x : peval (qpoly vs qs) x = fold_right (fun q acc => cof vs q x + acc) 0 qs.
Proof. induction qs as [|q qs IH]; [reflexivity|]. cbn [qpoly fold_right]. rewrite peval_add, cofp_eval. fold (qpoly vs qs). rewrite IH. reflexivity. Qed.
Lemma tpoly_eval vs es x : peval (tpoly vs es) x = fold_right (fun e acc => fst e * cof vs (snd e) x + acc) 0 es.
Proof.
  induction es as [|e es IH]; [reflexivity|]. cbn [tpoly fold_right]. rewrite peval_add, peval_scale, cofp_eval.
  fold (tpoly vs es). rewrite IH. reflexivity.
Qed.
Lemma qpoly_length vs qs : (forall q, In q qs -> In q vs) -> (length (qpoly vs qs) <= length vs)%nat.
Proof.
  induction qs as [|q qs IH]; intros H; [cbn; lia|]. cbn [qpoly fold_right]. rewrite length_add.
  fold (qpoly vs qs). pose proof (cofp_length vs q (H q (or_introl eq_refl))).
  pose proof (IH (fun a Ha => H a (or_intror Ha))). lia.
Qed.
Lemma tpoly_length vs es : (forall m t, In (m, t) es -> In t vs) -> (length (tpoly vs es) <= length vs)%nat.
Proof.
  induction es as [|[m t] es IH]; intros H; [cbn; lia|]. cbn [tpoly fold_right fst snd]. rewrite length_add.
  fold (tpoly vs es). unfold pscale. rewrite map_length.
  pose proof (cofp_length vs t (H m t (or_introl eq_refl))).
  pose proof (IH (fun a b Ha => H a b (or_intror Ha))). lia.
Qed.

Lemma cof_other vs v a : NoDup vs -> In a vs -> v <> a -> cof vs v a = 0.
Proof.
  intros Hd Ha Hne. unfold cof, others.
  assert (Hin : In a (remove Z.eq_dec v vs)) by (apply in_in_remove; [congruence|exact Ha]).
  induction (remove Z.eq_dec v vs) as [|w t IH]; [destruct Hin|]. cbn [map].
  change (product (a - w :: map (fun w => a - w) t)) with ((a - w) * product (map (fun w => a - w) t)).
  destruct Hin as [->|Hin]; [lia|]. rewrite IH by exact Hin. lia.
Qed.

Lemma cof_self vs a : (forall v, In v vs -> 0 <= v < modulus) -> 0 <= a < modulus -> cof vs a a mod modulus <> 0.
Proof.
  intros Hr Ha. unfold cof. apply product_units; [exact Hp|]. intros d Hd. apply in_map_iff in Hd.
  destruct Hd as (w & <- & Hw). unfold others in Hw. apply in_remove in Hw. destruct Hw as [Hw Hne].
  pose proof (Hr w Hw). intros C. apply Z.mod_divide in C; [|lia]. destruct C as [k Hk].
  assert (k = 0) by nia. lia.
Qed.

Lemma qsum_at vs qs a : NoDup vs -> In a vs -> (forall q, In q qs -> In q vs) ->
  fold_right (fun q acc => cof vs q a + acc) 0 qs = Z.of_nat (count_occ Z.eq_dec qs a) * cof vs a a.
Proof.
  intros Hd Ha. induction qs as [|q qs IH]; intros H; [reflexivity|]. cbn [fold_right count_occ].
  rewrite IH by (intros z Hz; apply H; right; exact Hz).
  destruct (Z.eq_dec q a) as [->|Ne].
  - rewrite Nat2Z.inj_succ. ring.
  - rewrite (cof_other vs q a Hd Ha Ne). lia.
Qed.
Lemma tsum_at vs es a : NoDup vs -> In a vs -> (forall m t, In (m, t) es -> t <> a) ->
  fold_right (fun e acc => fst e * cof vs (snd e) a + acc) 0 es = 0.
Proof.
  intros Hd Ha. induction es as [|[m t] es IH]; intros H; [reflexivity|]. cbn [fold_right fst snd].
  rewrite IH by (intros z y Hz; apply (H z y); right; exact Hz).
  rewrite (cof_other vs t a Hd Ha (H m t (or_introl eq_refl))). lia.
Qed.

Lemma count_occ_le (l : list Z) a : (count_occ Z.eq_dec l a <= length l)%nat.
Proof. induction l as [|b l IH]; cbn; [lia|]. destruct (Z.eq_dec b a); lia. Qed.

(** If some query is missing from the table then, whatever the multiplicities,
    fewer than [length table + length queries] challenges are passed. *)
Theorem argument_sound table mults queries xs :
  Forall (fun t => 0 <= t < modulus) table -> Forall (fun q => 0 <= q < modulus) queries ->
  Z.of_nat (length queries) < modulus ->
  ~ Forall (fun q => In q table) queries ->
  NoDup xs -> Forall (fun x => 0 <= x < modulus) xs ->
  Forall (fun x => satG no_check (lookup_argument table mults queries x) tt) xs ->
  (length xs < length table + length queries)%nat.
Proof.
  intros Ht Hq Hn Hbad Hd Hx Hs. pose proof P2 as P.
  assert (Ea : exists a, In a queries /\ ~ In a table).
  { apply Exists_exists. apply neg_Forall_Exists_neg in Hbad; [|intros z; apply in_dec; apply Z.eq_dec]. exact Hbad. }
  destruct Ea as (a & Ha & Na).
  set (vs := nodup Z.eq_dec (queries ++ table)).
  assert (Dv : NoDup vs) by apply NoDup_nodup.
  assert (Iv : forall z, In z vs <-> In z queries \/ In z table).
  { intros z. unfold vs. rewrite nodup_In, in_app_iff. tauto. }
  assert (Rv : forall z, In z vs -> 0 <= z < modulus).
  { intros z Hz. rewrite Forall_forall in Ht, Hq. apply Iv in Hz. destruct Hz; auto. }
  assert (Lv : (length vs <= length table + length queries)%nat).
  { unfold vs. assert (forall l : list Z, length (nodup Z.eq_dec l) <= length l)%nat.
    { induction l as [|z l IH]; cbn; [lia|]. destruct (in_dec Z.eq_dec z l); cbn; lia. }
    specialize (H (queries ++ table)). rewrite app_length in H. lia. }
  assert (Ev : forall m t, In (m, t) (combine mults table) -> In t vs /\ t <> a).
  { intros m t H. apply in_combine_r in H. split; [apply Iv; auto|intros ->; auto]. }
  assert (Av : In a vs) by (apply Iv; auto).
  set (pl := padd (qpoly vs queries) (pscale (-1) (tpoly vs (combine mults table)))).
  assert (Hl : (length pl <= length vs)%nat).
  { unfold pl. rewrite length_add. unfold pscale. rewrite map_length.
    pose proof (qpoly_length vs queries (fun z Hz => proj2 (Iv z) (or_introl Hz))).
    pose proof (tpoly_length vs (combine mults table) (fun m t H => proj1 (Ev m t H))). lia. }
  destruct (Nat.lt_ge_cases (length xs) (length pl)) as [L|L]; [lia|exfalso].
  assert (Z0 : peval pl a mod modulus = 0).
  { apply (root_count modulus Hp _ pl xs eq_refl Hd); [|exact L].
    intros x Hin. rewrite Forall_forall in Hx, Hs. split; [exact (Hx x Hin)|].
    pose proof (Hs x Hin) as S. unfold lookup_argument in S.
    apply satG_bind in S. destruct S as (lp & S1 & S). apply satG_bind in S. destruct S as (rp & S2 & S).
    cbn in S. destruct S as [S _]. apply Z.eqb_eq in S. subst rp.
    unfold pl. rewrite peval_add, peval_scale, qpoly_eval, tpoly_eval.
    pose proof (sum_table_poly vs x Dv _ _ (fun m t H => proj1 (Ev m t H)) S1) as E1.
    pose proof (sum_queries_poly vs x Dv _ _ (fun z Hz => proj2 (Iv z) (or_introl Hz)) S2) as E2.
    rewrite E1 in E2.
    match goal with |- (?u + -1 * ?v) mod _ = 0 => replace (u + -1 * v) with (u - v) by ring end.
    rewrite Zminus_mod, E2, Z.sub_diag. apply Z.mod_0_l. lia. }
  unfold pl in Z0. rewrite peval_add, peval_scale, qpoly_eval, tpoly_eval in Z0.
  rewrite (qsum_at vs queries a Dv Av (fun z Hz => proj2 (Iv z) (or_introl Hz))) in Z0.
  rewrite (tsum_at vs _ a Dv Av (fun m t H => proj2 (Ev m t H))) in Z0.
  rewrite Z.mul_0_r, Z.add_0_r in Z0.
  apply (cof_self vs a Rv (Rv a Av)). apply (prime_cancel modulus _ _ Hp) in Z0; [exact Z0|].
  pose proof (count_occ_le queries a). apply (count_occ_In Z.eq_dec) in Ha.
  rewrite Z.mod_small by lia. lia.
Qed.

(** ** Completeness *)
Definition recip (x t : Z) : Z := inv_mod modulus (fsub x t).
Context {HB : BigMod}.
Let Hodd : 2 < modulus := HB.

Lemma recip_ok x t : 0 <= x < modulus -> 0 <= t < modulus -> x <> t -> fmul (fsub x t) (recip x t) = 1.
Proof.
  intros Hx Ht Hne. unfold recip, fmul. 
  assert (R : 0 <= fsub x t < modulus) by (apply Z.mod_pos_bound; lia).
  apply inv_mod_spec; [exact Hodd|exact R|].
  assert (N : fsub x t <> 0).
  { unfold fsub. intros C. apply Z.mod_divide in C; [|lia]. destruct C as [k Hk]. assert (k = 0) by nia. lia. }
  rewrite Z.gcd_comm. apply Zgcd_1_rel_prime. apply rel_prime_sym, prime_rel_prime; [exact Hp|].
  intros D. assert (P0 : 0 < fsub x t) by lia. pose proof (Z.divide_pos_le _ _ P0 D). lia.
Qed.

Definition zsum (l : list Z) : Z := fold_right Z.add 0 l.

Lemma exec_queries x qs : 0 <= x < modulus -> wires_ok qs -> ~ In x qs ->
  execG no_checkb (sum_queries x qs) = Some (zsum (map (recip x) qs) mod modulus).
Proof.
  intros Hx. induction qs as [|q qs IH]; intros Hq Hn; [reflexivity|].
  inversion Hq as [|? ? H1 H2]; subst. cbn [sum_queries].
  assert (Rw : 0 <= recip x q < modulus) by (apply inv_mod_range; exact Hodd).
  unfold inverse, hint1. cbn [bind execG]. fold (recip x q). rewrite (Z.mod_small _ _ Rw : emb _ = _).
  unfold assert. cbn [bind execG].
  rewrite (recip_ok x q Hx H1) by (intros ->; apply Hn; left; reflexivity).
  assert (E1 : emb 1 = 1) by (apply Z.mod_small; pose proof Hodd; lia). rewrite E1. cbn [Z.eqb Pos.eqb].
  rewrite execG_bind, IH by (auto; intros C; apply Hn; right; exact C). cbn [execG map zsum fold_right].
  unfold fadd. rewrite Zplus_mod_idemp_r. reflexivity.
Qed.

Lemma exec_table x es : 0 <= x < modulus ->
  (forall m t, In (m, t) es -> 0 <= m < modulus /\ 0 <= t < modulus /\ (x = t -> m = 0)) ->
  execG no_checkb (sum_table x es) = Some (zsum (map (fun e => fst e * recip x (snd e)) es) mod modulus).
Proof.
  intros Hx. induction es as [|[m t] es IH]; intros He; [reflexivity|]. cbn [sum_table].
  destruct (He m t (or_introl eq_refl)) as (Hm & Ht & H0).
  unfold div_unchecked, hint1. cbn [bind execG]. fold (recip x t).
  assert (Rw : 0 <= fmul m (recip x t) < modulus) by (apply Z.mod_pos_bound; lia).
  rewrite (Z.mod_small _ _ Rw : emb _ = _). unfold assert. cbn [bind execG].
  assert (Em : fmul (fmul m (recip x t)) (fsub x t) = m).
  { destruct (Z.eq_dec x t) as [E|E].
    - rewrite (H0 E). unfold fmul. rewrite Z.mul_mod_idemp_l by lia. replace (0 * recip x t * fsub x t) with 0 by ring. reflexivity.
    - pose proof (recip_ok x t Hx Ht E) as R. unfold fmul in *.
      rewrite Z.mul_mod_idemp_l by lia.
      replace (m * recip x t * fsub x t) with (m * (fsub x t * recip x t)) by ring.
      rewrite <- Z.mul_mod_idemp_r, R, Z.mul_1_r by lia. apply Z.mod_small. exact Hm. }
  rewrite Em, Z.eqb_refl. rewrite execG_bind, IH by (intros a b Hin; apply He; right; exact Hin).
  cbn [execG map zsum fold_right fst snd]. unfold fadd, fmul. rewrite <- Zplus_mod. reflexivity.
Qed.

Lemma combine_count table queries : combine (countHint table queries) table =
  map (fun t => (Z.of_nat (count_occ Z.eq_dec queries t), t)) table.
Proof. unfold countHint. induction table as [|t l IH]; cbn; [reflexivity|]. rewrite IH. reflexivity. Qed.

Lemma zsum_count (g : Z -> Z) table queries : NoDup table -> Forall (fun q => In q table) queries ->
  zsum (map (fun e => fst e * g (snd e)) (combine (countHint table queries) table)) = zsum (map g queries).
Proof.
  intros Hd. rewrite combine_count, map_map. cbn [fst snd].
  induction queries as [|q qs IH]; intros Hq.
  - cbn [map count_occ zsum fold_right]. induction table as [|t l IHt]; [reflexivity|].
    inversion Hd; subst. exact (IHt ltac:(assumption) (Forall_nil _)).
  - inversion Hq as [|? ? H1 H2]; subst. cbn [map zsum fold_right]. fold (zsum (map g qs)). rewrite <- (IH H2).
    clear IH Hq H2. induction table as [|t l IHt]; [destruct H1|].
    apply NoDup_cons_iff in Hd. destruct Hd as [Nt Nd]. cbn [map zsum fold_right].
    fold (zsum (map (fun t => Z.of_nat (count_occ Z.eq_dec (q :: qs) t) * g t) l)).
    fold (zsum (map (fun t => Z.of_nat (count_occ Z.eq_dec qs t) * g t) l)).
    destruct (Z.eq_dec q t) as [->|Ne].
    + rewrite (count_occ_cons_eq _ _ eq_refl). rewrite Nat2Z.inj_succ.
      replace (map (fun t0 => Z.of_nat (count_occ Z.eq_dec (t :: qs) t0) * g t0) l)
        with (map (fun t0 => Z.of_nat (count_occ Z.eq_dec qs t0) * g t0) l); [ring|].
      apply map_ext_in. intros u Hu. rewrite count_occ_cons_neq; [reflexivity|]. intros ->. contradiction.
    + rewrite (count_occ_cons_neq _ _ Ne). destruct H1 as [->|H1]; [congruence|].
      rewrite (IHt Nd H1). ring.
Qed.

(** Honest counts pass for every challenge that is not itself a query. *)
Theorem argument_complete table queries x :
  wires_ok table -> NoDup table \/ queries = [] -> Forall (fun q => In q table) queries ->
  Z.of_nat (length queries) < modulus -> 0 <= x < modulus -> ~ In x queries ->
  execG no_checkb (lookup_argument table (countHint table queries) queries x) = Some tt.
Proof.
  intros Ht Hd Hq Hn Hx Hin. unfold lookup_argument.
  assert (Wq : wires_ok queries).
  { unfold wires_ok in *. rewrite Forall_forall in *. auto. }
  rewrite execG_bind, exec_table; [|exact Hx|].
  - rewrite execG_bind, exec_queries by assumption. unfold assert_eq, assert. cbn [execG].
    replace (zsum _ mod modulus =? zsum (map (recip x) queries) mod modulus) with true; [reflexivity|].
    symmetry. apply Z.eqb_eq. f_equal. destruct Hd as [Hd| ->].
    + apply zsum_count; assumption.
    + cbn [map zsum fold_right]. unfold countHint. clear.
      induction table as [|t l IH]; [reflexivity|]. cbn [map combine zsum fold_right fst snd count_occ] in *.
      exact IH.
  - intros m t H. rewrite combine_count in H. apply in_map_iff in H. destruct H as (t' & E & H).
    injection E as <- ->. unfold wires_ok in Ht. rewrite Forall_forall in Ht.
    pose proof (count_occ_le queries t). split; [lia|]. split; [exact (Ht t H)|]. intros <-.
    apply count_occ_not_In with (eq_dec := Z.eq_dec) in Hin. rewrite Hin. reflexivity.
Qed.


(** ** The circuit with its lookup arguments *)
Lemma buildTable_ok b : 0 <= b -> 2 ^ b <= modulus ->
  wires_ok (buildTable b) /\ NoDup (buildTable b) /\
  (forall v, In v (buildTable b) <-> in_range_table b v = true) /\
  Z.of_nat (length (buildTable b)) = 2 ^ b.
Proof.
  intros Hb Hm. pose proof (Z.pow_pos_nonneg 2 b ltac:(lia) Hb) as Hpos.
  assert (E : buildTable b = zseq (2 ^ b)).
  { unfold buildTable, zseq. rewrite map_map. apply map_ext_in. intros n Hn. apply in_seq in Hn.
    unfold emb. apply Z.mod_small. lia. }
  rewrite E. unfold zseq, in_range_table. split; [|split; [|split]].
  - unfold wires_ok. rewrite Forall_forall. intros v Hv. apply in_map_iff in Hv. destruct Hv as (n & <- & Hn).
    apply in_seq in Hn. lia.
  - apply FinFun.Injective_map_NoDup; [|apply seq_NoDup]. intros i j H. lia.
  - intros v. rewrite in_map_iff, andb_true_iff, Z.leb_le, Z.ltb_lt. split.
    + intros (n & <- & Hn). apply in_seq in Hn. lia.
    + intros Hv. exists (Z.to_nat v). split; [lia|]. apply in_seq. lia.
  - rewrite map_length, seq_length. lia.
Qed.

Lemma pow2_ok s v : In v (pow2_entries s) <-> in_pow2_table s v = true.
Proof.
  unfold in_pow2_table. rewrite existsb_exists. split.
  - intros H. exists v. split; [exact H|apply Z.eqb_refl].
  - intros (e & H & E). apply Z.eqb_eq in E. subst e. exact H.
Qed.
Lemma pow2_wires s : wires_ok (pow2_entries s) /\ length (pow2_entries s) = Z.to_nat s.
Proof.
  unfold pow2_entries, zseq. split.
  - unfold wires_ok. rewrite Forall_forall. intros v Hv. apply in_map_iff in Hv. destruct Hv as (n & <- & _).
    apply Z.mod_pos_bound. lia.
  - rewrite !map_length, seq_length. reflexivity.
Qed.
Lemma pow2_nodup s : (s + 1) * 2 ^ s <= modulus -> NoDup (pow2_entries s).
Proof.
  intros H. unfold pow2_entries, zseq. rewrite map_map. apply NoDup_nth_error. intros i j Hi E.
  rewrite map_length, seq_length in Hi. rewrite !nth_error_map in E.
  destruct (nth_error (seq 0 (Z.to_nat s)) i) as [x|] eqn:Ex; [|apply nth_error_None in Ex; rewrite seq_length in Ex; lia].
  destruct (nth_error (seq 0 (Z.to_nat s)) j) as [y|] eqn:Ey; [|discriminate]. cbn [option_map] in E. injection E as E.
  pose proof (nth_error_In _ _ Ex) as Hx. pose proof (nth_error_In _ _ Ey) as Hy. apply in_seq in Hx, Hy.
  assert (Hs : 0 <= s) by lia.
  assert (B : forall n, (n < Z.to_nat s)%nat -> 0 < 2 ^ Z.of_nat n < 2 ^ s).
  { intros n Hn. split; [apply Z.pow_pos_nonneg; lia|apply Z.pow_lt_mono_r; lia]. }
  pose proof (B x ltac:(lia)) as Bx. pose proof (B y ltac:(lia)) as By.
  assert (S : forall n, (n < Z.to_nat s)%nat -> 0 <= Z.of_nat n * 2 ^ s + 2 ^ Z.of_nat n < modulus).
  { intros n Hn. pose proof (B n Hn). nia. }
  unfold emb in E. rewrite !Z.mod_small in E by (apply S; lia).
  assert (x = y).
  { assert (C : Z.of_nat x < Z.of_nat y \/ Z.of_nat y < Z.of_nat x \/ x = y) by lia.
    destruct C as [C|[C|C]]; [exfalso; nia|exfalso; nia|exact C]. }
  subst y. pose proof (seq_NoDup (Z.to_nat s) 0) as N. rewrite NoDup_nth_error in N.
  apply N; [rewrite seq_length; lia|congruence].
Qed.

(** Circuits without deferred checks. *)
Fixpoint quiet {A} (c : circ A) : Prop :=
  match c with
  | Ret _ => True
  | Hint _ k => forall w, quiet (k w)
  | Assert _ k => quiet k
  | _ => False
  end.
Lemma quiet_bind {A B} (c : circ A) (f : A -> circ B) : quiet c -> (forall a, quiet (f a)) -> quiet (bind c f).
Proof. induction c; cbn [quiet bind]; intros; auto. Qed.
Lemma quiet_hints hs : quiet (hints hs).
Proof. induction hs as [|h t IH]; cbn; [exact I|]. intros w. apply quiet_bind; [exact IH|cbn; auto]. Qed.
Lemma quiet_commit b cs : quiet (commit_items b cs).
Proof.
  induction cs as [|c t IH]; [exact I|]. cbn [commit_items]. apply quiet_bind.
  - unfold commit_item. destruct (_ =? 1); [exact I|]. apply quiet_bind; [apply quiet_hints|].
    intros l. apply quiet_bind; [|cbn; auto]. destruct (mode_eqb _ _); exact I.
  - intros d. apply quiet_bind; [exact IH|]. cbn. auto.
Qed.
Lemma quiet_trace {A} (c : circ A) r : quiet c ->
  (satG no_check c r <-> exists tape, trace c tape = Some (r, [], [], [])).
Proof.
  induction c as [a|h k IH|x k IH|v n m k IH|s v k IH]; cbn [quiet satG trace]; intros Q; try contradiction.
  - split; [intros ->; exists []; reflexivity|intros (t & H); congruence].
  - split.
    + intros (w & Hw & H). apply (IH w (Q w)) in H. destruct H as (t & H). exists (w :: t).
      destruct (Z.leb_spec 0 w); [|lia]. destruct (Z.ltb_spec w modulus); [|lia]. exact H.
    + intros (t & H). destruct t as [|w t]; [discriminate|].
      destruct (Z.leb_spec 0 w); [|discriminate]. destruct (Z.ltb_spec w modulus); [|discriminate].
      exists w. split; [lia|]. apply (IH w (Q w)). exists t. exact H.
  - rewrite (IH Q). split.
    + intros [-> H]. exact H.
    + intros (t & H). destruct x; [|discriminate]. split; [reflexivity|]. exists t. exact H.
Qed.

Lemma queries_in s v qs : In v (queries_of s qs) <-> In (s, v) qs.
Proof.
  unfold queries_of. rewrite in_map_iff. split.
  - intros ([s' v'] & E & H). cbn in E. subst v'. apply filter_In in H. destruct H as [H E]. apply Z.eqb_eq in E. cbn in E. subst s'. exact H.
  - intros H. exists (s, v). split; [reflexivity|]. apply filter_In. split; [exact H|]. cbn. apply Z.eqb_refl.
Qed.
Lemma queries_length s qs : (length (queries_of s qs) <= length qs)%nat.
Proof.
  unfold queries_of. rewrite map_length. induction qs as [|q t IH]; cbn; [lia|]. destruct (_ =? _); cbn; lia.
Qed.

(** What the prover fixes before the challenge is known passes only few
    challenges unless the circuit accepts in the sense of [accepts]. *)
Theorem passes_sound size ft {A} (c : circ A) r tape limbs rmults pmults cs qs ds s xs :
  trace c tape = Some (r, cs, qs, []) ->
  let b := baseLength size ft cs in
  trace (commit_items b cs) limbs = Some (ds, [], [], []) ->
  0 <= b -> 2 ^ b <= modulus -> 0 <= s -> Forall (fun q => fst q <= s) qs ->
  Z.of_nat (length ds) < modulus -> Z.of_nat (length qs) < modulus ->
  ~ accepts size ft c r ->
  NoDup xs -> wires_ok xs -> Forall (passes size ft c r tape limbs rmults pmults) xs ->
  Z.of_nat (length xs) < Z.max (2 ^ b + Z.of_nat (length ds)) (s + Z.of_nat (length qs)).
Proof.
  intros Ht b Hl Hb Hm Hs0 Hs Hnd Hnq Hno Hd Hw Hall.
  destruct xs as [|x0 xs']; [cbn [length]; pose proof (Z.pow_pos_nonneg 2 b ltac:(lia) Hb); lia|].
  set (xs := x0 :: xs') in *.
  assert (U : forall x, In x xs -> wires_ok ds /\ wires_ok (map snd qs) /\
    (cs <> [] -> satG no_check (lookup_argument (buildTable b) rmults ds x) tt) /\
    (forall s', satG no_check (lookup_argument (pow2_entries s') (pmults s') (queries_of s' qs) x) tt)).
  { intros x Hx. rewrite Forall_forall in Hall. destruct (Hall x Hx) as (cs' & qs' & ds' & T1 & T2 & R).
    rewrite Ht in T1. injection T1 as <- <-. fold b in T2, R. rewrite Hl in T2. injection T2 as <-. exact R. }
  destruct (U x0 (or_introl eq_refl)) as (Wd & Wq & _).
  destruct (buildTable_ok b Hb Hm) as (B1 & _ & B3 & B4).
  destruct (forallb (in_range_table b) ds || match cs with [] => true | _ => false end) eqn:Er.
  - destruct (Forall_dec (fun q => in_pow2_table (fst q) (snd q) = true) (fun q => bool_dec _ true) qs) as [Q|Q].
    + exfalso. apply Hno. exists tape, cs, qs. split; [exact Ht|]. split; [|exact Q].
      unfold commit, commit_with. fold b. destruct cs as [|c0 cs']; [reflexivity|]. apply satG_bind. exists ds.
      split; [apply (quiet_trace _ _ (quiet_commit b _)); exists limbs; exact Hl|].
      rewrite orb_false_r in Er. cbn. auto.
    + assert (Eq : exists s' v, In (s', v) qs /\ ~ In v (pow2_entries s')).
      { apply neg_Forall_Exists_neg in Q; [|intros q; apply bool_dec]. apply Exists_exists in Q.
        destruct Q as ([s' v] & Hin & N). exists s', v. split; [exact Hin|]. rewrite pow2_ok. exact N. }
      destruct Eq as (s' & v & Hin & N).
      assert (L : (length xs < length (pow2_entries s') + length (queries_of s' qs))%nat).
      { apply (argument_sound (pow2_entries s') (pmults s')).
        - exact (proj1 (pow2_wires s')).
        - apply Forall_forall. intros w Hw'. apply queries_in in Hw'. unfold wires_ok in Wq. rewrite Forall_forall in Wq.
          apply Wq. apply in_map_iff. exists (s', w). auto.
        - pose proof (queries_length s' qs). lia.
        - intros F. rewrite Forall_forall in F. apply N, F, queries_in, Hin.
        - exact Hd.
        - exact Hw.
        - apply Forall_forall. intros x Hx. apply (U x Hx). }
      rewrite (proj2 (pow2_wires s')) in L. pose proof (queries_length s' qs).
      rewrite Forall_forall in Hs. pose proof (Hs _ Hin) as Hss. cbn [fst] in Hss. lia.
  - apply orb_false_iff in Er. destruct Er as [Er Ec].
    assert (L : (length xs < length (buildTable b) + length ds)%nat).
    { apply (argument_sound (buildTable b) rmults).
      - exact B1.
      - exact Wd.
      - exact Hnd.
      - intros F. rewrite Forall_forall in F. assert (T : forallb (in_range_table b) ds = true).
        { apply forallb_forall. intros w Hw'. apply B3, F, Hw'. }
        congruence.
      - exact Hd.
      - exact Hw.
      - apply Forall_forall. intros x Hx. apply (U x Hx). destruct cs; [discriminate|congruence]. }
    lia.
Qed.

(** An accepting assignment passes every challenge that is not one of the queried
    values. *)
Theorem passes_complete size ft {A} (c : circ A) r :
  accepts size ft c r ->
  exists tape limbs rmults pmults cs qs ds,
    trace c tape = Some (r, cs, qs, []) /\
    trace (commit_items (baseLength size ft cs) cs) limbs = Some (ds, [], [], []) /\
    (0 <= baseLength size ft cs -> 2 ^ baseLength size ft cs <= modulus ->
     Forall (fun q => (fst q + 1) * 2 ^ fst q <= modulus) qs ->
     Z.of_nat (length ds) < modulus -> Z.of_nat (length qs) < modulus ->
     forall x, 0 <= x < modulus -> ~ In x ds -> ~ In x (map snd qs) ->
       passes size ft c r tape limbs rmults pmults x).
Proof.
  intros (tape & cs & qs & Ht & Hc & Hq). set (b := baseLength size ft cs).
  assert (Hds : exists ds limbs, trace (commit_items b cs) limbs = Some (ds, [], [], []) /\
     forallb (in_range_table b) ds = true).
  { unfold commit, commit_with in Hc. fold b in Hc. destruct cs as [|c0 cs'].
    - exists [], []. split; reflexivity.
    - apply satG_bind in Hc. destruct Hc as (ds & H1 & H2). cbn in H2. destruct H2 as [H2 _].
      apply (quiet_trace _ _ (quiet_commit b _)) in H1. destruct H1 as (limbs & H1). exists ds, limbs. auto. }
  destruct Hds as (ds & limbs & Hl & Hds).
  exists tape, limbs, (countHint (buildTable b) ds), (fun s => countHint (pow2_entries s) (queries_of s qs)), cs, qs, ds.
  split; [exact Ht|]. split; [exact Hl|]. intros Hb Hm Hs Hnd Hnq x Hx Nd Nq.
  destruct (buildTable_ok b Hb Hm) as (B1 & B2 & B3 & _).
  assert (Fd : Forall (fun q => In q (buildTable b)) ds).
  { rewrite forallb_forall in Hds. apply Forall_forall. intros v Hv. apply B3, Hds, Hv. }
  assert (Fq : forall s v, In (s, v) qs -> In v (pow2_entries s)).
  { intros s v Hin. rewrite Forall_forall in Hq. apply pow2_ok. exact (Hq _ Hin). }
  exists cs, qs, ds. split; [exact Ht|]. split; [exact Hl|]. split; [|split; [|split]].
  - unfold wires_ok in *. rewrite Forall_forall in *. auto.
  - apply Forall_forall. intros v Hv. apply in_map_iff in Hv. destruct Hv as ([s v'] & <- & Hin).
    pose proof (proj1 (pow2_wires s)) as W. unfold wires_ok in W. rewrite Forall_forall in W. apply W, (Fq s), Hin.
  - intros _. apply (execG_satG no_check no_checkb); [discriminate|].
    apply argument_complete; auto.
  - intros s. apply (execG_satG no_check no_checkb); [discriminate|].
    apply argument_complete.
    + exact (proj1 (pow2_wires s)).
    + destruct (queries_of s qs) as [|v l] eqn:E; [right; reflexivity|left].
      assert (Hin : In (s, v) qs) by (apply queries_in; rewrite E; left; reflexivity).
      rewrite Forall_forall in Hs. apply pow2_nodup. exact (Hs _ Hin).
    + apply Forall_forall. intros v Hv. apply queries_in in Hv. exact (Fq s v Hv).
    + pose proof (queries_length s qs). lia.
    + exact Hx.
    + intros C. apply queries_in in C. apply Nq. apply in_map_iff. exists (s, x). auto.
Qed.
End Sound.
