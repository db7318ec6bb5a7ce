(** Primality of the BN254 scalar field by Pocklington's criterion. *)
From Coq Require Import ZArith Znumtheory Zpow_facts List Bool Lia Permutation.
From Verif Require Import Field.
Import ListNotations.
Local Open Scope Z_scope.

(** ** Fermat's little theorem *)
Definition product (l : list Z) : Z := fold_right Z.mul 1 l.

Lemma product_perm l l' : Permutation l l' -> product l = product l'.
Proof. induction 1; cbn [product fold_right] in *; unfold product in *; cbn [fold_right]; lia. Qed.

Lemma product_scale p a l : p <> 0 ->
  product (map (fun x => (a * x) mod p) l) mod p = (a ^ Z.of_nat (length l) * product l) mod p.
Proof.
  intros Hp. induction l as [|x l IH]; [reflexivity|].
  cbn [map product fold_right length]. fold (product l). fold (product (map (fun x => (a * x) mod p) l)).
  rewrite Nat2Z.inj_succ, Z.pow_succ_r by lia.
  rewrite Z.mul_mod, IH, Z.mod_mod, <- Z.mul_mod by exact Hp. f_equal. ring.
Qed.

Definition units (p : Z) : list Z := map (fun i => 1 + i) (zseq (p - 1)).

Lemma in_units p x : In x (units p) <-> 1 <= x < p.
Proof.
  unfold units, zseq. rewrite map_map, in_map_iff. split.
  - intros (n & <- & H). apply in_seq in H. lia.
  - intros H. exists (Z.to_nat (x - 1)). split; [lia|]. apply in_seq. lia.
Qed.
Lemma units_nodup p : NoDup (units p).
Proof.
  unfold units, zseq. rewrite map_map. apply FinFun.Injective_map_NoDup; [|apply seq_NoDup].
  intros i j H. lia.
Qed.
Lemma units_length p : 1 <= p -> Z.of_nat (length (units p)) = p - 1.
Proof. intros H. unfold units, zseq. rewrite !map_length, seq_length. lia. Qed.

Lemma prime_unit p x : prime p -> 1 <= x < p -> x mod p <> 0.
Proof. intros Hp Hx. rewrite Z.mod_small by lia. lia. Qed.

Lemma prime_cancel p a x : prime p -> a mod p <> 0 -> (a * x) mod p = 0 -> x mod p = 0.
Proof.
  intros Hp Ha H. pose proof (prime_ge_2 p Hp) as H2.
  apply Z.mod_divide in H; [|lia]. destruct (prime_mult p Hp a x H) as [D|D].
  - exfalso. apply Ha. apply Z.mod_divide; [lia|exact D].
  - apply Z.mod_divide; [lia|exact D].
Qed.

Lemma product_units p l : prime p -> (forall x, In x l -> x mod p <> 0) -> product l mod p <> 0.
Proof.
  intros Hp. pose proof (prime_ge_2 p Hp) as H2. induction l as [|x l IH]; intros H.
  - cbn. rewrite Z.mod_small by lia. discriminate.
  - intros C. cbn [product fold_right] in C. apply (IH (fun y Hy => H y (or_intror Hy))).
    exact (prime_cancel p x _ Hp (H x (or_introl eq_refl)) C).
Qed.

Lemma fermat p a : prime p -> a mod p <> 0 -> a ^ (p - 1) mod p = 1.
Proof.
  intros Hp Ha. pose proof (prime_ge_2 p Hp) as H2.
  assert (Hperm : Permutation (map (fun x => (a * x) mod p) (units p)) (units p)).
  { apply NoDup_Permutation_bis.
    - apply NoDup_nth_error. intros i j Hi E.
      rewrite map_length in Hi.
      rewrite !nth_error_map in E.
      destruct (nth_error (units p) i) as [x|] eqn:Ex; [|apply nth_error_None in Ex; lia].
      destruct (nth_error (units p) j) as [y|] eqn:Ey; [|discriminate]. cbn in E. injection E as E.
      pose proof (proj1 (in_units p x) (nth_error_In _ _ Ex)) as Hx.
      pose proof (proj1 (in_units p y) (nth_error_In _ _ Ey)) as Hy.
      assert (Z0 : (a * (x - y)) mod p = 0).
      { rewrite Z.mul_sub_distr_l, Zminus_mod, E, Z.sub_diag. reflexivity. }
      apply prime_cancel in Z0; [|exact Hp|exact Ha].
      apply Z.mod_divide in Z0; [|lia]. destruct Z0 as [k Hk].
      assert (k = 0) by nia. assert (x = y) by lia. subst y.
      pose proof (units_nodup p) as N. rewrite NoDup_nth_error in N. apply N; [exact Hi|congruence].
    - rewrite map_length. lia.
    - intros z Hz. apply in_map_iff in Hz. destruct Hz as (x & <- & Hx). apply in_units in Hx.
      apply in_units. pose proof (Z.mod_pos_bound (a * x) p ltac:(lia)).
      assert ((a * x) mod p <> 0); [|lia].
      intros C. apply prime_cancel in C; [|exact Hp|exact Ha]. rewrite Z.mod_small in C by lia. lia. }
  pose proof (product_scale p a (units p) ltac:(lia)) as S.
  rewrite (product_perm _ _ Hperm), units_length in S by lia.
  assert (Z0 : (product (units p) * (a ^ (p - 1) - 1)) mod p = 0).
  { rewrite Z.mul_sub_distr_l, Z.mul_1_r, Z.mul_comm, Zminus_mod, <- S, Z.sub_diag. reflexivity. }
  apply prime_cancel in Z0; [|exact Hp|].
  - apply Z.mod_divide in Z0; [|lia]. destruct Z0 as [k Hk].
    replace (a ^ (p - 1)) with (1 + k * p) by lia. rewrite Z_mod_plus_full. apply Z.mod_small. lia.
  - apply product_units; [exact Hp|]. intros x Hx. apply in_units in Hx. apply prime_unit; [exact Hp|lia].
Qed.

(** ** Pocklington's criterion *)
Lemma prime_divisor n : 1 < n -> exists p, prime p /\ (p | n).
Proof.
  intros Hn. assert (Hw : 0 <= n) by lia. revert Hn. pattern n. apply (Z_lt_induction _); [|exact Hw].
  clear n Hw. intros n IH Hn. destruct (prime_dec n) as [P|N].
  - exists n. split; [exact P|apply Z.divide_refl].
  - destruct (not_prime_divide n Hn N) as (d & Hd & D).
    destruct (IH d ltac:(lia) ltac:(lia)) as (p & P & Dp).
    exists p. split; [exact P|]. exact (Z.divide_trans _ _ _ Dp D).
Qed.

Lemma prime_small_divisor n : 1 < n -> ~ prime n -> exists p, prime p /\ (p | n) /\ p * p <= n.
Proof.
  intros Hn N. destruct (not_prime_divide n Hn N) as (d & Hd & [e He]).
  assert (De : (e | n)) by (exists d; lia). assert (Dd : (d | n)) by (exists e; lia).
  destruct (Z_le_gt_dec (d * d) n) as [L|L].
  - destruct (prime_divisor d ltac:(lia)) as (p & P & Dp). exists p. split; [exact P|].
    pose proof (prime_ge_2 p P). pose proof (Z.divide_pos_le p d ltac:(lia) Dp).
    split; [exact (Z.divide_trans _ _ _ Dp Dd)|nia].
  - assert (1 < e) by (destruct (Z_le_gt_dec e 1); [exfalso; nia|lia]).
    assert (e * e <= n) by nia. destruct (prime_divisor e ltac:(lia)) as (p & P & Dp). exists p. split; [exact P|].
    pose proof (prime_ge_2 p P). pose proof (Z.divide_pos_le p e ltac:(lia) Dp).
    split; [exact (Z.divide_trans _ _ _ Dp De)|nia].
Qed.

Fixpoint trial (fuel : nat) (d n : Z) : bool :=
  match fuel with
  | O => false
  | S k => if n <? d * d then true else if n mod d =? 0 then false else trial k (d + 1) n
  end.
Lemma trial_spec fuel : forall d n, trial fuel d n = true -> 0 < d ->
  forall p, d <= p -> p * p <= n -> ~ (p | n).
Proof.
  induction fuel as [|k IH]; intros d n H Hd p Hp Hn D; [discriminate|]. cbn [trial] in H.
  destruct (n <? d * d) eqn:L; [apply Z.ltb_lt in L; nia|]. destruct (n mod d =? 0) eqn:Q; [discriminate|].
  apply Z.eqb_neq in Q. destruct (Z.eq_dec p d) as [->|Hne].
  - apply Q. apply Z.mod_divide; [lia|exact D].
  - exact (IH (d + 1) n H ltac:(lia) p ltac:(lia) Hn D).
Qed.
Lemma trial_prime fuel n : 1 < n -> trial fuel 2 n = true -> prime n.
Proof.
  intros Hn H. destruct (prime_dec n) as [P|N]; [exact P|exfalso].
  destruct (prime_small_divisor n Hn N) as (p & P & D & L). pose proof (prime_ge_2 p P).
  exact (trial_spec fuel 2 n H ltac:(lia) p ltac:(lia) L D).
Qed.

(** [F] is the product of the listed prime powers. *)
Definition factored (fs : list (Z * Z)) : Z := product (map (fun qe => fst qe ^ snd qe) fs).
Fixpoint coprime_powers (fs : list (Z * Z)) : bool :=
  match fs with
  | [] => true
  | qe :: t => (Z.gcd (fst qe ^ snd qe) (factored t) =? 1) && coprime_powers t
  end.
Definition pocklington (n a : Z) (fs : list (Z * Z)) : bool :=
  (1 <? n) && (0 <? factored fs) && (n <? factored fs * factored fs) && coprime_powers fs &&
  (Zpow_mod a (n - 1) n =? 1) &&
  forallb (fun qe => (1 <? fst qe) && (0 <=? snd qe) && ((n - 1) mod (fst qe ^ snd qe) =? 0) &&
     ((n - 1) mod fst qe =? 0) &&
     (Z.gcd (Zpow_mod a ((n - 1) / fst qe) n - 1) n =? 1)) fs.

Lemma factored_divides fs m : coprime_powers fs = true ->
  (forall qe, In qe fs -> (fst qe ^ snd qe | m)) -> (factored fs | m).
Proof.
  induction fs as [|qe t IH]; intros C H; [apply Z.divide_1_l|].
  cbn [coprime_powers] in C. apply andb_true_iff in C. destruct C as [C1 C2]. apply Z.eqb_eq in C1.
  destruct (IH C2 (fun x Hx => H x (or_intror Hx))) as [k Hk].
  pose proof (H qe (or_introl eq_refl)) as D. rewrite Hk, Z.mul_comm in D.
  apply Z.gauss in D; [|exact C1]. destruct D as [j Hj]. exists j.
  change (factored (qe :: t)) with (fst qe ^ snd qe * factored t). rewrite Hk, Hj. ring.
Qed.

Lemma pow_mod_1 p a k n : 1 < p -> 0 <= k -> 0 <= n -> a ^ k mod p = 1 -> a ^ (k * n) mod p = 1.
Proof.
  intros Hp Hk Hn H. rewrite Z.pow_mul_r by lia. rewrite Zpower_mod, H by lia.
  rewrite Z.pow_1_l by lia. apply Z.mod_small. lia.
Qed.

(** Exponents of 1 are closed under greatest common divisors. *)
Lemma pow_gcd p a m n : prime p -> a mod p <> 0 -> 0 < m -> 0 < n ->
  a ^ m mod p = 1 -> a ^ n mod p = 1 -> a ^ Z.gcd m n mod p = 1.
Proof.
  intros Hp Ha Hm Hn H1 H2. pose proof (prime_ge_2 p Hp) as P2.
  destruct (Z.gcd_bezout m n (Z.gcd m n) eq_refl) as (u & v & B).
  pose proof (Z.gcd_nonneg m n) as G.
  (* make both coefficients of the right sign *)
  set (u' := u mod n). set (k := u / n).
  assert (Bu : u = n * k + u') by (apply Z.div_mod; lia).
  pose proof (Z.mod_pos_bound u n Hn) as Hu.
  assert (E : m * u' = Z.gcd m n + n * (- (v + m * k))) by (unfold u'; nia).
  set (w := - (v + m * k)) in E.
  assert (Hw : 0 <= w \/ w < 0) by lia. destruct Hw as [Hw|Hw].
  - assert (A : a ^ (m * u') mod p = 1) by (apply pow_mod_1; unfold u'; lia).
    rewrite E, Z.pow_add_r in A by nia.
    rewrite Z.mul_mod in A by lia. rewrite (pow_mod_1 p a n w) in A by lia.
    rewrite Z.mul_1_r, Z.mod_mod in A by lia. exact A.
  - assert (E' : m * u' + n * (- w) = Z.gcd m n) by lia.
    rewrite <- E', Z.pow_add_r by (unfold u'; nia).
    rewrite Z.mul_mod by lia. rewrite (pow_mod_1 p a m u'), (pow_mod_1 p a n (- w)) by (unfold u'; lia).
    apply Z.mod_small. lia.
Qed.

Lemma prime_power_order p a m q e : prime p -> prime q -> 0 <= e -> 0 < m ->
  (q ^ e | m) -> (q | m) -> a mod p <> 0 -> a ^ m mod p = 1 -> a ^ (m / q) mod p <> 1 -> (q ^ e | p - 1).
Proof.
  intros Hp Hq He Hm D Dq Ha H1 H2. pose proof (prime_ge_2 p Hp) as P2. pose proof (prime_ge_2 q Hq) as Q2.
  pose proof (pow_gcd p a m (p - 1) Hp Ha Hm ltac:(lia) H1 (fermat p a Hp Ha)) as G.
  pose proof (Z.gcd_nonneg m (p - 1)) as G0.
  destruct (Z.gcd_divide_l m (p - 1)) as [h Hh]. pose proof (Z.gcd_divide_r m (p - 1)) as Dr.
  set (g := Z.gcd m (p - 1)) in *.
  destruct (Zdivide_dec q h) as [[j Hj]|N].
  - exfalso. apply H2. replace (m / q) with (g * j).
    + apply pow_mod_1; [lia|nia|nia|exact G].
    + rewrite Hh, Hj. replace (j * q * g) with (g * j * q) by ring. symmetry. apply Z.div_mul. lia.
  - apply Z.divide_trans with g; [|exact Dr].
    rewrite Hh, Z.mul_comm in D. rewrite Z.mul_comm in D. apply Z.gauss in D; [exact D|].
    apply Zgcd_1_rel_prime. apply rel_prime_sym. apply rel_prime_Zpower_r; [exact He|].
    apply rel_prime_sym. apply prime_rel_prime; assumption.
Qed.

Theorem pocklington_prime n a fs : pocklington n a fs = true ->
  (forall qe, In qe fs -> prime (fst qe)) -> prime n.
Proof.
  unfold pocklington. rewrite !andb_true_iff. intros (((((H1 & H0) & H2) & H3) & H4) & H5) Hq.
  apply Z.ltb_lt in H0, H1, H2. apply Z.eqb_eq in H4. rewrite forallb_forall in H5.
  rewrite Zpow_mod_correct in H4 by lia.
  destruct (prime_dec n) as [P|N]; [exact P|exfalso].
  destruct (prime_small_divisor n H1 N) as (p & P & D & L). pose proof (prime_ge_2 p P) as P2.
  assert (Hred : forall z, (z mod n) mod p = z mod p).
  { intros z. symmetry. apply Zmod_div_mod; [lia|lia|exact D]. }
  assert (A1 : a ^ (n - 1) mod p = 1).
  { rewrite <- Hred, H4. apply Z.mod_small. lia. }
  assert (Ha : a mod p <> 0).
  { intros C. rewrite Zpower_mod, C, Z.pow_0_l, Z.mod_0_l in A1 by lia. discriminate. }
  assert (F : (factored fs | p - 1)).
  { apply factored_divides; [exact H3|]. intros [q e] Hin. cbn [fst snd].
    pose proof (H5 _ Hin) as K. cbn [fst snd] in K. rewrite !andb_true_iff in K.
    destruct K as ((((K1 & K2) & K3) & K4) & K5). apply Z.ltb_lt in K1. apply Z.leb_le in K2.
    apply Z.eqb_eq in K3, K4, K5.
    apply (prime_power_order p a (n - 1) q e P (Hq _ Hin) K2 ltac:(lia)).
    - apply Z.mod_divide; [|exact K3]. apply Z.pow_nonzero; lia.
    - apply Z.mod_divide; [lia|exact K4].
    - exact Ha.
    - exact A1.
    - intros C. rewrite Zpow_mod_correct in K5 by lia.
      assert (Dp : (p | Z.gcd (a ^ ((n - 1) / q) mod n - 1) n)).
      { apply Z.gcd_greatest; [|exact D]. apply Z.mod_divide; [lia|].
        rewrite Zminus_mod, Hred, C, (Z.mod_small 1 p), Z.sub_diag by lia. apply Z.mod_0_l. lia. }
      rewrite K5 in Dp. apply Z.divide_1_r_nonneg in Dp; lia. }
  apply Z.divide_pos_le in F; [|lia].
  nia.
Qed.

(** ** The field of the repository's proofs (BN254) *)
Ltac by_pocklington a fs :=
  apply (pocklington_prime _ a fs); [vm_compute; reflexivity|];
  let H := fresh in intros qe H; cbn [In] in H;
  repeat (destruct H as [<-|H]; [cbn [fst]|]); [..|destruct H]; try assumption;
  try (apply (trial_prime 320); [lia|vm_compute; reflexivity]).

Lemma prime_93001 : prime 93001.
Proof. apply (trial_prime 320); [lia|vm_compute; reflexivity]. Qed.
Lemma prime_237073 : prime 237073.
Proof. by_pocklington 5 [(449, 1); (2, 4)]. Qed.
Lemma prime_405928799 : prime 405928799.
Proof. by_pocklington 2 [(4999, 1); (3691, 1)]. Qed.
Lemma prime_12048837557 : prime 12048837557.
Proof. pose proof prime_93001. by_pocklington 2 [(93001, 1); (2, 2)]. Qed.
Lemma prime_5156902474397 : prime 5156902474397.
Proof. pose proof prime_12048837557. by_pocklington 2 [(12048837557, 1)]. Qed.
Lemma prime_1670836401704629 : prime 1670836401704629.
Proof. pose proof prime_5156902474397. by_pocklington 2 [(5156902474397, 1)]. Qed.

Theorem bn254_prime : prime bn254_r.
Proof.
  pose proof prime_237073. pose proof prime_405928799. pose proof prime_1670836401704629.
  by_pocklington 5 [(2, 28); (983, 1); (237073, 1); (405928799, 1); (1670836401704629, 1)].
Qed.
