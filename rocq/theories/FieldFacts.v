(** Facts about field arithmetic on canonical residues. *)
From Coq Require Import ZArith Znumtheory List Bool Lia ZifyBool.
From Verif Require Import Field.
Import ListNotations.
Local Open Scope Z_scope.

(** The field has more than two elements. *)
Class BigMod {MOD : Modulus} : Prop := bigmod : 2 < modulus.

Section FieldFacts.
Context {MOD : Modulus}.
Context {HB : BigMod}.
Let Hp : 2 < modulus := HB.

Lemma emb_range z : 0 <= emb z < modulus.
Proof. unfold emb. apply Z.mod_pos_bound. lia. Qed.

Lemma emb_small z : 0 <= z < modulus -> emb z = z.
Proof. intros H. unfold emb. apply Z.mod_small. lia. Qed.

Lemma emb_emb z : emb (emb z) = emb z.
Proof. apply emb_small, emb_range. Qed.

Lemma emb_0 : emb 0 = 0.
Proof. apply emb_small. lia. Qed.
Lemma emb_1 : emb 1 = 1.
Proof. apply emb_small. lia. Qed.

Lemma fadd_emb a b : fadd (emb a) (emb b) = emb (a + b).
Proof. unfold fadd, emb. symmetry. apply Zplus_mod. Qed.
Lemma fsub_emb a b : fsub (emb a) (emb b) = emb (a - b).
Proof. unfold fsub, emb. symmetry. apply Zminus_mod. Qed.
Lemma fmul_emb a b : fmul (emb a) (emb b) = emb (a * b).
Proof. unfold fmul, emb. symmetry. apply Zmult_mod. Qed.
Lemma fneg_emb a : fneg (emb a) = emb (- a).
Proof.
  unfold fneg, emb.
  rewrite <- (Z.sub_0_l (a mod modulus)), <- (Z.sub_0_l a).
  rewrite (Zminus_mod 0 a), (Zminus_mod 0 (a mod modulus)), Z.mod_mod by lia.
  reflexivity.
Qed.

Lemma fadd_range a b : 0 <= fadd a b < modulus.
Proof. apply Z.mod_pos_bound; lia. Qed.
Lemma fsub_range a b : 0 <= fsub a b < modulus.
Proof. apply Z.mod_pos_bound; lia. Qed.
Lemma fmul_range a b : 0 <= fmul a b < modulus.
Proof. apply Z.mod_pos_bound; lia. Qed.

Lemma emb_eq_iff a b : emb a = emb b <-> exists k, a = b + k * modulus.
Proof.
  unfold emb. split.
  - intros H. exists (a / modulus - b / modulus).
    rewrite (Z.div_mod a modulus) at 1 by lia.
    rewrite (Z.div_mod b modulus) at 1 by lia. nia.
  - intros [k ->]. apply Z.mod_add. lia.
Qed.

Lemma emb_inj a b : emb a = emb b -> - modulus < a - b < modulus -> a = b.
Proof. rewrite emb_eq_iff. intros [k Hk] Hb. assert (k = 0) by nia. lia. Qed.

Lemma emb_eqb a b : - modulus < a - b < modulus -> (emb a =? emb b) = (a =? b).
Proof.
  intros H. destruct (Z.eqb_spec a b) as [->|Hn].
  - apply Z.eqb_refl.
  - apply Z.eqb_neq. intros He. apply Hn, emb_inj; assumption.
Qed.

(** Wires holding booleans. *)
Lemma emb_b2z c : emb (Z.b2z c) = Z.b2z c.
Proof. apply emb_small. destruct c; simpl; lia. Qed.

Lemma is_bool_b2z c : is_bool (emb (Z.b2z c)) = true.
Proof. rewrite emb_b2z. destruct c; reflexivity. Qed.

Lemma is_bool_inv a : is_bool a = true -> exists c, a = emb (Z.b2z c).
Proof.
  unfold is_bool. intros H. apply orb_true_iff in H.
  destruct H as [H|H]; apply Z.eqb_eq in H; subst.
  - exists false. now rewrite emb_b2z.
  - exists true. now rewrite emb_b2z.
Qed.

Lemma b2z_inj a b : emb (Z.b2z a) = emb (Z.b2z b) -> a = b.
Proof. rewrite !emb_b2z. destruct a, b; simpl; congruence. Qed.

Lemma isZero_emb z : - modulus < z < modulus -> isZero (emb z) = emb (Z.b2z (z =? 0)).
Proof.
  intros H. unfold isZero. rewrite emb_b2z.
  rewrite <- emb_0 at 1. rewrite emb_eqb by lia.
  destruct (z =? 0); reflexivity.
Qed.

Lemma isZero_canon z : 0 <= z < modulus -> isZero z = emb (Z.b2z (z =? 0)).
Proof. intros H. unfold isZero. rewrite emb_b2z. destruct (z =? 0); reflexivity. Qed.

Lemma not_emb c : fsub (emb 1) (emb (Z.b2z c)) = emb (Z.b2z (negb c)).
Proof. rewrite fsub_emb. f_equal. destruct c; reflexivity. Qed.

End FieldFacts.

(** ** Inverses *)

Lemma egcd_bezout n : forall a b g u v,
  egcd n a b = (g, u, v) -> u * a + v * b = g.
Proof.
  induction n as [|n IH]; intros a b g u v; simpl.
  - intros H; injection H as <- <- <-. lia.
  - destruct (Z.eqb_spec b 0) as [->|Hb].
    + intros H; injection H as <- <- <-. lia.
    + destruct (egcd n b (a mod b)) as [[g' u'] v'] eqn:He.
      intros H; injection H as <- <- <-.
      apply IH in He. rewrite <- He.
      assert (H := Z.div_mod a b Hb).
      replace (a mod b) with (a - b * (a / b)) by lia. ring.
Qed.

Lemma egcd_gcd n : forall a b g u v,
  0 <= b <= a -> a * b < 2 ^ Z.of_nat n ->
  egcd n a b = (g, u, v) -> g = Z.gcd a b.
Proof.
  induction n as [|n IH]; intros a b g u v Hab Hlt.
  - simpl. intros H; injection H as <- <- <-.
    change (2 ^ Z.of_nat 0) with 1 in Hlt.
    assert (b = 0) by nia. subst. rewrite Z.gcd_0_r. lia.
  - cbn [egcd]. destruct (Z.eqb_spec b 0) as [->|Hb].
    + intros H; injection H as <- <- <-. rewrite Z.gcd_0_r. lia.
    + destruct (egcd n b (a mod b)) as [[g' u'] v'] eqn:He.
      intros H; injection H as <- <- <-.
      assert (Hm : 0 <= a mod b < b) by (apply Z.mod_pos_bound; lia).
      apply IH in He.
      * rewrite He. rewrite (Z.gcd_comm b), Z.gcd_mod by assumption. apply Z.gcd_comm.
      * lia.
      * rewrite Nat2Z.inj_succ, Z.pow_succ_r in Hlt by lia.
        assert (1 <= a / b) by (apply Z.div_le_lower_bound; lia).
        assert (a = b * (a / b) + a mod b) by (apply Z.div_mod; lia).
        nia.
Qed.

Lemma inv_mod_spec p x : 2 < p -> 0 <= x < p -> Z.gcd p x = 1 ->
  (x * inv_mod p x) mod p = 1.
Proof.
  intros Hp Hx Hg. unfold inv_mod.
  destruct (egcd _ p x) as [[g u] v] eqn:He.
  assert (Hl : 0 <= Z.log2 p) by apply Z.log2_nonneg.
  assert (Hgg : g = Z.gcd p x).
  { eapply egcd_gcd; [| |exact He]; [lia|].
    rewrite Z2Nat.id by lia.
    assert (p < 2 ^ (Z.log2 p + 1)) by (apply Z.log2_spec; lia).
    replace (2 * Z.log2 p + 3) with ((Z.log2 p + 1) + ((Z.log2 p + 1) + 1)) by lia.
    rewrite Z.pow_add_r by lia.
    rewrite (Z.pow_add_r 2 (Z.log2 p + 1) 1) by lia.
    set (A := 2 ^ (Z.log2 p + 1)) in *. change (2 ^ 1) with 2. nia. }
  apply egcd_bezout in He. rewrite Hgg, Hg in He.
  rewrite Z.mul_mod_idemp_r by lia.
  replace (x * v) with (1 + (- u) * p) by lia.
  rewrite Z.mod_add by lia. apply Z.mod_small. lia.
Qed.

Lemma inv_mod_range p x : 2 < p -> 0 <= inv_mod p x < p.
Proof.
  intros Hp. unfold inv_mod. destruct (egcd _ p x) as [[g u] v].
  apply Z.mod_pos_bound. lia.
Qed.

Lemma odd_gcd_pow2 p k : Z.odd p = true -> 0 <= k -> Z.gcd p (2 ^ k) = 1.
Proof.
  intros Ho Hk.
  apply Zgcd_1_rel_prime. apply rel_prime_sym.
  pattern k. apply natlike_ind; [| |assumption].
  - apply rel_prime_1.
  - intros x Hx IH. rewrite Z.pow_succ_r by assumption.
    apply rel_prime_sym. apply rel_prime_mult; apply rel_prime_sym; [|assumption].
    apply rel_prime_sym. apply Zgcd_1_rel_prime.
    assert (Hd : (Z.gcd p 2 | 2)) by apply Z.gcd_divide_r.
    assert (0 <= Z.gcd p 2) by apply Z.gcd_nonneg.
    assert (Z.gcd p 2 <= 2) by (apply Z.divide_pos_le; [lia|assumption]).
    assert (Hne : Z.gcd p 2 <> 2).
    { intros He. assert (Hd2 : (2 | p)) by (rewrite <- He; apply Z.gcd_divide_l).
      destruct Hd2 as [q ->]. rewrite Z.odd_mul in Ho. simpl in Ho.
      rewrite andb_false_r in Ho. discriminate. }
    assert (Z.gcd p 2 <> 0).
    { intros He. apply Z.gcd_eq_0_r in He. discriminate. }
    lia.
Qed.

(** Cancellation of a power of two in a field of odd order. *)
Lemma odd_cancel_pow2 p k a b : 2 < p -> Z.odd p = true -> 0 <= k ->
  (a * 2 ^ k) mod p = (b * 2 ^ k) mod p -> a mod p = b mod p.
Proof.
  intros Hp Ho Hk H.
  assert (Hr : rel_prime p (2 ^ k)) by (apply Zgcd_1_rel_prime, odd_gcd_pow2; assumption).
  assert (Hd : (p | (a - b) * 2 ^ k)).
  { exists (a * 2 ^ k / p - b * 2 ^ k / p).
    assert (H1 := Z.div_mod (a * 2 ^ k) p ltac:(lia)).
    assert (H2 := Z.div_mod (b * 2 ^ k) p ltac:(lia)).
    rewrite H in H1. lia. }
  rewrite Z.mul_comm in Hd.
  apply Gauss in Hd; [|assumption].
  destruct Hd as [q Hq].
  replace a with (b + q * p) by lia. apply Z.mod_add. lia.
Qed.

(** ** [zseq] *)
Lemma in_zseq n i : In i (zseq n) <-> 0 <= i < n.
Proof.
  unfold zseq. rewrite in_map_iff. split.
  - intros [k [<- Hk]]. apply in_seq in Hk. lia.
  - intros H. exists (Z.to_nat i). split; [lia|]. apply in_seq. lia.
Qed.
