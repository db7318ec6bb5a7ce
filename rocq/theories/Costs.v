(** float/float_constraints_test.go:25-75: what one operation adds to the lookup
    counters of the gadget, for every value on the wires. *)
From Coq Require Import ZArith List Bool Lia.
From Verif Require Import Field Circuit Hints RangeCheck Gadget Util FloatModel Counters Shapes.
Import ListNotations.
Local Open Scope Z_scope.

(** float/float_constraints_test.go:42-54: [count_constraints] reads the counters,
    lets [f] define its part of the circuit and reads them again.  No value is on
    any wire then, so the assertions are recorded, not evaluated; [tape] stands
    for the wires that the hints create. *)
Fixpoint defining {MOD : Modulus} (range_size : Z) {A} (c : circ A) (tape : list Z)
  (st : counters) : option (A * counters * list Z) :=
  match c with
  | Ret a => Some (a, st, tape)
  | Hint _ k =>
      match tape with w :: t => defining range_size (k w) t st | [] => None end
  | Assert _ k => defining range_size k tape st
  | Check _ bits m k => defining range_size k tape (count_check range_size bits m st)
  | Query _ _ k => defining range_size k tape (count_query st)
  end.

Definition count_constraints {MOD : Modulus} (range_size : Z) {A} (f : circ A)
  (tape : list Z) (st : counters) : option Z :=
  match defining range_size f tape st with
  | Some (_, st', _) => Some (LookupQueryConstraints st' - LookupQueryConstraints st)
  | None => None
  end.

(** float/float_constraints_test.go:52 *)
Definition lookup_global (range_size E M : Z) : Z :=
  LookupEntryConstraints range_size (pow2_size E M) + LookupFinalizeConstraints.

Section Costs.
Context {MOD : Modulus}.

(** Whatever the wires, [c] creates [h] hints, registers the checks [s] and makes
    [q] queries. *)
Fixpoint uses {A} (c : circ A) (h : nat) (s : list (Z * mode)) (q : nat) : Prop :=
  match c with
  | Ret _ => h = 0%nat /\ s = [] /\ q = 0%nat
  | Hint _ k => exists h', h = S h' /\ forall w, uses (k w) h' s q
  | Assert _ k => uses k h s q
  | Check _ n m k => exists t, s = (n, m) :: t /\ uses k h t q
  | Query _ _ k => exists q', q = S q' /\ uses k h s q'
  end.

Definition charge (b : Z) (s : list (Z * mode)) (st : counters) : counters :=
  fold_left (fun st i => count_check b (fst i) (snd i) st) s st.
Definition charge_queries (q : nat) (st : counters) : counters :=
  mkCounters (num_range_decompositions st) (num_range_chunks st)
             (num_pow2_queries st + Z.of_nat q).

Lemma charge_query_check b n m q st :
  charge_queries q (count_check b n m st) = count_check b n m (charge_queries q st).
Proof.
  unfold count_check, charge_queries. destruct (b >? 0); [|reflexivity]. reflexivity.
Qed.

Lemma charge_query b s q st :
  charge_queries q (charge b s st) = charge b s (charge_queries q st).
Proof.
  unfold charge. revert st. induction s as [|[n m] t IH]; intros st; simpl; [reflexivity|].
  rewrite IH, charge_query_check. reflexivity.
Qed.

Lemma uses_defining b {A} (c : circ A) : forall h s q tape st,
  uses c h s q -> (h <= length tape)%nat ->
  exists r, defining b c tape st
    = Some (r, charge_queries q (charge b s st), skipn h tape).
Proof.
  induction c as [a|hh k IH|p k IH|v n m k IH|z v k IH]; intros h s q tape st; simpl.
  - intros [-> [-> ->]] _. exists a. unfold charge, charge_queries. simpl. rewrite Z.add_0_r.
    destruct st. reflexivity.
  - intros [h' [-> H]] Hl. destruct tape as [|w t]; simpl in Hl; [lia|].
    simpl. apply IH; [apply H|lia].
  - intros H Hl. apply IH; assumption.
  - intros [t [-> H]] Hl. simpl.
    destruct (IH h t q tape (count_check b n m st) H Hl) as [r Hr]. exists r. exact Hr.
  - intros [q' [-> H]] Hl.
    destruct (IH h s q' tape (count_query st) H Hl) as [r Hr]. exists r. rewrite Hr.
    do 3 f_equal. rewrite !charge_query. f_equal.
    unfold charge_queries, count_query. cbn [num_range_decompositions num_range_chunks num_pow2_queries].
    f_equal. lia.
Qed.

Lemma uses_bind {A B} (c : circ A) (f : A -> circ B) h1 s1 q1 h2 s2 q2 h s q :
  uses c h1 s1 q1 -> (forall a, uses (f a) h2 s2 q2) ->
  h = (h1 + h2)%nat -> s = s1 ++ s2 -> q = (q1 + q2)%nat -> uses (bind c f) h s q.
Proof.
  intros H Hf -> -> ->. revert h1 s1 q1 H.
  induction c as [a|hh k IH|p k IH|v n m k IH|z v k IH]; intros h1 s1 q1; simpl.
  - intros [-> [-> ->]]. apply Hf.
  - intros [h' [-> H]]. exists (h' + h2)%nat. split; [reflexivity|]. intros w. apply IH, H.
  - intros H. apply IH, H.
  - intros [t [-> H]]. exists (t ++ s2). split; [reflexivity|]. apply IH, H.
  - intros [q' [-> H]]. exists (q' + q2)%nat. split; [reflexivity|]. apply IH, H.
Qed.

Lemma uses_ret {A} (a : A) : uses (Ret a) 0 [] 0. Proof. repeat split. Qed.
Lemma uses_hint1 h : uses (hint1 h) 1 [] 0.
Proof. exists 0%nat. split; [reflexivity|]. intros w. repeat split. Qed.
Lemma uses_assert c : uses (assert c) 0 [] 0. Proof. repeat split. Qed.
Lemma uses_assert_bool a : uses (assert_bool a) 0 [] 0. Proof. repeat split. Qed.
Lemma uses_assert_eq a b : uses (assert_eq a b) 0 [] 0. Proof. repeat split. Qed.
Lemma uses_select c a b : uses (select c a b) 0 [] 0. Proof. repeat split. Qed.
Lemma uses_and a b : uses (and_ a b) 0 [] 0. Proof. repeat split. Qed.
Lemma uses_or a b : uses (or_ a b) 0 [] 0. Proof. repeat split. Qed.
Lemma uses_xor a b : uses (xor_ a b) 0 [] 0. Proof. repeat split. Qed.
Lemma uses_abl v n m : uses (AssertBitLength v n m) 0 [(n, m)] 0.
Proof. exists []. repeat split. Qed.
Lemma uses_query s v : uses (query s v) 0 [] 1. Proof. exists 0%nat. repeat split. Qed.
Lemma uses_inverse a : uses (inverse a) 1 [] 0.
Proof. exists 0%nat. split; [reflexivity|]. intros w. repeat split. Qed.

Create HintDb uses.
#[local] Hint Resolve uses_ret uses_hint1 uses_assert uses_assert_bool uses_assert_eq
  uses_select uses_and uses_or uses_xor uses_abl uses_query uses_inverse : uses.

Ltac use :=
  lazymatch goal with
  | |- uses (bind _ _) _ _ _ =>
      eapply uses_bind;
      [ use | intros ?; use | cbn [Nat.add]; reflexivity | cbn [app]; reflexivity
      | cbn [Nat.add]; reflexivity ]
  | |- uses (let '(_, _) := ?p in _) _ _ _ => destruct p; use
  | |- uses (let _ := _ in _) _ _ _ => cbv zeta; use
  | |- uses (match ?p with pair _ _ => _ end) _ _ _ => destruct p; use
  | _ => solve [ eauto with uses ]
  end.

Lemma uses_GAbs v n : uses (GAbs v n) 2 [(n, Loose)] 0.
Proof. unfold GAbs. use. Qed.
#[local] Hint Resolve uses_GAbs : uses.
Lemma uses_IsPositive v n : uses (IsPositive v n) 2 [(n, Loose)] 0.
Proof. unfold IsPositive. use. Qed.
#[local] Hint Resolve uses_IsPositive : uses.
Lemma uses_GMax a b n : uses (GMax a b n) 2 [(n, Loose)] 0.
Proof. unfold GMax. use. Qed.
Lemma uses_GMin a b n : uses (GMin a b n) 2 [(n, Loose)] 0.
Proof. unfold GMin. use. Qed.
#[local] Hint Resolve uses_GMax uses_GMin : uses.

Variables (E M : Z).

Lemma uses_QueryPow2 e : uses (QueryPow2 E M e) 1 [(pow2_size E M, Loose)] 1.
Proof. unfold QueryPow2, QueryPowerOf2. use. Qed.
#[local] Hint Resolve uses_QueryPow2 : uses.

Lemma uses_NewFloat : exists h, forall v, uses (NewFloat E M v) h (newfloat_shape E M) 1.
Proof. eexists. intros v. unfold NewFloat. use. Qed.

Lemma uses_round m n s k h : uses (round E M m n s k h) 5 (round_shape E M n k) 1.
Proof.
  unfold round. eapply uses_bind; [apply uses_QueryPow2|intros two| | | ].
  { cbv zeta.
    destruct (DecomposeMantissaForRoundingHint _ _ _ _ _ _) as [[[hp hq] hr] hs]. use. }
  all: reflexivity.
Qed.
Lemma uses_fixOverflow m z e a : uses (fixOverflow E M m z e a) 2 [(E + 1, Loose)] 0.
Proof. unfold fixOverflow. use. Qed.
Lemma uses_nan x y : uses (is_nan_either x y) 0 [] 0.
Proof. unfold is_nan_either. use. Qed.
#[local] Hint Resolve uses_round uses_fixOverflow uses_nan : uses.

Lemma uses_Add : exists h, forall x y, uses (Add E M x y) h (add_shape E M) 3.
Proof. eexists. intros x y. unfold Add. use. Qed.
Lemma uses_Sub : exists h, forall x y, uses (Sub E M x y) h (add_shape E M) 3.
Proof. destruct uses_Add as [h H]. exists h. intros x y. exact (H x (Neg y)). Qed.
Lemma uses_subshift e s : uses (subnormal_shift E e s) 4 [(E + 1, Loose); (E + 1, Loose)] 0.
Proof. unfold subnormal_shift. use. Qed.
#[local] Hint Resolve uses_subshift : uses.
Lemma uses_Mul : exists h, forall x y, uses (Mul E M x y) h (mul_shape E M) 1.
Proof. eexists. intros x y. unfold Mul. use. Qed.
Lemma uses_Div : exists h, forall x y, uses (Div E M x y) h (div_shape E M) 1.
Proof. eexists. intros x y. unfold Div. use. Qed.
Lemma uses_Sqrt : exists h, forall x, uses (Sqrt E M x) h (sqrt_shape E M) 1.
Proof. eexists. intros x. unfold Sqrt. use. Qed.
Lemma uses_IsLt : exists h, forall x y, uses (IsLt E M x y) h (cmp_shape E M) 0.
Proof. eexists. intros x y. unfold IsLt, less. use. Qed.
End Costs.
