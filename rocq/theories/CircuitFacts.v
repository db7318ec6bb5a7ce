(** Structural facts about the two semantics of circuits. *)
From Coq Require Import ZArith Znumtheory List Bool Lia ZifyBool.
From Verif Require Import Field FieldFacts Circuit RangeCheck.
Import ListNotations.
Local Open Scope Z_scope.

Section SatG.
Context {MOD : Modulus}.
Variable ck : Z -> Z -> mode -> Prop.

Lemma satG_bind {A B} (c : circ A) (f : A -> circ B) r :
  satG ck (bind c f) r <-> exists a, satG ck c a /\ satG ck (f a) r.
Proof.
  induction c as [a|h k IH|b k IH|v n m k IH|s v k IH]; simpl.
  - split; [intros H; exists a; auto | intros [a' [<- H]]; exact H].
  - split.
    + intros [w [Hw H]]. apply IH in H. destruct H as [a [H1 H2]]. eauto.
    + intros [a [[w [Hw H1]] H2]]. exists w. split; [exact Hw|]. apply IH. eauto.
  - rewrite IH. firstorder.
  - rewrite IH. firstorder.
  - rewrite IH. firstorder.
Qed.

Lemma execG_bind (ckb : Z -> Z -> mode -> bool) {A B} (c : circ A) (f : A -> circ B) :
  execG ckb (bind c f)
  = match execG ckb c with Some a => execG ckb (f a) | None => None end.
Proof.
  induction c as [a|h k IH|b k IH|v n m k IH|s v k IH]; simpl.
  - reflexivity.
  - destruct h; [apply IH|reflexivity].
  - destruct b; [apply IH|reflexivity].
  - destruct (ckb v n m); [apply IH|reflexivity].
  - destruct (in_pow2_table s v); [apply IH|reflexivity].
Qed.

Lemma satG_hints hs ws :
  satG ck (hints hs) ws
  <-> length ws = length hs /\ Forall (fun w => 0 <= w < modulus) ws.
Proof.
  revert ws. induction hs as [|h t IH]; intros ws; simpl.
  - split.
    + intros <-. auto.
    + intros [H _]. destruct ws; [reflexivity|discriminate].
  - split.
    + intros [w [Hw H]]. apply satG_bind in H. destruct H as [l [Hl He]].
      simpl in He. subst. apply IH in Hl. destruct Hl. simpl. auto.
    + intros [Hl Hf]. destruct ws as [|w ws]; [discriminate|].
      inversion Hf; subst. exists w. split; [assumption|].
      apply satG_bind. exists ws. split; [apply IH; simpl in Hl; auto|reflexivity].
Qed.

Lemma execG_hints (ckb : Z -> Z -> mode -> bool) (l : list Z) :
  execG ckb (hints (map Some l)) = Some (map emb l).
Proof.
  induction l as [|a l IH]; [reflexivity|].
  simpl. rewrite execG_bind, IH. reflexivity.
Qed.

End SatG.

(** The honest prover's run is one of the runs of the malicious semantics. *)
Lemma execG_satG {MOD : Modulus} {HB : BigMod}
    (ck : Z -> Z -> mode -> Prop) (ckb : Z -> Z -> mode -> bool) :
  (forall v n m, ckb v n m = true -> ck v n m) ->
  forall A (c : circ A) r, execG ckb c = Some r -> satG ck c r.
Proof.
  intros Hck A c r. induction c as [a|h k IH|b k IH|v n m k IH|s v k IH]; simpl.
  - congruence.
  - destruct h as [w|]; [|discriminate]. intros H. exists (emb w).
    split; [apply emb_range|]. apply IH. exact H.
  - destruct b; [|discriminate]. auto.
  - destruct (ckb v n m) eqn:E; [|discriminate]. auto.
  - destruct (in_pow2_table s v); [|discriminate]. auto.
Qed.

Section Sat.
Context {MOD : Modulus}.
Context {HB : BigMod}.
Let Hp : 2 < modulus := HB.
Variable b : Z.

Lemma range_exec_ok v n m : range_exec b v n m = true -> range_ok b v n m.
Proof.
  unfold range_exec, range_ok. intros H.
  destruct (execG no_checkb _) as [[]|] eqn:E; [|discriminate].
  eapply execG_satG; [|exact E]. discriminate.
Qed.

Lemma exec_sat {A} (c : circ A) r : exec b c = Some r -> sat b c r.
Proof. apply execG_satG. exact range_exec_ok. Qed.

Lemma sat_bind {A B} (c : circ A) (f : A -> circ B) r :
  sat b (bind c f) r <-> exists a, sat b c a /\ sat b (f a) r.
Proof. exact (satG_bind _ c f r). Qed.

Lemma exec_bind {A B} (c : circ A) (f : A -> circ B) :
  exec b (bind c f)
  = match exec b c with Some a => exec b (f a) | None => None end.
Proof. exact (execG_bind _ c f). Qed.

Lemma exec_bind_eq {A B} (c : circ A) (f : A -> circ B) a :
  exec b c = Some a -> exec b (bind c f) = exec b (f a).
Proof. intros H. rewrite exec_bind, H. reflexivity. Qed.

Lemma exec_bind_inv {A B} (c : circ A) (f : A -> circ B) r :
  exec b (bind c f) = Some r -> exists a, exec b c = Some a /\ exec b (f a) = Some r.
Proof.
  rewrite exec_bind. destruct (exec b c) as [a|]; [|discriminate]. eauto.
Qed.

Lemma sat_ret {A} (a r : A) : sat b (Ret a) r <-> a = r.
Proof. reflexivity. Qed.
Lemma sat_ret_inv {A} (a r : A) : sat b (Ret a) r -> a = r.
Proof. exact (fun H => H). Qed.
Lemma exec_ret {A} (a : A) : exec b (Ret a) = Some a.
Proof. reflexivity. Qed.

Lemma sat_hint1 h w : sat b (hint1 h) w <-> 0 <= w < modulus.
Proof.
  unfold sat, hint1; simpl. split; [intros [x [H <-]]; exact H|].
  intros H; exists w; auto.
Qed.
Lemma exec_hint1 w : exec b (hint1 (Some w)) = Some (emb w).
Proof. reflexivity. Qed.

Lemma sat_assert c u : sat b (assert c) u <-> c = true.
Proof. destruct u. unfold sat, assert; simpl. firstorder. Qed.
Lemma exec_assert c : c = true -> exec b (assert c) = Some tt.
Proof. intros ->. reflexivity. Qed.

Lemma sat_assert_bool a u :
  sat b (assert_bool a) u <-> exists c, a = emb (Z.b2z c).
Proof.
  unfold assert_bool. rewrite sat_assert. split.
  - apply is_bool_inv.
  - intros [c ->]. apply is_bool_b2z.
Qed.
Lemma exec_assert_bool c : exec b (assert_bool (emb (Z.b2z c))) = Some tt.
Proof. apply exec_assert. apply is_bool_b2z. Qed.

Lemma sat_assert_eq x y u : sat b (assert_eq x y) u <-> x = y.
Proof. unfold assert_eq. rewrite sat_assert. apply Z.eqb_eq. Qed.
Lemma exec_assert_eq x : exec b (assert_eq x x) = Some tt.
Proof. apply exec_assert, Z.eqb_refl. Qed.

Lemma sat_select c x y r :
  sat b (select c x y) r
  <-> exists c', c = emb (Z.b2z c') /\ r = if c' then x else y.
Proof.
  unfold select. rewrite sat_bind. split.
  - intros [u [H1 H2]]. apply sat_assert_bool in H1. destruct H1 as [c' ->].
    apply sat_ret_inv in H2. exists c'. split; [reflexivity|].
    rewrite <- H2, emb_b2z. destruct c'; reflexivity.
  - intros [c' [-> ->]]. exists tt. split; [apply sat_assert_bool; eauto|].
    apply sat_ret. rewrite emb_b2z. destruct c'; reflexivity.
Qed.
Lemma exec_select c x y :
  exec b (select (emb (Z.b2z c)) x y) = Some (if c then x else y).
Proof.
  unfold select. rewrite (exec_bind_eq _ _ _ (exec_assert_bool c)).
  rewrite exec_ret, emb_b2z. destruct c; reflexivity.
Qed.

Lemma sat_and x y r :
  sat b (and_ x y) r
  <-> exists c d, x = emb (Z.b2z c) /\ y = emb (Z.b2z d) /\ r = emb (Z.b2z (c && d)).
Proof.
  unfold and_. rewrite sat_bind. split.
  - intros [u [H1 H2]]. apply sat_bind in H2. destruct H2 as [u' [H2 H3]].
    apply sat_assert_bool in H1. apply sat_assert_bool in H2.
    destruct H1 as [c ->], H2 as [d ->]. apply sat_ret_inv in H3.
    exists c, d. repeat split. rewrite <- H3, fmul_emb.
    destruct c, d; reflexivity.
  - intros [c [d [-> [-> ->]]]]. exists tt. split; [apply sat_assert_bool; eauto|].
    apply sat_bind. exists tt. split; [apply sat_assert_bool; eauto|].
    apply sat_ret. rewrite fmul_emb. destruct c, d; reflexivity.
Qed.
Lemma exec_and c d :
  exec b (and_ (emb (Z.b2z c)) (emb (Z.b2z d))) = Some (emb (Z.b2z (c && d))).
Proof.
  unfold and_. rewrite (exec_bind_eq _ _ _ (exec_assert_bool c)).
  rewrite (exec_bind_eq _ _ _ (exec_assert_bool d)), exec_ret.
  rewrite fmul_emb. destruct c, d; reflexivity.
Qed.

Lemma sat_or x y r :
  sat b (or_ x y) r
  <-> exists c d, x = emb (Z.b2z c) /\ y = emb (Z.b2z d) /\ r = emb (Z.b2z (c || d)).
Proof.
  unfold or_. rewrite sat_bind. split.
  - intros [u [H1 H2]]. apply sat_bind in H2. destruct H2 as [u' [H2 H3]].
    apply sat_assert_bool in H1. apply sat_assert_bool in H2.
    destruct H1 as [c ->], H2 as [d ->]. apply sat_ret_inv in H3.
    exists c, d. repeat split.
    rewrite <- H3, fmul_emb, fadd_emb, fsub_emb.
    destruct c, d; reflexivity.
  - intros [c [d [-> [-> ->]]]]. exists tt. split; [apply sat_assert_bool; eauto|].
    apply sat_bind. exists tt. split; [apply sat_assert_bool; eauto|].
    apply sat_ret. rewrite fmul_emb, fadd_emb, fsub_emb.
    destruct c, d; reflexivity.
Qed.
Lemma exec_or c d :
  exec b (or_ (emb (Z.b2z c)) (emb (Z.b2z d))) = Some (emb (Z.b2z (c || d))).
Proof.
  unfold or_. rewrite (exec_bind_eq _ _ _ (exec_assert_bool c)).
  rewrite (exec_bind_eq _ _ _ (exec_assert_bool d)), exec_ret.
  rewrite fmul_emb, fadd_emb, fsub_emb. destruct c, d; reflexivity.
Qed.

Lemma sat_xor x y r :
  sat b (xor_ x y) r
  <-> exists c d, x = emb (Z.b2z c) /\ y = emb (Z.b2z d) /\ r = emb (Z.b2z (xorb c d)).
Proof.
  unfold xor_. rewrite sat_bind. split.
  - intros [u [H1 H2]]. apply sat_bind in H2. destruct H2 as [u' [H2 H3]].
    apply sat_assert_bool in H1. apply sat_assert_bool in H2.
    destruct H1 as [c ->], H2 as [d ->]. apply sat_ret_inv in H3.
    exists c, d. repeat split.
    rewrite <- H3, !fmul_emb, fadd_emb, fsub_emb.
    destruct c, d; reflexivity.
  - intros [c [d [-> [-> ->]]]]. exists tt. split; [apply sat_assert_bool; eauto|].
    apply sat_bind. exists tt. split; [apply sat_assert_bool; eauto|].
    apply sat_ret. rewrite !fmul_emb, fadd_emb, fsub_emb.
    destruct c, d; reflexivity.
Qed.
Lemma exec_xor c d :
  exec b (xor_ (emb (Z.b2z c)) (emb (Z.b2z d))) = Some (emb (Z.b2z (xorb c d))).
Proof.
  unfold xor_. rewrite (exec_bind_eq _ _ _ (exec_assert_bool c)).
  rewrite (exec_bind_eq _ _ _ (exec_assert_bool d)), exec_ret.
  rewrite !fmul_emb, fadd_emb, fsub_emb. destruct c, d; reflexivity.
Qed.

Lemma sat_check v n m u : sat b (check v n m) u <-> range_ok b v n m.
Proof. destruct u. unfold sat, check; simpl. tauto. Qed.
Lemma exec_check v n m : range_exec b v n m = true -> exec b (check v n m) = Some tt.
Proof. intros H. unfold exec, check; simpl. rewrite H. reflexivity. Qed.

Lemma sat_query s v u : sat b (query s v) u <-> in_pow2_table s v = true.
Proof. destruct u. unfold sat, query; simpl. tauto. Qed.
Lemma exec_query s v : in_pow2_table s v = true -> exec b (query s v) = Some tt.
Proof. intros H. unfold exec, query; simpl. rewrite H. reflexivity. Qed.

(** Inverse of a power of two. *)
Lemma sat_inverse_pow2 k w : Z.odd modulus = true -> 0 <= k ->
  sat b (inverse (emb (2 ^ k))) w ->
  (0 <= w < modulus) /\ emb (2 ^ k * w) = emb 1.
Proof.
  intros Ho Hk H. unfold inverse in H. apply sat_bind in H.
  destruct H as [w' [H1 H2]]. apply sat_hint1 in H1.
  apply sat_bind in H2. destruct H2 as [u [H2 H3]].
  apply sat_assert in H2. apply sat_ret_inv in H3. subst w'.
  apply Z.eqb_eq in H2. split; [exact H1|].
  rewrite <- H2. rewrite <- (emb_small w H1) at 2. symmetry.
  apply fmul_emb.
Qed.

Lemma exec_inverse_pow2 k : Z.odd modulus = true -> 0 <= k ->
  exists w, exec b (inverse (emb (2 ^ k))) = Some w /\
    0 <= w < modulus /\ emb (2 ^ k * w) = emb 1.
Proof.
  intros Ho Hk. unfold inverse.
  rewrite (exec_bind_eq _ _ _ (exec_hint1 _)).
  set (w := inv_mod modulus (emb (2 ^ k))).
  assert (Hw : 0 <= w < modulus) by (apply inv_mod_range; exact Hp).
  rewrite (emb_small w Hw).
  assert (Hm : fmul (emb (2 ^ k)) w = emb 1).
  { unfold fmul, w. rewrite emb_1.
    apply inv_mod_spec; [exact Hp|apply emb_range|].
    unfold emb. rewrite Z.gcd_comm, Z.gcd_mod by lia.
    apply odd_gcd_pow2; assumption. }
  assert (He : emb (2 ^ k * w) = emb 1).
  { rewrite <- Hm, <- fmul_emb, (emb_small w Hw). reflexivity. }
  exists w. split; [|split; assumption].
  rewrite exec_bind_eq with (a := tt); [reflexivity|].
  apply exec_assert. apply Z.eqb_eq.
  exact Hm.
Qed.

End Sat.

(** Inversion of a [sat] hypothesis, one layer at a time. *)
Ltac sat_bind_in H a H1 :=
  apply sat_bind in H; destruct H as [a [H1 H]]; cbv beta in H.
