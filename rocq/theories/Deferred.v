(** Deferring the range checks to the end of circuit compilation
    (gadget/rangecheck.go:38-49, 59-120) is the same as checking on the spot. *)
From Coq Require Import ZArith List Bool Lia ZifyBool.
From Verif Require Import Field FieldFacts Circuit RangeCheck CircuitFacts RangeFacts.
Import ListNotations.
Local Open Scope Z_scope.

Section Deferred.
Context {MOD : Modulus} {HB : BigMod}.

Definition item_ok (b : Z) (i : check_item) : Prop :=
  range_ok b (ck_v i) (ck_bits i) (ck_mode i).

Lemma commit_items_ok b cs :
  (exists ds, satG no_check (commit_items b cs) ds /\
              forallb (in_range_table b) ds = true)
  <-> Forall (item_ok b) cs.
Proof.
  induction cs as [|c t IH].
  - simpl. split; [constructor|]. intros _. exists []. auto.
  - simpl commit_items. split.
    + intros [ds [H1 H2]]. apply satG_bind in H1. destruct H1 as [d [Hd H1]].
      apply satG_bind in H1. destruct H1 as [ds' [Hds' H1]]. simpl in H1. subst ds.
      rewrite forallb_app in H2. apply andb_true_iff in H2. destruct H2 as [H2 H3].
      constructor.
      * unfold item_ok. apply range_ok_unfold. exists d. destruct c. split; [exact Hd|].
        apply forallb_table. exact H2.
      * apply IH. eauto.
    + intros H. pose proof (Forall_inv H) as Hc. pose proof (Forall_inv_tail H) as Ht.
      apply IH in Ht. destruct Ht as [ds [H1 H2]].
      unfold item_ok in Hc. apply range_ok_unfold in Hc. destruct Hc as [d [H3 H4]].
      apply forallb_table in H4.
      exists (d ++ ds). split.
      * apply satG_bind. exists d. split; [destruct c; exact H3|].
        apply satG_bind. exists ds. split; [exact H1|reflexivity].
      * rewrite forallb_app, H2, H4. reflexivity.
Qed.

Lemma commit_with_ok b cs :
  satG no_check (commit_with b cs) tt <-> Forall (item_ok b) cs.
Proof.
  rewrite <- commit_items_ok. unfold commit_with. destruct cs as [|c t].
  - simpl. split; [intros _; exists []; auto|reflexivity].
  - rewrite satG_bind. split.
    + intros [ds [H1 H2]]. simpl in H2. destruct H2 as [H2 _]. eauto.
    + intros [ds [H1 H2]]. exists ds. split; [exact H1|]. simpl. auto.
Qed.

Lemma trace_sat b {A} (c : circ A) (r : A) :
  sat b c r
  <-> exists tape cs qs, trace c tape = Some (r, cs, qs, []) /\
        Forall (item_ok b) cs /\
        Forall (fun q => in_pow2_table (fst q) (snd q) = true) qs.
Proof.
  unfold sat. induction c as [a|h k IH|x k IH|v n m k IH|s v k IH]; simpl.
  - split.
    + intros ->. exists [], [], []. auto.
    + intros [tape [cs [qs [H _]]]]. congruence.
  - split.
    + intros [w [Hw H]]. apply IH in H. destruct H as [tape [cs [qs [H1 H2]]]].
      exists (w :: tape), cs, qs. split; [|exact H2].
      destruct (Z.leb_spec 0 w); [|lia]. destruct (Z.ltb_spec w modulus); [|lia].
      exact H1.
    + intros [tape [cs [qs [H1 H2]]]]. destruct tape as [|w tape]; [discriminate|].
      destruct ((0 <=? w) && (w <? modulus)) eqn:Hw; [|discriminate].
      exists w. split; [lia|]. apply IH. eauto.
  - rewrite IH. split.
    + intros [-> H]. exact H.
    + intros [tape [cs [qs [H1 H2]]]]. destruct x; [|discriminate].
      split; [reflexivity|]. eauto.
  - rewrite IH. split.
    + intros [Hc [tape [cs [qs [H1 [H2 H3]]]]]].
      exists tape, (mkCheck v n m :: cs), qs. rewrite H1. split; [reflexivity|].
      split; [constructor; assumption|exact H3].
    + intros [tape [cs [qs [H1 [H2 H3]]]]].
      destruct (trace k tape) as [[[[a cs'] qs'] rest]|] eqn:Ht; [|discriminate].
      injection H1 as -> <- -> ->.
      pose proof (Forall_inv H2). pose proof (Forall_inv_tail H2).
      split; [assumption|]. eauto 6.
  - rewrite IH. split.
    + intros [Hq [tape [cs [qs [H1 [H2 H3]]]]]].
      exists tape, cs, ((s, v) :: qs). rewrite H1. split; [reflexivity|].
      split; [exact H2|constructor; assumption].
    + intros [tape [cs [qs [H1 [H2 H3]]]]].
      destruct (trace k tape) as [[[[a cs'] qs'] rest]|] eqn:Ht; [|discriminate].
      injection H1 as -> -> <- ->.
      pose proof (Forall_inv H3). pose proof (Forall_inv_tail H3).
      split; [assumption|]. eauto 6.
Qed.

(** The bit lengths and modes of the checks a circuit collects do not depend on
    the witness. *)
Fixpoint collects {A} (c : circ A) (shape : list (Z * mode)) : Prop :=
  match c with
  | Ret _ => shape = []
  | Hint _ k => forall w, collects (k w) shape
  | Assert b k => b = true -> collects k shape
  | Check _ n m k => exists t, shape = (n, m) :: t /\ collects k t
  | Query _ _ k => collects k shape
  end.

(** Checks standing for a shape (the base length does not look at the values). *)
Definition items_of (shape : list (Z * mode)) : list check_item :=
  map (fun s => mkCheck 0 (fst s) (snd s)) shape.

Lemma collects_trace {A} (c : circ A) : forall shape tape r cs qs rest,
  collects c shape -> trace c tape = Some (r, cs, qs, rest) ->
  map (fun i => (ck_bits i, ck_mode i)) cs = shape.
Proof.
  induction c as [a|h k IH|x k IH|v n m k IH|s v k IH];
    intros shape tape r cs qs rest HS HT; simpl in *.
  - subst. injection HT as _ <- _ _. reflexivity.
  - destruct tape as [|w tape]; [discriminate|].
    destruct ((0 <=? w) && (w <? modulus)); [|discriminate]. eapply IH; eauto.
  - destruct x; [|discriminate]. eapply IH; eauto.
  - destruct HS as [t [-> HS]].
    destruct (trace k tape) as [[[[a cs'] qs'] rest']|] eqn:Ht; [|discriminate].
    injection HT as <- <- <- <-. simpl. f_equal. eapply IH; eauto.
  - destruct (trace k tape) as [[[[a cs'] qs'] rest']|] eqn:Ht; [|discriminate].
    injection HT as <- <- <- <-. eapply IH; eauto.
Qed.

Lemma nbDecomposed_shape j cs cs' :
  map (fun i => (ck_bits i, ck_mode i)) cs = map (fun i => (ck_bits i, ck_mode i)) cs' ->
  nbDecomposed j cs = nbDecomposed j cs' /\ length cs = length cs'.
Proof.
  revert cs'. induction cs as [|c t IH]; intros [|c' t'] H; try discriminate; [auto|].
  simpl in H. injection H as H1 _ H2. destruct (IH _ H2) as [H3 H4].
  simpl. unfold limbs_estimate. rewrite H1, H3, H4. auto.
Qed.

Lemma fold_left_ext_in {A B} (f g : A -> B -> A) l : 
  (forall a x, f a x = g a x) -> forall a, fold_left f l a = fold_left g l a.
Proof. intros H. induction l; intros a'; simpl; [reflexivity|]. rewrite H. apply IHl. Qed.

Lemma baseLength_shape size ft cs cs' :
  map (fun i => (ck_bits i, ck_mode i)) cs = map (fun i => (ck_bits i, ck_mode i)) cs' ->
  baseLength size ft cs = baseLength size ft cs'.
Proof.
  intros H. unfold baseLength. destruct (size <=? 0); [|reflexivity].
  unfold getOptimalBasewidth, optimalWidth. destruct ft; f_equal;
    apply fold_left_ext_in; intros a j;
    unfold nbR1CSConstraints, nbPLONKConstraints;
    destruct (nbDecomposed_shape j cs cs' H) as [H1 H2]; rewrite H1, ?H2; reflexivity.
Qed.

Lemma accepts_explicit size ft {A} (c : circ A) r : 0 < size ->
  (accepts size ft c r <-> sat size c r).
Proof.
  intros Hs. unfold accepts. rewrite trace_sat.
  assert (Hb : forall cs, baseLength size ft cs = size).
  { intros cs. unfold baseLength. destruct (Z.leb_spec size 0); [lia|reflexivity]. }
  unfold commit. split; intros [tape [cs [qs [H1 [H2 H3]]]]]; exists tape, cs, qs;
    (split; [exact H1|]); (split; [|exact H3]); rewrite ?Hb in *;
    apply commit_with_ok; exact H2.
Qed.

Lemma accepts_static size ft {A} (c : circ A) shape r : collects c shape ->
  (accepts size ft c r <-> sat (baseLength size ft (items_of shape)) c r).
Proof.
  intros HS. unfold accepts. rewrite trace_sat.
  assert (Hb : forall tape cs qs, trace c tape = Some (r, cs, qs, []) ->
     baseLength size ft cs = baseLength size ft (items_of shape)).
  { intros tape cs qs HT. apply baseLength_shape.
    rewrite (collects_trace c shape tape r cs qs [] HS HT).
    unfold items_of. rewrite map_map. simpl. symmetry.
    erewrite map_ext; [apply map_id|]. intros [? ?]; reflexivity. }
  unfold commit. split; intros [tape [cs [qs [H1 [H2 H3]]]]]; exists tape, cs, qs;
    (split; [exact H1|]); (split; [|exact H3]); specialize (Hb _ _ _ H1).
  - rewrite Hb in H2. apply commit_with_ok. exact H2.
  - rewrite Hb. apply commit_with_ok. exact H2.
Qed.

End Deferred.
