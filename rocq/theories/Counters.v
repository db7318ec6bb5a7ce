(** gadget/gadget.go:37-79, 135: the constraint counters of [IntGadget], and
    what [commit] creates. *)
From Coq Require Import ZArith List Bool Lia Sorted.
From Verif Require Import Field Circuit RangeCheck RangeFacts CircuitFacts.
Import ListNotations.
Local Open Scope Z_scope.

(** gadget/gadget.go:43-45 *)
Record counters := mkCounters {
  num_range_decompositions : Z; num_range_chunks : Z; num_pow2_queries : Z }.

(** gadget/gadget.go:69-78 *)
Definition count_check (range_size bit_length : Z) (m : mode) (c : counters) : counters :=
  if range_size >? 0 then
    let num_limbs := (bit_length + range_size - 1) / range_size in
    let d := if negb (num_limbs =? 1) then num_range_decompositions c + 1
             else num_range_decompositions c in
    let k := num_range_chunks c + num_limbs in
    let k := if mode_eqb m TightForUnknownRange && negb (bit_length mod range_size =? 0)
             then k + 1 else k in
    mkCounters d k (num_pow2_queries c)
  else c.

(** gadget/gadget.go:135 *)
Definition count_query (c : counters) : counters :=
  mkCounters (num_range_decompositions c) (num_range_chunks c) (num_pow2_queries c + 1).

(** gadget/gadget.go:54-65 *)
Definition LookupEntryConstraints (range_size pow2_size : Z) : Z := 2 ^ range_size + pow2_size.
Definition LookupQueryConstraints (c : counters) : Z :=
  num_range_decompositions c + num_pow2_queries c + num_range_chunks c.
Definition LookupFinalizeConstraints : Z := 3.

Section Counters.
Context {MOD : Modulus}.

(** The counters while a circuit is defined: each range check and each query
    updates them (the hint values do not matter, [tape] provides some). *)
Fixpoint counting (range_size : Z) {A} (c : circ A) (tape : list Z) (st : counters)
  : option (counters * list Z) :=
  match c with
  | Ret a => Some (st, tape)
  | Hint _ k => match tape with w :: t => counting range_size (k w) t st | [] => None end
  | Assert b k => if b then counting range_size k tape st else None
  | Check _ bits m k => counting range_size k tape (count_check range_size bits m st)
  | Query _ _ k => counting range_size k tape (count_query st)
  end.

(** The number of equality constraints a circuit creates, with its result. *)
Fixpoint equalities {A} (c : circ A) (tape : list Z) : option (A * Z * list Z) :=
  match c with
  | Ret a => Some (a, 0, tape)
  | Hint _ k => match tape with w :: t => equalities (k w) t | [] => None end
  | Assert _ k => match equalities k tape with
                  | Some (a, n, rest) => Some (a, n + 1, rest)
                  | None => None
                  end
  | Check _ _ _ k => equalities k tape
  | Query _ _ k => equalities k tape
  end.

(** ** What one check costs *)
Definition item_eqs (b : Z) (c : check_item) : Z :=
  if decompSize (ck_bits c) b =? 1 then 0 else 1.
Definition item_lookups (b : Z) (c : check_item) : Z :=
  decompSize (ck_bits c) b +
  (if mode_eqb (ck_mode c) TightForUnknownRange &&
      negb (decompSize (ck_bits c) b * b - ck_bits c =? 0) then 1 else 0).

Lemma equalities_bind {A B} (c : circ A) (f : A -> circ B) tape :
  equalities (bind c f) tape =
  match equalities c tape with
  | Some (a, n, rest) =>
      match equalities (f a) rest with
      | Some (r, n', rest') => Some (r, n + n', rest')
      | None => None
      end
  | None => None
  end.
Proof.
  revert tape. induction c as [a|h k IH|p k IH|v n m k IH|s v k IH]; intros tape; simpl.
  - destruct (equalities (f a) tape) as [[[r n] rest]|]; reflexivity.
  - destruct tape as [|w t]; [reflexivity|]. apply IH.
  - rewrite IH. destruct (equalities k tape) as [[[a n] rest]|]; [|reflexivity].
    destruct (equalities (f a) rest) as [[[r n'] rest']|]; [|reflexivity].
    do 3 f_equal. lia.
  - apply IH.
  - apply IH.
Qed.

Lemma equalities_hints hs tape r n rest : equalities (hints hs) tape = Some (r, n, rest) ->
  length r = length hs /\ n = 0.
Proof.
  revert tape r n rest. induction hs as [|h t IH]; intros tape r n rest; simpl.
  - intros H. injection H as <- <- _. auto.
  - destruct tape as [|w tape]; [discriminate|]. rewrite equalities_bind.
    destruct (equalities (hints t) tape) as [[[l n'] rest']|] eqn:He; [|discriminate].
    apply IH in He as [Hl ->]. simpl. intros H. injection H as <- <- _. simpl. auto.
Qed.

Lemma decomp_bounds b bits : 1 <= b -> 1 <= bits ->
  1 <= decompSize bits b /\ bits <= decompSize bits b * b.
Proof.
  intros Hb Hn. unfold decompSize.
  pose proof (Z.div_mod (bits + b - 1) b ltac:(lia)) as Hd.
  pose proof (Z.mod_pos_bound (bits + b - 1) b ltac:(lia)) as Hm. nia.
Qed.

Lemma commit_item_count b c tape ds n rest : 1 <= b -> 1 <= ck_bits c ->
  equalities (commit_item b c) tape = Some (ds, n, rest) ->
  n = item_eqs b c /\ Z.of_nat (length ds) = item_lookups b c.
Proof.
  intros Hb Hn. unfold commit_item, item_eqs, item_lookups.
  destruct (decomp_bounds b (ck_bits c) Hb Hn) as [Hl _].
  set (x := mode_eqb (ck_mode c) TightForUnknownRange && negb _).
  destruct (Z.eqb_spec (decompSize (ck_bits c) b) 1) as [H1|H1].
  - simpl. intros H. injection H as <- <- _. split; [reflexivity|].
    rewrite H1. rewrite app_length.
    destruct (mode_eqb (ck_mode c) TightForSmallAbs), x; reflexivity.
  - rewrite equalities_bind.
    set (hs := map Some _).
    assert (Hlen : length hs = Z.to_nat (decompSize (ck_bits c) b)).
    { unfold hs. rewrite map_length. apply digits_loop_length. }
    destruct (equalities (hints hs) tape) as [[[l n'] rest']|] eqn:He; [|discriminate].
    apply equalities_hints in He as [Hl' ->].
    rewrite equalities_bind.
    destruct (mode_eqb (ck_mode c) TightForSmallAbs); simpl; intros H; injection H as <- <- _;
      (split; [reflexivity|]); rewrite app_length, Hl', Hlen, Nat2Z.inj_add, Z2Nat.id by lia;
      destruct x; reflexivity.
Qed.

Definition total (f : check_item -> Z) (cs : list check_item) : Z :=
  fold_right (fun c acc => f c + acc) 0 cs.

Lemma commit_items_count b cs tape ds n rest : 1 <= b -> Forall (fun c => 1 <= ck_bits c) cs ->
  equalities (commit_items b cs) tape = Some (ds, n, rest) ->
  n = total (item_eqs b) cs /\ Z.of_nat (length ds) = total (item_lookups b) cs.
Proof.
  intros Hb HF. revert tape ds n rest.
  induction HF as [|c t Hc HF IH]; intros tape ds n rest; cbn [commit_items].
  - simpl. intros H. injection H as <- <- _. auto.
  - rewrite equalities_bind.
    destruct (equalities (commit_item b c) tape) as [[[d n1] r1]|] eqn:H1; [|discriminate].
    rewrite equalities_bind.
    destruct (equalities (commit_items b t) r1) as [[[d2 n2] r2]|] eqn:H2; [|discriminate].
    apply commit_item_count in H1 as [-> Hl1]; [|assumption..].
    apply IH in H2 as [-> Hl2]. cbn [equalities]. intros H. injection H as <- <- _.
    rewrite app_length, Nat2Z.inj_add, Hl1, Hl2. cbn [total fold_right]. unfold total. lia.
Qed.

Lemma diff_mod b bits : 1 <= b -> (decompSize bits b * b - bits =? 0) = (bits mod b =? 0).
Proof.
  intros Hb. unfold decompSize.
  pose proof (Z.div_mod (bits + b - 1) b ltac:(lia)) as Hd.
  pose proof (Z.mod_pos_bound (bits + b - 1) b ltac:(lia)).
  pose proof (Z.div_mod bits b ltac:(lia)).
  pose proof (Z.mod_pos_bound bits b ltac:(lia)).
  destruct (Z.eqb_spec (bits mod b) 0) as [E|E];
    destruct (Z.eqb_spec ((bits + b - 1) / b * b - bits) 0) as [E'|E']; try reflexivity; exfalso.
  - assert ((bits + b - 1) / b = bits / b) by nia. nia.
  - assert (bits = b * ((bits + b - 1) / b)) by lia.
    apply E. rewrite H2 at 1. rewrite Z.mul_comm. apply Z.mod_mul. lia.
Qed.

Lemma count_check_eq b bits m st v : 1 <= b ->
  let c := mkCheck v bits m in
  count_check b bits m st =
  mkCounters (num_range_decompositions st + item_eqs b c)
             (num_range_chunks st + item_lookups b c) (num_pow2_queries st).
Proof.
  intros Hb. cbv zeta. unfold count_check, item_eqs, item_lookups. cbn [ck_bits ck_mode].
  destruct (Z.gtb_spec b 0); [|lia]. rewrite diff_mod by assumption. fold (decompSize bits b).
  destruct (decompSize bits b =? 1), (mode_eqb m TightForUnknownRange && negb (bits mod b =? 0));
    simpl; f_equal; lia.
Qed.

Lemma counting_trace b {A} (c : circ A) : 1 <= b -> forall tape r cs qs rest st,
  trace c tape = Some (r, cs, qs, rest) ->
  counting b c tape st =
  Some (mkCounters (num_range_decompositions st + total (item_eqs b) cs)
          (num_range_chunks st + total (item_lookups b) cs)
          (num_pow2_queries st + Z.of_nat (length qs)), rest).
Proof.
  intros Hb. induction c as [a|h k IH|p k IH|v n m k IH|s v k IH];
    intros tape r cs qs rest st; simpl.
  - intros H. injection H as <- <- <- <-. destruct st. simpl. do 2 f_equal. f_equal; lia.
  - destruct tape as [|w t]; [discriminate|].
    destruct ((0 <=? w) && (w <? modulus)); [|discriminate]. apply IH.
  - destruct p; [|discriminate]. apply IH.
  - destruct (trace k tape) as [[[[a cs'] qs'] rest']|] eqn:Ht; [|discriminate].
    intros H. injection H as <- <- <- <-.
    rewrite (IH _ _ _ _ _ (count_check b n m st) Ht).
    rewrite (count_check_eq b n m st v Hb).
    cbn [num_range_decompositions num_range_chunks num_pow2_queries total fold_right].
    fold (total (item_eqs b) cs'). fold (total (item_lookups b) cs'). do 2 f_equal. f_equal; lia.
  - destruct (trace k tape) as [[[[a cs'] qs'] rest']|] eqn:Ht; [|discriminate].
    intros H. injection H as <- <- <- <-.
    rewrite (IH _ _ _ _ _ (count_query st) Ht). unfold count_query.
    cbn [num_range_decompositions num_range_chunks num_pow2_queries].
    change (length ((s, v) :: qs')) with (S (length qs')). do 2 f_equal. f_equal; lia.
Qed.

(** With an explicit range size, the counter is the number of decomposition
    equalities, range-table lookups and powers-of-two lookups. *)
Theorem counters_exact b {A} (c : circ A) tape r cs qs rest st ds n rest' : 1 <= b ->
  trace c tape = Some (r, cs, qs, rest) ->
  Forall (fun i => 1 <= ck_bits i) cs ->
  counting b c tape (mkCounters 0 0 0) = Some (st, rest) ->
  forall tape', equalities (commit_items b cs) tape' = Some (ds, n, rest') ->
  LookupQueryConstraints st = n + Z.of_nat (length ds) + Z.of_nat (length qs).
Proof.
  intros Hb Ht HF Hc tape' He.
  rewrite (counting_trace b c Hb _ _ _ _ _ _ Ht) in Hc. injection Hc as <-.
  apply commit_items_count in He as [-> ->]; [|assumption..].
  unfold LookupQueryConstraints. simpl. lia.
Qed.

(** Without one (size 0) nothing but queries is counted. *)
Theorem counters_auto {A} (c : circ A) tape r cs qs rest st :
  trace c tape = Some (r, cs, qs, rest) ->
  counting 0 c tape (mkCounters 0 0 0) = Some (st, rest) ->
  LookupQueryConstraints st = Z.of_nat (length qs).
Proof.
  assert (H : forall tape r cs qs rest st, trace c tape = Some (r, cs, qs, rest) ->
    counting 0 c tape st = Some (mkCounters (num_range_decompositions st) (num_range_chunks st)
      (num_pow2_queries st + Z.of_nat (length qs)), rest)).
  { induction c as [a|h k IH|p k IH|v n m k IH|s v k IH];
      intros tape0 r0 cs0 qs0 rest0 st0; simpl.
    - intros H. injection H as <- <- <- <-. destruct st0. simpl. do 2 f_equal. f_equal; lia.
    - destruct tape0 as [|w t]; [discriminate|].
      destruct ((0 <=? w) && (w <? modulus)); [|discriminate]. apply IH.
    - destruct p; [|discriminate]. apply IH.
    - destruct (trace k tape0) as [[[[a cs'] qs'] rest']|] eqn:Ht; [|discriminate].
      intros H. injection H as <- <- <- <-. exact (IH _ _ _ _ _ _ Ht).
    - destruct (trace k tape0) as [[[[a cs'] qs'] rest']|] eqn:Ht; [|discriminate].
      intros H. injection H as <- <- <- <-.
      rewrite (IH _ _ _ _ _ (count_query st0) Ht).
      cbn [num_range_decompositions num_range_chunks num_pow2_queries count_query].
      change (length ((s, v) :: qs')) with (S (length qs')). do 2 f_equal. f_equal; lia. }
  intros Ht Hc. rewrite (H _ _ _ _ _ _ Ht) in Hc. injection Hc as <-.
  unfold LookupQueryConstraints. simpl. lia.
Qed.

(** ** The estimate used to choose the base width *)

Definition loosely_padded (b : Z) (c : check_item) : bool :=
  negb (mode_eqb (ck_mode c) TightForUnknownRange) && negb (ck_bits c mod b =? 0).

Lemma limbs_estimate_eq b c : 1 <= b -> 1 <= ck_bits c ->
  limbs_estimate b c = item_lookups b c + (if loosely_padded b c then 1 else 0).
Proof.
  intros Hb Hn. unfold limbs_estimate, item_lookups, loosely_padded.
  rewrite diff_mod by assumption.
  destruct (decomp_bounds b (ck_bits c) Hb Hn) as [_ Hc].
  pose proof (diff_mod b (ck_bits c) Hb) as Hd.
  destruct (Z.gtb_spec (decompSize (ck_bits c) b * b) (ck_bits c)) as [H|H].
  - assert (Hne : (ck_bits c mod b =? 0) = false).
    { rewrite <- Hd. apply Z.eqb_neq. lia. }
    rewrite Hne. destruct (mode_eqb (ck_mode c) TightForUnknownRange); simpl; lia.
  - assert (He : (ck_bits c mod b =? 0) = true).
    { rewrite <- Hd. apply Z.eqb_eq. lia. }
    rewrite He. destruct (mode_eqb (ck_mode c) TightForUnknownRange); simpl; lia.
Qed.

Lemma total_ext f g cs : (forall c, In c cs -> f c = g c) -> total f cs = total g cs.
Proof.
  induction cs as [|c t IH]; intros H; [reflexivity|]. simpl.
  unfold total in *. rewrite (H c), IH; [reflexivity| |left; reflexivity].
  intros. apply H. right. assumption.
Qed.

Theorem estimate_exact b cs tape ds n rest : 1 <= b -> Forall (fun c => 1 <= ck_bits c) cs ->
  equalities (commit_items b cs) tape = Some (ds, n, rest) ->
  nbDecomposed b cs =
  Z.of_nat (length ds) + Z.of_nat (length (filter (loosely_padded b) cs)).
Proof.
  intros Hb HF He. apply commit_items_count in He as [_ ->]; [|assumption..].
  unfold nbDecomposed, total. induction HF as [|c t Hc HF IH]; [reflexivity|].
  cbn [fold_right filter]. rewrite IH, limbs_estimate_eq by assumption.
  destruct (loosely_padded b c); cbn [length]; lia.
Qed.

(** The count is defined for every circuit: enough hint values can be given. *)
Lemma equalities_total {A} (c : circ A) : exists tape r n, forall rest,
  equalities c (tape ++ rest) = Some (r, n, rest).
Proof.
  induction c as [a|h k IH|p k IH|v n m k IH|s v k IH]; simpl.
  - exists [], a, 0. reflexivity.
  - destruct (IH 0) as (t & r & n & H). exists (0 :: t), r, n. exact H.
  - destruct IH as (t & r & n & H). exists t, r, (n + 1). intros rest. rewrite H. reflexivity.
  - exact IH.
  - exact IH.
Qed.

Theorem commit_items_defined b cs : exists tape ds n,
  equalities (commit_items b cs) tape = Some (ds, n, []).
Proof.
  destruct (equalities_total (commit_items b cs)) as (t & r & n & H).
  exists t, r, n. rewrite <- (H []), app_nil_r. reflexivity.
Qed.

Theorem estimate_modes b cs tape ds n rest : 1 <= b -> Forall (fun c => 1 <= ck_bits c) cs ->
  equalities (commit_items b cs) tape = Some (ds, n, rest) ->
  nbDecomposed b cs =
  Z.of_nat (length ds) +
  Z.of_nat (length (filter (fun c => match ck_mode c with
                                     | TightForUnknownRange => false
                                     | _ => negb (ck_bits c mod b =? 0)
                                     end) cs)).
Proof.
  intros Hb HF He. rewrite (estimate_exact b cs tape ds n rest Hb HF He). do 3 f_equal.
  apply filter_ext. intros [v bits m]. unfold loosely_padded. cbn [ck_mode ck_bits].
  destruct m; reflexivity.
Qed.

Theorem cost_bound b cs tape ds n rest : 1 <= b -> Forall (fun c => 1 <= ck_bits c) cs ->
  equalities (commit_items b cs) tape = Some (ds, n, rest) ->
  2 ^ b + Z.of_nat (length ds) + n + 1 <= nbR1CSConstraints b cs.
Proof.
  intros Hb HF He. unfold nbR1CSConstraints.
  rewrite (estimate_exact b cs tape ds n rest Hb HF He).
  apply commit_items_count in He as [-> _]; [|assumption..].
  assert (total (item_eqs b) cs <= Z.of_nat (length cs)).
  { clear. induction cs as [|c t IH]; [reflexivity|]. cbn [total fold_right length].
    fold (total (item_eqs b) t). unfold item_eqs at 1. destruct (_ =? 1); lia. }
  lia.
Qed.

(** ** The optimiser (gadget/rangecheck.go:165-176) *)

Lemma zseq_16 : map (fun i => i + 2) (zseq 16) =
  [2; 3; 4; 5; 6; 7; 8; 9; 10; 11; 12; 13; 14; 15; 16; 17].
Proof. reflexivity. Qed.

Lemma fold_min (f : Z -> Z) l acc :
  let r := fold_left (fun acc j => if f j <? fst acc then (f j, j) else acc) l acc in
  fst r <= fst acc /\ (forall j, In j l -> fst r <= f j) /\
  (r = acc \/ (exists l1 l2, l = l1 ++ snd r :: l2 /\ fst r = f (snd r) /\ f (snd r) < fst acc /\
     forall j, In j l1 -> f (snd r) < f j)).
Proof.
  revert acc. induction l as [|a l IH]; intros acc; cbn [fold_left].
  - simpl. split; [lia|]. split; [tauto|]. left. reflexivity.
  - cbv zeta in *. destruct (Z.ltb_spec (f a) (fst acc)) as [H|H].
    + destruct (IH (f a, a)) as [H1 [H2 H3]]. cbn [fst] in *.
      set (r := fold_left _ l (f a, a)) in *.
      split; [lia|]. split.
      * intros j [<-|Hj]; [lia|apply H2, Hj].
      * right. destruct H3 as [H3|[l1 [l2 [E1 [E2 [E3 E4]]]]]].
        -- exists [], l. rewrite H3. cbn [fst snd app In]. repeat split; tauto || lia.
        -- exists (a :: l1), l2. cbn [app]. rewrite <- E1. repeat split; [assumption|lia|].
           intros j [<-|Hj]; [lia|apply E4, Hj].
    + destruct (IH acc) as [H1 [H2 H3]]. set (r := fold_left _ l acc) in *.
      split; [lia|]. split.
      * intros j [<-|Hj]; [lia|apply H2, Hj].
      * destruct H3 as [H3|[l1 [l2 [E1 [E2 [E3 E4]]]]]]; [left; exact H3|right].
        exists (a :: l1), l2. cbn [app]. rewrite <- E1. repeat split; [assumption|lia|].
        intros j [<-|Hj]; [lia|apply E4, Hj].
Qed.

Theorem optimalWidth_spec f cs : (exists j, 2 <= j <= 17 /\ f j cs < maxInt64) ->
  let w := optimalWidth f cs in
  2 <= w <= 17 /\
  (forall j, 2 <= j <= 17 -> f w cs <= f j cs) /\
  (forall j, 2 <= j < w -> f w cs < f j cs).
Proof.
  intros [j0 [Hj0 Hlt]]. cbv zeta. unfold optimalWidth. rewrite zseq_16.
  set (l := [2; 3; 4; 5; 6; 7; 8; 9; 10; 11; 12; 13; 14; 15; 16; 17]).
  pose proof (fold_min (fun j => f j cs) l (maxInt64, 0)) as H. cbv zeta in H.
  cbv zeta. set (r := fold_left _ l (maxInt64, 0)) in *.
  assert (Hin : forall j, 2 <= j <= 17 -> In j l).
  { intros j Hj. unfold l. cbn [In]. lia. }
  destruct H as [H1 [H2 H3]]. cbn [fst] in *.
  destruct H3 as [H3|[l1 [l2 [E1 [E2 [E3 E4]]]]]].
  - exfalso. pose proof (H2 j0 (Hin j0 Hj0)) as H. rewrite H3 in H. cbn [fst] in H. lia.
  - assert (Hw : In (snd r) l) by (rewrite E1; apply in_or_app; right; left; reflexivity).
    assert (Hr : 2 <= snd r <= 17) by (unfold l in Hw; cbn [In] in Hw; lia).
    split; [exact Hr|]. split.
    + intros j Hj. rewrite <- E2. apply H2, Hin, Hj.
    + intros j Hj. apply E4.
      assert (Hs : forall l2' l1', l = l1' ++ snd r :: l2' -> In j l1').
      { clear - Hj Hr. intros l2' l1' E.
        assert (Hsorted : Sorted.StronglySorted Z.lt l).
        { unfold l. repeat constructor. }
        assert (Hjl : In j l) by (unfold l; cbn [In]; lia).
        rewrite E in Hjl, Hsorted. apply in_app_or in Hjl. destruct Hjl as [|[Hj'|Hj']]; [assumption|lia|].
        exfalso. clear - Hj' Hsorted Hj. induction l1' as [|a l1' IH].
        - cbn [app] in Hsorted. inversion Hsorted; subst. rewrite Forall_forall in H2.
          specialize (H2 _ Hj'). lia.
        - apply IH. inversion Hsorted; assumption. }
      exact (Hs l2 l1 E1).
Qed.

End Counters.
