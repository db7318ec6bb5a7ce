(** C61: the lookup columns of benchmarks/float/constraints.csv. *)
From Coq Require Import ZArith List Bool Lia.
From Verif Require Import Field Circuit Hints RangeCheck Gadget Util FloatModel Counters Shapes
  Witness Costs.
Import ListNotations.
Local Open Scope Z_scope.

(** ** The test that writes the file *)
(** float/float_constraints_test.go:78: the columns. *)
Inductive column := Init | Add_ | Sub_ | Mul_ | Div_ | Sqrt_ | Cmp.
Definition ops : list column := [Init; Add_; Sub_; Mul_; Div_; Sqrt_; Cmp].

(** float/float_constraints_test.go:62-70: what a column measures. *)
Definition measured {MOD : Modulus} (E M : Z) (op : column) (X : Z) (x y : FloatVar) : circ unit :=
  match op with
  | Init => _ <- NewFloat E M X ;; Ret tt
  | Add_ => _ <- Add E M x y ;; Ret tt
  | Sub_ => _ <- Sub E M x y ;; Ret tt
  | Mul_ => _ <- Mul E M x y ;; Ret tt
  | Div_ => _ <- Div E M x y ;; Ret tt
  | Sqrt_ => _ <- Sqrt E M x ;; Ret tt
  | Cmp => _ <- IsLt E M x y ;; Ret tt
  end.

(** float/float_constraints_test.go:56-75: [Define], with the lookup counts it
    appends to [result]. *)
Fixpoint results {MOD : Modulus} (size E M : Z) (l : list column) (X : Z) (x y : FloatVar)
  (tape : list Z) (st : counters) : option (list (Z * Z)) :=
  match l with
  | [] => Some []
  | op :: t =>
      match defining size (measured E M op X x y) tape st with
      | Some (_, st', rest) =>
          match results size E M t X x y rest st' with
          | Some r => Some ((LookupQueryConstraints st' - LookupQueryConstraints st,
                             lookup_global size E M) :: r)
          | None => None
          end
      | None => None
      end
  end.
Definition FloatCircuit {MOD : Modulus} (size E M X Y : Z) (tape : list Z)
  : option (list (Z * Z)) :=
  match defining size (NewFloat E M X) tape (mkCounters 0 0 0) with
  | Some (x, st, tape) =>
      match defining size (NewFloat E M Y) tape st with
      | Some (y, st, tape) => results size E M ops X x y tape st
      | None => None
      end
  | None => None
  end.

(** ** The committed file *)
(** benchmarks/float/constraints.csv:2-7: [E] and [M] of the type, T_RC, and the
    second and third number of every entry. *)
Definition constraints_csv : list (Z * Z * Z * list (Z * Z)) :=
  [(8, 23, 8, [(17, 291); (43, 291); (43, 291); (33, 291); (38, 291); (22, 291); (7, 291)]);
   (8, 23, 12, [(15, 4131); (32, 4131); (32, 4131); (21, 4131); (26, 4131); (18, 4131);
                (4, 4131)]);
   (8, 23, 16, [(14, 65571); (27, 65571); (27, 65571); (18, 65571); (23, 65571); (15, 65571);
                (4, 65571)]);
   (11, 52, 8, [(32, 323); (71, 323); (71, 323); (57, 323); (60, 323); (38, 323); (11, 323)]);
   (11, 52, 12, [(24, 4163); (50, 4163); (50, 4163); (37, 4163); (42, 4163); (28, 4163);
                 (7, 4163)]);
   (11, 52, 16, [(20, 65603); (40, 65603); (40, 65603); (30, 65603); (35, 65603); (23, 65603);
                 (6, 65603)])].

(** ** Proofs *)
Definition shape_of (E M : Z) (op : column) : list (Z * mode) * nat :=
  match op with
  | Init => (newfloat_shape E M, 1%nat)
  | Add_ | Sub_ => (add_shape E M, 3%nat)
  | Mul_ => (mul_shape E M, 1%nat)
  | Div_ => (div_shape E M, 1%nat)
  | Sqrt_ => (sqrt_shape E M, 1%nat)
  | Cmp => (cmp_shape E M, 0%nat)
  end.

Lemma uses_then {MOD : Modulus} {A} (c : circ A) h s q :
  uses c h s q -> uses (bind c (fun _ => Ret tt)) h s q.
Proof.
  intros H. eapply uses_bind; [exact H|intros; apply uses_ret| | |].
  - lia.
  - rewrite app_nil_r. reflexivity.
  - lia.
Qed.

Lemma uses_measured {MOD : Modulus} E M op :
  exists h, forall X x y,
  uses (measured E M op X x y) h (fst (shape_of E M op)) (snd (shape_of E M op)).
Proof.
  destruct op.
  - destruct (uses_NewFloat E M) as [h H]. exists h. intros X x y. apply uses_then, H.
  - destruct (uses_Add E M) as [h H]. exists h. intros X x y. apply uses_then, H.
  - destruct (uses_Sub E M) as [h H]. exists h. intros X x y. apply uses_then, H.
  - destruct (uses_Mul E M) as [h H]. exists h. intros X x y. apply uses_then, H.
  - destruct (uses_Div E M) as [h H]. exists h. intros X x y. apply uses_then, H.
  - destruct (uses_Sqrt E M) as [h H]. exists h. intros X x y. apply uses_then, H.
  - destruct (uses_IsLt E M) as [h H]. exists h. intros X x y. apply uses_then, H.
Qed.

(** What a shape costs, from any state of the counters. *)
Definition price (b : Z) (p : list (Z * mode) * nat) : Z :=
  LookupQueryConstraints (charge_queries (snd p) (charge b (fst p) (mkCounters 0 0 0))).

Lemma charge_shift b s st :
  LookupQueryConstraints (charge b s st) =
  LookupQueryConstraints st + LookupQueryConstraints (charge b s (mkCounters 0 0 0)).
Proof.
  revert st. induction s as [|[n m] t IH]; intros st; [cbn; lia|].
  change (charge b ((n, m) :: t) st) with (charge b t (count_check b n m st)).
  change (charge b ((n, m) :: t) (mkCounters 0 0 0))
    with (charge b t (count_check b n m (mkCounters 0 0 0))).
  rewrite IH. rewrite (IH (count_check b n m (mkCounters 0 0 0))).
  unfold count_check, LookupQueryConstraints.
  destruct (b >? 0); [|cbn; lia].
  destruct ((n + b - 1) / b =? 1), (mode_eqb m TightForUnknownRange && negb (n mod b =? 0));
    cbn [negb num_range_decompositions num_range_chunks num_pow2_queries]; lia.
Qed.

Lemma price_shift b s q st :
  LookupQueryConstraints (charge_queries q (charge b s st)) - LookupQueryConstraints st
  = price b (s, q).
Proof.
  unfold price. cbn [fst snd]. unfold charge_queries.
  pose proof (charge_shift b s st) as H. unfold LookupQueryConstraints in *.
  cbn [num_range_decompositions num_range_chunks num_pow2_queries] in *. lia.
Qed.

Lemma measured_price {MOD : Modulus} b E M op : exists h, forall X x y tape st,
  (h <= length tape)%nat -> exists st',
  defining b (measured E M op X x y) tape st = Some (tt, st', skipn h tape) /\
  LookupQueryConstraints st' - LookupQueryConstraints st = price b (shape_of E M op).
Proof.
  destruct (uses_measured E M op) as [h H]. exists h. intros X x y tape st Hl.
  destruct (uses_defining b _ _ _ _ tape st (H X x y) Hl) as [[] Hr].
  eexists. split; [exact Hr|]. rewrite price_shift. destruct (shape_of E M op). reflexivity.
Qed.

Lemma results_price {MOD : Modulus} b E M l : exists h, forall X x y tape st,
  (h <= length tape)%nat ->
  results b E M l X x y tape st
  = Some (map (fun op => (price b (shape_of E M op), lookup_global b E M)) l).
Proof.
  induction l as [|op t [h2 IH]]; [exists 0%nat; reflexivity|].
  destruct (measured_price b E M op) as [h1 H]. exists (h1 + h2)%nat.
  intros X x y tape st Hl. cbn [results map].
  destruct (H X x y tape st ltac:(lia)) as [st' [-> ->]].
  rewrite IH; [reflexivity|]. rewrite skipn_length. lia.
Qed.

Lemma FloatCircuit_price {MOD : Modulus} b E M : exists h, forall X Y tape,
  (h <= length tape)%nat ->
  FloatCircuit b E M X Y tape
  = Some (map (fun op => (price b (shape_of E M op), lookup_global b E M)) ops).
Proof.
  destruct (uses_NewFloat E M) as [h1 H1]. destruct (results_price b E M ops) as [h2 H2].
  exists (h1 + (h1 + h2))%nat. intros X Y tape Hl. unfold FloatCircuit.
  destruct (uses_defining b _ _ _ _ tape (mkCounters 0 0 0) (H1 X) ltac:(lia)) as [x ->].
  match goal with |- context [defining b (NewFloat E M Y) _ ?s] => set (st := s) end.
  destruct (uses_defining b _ _ _ _ (skipn h1 tape) st (H1 Y)
              ltac:(rewrite skipn_length; lia)) as [y ->].
  apply H2. rewrite !skipn_length. lia.
Qed.

(** ** C61 *)
(** Running the test writes the numbers that are in the file: for each of its rows,
    whatever the field and whatever is on the wires (given wires for all hints),
    the seven operations add exactly the committed numbers of lookup constraints,
    and the tables take the committed number. *)
Theorem C61_csv {MOD : Modulus} E M T_RC entries : In (E, M, T_RC, entries) constraints_csv ->
  exists h, forall X Y tape, (h <= length tape)%nat ->
  FloatCircuit T_RC E M X Y tape = Some entries.
Proof.
  intros H. destruct (FloatCircuit_price T_RC E M) as [h Hh]. exists h. intros X Y tape Hl.
  rewrite (Hh X Y tape Hl). f_equal. cbn in H.
  repeat (destruct H as [H|H]; [injection H as <- <- <- <-; vm_compute; reflexivity|]).
  destruct H.
Qed.
Print Assumptions C61_csv.

(** float/float_constraints_test.go:105-114 multiplies by the number of
    operations.  That is exact for the lookups: any number of operations of one
    kind, on any operands and after any other operations, adds the product. *)
Fixpoint in_turn {MOD : Modulus} {A} (f : A -> circ unit) (l : list A) : circ unit :=
  match l with
  | [] => Ret tt
  | a :: t => f a ;;; in_turn f t
  end.

Lemma in_turn_price {MOD : Modulus} b E M op : exists h, forall l tape st,
  (length l * h <= length tape)%nat -> exists st',
  defining b (in_turn (fun '(X, x, y) => measured E M op X x y) l) tape st
    = Some (tt, st', skipn (length l * h) tape) /\
  LookupQueryConstraints st' - LookupQueryConstraints st
    = Z.of_nat (length l) * price b (shape_of E M op).
Proof.
  destruct (uses_measured E M op) as [h H]. exists h.
  assert (Hu : forall l, exists s, uses (in_turn (fun '(X, x, y) => measured E M op X x y) l)
     (length l * h) s (length l * snd (shape_of E M op)) /\
     forall st, LookupQueryConstraints (charge b s st) - LookupQueryConstraints st
       = Z.of_nat (length l) * (LookupQueryConstraints
           (charge b (fst (shape_of E M op)) (mkCounters 0 0 0)))).
  { induction l as [|[[X x] y] t [s [Hs Hc]]].
    - exists []. split; [repeat split|]. intros st. cbn. lia.
    - exists (fst (shape_of E M op) ++ s). split.
      + cbn [in_turn]. eapply uses_bind; [apply (H X x y)|intros _; exact Hs| | |].
        * simpl. lia.
        * reflexivity.
        * simpl. lia.
      + intros st. unfold charge. rewrite fold_left_app. fold (charge b (fst (shape_of E M op)) st).
        match goal with |- context [fold_left ?f s ?a] => change (fold_left f s a) with (charge b s a) end.
        pose proof (Hc (charge b (fst (shape_of E M op)) st)) as H1.
        pose proof (charge_shift b (fst (shape_of E M op)) st) as H2.
        cbn [length]. rewrite Nat2Z.inj_succ. unfold charge in *. nia. }
  intros l tape st Hl. destruct (Hu l) as [s [Hs Hc]].
  destruct (uses_defining b _ _ _ _ tape st Hs Hl) as [[] Hr].
  eexists. split; [exact Hr|]. specialize (Hc st).
  unfold price, charge_queries, LookupQueryConstraints in *.
  cbn [num_range_decompositions num_range_chunks num_pow2_queries] in *.
  rewrite Nat2Z.inj_mul. lia.
Qed.

Theorem C61_amortised {MOD : Modulus} E M T_RC entries i op q g :
  In (E, M, T_RC, entries) constraints_csv ->
  nth_error ops i = Some op -> nth_error entries i = Some (q, g) ->
  exists h, forall (l : list (Z * FloatVar * FloatVar)) tape st,
  (length l * h <= length tape)%nat ->
  count_constraints T_RC (in_turn (fun '(X, x, y) => measured E M op X x y) l) tape st
    = Some (Z.of_nat (length l) * q).
Proof.
  intros H Ho He. destruct (in_turn_price T_RC E M op) as [h Hh]. exists h.
  intros l tape st Hl. destruct (Hh l tape st Hl) as [st' [Hd Hq]].
  unfold count_constraints. rewrite Hd, Hq. do 2 f_equal.
  cbn in H.
  repeat (destruct H as [H|H];
          [injection H as <- <- <- <-;
           do 7 (destruct i as [|i];
                 [cbn in Ho, He; injection Ho as <-; injection He as <- <-;
                  vm_compute; reflexivity|]);
           destruct i; discriminate|]).
  destruct H.
Qed.
Print Assumptions C61_amortised.

(** The row F32, 8, and sixteen products. *)
Example C61_ex : exists h, FloatCircuit (MOD:=bn254) 8 8 23 1065353216 1073741824 (repeat 1 h)
    = Some [(17, 291); (43, 291); (43, 291); (33, 291); (38, 291); (22, 291); (7, 291)] /\
  count_constraints (MOD:=bn254) 8
    (in_turn (MOD:=bn254) (fun '(X, x, y) => measured (MOD:=bn254) 8 23 Mul_ X x y)
       (repeat (0, mkF 0 0 (2 ^ 23) 0, mkF 0 1 (2 ^ 23) 0) 16))
    (repeat 1 400) (mkCounters 5 6 7) = Some 528.
Proof. exists 100%nat. split; vm_compute; reflexivity. Qed.
