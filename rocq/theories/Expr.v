(** Programs over the float API: expression trees, the circuit built from a
    tree, and the IEEE evaluation of a tree. *)
From Coq Require Import ZArith Reals Bool List.
From Flocq Require Import Core BinarySingleNaN.
From Verif Require Import Field Circuit Gadget Util FloatModel Spec Outcomes.
Import ListNotations.
Local Open Scope Z_scope.

Inductive comparison_op := OpLt | OpLe | OpGt | OpGe.

(** [EInput v]: a wire holding [v] allocated by NewFloat; [EConst v]: a Go
    constant; [ESelect c a b x y]: [x] if [a c b], else [y]. *)
Inductive expr :=
  | EInput (v : Z)
  | EConst (v : Z)
  | ENeg (a : expr)
  | EAbs (a : expr)
  | EAdd (a b : expr)
  | ESub (a b : expr)
  | EMul (a b : expr)
  | EDiv (a b : expr)
  | ESqrt (a : expr)
  | ETrunc (a : expr)
  | EFloor (a : expr)
  | ECeil (a : expr)
  | ESelect (c : comparison_op) (a b x y : expr).

Section Circuit.
Context {MOD : Modulus}.
Variables E M : Z.

Definition compare_circ (c : comparison_op) (x y : FloatVar) : circ Z :=
  match c with
  | OpLt => IsLt E M x y
  | OpLe => IsLe E M x y
  | OpGt => IsGt E M x y
  | OpGe => IsGe E M x y
  end.

Fixpoint compile (e : expr) : circ FloatVar :=
  match e with
  | EInput v => NewFloat E M v
  | EConst v => Ret (NewConstant E M v)
  | ENeg a => x <- compile a ;; Ret (Neg x)
  | EAbs a => x <- compile a ;; Ret (FAbs x)
  | EAdd a b => x <- compile a ;; y <- compile b ;; Add E M x y
  | ESub a b => x <- compile a ;; y <- compile b ;; Sub E M x y
  | EMul a b => x <- compile a ;; y <- compile b ;; Mul E M x y
  | EDiv a b => x <- compile a ;; y <- compile b ;; Div E M x y
  | ESqrt a => x <- compile a ;; Sqrt E M x
  | ETrunc a => x <- compile a ;; Trunc E M x
  | EFloor a => x <- compile a ;; Floor E M x
  | ECeil a => x <- compile a ;; Ceil E M x
  | ESelect c a b x y =>
      va <- compile a ;; vb <- compile b ;; t <- compare_circ c va vb ;;
      vx <- compile x ;; vy <- compile y ;; FSelect t vx vy
  end.

End Circuit.

Section Eval.
Variables E M : Z.
Context {HF : Format E M}.
Notation fmt := (fmt E M).

Definition ieee_compare (c : comparison_op) (x y : fmt) : bool :=
  match c with
  | OpLt => ieee_lt E M x y
  | OpLe => ieee_le E M x y
  | OpGt => ieee_lt E M y x
  | OpGe => ieee_le E M y x
  end.

(** All leaves are bit patterns of the format. *)
Fixpoint leaves (e : expr) : Prop :=
  match e with
  | EInput v | EConst v => 0 <= v < 2 ^ (E + M + 1)
  | ENeg a | EAbs a | ESqrt a | ETrunc a | EFloor a | ECeil a => leaves a
  | EAdd a b | ESub a b | EMul a b | EDiv a b => leaves a /\ leaves b
  | ESelect _ a b x y => leaves a /\ leaves b /\ leaves x /\ leaves y
  end.

(** Evaluation in IEEE arithmetic. *)
Fixpoint ieval (e : expr) : fmt :=
  match e with
  | EInput v | EConst v => of_bits E M v
  | ENeg a => ieee_neg E M (ieval a)
  | EAbs a => ieee_abs E M (ieval a)
  | EAdd a b => ieee_add E M (ieval a) (ieval b)
  | ESub a b => ieee_sub E M (ieval a) (ieval b)
  | EMul a b => ieee_mul E M (ieval a) (ieval b)
  | EDiv a b => ieee_div E M (ieval a) (ieval b)
  | ESqrt a => ieee_sqrt E M (ieval a)
  | ETrunc a => ieee_trunc E M (ieval a)
  | EFloor a => ieee_floor E M (ieval a)
  | ECeil a => ieee_ceil E M (ieval a)
  | ESelect c a b x y => if ieee_compare c (ieval a) (ieval b) then ieval x else ieval y
  end.

(** No opposite operands of the topmost binade are added. *)
Fixpoint no_max_cancel (e : expr) : Prop :=
  match e with
  | EInput _ | EConst _ => True
  | ENeg a | EAbs a | ESqrt a | ETrunc a | EFloor a | ECeil a => no_max_cancel a
  | EAdd a b => no_max_cancel a /\ no_max_cancel b /\ ~ max_cancel E M (ieval a) (ieval b)
  | ESub a b => no_max_cancel a /\ no_max_cancel b /\
                ~ max_cancel E M (ieval a) (ieee_neg E M (ieval b))
  | EMul a b | EDiv a b => no_max_cancel a /\ no_max_cancel b
  | ESelect _ a b x y =>
      no_max_cancel a /\ no_max_cancel b /\ no_max_cancel x /\ no_max_cancel y
  end.

(** No intermediate result overflows, is an exact zero of operands of opposite
    signs, or is rounded to an integral value from [1,2). *)
Fixpoint safe (e : expr) : Prop :=
  match e with
  | EInput _ | EConst _ => True
  | ENeg a | EAbs a | ESqrt a => safe a
  | ETrunc a | EFloor a | ECeil a => safe a /\ ~ in_1_2 E M (ieval a)
  | EAdd a b => safe a /\ safe b /\ ~ cancels (ieval a) (ieval b) /\
      (is_finite (ieval a) = true -> is_finite (ieval b) = true -> is_finite (ieval e) = true)
  | ESub a b => safe a /\ safe b /\ ~ cancels (ieval a) (ieee_neg E M (ieval b)) /\
      (is_finite (ieval a) = true -> is_finite (ieval b) = true -> is_finite (ieval e) = true)
  | EMul a b => safe a /\ safe b /\
      (is_finite (ieval a) = true -> is_finite (ieval b) = true -> is_finite (ieval e) = true)
  | EDiv a b => safe a /\ safe b /\
      (is_finite (ieval a) = true -> is_finite_strict (ieval b) = true ->
       is_finite (ieval e) = true)
  | ESelect _ a b x y => safe a /\ safe b /\ safe x /\ safe y
  end.

(** The results an arbitrary prover can reach: every operation yields one of
    its outcomes. *)
Fixpoint may (e : expr) (f : fmt) : Prop :=
  match e with
  | EInput v | EConst v => f = of_bits E M v
  | ENeg a => exists x, may a x /\ f = ieee_neg E M x
  | EAbs a => exists x, may a x /\ f = ieee_abs E M x
  | EAdd a b => exists x y, may a x /\ may b y /\ sum_outcome x y f
  | ESub a b => exists x y, may a x /\ may b y /\ diff_outcome x y f
  | EMul a b => exists x y, may a x /\ may b y /\ f = ieee_mul E M x y
  | EDiv a b => exists x y, may a x /\ may b y /\ f = ieee_div E M x y
  | ESqrt a => exists x, may a x /\ f = ieee_sqrt E M x
  | ETrunc a => exists x, may a x /\ trunc_outcome x f
  | EFloor a => exists x, may a x /\ floor_outcome x f
  | ECeil a => exists x, may a x /\ ceil_outcome x f
  | ESelect c a b x y => exists u v p q, may a u /\ may b v /\ may x p /\ may y q /\
      f = if ieee_compare c u v then p else q
  end.

(** No operation on finite data that the prover can reach overflows. *)
Fixpoint bounded_run (e : expr) : Prop :=
  match e with
  | EInput _ | EConst _ => True
  | ENeg a | EAbs a | ESqrt a | ETrunc a | EFloor a | ECeil a => bounded_run a
  | EAdd a b => bounded_run a /\ bounded_run b /\ forall x y, may a x -> may b y ->
      is_finite x = true -> is_finite y = true -> is_finite (ieee_add E M x y) = true
  | ESub a b => bounded_run a /\ bounded_run b /\ forall x y, may a x -> may b y ->
      is_finite x = true -> is_finite y = true -> is_finite (ieee_sub E M x y) = true
  | EMul a b => bounded_run a /\ bounded_run b /\ forall x y, may a x -> may b y ->
      is_finite x = true -> is_finite y = true -> is_finite (ieee_mul E M x y) = true
  | EDiv a b => bounded_run a /\ bounded_run b /\ forall x y, may a x -> may b y ->
      is_finite x = true -> is_finite_strict y = true -> is_finite (ieee_div E M x y) = true
  | ESelect _ a b x y => bounded_run a /\ bounded_run b /\ bounded_run x /\ bounded_run y
  end.

(** The invariant of the representation. *)
Definition well_formed {MOD : Modulus} (x : FloatVar) : Prop :=
  exists (s a : bool) (e m : Z),
    x = mkF (emb (Z.b2z s)) (emb e) (emb m) (emb (Z.b2z a)) /\
    emin E M - 1 <= e <= emax E /\ (m = 0 \/ 2 ^ M <= m < 2 ^ (M + 1)) /\
    (a = true <-> e = emax E) /\ (a = true -> m = 0 \/ m = 2 ^ M) /\
    (a = false -> (m = 0 <-> e = emin E M - 1)) /\
    (* subnormals: the bits below the least significant one are zero *)
    (e < 2 - emax E -> (2 ^ (2 - emax E - e) | m)).

End Eval.
