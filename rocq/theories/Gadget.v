(** gadget/gadget.go: integer gadgets.  (The lookup counters of [IntGadget] are
    in Counters.v.) *)
From Coq Require Import ZArith List Bool.
From Verif Require Import Field Circuit Hints.
Import ListNotations.
Local Open Scope Z_scope.

Section Gadget.
Context {MOD : Modulus}.

(** gadget/gadget.go:67-79 (the constraint part). *)
Definition AssertBitLength (v bit_length : Z) (m : mode) : circ unit :=
  check v bit_length m.

(** gadget/gadget.go:81-95.  The second output of [AbsHint] is allocated but
    not used by the code. *)
Definition GAbs (v length : Z) : circ (Z * Z) :=
  is_positive <- hint1 (fst (AbsHint v)) ;;
  _unused <- hint1 (snd (AbsHint v)) ;;
  assert_bool is_positive ;;;
  abs <- select is_positive v (fneg v) ;;
  AssertBitLength abs length Loose ;;;
  Ret (abs, is_positive).

(** gadget/gadget.go:97-100 *)
Definition IsPositive (v length : Z) : circ Z :=
  '(_, is_positive) <- GAbs v length ;; Ret is_positive.

(** gadget/gadget.go:102-108 *)
Definition GMax (a b diff_length : Z) : circ Z :=
  c <- IsPositive (fsub a b) diff_length ;; select c a b.

(** gadget/gadget.go:110-116 *)
Definition GMin (a b diff_length : Z) : circ Z :=
  c <- IsPositive (fsub a b) diff_length ;; select c b a.

(** gadget/gadget.go:118-120 *)
Definition IsEq (a b : Z) : Z := isZero (fsub a b).

(** gadget/gadget.go:122-137; [size] is [len(f.pow2.entries)]. *)
Definition QueryPowerOf2 (size exponent : Z) : circ Z :=
  result <- hint1 (PowerOfTwoHint exponent) ;;
  AssertBitLength result size Loose ;;;
  query size (fadd (fmul exponent (emb (2 ^ size))) result) ;;;
  Ret result.

End Gadget.
