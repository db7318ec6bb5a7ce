(** Circuits as programs.

    A circuit is a term of the free monad [circ]: straight-line code over field
    elements with four effects - asking the prover for a value ([Hint]), a
    constraint ([Assert]), a deferred range check ([Check], collected by
    gadget/rangecheck.go:44-49) and a deferred lookup in the powers-of-two table
    ([Query], collected by gadget/gadget.go:122-137). *)
From Coq Require Import ZArith List Bool.
From Verif Require Import Field.
Import ListNotations.
Local Open Scope Z_scope.

(** gadget/rangecheck.go:14-20 *)
Inductive mode := Loose | TightForSmallAbs | TightForUnknownRange.

Inductive circ (A : Type) : Type :=
| Ret (a : A)
| Hint (honest : option Z) (k : Z -> circ A)
    (* one output of [Compiler().NewHint]; [honest] is the value computed by the
       registered Go hint function, [None] if it returns an error or panics *)
| Assert (c : bool) (k : circ A)
| Check (v bits : Z) (m : mode) (k : circ A)
| Query (size v : Z) (k : circ A).
    (* membership of [v] in the table of [size] powers of two *)
Arguments Ret {A}. Arguments Hint {A}. Arguments Assert {A}.
Arguments Check {A}. Arguments Query {A}.

Fixpoint bind {A B} (c : circ A) (f : A -> circ B) : circ B :=
  match c with
  | Ret a => f a
  | Hint h k => Hint h (fun w => bind (k w) f)
  | Assert b k => Assert b (bind k f)
  | Check v n m k => Check v n m (bind k f)
  | Query s v k => Query s v (bind k f)
  end.

Declare Scope circ_scope.
Delimit Scope circ_scope with circ.
Notation "x <- c ;; k" := (bind c (fun x => k))
  (at level 61, c at next level, right associativity) : circ_scope.
Notation "' p <- c ;; k" := (bind c (fun p => k))
  (at level 61, p pattern, c at next level, right associativity) : circ_scope.
Notation "c ;;; k" := (bind c (fun _ => k))
  (at level 61, right associativity) : circ_scope.
Open Scope circ_scope.

Section Circuit.
Context {MOD : Modulus}.

(** ** Primitive operations of [frontend.API] that create constraints *)

(** One-output hint. *)
Definition hint1 (h : option Z) : circ Z := Hint h (fun w => Ret w).

(** A hint with several outputs: one node per output. *)
Fixpoint hints (hs : list (option Z)) : circ (list Z) :=
  match hs with
  | [] => Ret []
  | h :: t => w <- hint1 h ;; ws <- hints t ;; Ret (w :: ws)
  end.

Definition assert (c : bool) : circ unit := Assert c (Ret tt).

(** [api.AssertIsBoolean] *)
Definition assert_bool (a : Z) : circ unit := assert (is_bool a).

(** [api.AssertIsEqual] *)
Definition assert_eq (a b : Z) : circ unit := assert (a =? b).

(** [api.AssertIsLessOrEqual] with a constant bound: compares canonical
    representatives. *)
Definition assert_le_const (a bound : Z) : circ unit := assert (a <=? bound).

(** [api.Select c a b]: asserts that [c] is boolean, returns [a] if it is 1. *)
Definition select (c a b : Z) : circ Z :=
  assert_bool c ;;; Ret (if c =? 1 then a else b).

(** [api.And], [api.Or], [api.Xor]: assert both operands boolean, return the
    usual polynomial. *)
Definition and_ (a b : Z) : circ Z :=
  assert_bool a ;;; assert_bool b ;;; Ret (fmul a b).
Definition or_ (a b : Z) : circ Z :=
  assert_bool a ;;; assert_bool b ;;; Ret (fsub (fadd a b) (fmul a b)).
Definition xor_ (a b : Z) : circ Z :=
  assert_bool a ;;; assert_bool b ;;;
  Ret (fsub (fadd a b) (fmul (emb 2) (fmul a b))).

(** [api.Inverse]: a prover-supplied wire [w] with [a * w = 1]. *)
Definition inverse (a : Z) : circ Z :=
  w <- hint1 (Some (inv_mod modulus a)) ;;
  assert (fmul a w =? emb 1) ;;; Ret w.

(** [api.ToBinary a n]: [n] boolean wires (little endian) recomposing to [a]. *)
Fixpoint bit_hints (a : Z) (i : Z) (n : nat) : circ (list Z) :=
  match n with
  | O => Ret []
  | S n' =>
      w <- hint1 (Some (if Z.testbit a i then 1 else 0)) ;;
      assert_bool w ;;;
      ws <- bit_hints a (i + 1) n' ;;
      Ret (w :: ws)
  end.
Fixpoint recompose (base : Z) (ws : list Z) (i : Z) : Z :=
  match ws with
  | [] => emb 0
  | w :: t => fadd (fmul w (emb (2 ^ (base * i)))) (recompose base t (i + 1))
  end.
Definition to_binary (a : Z) (n : nat) : circ (list Z) :=
  ws <- bit_hints a 0 n ;;
  assert_eq (recompose 1 ws 0) a ;;; Ret ws.

(** Deferred range check: gadget/rangecheck.go:44-49 ([CommitChecker.Check]). *)
Definition check (v bits : Z) (m : mode) : circ unit := Check v bits m (Ret tt).

(** Deferred powers-of-two lookup: gadget/gadget.go:131-134. *)
Definition query (size v : Z) : circ unit := Query size v (Ret tt).

(** gadget/gadget.go:16-31: the table of [size] entries [i * 2^size + 2^i]. *)
Definition pow2_entries (size : Z) : list Z :=
  map (fun i => emb (i * 2 ^ size + 2 ^ i)) (zseq size).

(** gadget/gadget.go:33-35: [logderivarg.Build] as membership. *)
Definition in_pow2_table (size v : Z) : bool :=
  existsb (fun e => v =? e) (pow2_entries size).

(** ** Semantics *)

(** Malicious prover: [satG ck c r] holds when some choice of field elements
    for the hints satisfies all constraints of [c] and makes it return [r];
    [ck] is the meaning of a range check. *)
Fixpoint satG (ck : Z -> Z -> mode -> Prop) {A} (c : circ A) (r : A) : Prop :=
  match c with
  | Ret a => a = r
  | Hint _ k => exists w, 0 <= w < modulus /\ satG ck (k w) r
  | Assert b k => b = true /\ satG ck k r
  | Check v bits m k => ck v bits m /\ satG ck k r
  | Query size v k => in_pow2_table size v = true /\ satG ck k r
  end.

(** Honest prover: hints return the honest value (reduced into the field, as
    gnark does with hint outputs). *)
Fixpoint execG (ck : Z -> Z -> mode -> bool) {A} (c : circ A) : option A :=
  match c with
  | Ret a => Some a
  | Hint h k => match h with
                | Some w => execG ck (k (emb w))
                | None => None
                end
  | Assert b k => if b then execG ck k else None
  | Check v bits m k => if ck v bits m then execG ck k else None
  | Query size v k => if in_pow2_table size v then execG ck k else None
  end.

(** Running a circuit on an explicit list of hint values, collecting the
    deferred range checks and powers-of-two queries in order. *)
Record check_item := mkCheck { ck_v : Z; ck_bits : Z; ck_mode : mode }.

Fixpoint trace {A} (c : circ A) (tape : list Z)
  : option (A * list check_item * list (Z * Z) * list Z) :=
  match c with
  | Ret a => Some (a, [], [], tape)
  | Hint _ k => match tape with
                | w :: t => if (0 <=? w) && (w <? modulus) then trace (k w) t else None
                | [] => None
                end
  | Assert b k => if b then trace k tape else None
  | Check v bits m k =>
      match trace k tape with
      | Some (a, cs, qs, rest) => Some (a, mkCheck v bits m :: cs, qs, rest)
      | None => None
      end
  | Query size v k =>
      match trace k tape with
      | Some (a, cs, qs, rest) => Some (a, cs, (size, v) :: qs, rest)
      | None => None
      end
  end.

End Circuit.
