(** Arithmetic of the scalar field of the proof system.

    gnark circuits compute over a prime field; [frontend.API]'s Add, Sub, Mul,
    Neg and constants are the operations below on canonical residues in
    [[0, P)].  Only oddness and size of [P] are ever used in the proofs. *)
From Coq Require Import ZArith List Bool.
Import ListNotations.
Local Open Scope Z_scope.

(** The field modulus ([ecc.BN254.ScalarField()] in the repository's tests). *)
Class Modulus := modulus : Z.

(** Order of the BN254 scalar field. *)
Definition bn254_r : Z :=
  21888242871839275222246405745257275088548364400416034343698204186575808495617.

Section Field.
Context {MOD : Modulus}.

(** Embedding of a Go integer constant ([big.Int], [int], [uint]) as a field
    element (gnark reduces constants modulo the field, also negative ones). *)
Definition emb (z : Z) : Z := z mod modulus.

(** [api.Add], [api.Sub], [api.Mul], [api.Neg]. *)
Definition fadd (a b : Z) : Z := (a + b) mod modulus.
Definition fsub (a b : Z) : Z := (a - b) mod modulus.
Definition fmul (a b : Z) : Z := (a * b) mod modulus.
Definition fneg (a : Z) : Z := (- a) mod modulus.

(** [api.IsZero]: 1 if the wire is zero and 0 otherwise (gnark's gadget is
    deterministic: the value is forced by its two constraints). *)
Definition isZero (a : Z) : Z := if a =? 0 then 1 else 0.

(** The boolean test behind [api.AssertIsBoolean]: [a * (1 - a) = 0]. *)
Definition is_bool (a : Z) : bool := (a =? 0) || (a =? 1).

End Field.

(** Extended Euclid, used only to give the honest value of [api.Inverse]
    (gnark's solver computes the field inverse).  [egcd n a b = (g, u, v)] with
    [u * a + v * b = g]; [n] is fuel. *)
Fixpoint egcd (n : nat) (a b : Z) : Z * Z * Z :=
  match n with
  | O => (a, 1, 0)
  | S n' =>
      if b =? 0 then (a, 1, 0)
      else let '(g, u, v) := egcd n' b (a mod b) in
           (g, v, u - (a / b) * v)
  end.

(** Honest value of the inverse of [x] modulo [p]; meaningful when
    [gcd x p = 1]. *)
Definition inv_mod (p x : Z) : Z :=
  let '(_, _, v) := egcd (Z.to_nat (2 * Z.log2 p + 3)) p x in v mod p.

(** [0, 1, ..., n-1] as integers. *)
Definition zseq (n : Z) : list Z := map Z.of_nat (seq 0 (Z.to_nat n)).
