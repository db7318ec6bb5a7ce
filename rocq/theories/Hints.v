(** The hint functions of hint/hint.go (what the honest prover computes). *)
From Coq Require Import ZArith List Bool.
From Verif Require Import Field.
Import ListNotations.
Local Open Scope Z_scope.

(** [big.Int.Uint64]: low 64 bits. *)
Definition u64 (z : Z) : Z := z mod 2 ^ 64.

(** [v.Bit(n)] *)
Definition bit (v n : Z) : Z := if Z.testbit v n then 1 else 0.

Section Hints.
Context {MOD : Modulus}.

(** hint/hint.go:108-118.  [v], [E], [M] are read as uint64; the shifts and the
    subtraction are uint64 operations. *)
Definition DecodeFloatHint (v E M : Z) : option Z * option Z :=
  let v := u64 v in
  let s := Z.shiftr v (E + M) in
  let e := u64 (Z.shiftr v M - u64 (Z.shiftl s E)) in
  (Some s, Some e).

(** hint/hint.go:120-126 *)
Definition NthBitHint (v n : Z) : option Z := Some (bit v n).

(** hint/hint.go:128-131.  [Lsh] by an astronomically large count exhausts
    memory in Go; the model returns [None] from 2^16 on. *)
Definition PowerOfTwoHint (e : Z) : option Z :=
  if u64 e <? 2 ^ 16 then Some (2 ^ u64 e) else None.

(** hint/hint.go:133-153.  Division by zero panics. *)
Definition DecomposeMantissaForRoundingHint
    (mantissa two_to_shift shift_max p_idx q_idx r_idx : Z)
  : option Z * option Z * option Z * option Z :=
  if two_to_shift =? 0 then (None, None, None, None) else
  let v := mantissa * 2 ^ shift_max / two_to_shift in
  (Some (Z.shiftr v p_idx), Some (bit v q_idx), Some (bit v r_idx),
   Some (Z.land v (2 ^ r_idx - 1))).

(** The loop of hint/hint.go:166-172 (and util/util.go:304-310): number of zero
    bits above the leading one, reading bits [n-1] down to 0. *)
Fixpoint leading_zeros (v : Z) (n : nat) : Z :=
  match n with
  | O => 0
  | S n' => if Z.testbit v (Z.of_nat n') then 0 else 1 + leading_zeros v n'
  end.

(** hint/hint.go:155-177 *)
Definition NormalizeHint (mantissa mantissa_bit_length : Z) : option Z :=
  if mantissa =? 0 then Some 0
  else Some (leading_zeros mantissa (Z.to_nat mantissa_bit_length)).

(** hint/hint.go:179-196 *)
Definition AbsHint (v : Z) : option Z * option Z :=
  if v <? Z.shiftr modulus 1 then (Some 1, Some v) else (Some 0, Some (modulus - v)).

(** hint/hint.go:198-210.  Division by zero panics. *)
Definition DivHint (x y Q : Z) : option Z :=
  if y =? 0 then None else Some (Z.shiftl x Q / y).

(** hint/hint.go:212-222 *)
Definition SqrtHint (x : Z) : option Z := Some (Z.sqrt x).

(** hint/hint.go:224-235 *)
Definition TruncHint (x shift : Z) : option Z := Some (Z.shiftr x shift).

(** hint/hint.go:237-252 ([sign] is compared with 1 after [Uint64]). *)
Definition FloorHint (x shift sign : Z) : option Z :=
  let q := Z.shiftr x shift in
  if (u64 sign =? 1) && negb (Z.shiftl q shift =? x) then Some (q + 1) else Some q.

End Hints.
