(** util/util.go: conversion between bit patterns and components. *)
From Coq Require Import ZArith List Bool.
From Verif Require Import Field Hints.
Import ListNotations.
Local Open Scope Z_scope.

(** The four components (sign, exponent, mantissa, is_abnormal) as Go
    [big.Int]s: the exponent may be negative. *)
Record components := mkComp { co_s : Z; co_e : Z; co_m : Z; co_a : Z }.

(** util/util.go:287-331.  [s], [e], [m] are uint64 computations (wrapping);
    [big.NewInt(int64(m))] is the identity for [m < 2^63]. *)
Definition ComponentsOf (v E M : Z) : components :=
  let v := u64 v in
  let s := Z.shiftr v (E + M) in
  let e := u64 (Z.shiftr v M - u64 (Z.shiftl s E)) in
  let m := u64 (v - u64 (Z.shiftl s (E + M)) - u64 (Z.shiftl e M)) in
  let exponent_max := 2 ^ (E - 1) in
  let exponent_min := 1 - exponent_max in
  let exponent := e + exponent_min in
  let exponent_is_min := exponent =? exponent_min in
  let exponent_is_max := exponent =? exponent_max in
  let shift := leading_zeros m (Z.to_nat M) in
  let shifted_mantissa := Z.shiftl m shift in
  mkComp s
    (if exponent_is_min then exponent - shift else exponent)
    (if exponent_is_min then Z.shiftl shifted_mantissa 1
     else if exponent_is_max && negb (m =? 0) then 0 else m + 2 ^ M)
    (if exponent_is_max then 1 else 0).

(** util/util.go:333-360.  [None] models the panics.  [Uint64] of a negative
    [big.Int] is the low 64 bits of its absolute value. *)
Definition u64abs (z : Z) : Z := u64 (Z.abs z).
Definition ValueOf (c : components) (E M : Z) : option Z :=
  let s := u64abs (co_s c) in
  let e := u64abs (co_e c + (2 ^ (E - 1) - 1 + M)) in
  let m := u64abs (co_m c) in
  let is_abnormal := u64abs (co_a c) =? 1 in
  if e <=? M then
    if is_abnormal || negb (Bool.eqb (e =? 0) (m =? 0)) then None else
    let delta := M + 1 - e in
    if negb (u64 (Z.shiftl (Z.shiftr m delta) delta) =? m) then None else
    Some (u64 (u64 (Z.shiftl s (M + E)) + Z.shiftr m delta))
  else
    let e := e - M in
    if negb (Bool.eqb (e =? 2 ^ E - 1) is_abnormal) then None else
    let m := if is_abnormal && (m =? 0) then 1 else u64 (m - 2 ^ M) in
    Some (u64 (u64 (Z.shiftl s (M + E)) + u64 (Z.shiftl e M) + m)).
