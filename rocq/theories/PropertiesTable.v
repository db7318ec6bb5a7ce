(** Property C46: the tables of util/util.go describe a regular icosahedron. *)
From Coq Require Import ZArith Reals Lra Lia Bool List.
From Flocq Require Import Core BinarySingleNaN.
From Verif Require Import Spec Loc2Index LocConst TableFacts PropertiesHex.
Import ListNotations.
Local Open Scope Z_scope.

(** 20 rows; each row is consistent, sees the others at the angles of a regular
    icosahedron, and its axis points to a vertex of the face. *)
Theorem C46_tables_32 : icosahedral (E:=8) (M:=23) (bpow radix2 (-21)) faces32.
Proof. exact (icob_spec (E:=8) (M:=23) 21 faces32 ltac:(vm_compute; reflexivity)). Qed.
Print Assumptions C46_tables_32.

Theorem C46_tables_64 : icosahedral (E:=11) (M:=52) (bpow radix2 (-49)) faces64.
Proof. exact (icob_spec (E:=11) (M:=52) 49 faces64 ltac:(vm_compute; reflexivity)). Qed.
Print Assumptions C46_tables_64.

Theorem C46_constants_32 : plane_constants (E:=8) (M:=23) (bpow radix2 (-20)) constants32.
Proof.
  apply (planeb_spec (E:=8) (M:=23) 20); [|vm_compute; reflexivity].
  destruct (datum_value (of_bits 8 23 (k_half constants32)) 8388608 (-24) ltac:(vm_compute; reflexivity)) as [_ ->].
  assert (B : bpow radix2 (-24) = (/ 16777216)%R) by reflexivity. rewrite B. lra.
Qed.
Print Assumptions C46_constants_32.

Theorem C46_constants_64 : plane_constants (E:=11) (M:=52) (bpow radix2 (-47)) constants64.
Proof.
  apply (planeb_spec (E:=11) (M:=52) 47); [|vm_compute; reflexivity].
  destruct (datum_value (of_bits 11 52 (k_half constants64)) 4503599627370496 (-53) ltac:(vm_compute; reflexivity)) as [_ ->].
  assert (B : bpow radix2 (-53) = (/ 9007199254740992)%R) by reflexivity. rewrite B. lra.
Qed.
Print Assumptions C46_constants_64.

(** A row with two columns exchanged is not consistent. *)
Example C46_ex : forallb (rowb (E:=8) (M:=23) 21) faces32 = true /\
  rowb (E:=8) (M:=23) 21 (match nth_error faces32 0 with
    | Some (mkFace x y z sl cl sg cg sa ca sr cr) => mkFace x y z cl sl sg cg sa ca sr cr
    | None => mkFace 0 0 0 0 0 0 0 0 0 0 0 end) = false.
Proof. split; vm_compute; reflexivity. Qed.
