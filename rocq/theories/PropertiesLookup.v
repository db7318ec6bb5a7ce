(** Property C53: lookups are membership up to few challenges. *)
From Coq Require Import ZArith Znumtheory List Bool Lia.
From Verif Require Import Field FieldFacts Circuit CircuitFacts RangeCheck Witness Prime LogDeriv.
Import ListNotations.
Local Open Scope Z_scope.

(** The modulus of the repository's proofs is prime. *)
Theorem C53_field_prime : prime bn254_r.
Proof. exact bn254_prime. Qed.
Print Assumptions C53_field_prime.

(** One lookup over any prime field: with a query outside the table, fewer than
    [table + queries] challenges can be passed, whatever the multiplicities. *)
Theorem C53_argument_sound : forall (MOD : Modulus) (table mults queries xs : list Z),
  prime modulus ->
  Forall (fun t => 0 <= t < modulus) table -> Forall (fun q => 0 <= q < modulus) queries ->
  Z.of_nat (length queries) < modulus ->
  ~ Forall (fun q => In q table) queries ->
  NoDup xs -> Forall (fun x => 0 <= x < modulus) xs ->
  Forall (fun x => satG no_check (lookup_argument table mults queries x) tt) xs ->
  (length xs < length table + length queries)%nat.
Proof. intros MOD table mults queries xs Hp. exact (argument_sound Hp table mults queries xs). Qed.
Print Assumptions C53_argument_sound.

(** With all queries in the table the honest counts pass all other challenges. *)
Theorem C53_argument_complete : forall (MOD : Modulus) (table queries : list Z) (x : Z),
  prime modulus -> 2 < modulus ->
  Forall (fun t => 0 <= t < modulus) table -> NoDup table -> Forall (fun q => In q table) queries ->
  Z.of_nat (length queries) < modulus -> 0 <= x < modulus -> ~ In x queries ->
  execG no_checkb (lookup_argument table (countHint table queries) queries x) = Some tt.
Proof.
  intros MOD table queries x Hp H2 Ht Hd Hq Hn Hx Hin.
  exact (@argument_complete MOD Hp H2 table queries x Ht (or_introl Hd) Hq Hn Hx Hin).
Qed.
Print Assumptions C53_argument_complete.

(** Whole circuits over BN254: if [c] cannot return [r] in the sense of
    [accepts], on which all other theorems rest, then whatever the prover fixes
    passes few of the [bn254_r] challenges. *)
Theorem C53_circuit_sound : forall size ft A (c : circ A) r tape limbs rmults pmults cs qs ds s xs,
  trace (MOD:=bn254) c tape = Some (r, cs, qs, []) ->
  let b := baseLength size ft cs in
  trace (MOD:=bn254) (commit_items (MOD:=bn254) b cs) limbs = Some (ds, [], [], []) ->
  0 <= b <= 253 -> 0 <= s -> Forall (fun q => fst q <= s) qs ->
  Z.of_nat (length ds) < bn254_r -> Z.of_nat (length qs) < bn254_r ->
  ~ accepts (MOD:=bn254) size ft c r ->
  NoDup xs -> Forall (fun x => 0 <= x < bn254_r) xs ->
  Forall (passes (MOD:=bn254) size ft c r tape limbs rmults pmults) xs ->
  Z.of_nat (length xs) < Z.max (2 ^ b + Z.of_nat (length ds)) (s + Z.of_nat (length qs)).
Proof.
  intros size ft A c r tape limbs rmults pmults cs qs ds s xs Ht b Hl Hb Hs Hq Hnd Hnq Hno Hd Hw Hall.
  assert (Hm : 2 ^ b <= bn254_r).
  { apply Z.le_trans with (2 ^ 253); [apply Z.pow_le_mono_r; lia|]. vm_compute. discriminate. }
  exact (@passes_sound bn254 bn254_prime (eq_refl : 2 < bn254_r) size ft A c r tape limbs rmults pmults cs qs ds s xs
    Ht Hl (proj1 Hb) Hm Hs Hq Hnd Hnq Hno Hd Hw Hall).
Qed.
Print Assumptions C53_circuit_sound.

(** And what is accepted passes all challenges but the queried values. *)
Theorem C53_circuit_complete : forall size ft A (c : circ A) r,
  accepts (MOD:=bn254) size ft c r ->
  exists tape limbs rmults pmults cs qs ds,
    trace (MOD:=bn254) c tape = Some (r, cs, qs, []) /\
    trace (MOD:=bn254) (commit_items (MOD:=bn254) (baseLength size ft cs) cs) limbs = Some (ds, [], [], []) /\
    (0 <= baseLength size ft cs <= 253 ->
     Forall (fun q => (fst q + 1) * 2 ^ fst q <= bn254_r) qs ->
     Z.of_nat (length ds) < bn254_r -> Z.of_nat (length qs) < bn254_r ->
     forall x, 0 <= x < bn254_r -> ~ In x ds -> ~ In x (map snd qs) ->
       passes (MOD:=bn254) size ft c r tape limbs rmults pmults x).
Proof.
  intros size ft A c r H.
  destruct (@passes_complete bn254 bn254_prime (eq_refl : 2 < bn254_r) size ft A c r H)
    as (tape & limbs & rm & pm & cs & qs & ds & H1 & H2 & H3).
  exists tape, limbs, rm, pm, cs, qs, ds. split; [exact H1|]. split; [exact H2|].
  intros Hb Hq Hnd Hnq. apply H3; auto.
  - exact (proj1 Hb).
  - apply Z.le_trans with (2 ^ 253); [apply Z.pow_le_mono_r; lia|]. vm_compute. discriminate.
Qed.
Print Assumptions C53_circuit_complete.

(** Modulo 7 a prover who queries 2 in the table {0, 1} passes two challenges,
    one less than the bound. *)
Example C53_ex_tight : let MOD : Modulus := 7 in
  Forall (fun x => satG no_check (lookup_argument [0; 1] [1; 1] [2] x) tt) [5; 6].
Proof.
  cbn zeta. assert (HB : @BigMod 7) by reflexivity.
  repeat (constructor; [apply (execG_satG no_check no_checkb); [discriminate|vm_compute; reflexivity]|]).
  constructor.
Qed.

(** A two-bit check of the wire 5 is not accepted; with a lucky multiplicity the
    challenge 7 is passed nevertheless. *)
Example C53_ex_lucky : let c := check 5 2 Loose in
  ~ accepts (MOD:=bn254) 2 R1CS c tt /\
  passes (MOD:=bn254) 2 R1CS c tt [] [] [((bn254_r + 1) / 2 * 7) mod bn254_r; 0; 0; 0]
    (fun s => countHint (pow2_entries (MOD:=bn254) s) []) 7.
Proof.
  cbn zeta. split.
  - intros (tape & cs & qs & H & C & _). cbn in H. injection H as <- <- ->.
    assert (C' : forallb (in_range_table 2) [5] = true) by exact (proj1 C). discriminate C'.
  - exists [mkCheck 5 2 Loose], [], [5]. split; [reflexivity|]. split; [reflexivity|].
    split; [repeat constructor; discriminate|]. split; [constructor|]. split.
    + intros _. apply (execG_satG (MOD:=bn254) (HB:=(eq_refl : 2 < bn254_r)) no_check no_checkb); [discriminate|].
      vm_compute. reflexivity.
    + intros s. apply (execG_satG (MOD:=bn254) (HB:=(eq_refl : 2 < bn254_r)) no_check no_checkb); [discriminate|].
      apply (@argument_complete bn254 bn254_prime (eq_refl : 2 < bn254_r)).
      * exact (proj1 (@pow2_wires bn254 (eq_refl : 2 < bn254_r) s)).
      * right. reflexivity.
      * constructor.
      * reflexivity.
      * split; [discriminate|reflexivity].
      * intros [].
Qed.
