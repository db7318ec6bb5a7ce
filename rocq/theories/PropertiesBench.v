(** Property C40: the benchmark helpers. *)
From Coq Require Import ZArith List.
From Verif Require Import Bench BenchFacts.
Import ListNotations.
Local Open Scope Z_scope.

(** Plonk, for all behaviours of the compiler, the proving system and the file
    system: success, like a row in the file, means that the verifier accepted
    the proof of the prover for the circuit; a reported error comes with a
    failure mark and without a row. *)
Theorem C40_plonk_file {circuit assignment CS WIT PUB PK VK PROOF SRS error : Type}
    (S : behaviour circuit assignment CS WIT PUB PK VK PROOF SRS error) c a resolution index log out :
  BenchProofToFilePlonk S c a resolution index = (log, out) ->
  (out = Return None -> proof_verified S c a log /\ row_written log /\ ~ marked_failed log) /\
  (row_written log -> proof_verified S c a log) /\
  (forall e, out = Return (Some e) -> marked_failed log /\ ~ row_written log).
Proof.
  intros H. pose proof (plonk_file S c a resolution index) as (H1 & H2 & H3). rewrite H in *.
  cbn [fst snd] in *. split; [|auto]. intros Ho. destruct (H1 Ho) as (P1 & P2 & P3). auto.
Qed.
Print Assumptions C40_plonk_file.

Theorem C40_plonk_memory {circuit assignment CS WIT PUB PK VK PROOF SRS error : Type}
    (S : behaviour circuit assignment CS WIT PUB PK VK PROOF SRS error) c a log out :
  BenchProofMemoryPlonk S c a = (log, out) ->
  (out = Return None -> proof_verified S c a log /\ ~ marked_failed log) /\
  (forall e, out = Return (Some e) -> marked_failed log).
Proof.
  intros H. pose proof (plonk_memory S c a) as (H1 & _ & H3). rewrite H in *. cbn [fst snd] in *. split.
  - intros Ho. destruct (H1 Ho) as (P1 & _ & P3). auto.
  - intros e Ho. exact (proj1 (H3 e Ho)).
Qed.
Print Assumptions C40_plonk_memory.

(** Groth16: two verifiers that answer at all, whatever they answer, lead to
    the same rows, the same failure marks and the same returned error. *)
Theorem C40_groth16_file {circuit assignment CS WIT PUB PK VK PROOF SRS error : Type}
    (S : behaviour circuit assignment CS WIT PUB PK VK PROOF SRS error) v1 v2 c a resolution index :
  returns v1 -> returns v2 ->
  seen (BenchProofToFileGroth16 (with_verifier S v1) c a resolution index) =
  seen (BenchProofToFileGroth16 (with_verifier S v2) c a resolution index).
Proof. exact (groth16_file S v1 v2 c a resolution index). Qed.
Print Assumptions C40_groth16_file.

Theorem C40_groth16_memory {circuit assignment CS WIT PUB PK VK PROOF SRS error : Type}
    (S : behaviour circuit assignment CS WIT PUB PK VK PROOF SRS error) v1 v2 c a :
  returns v1 -> returns v2 ->
  seen (BenchProofMemoryGroth16 (with_verifier S v1) c a) =
  seen (BenchProofMemoryGroth16 (with_verifier S v2) c a).
Proof. exact (groth16_memory S v1 v2 c a). Qed.
Print Assumptions C40_groth16_memory.

(** Likewise [BenchProof], which proves and verifies twenty times. *)
Theorem C40_bench_proof {circuit assignment CS WIT PUB PK VK PROOF SRS error : Type}
    (S : behaviour circuit assignment CS WIT PUB PK VK PROOF SRS error) v1 v2 c a :
  returns v1 -> returns v2 ->
  seen (BenchProof (with_verifier S v1) c a) = seen (BenchProof (with_verifier S v2) c a).
Proof. exact (bench_proof S v1 v2 c a). Qed.
Print Assumptions C40_bench_proof.

(** A small system: everything is a number, the verifier accepts the proof of
    the prover unless [broken], [NewWitness] fails if [bad]. *)
Definition system (broken bad : bool) : behaviour Z Z Z Z Z Z Z Z Z nat :=
  mkBehaviour (fun c => Some (c + 1, None)) (fun cs => 10 * cs)
    (fun a => Some (a, if bad then Some 7%nat else None)) (fun cs => Some (cs, None))
    (fun cs _ => Some ((cs, cs), None)) (fun cs pk w => Some (100 * pk + w, None)) (fun w => Some (w, None))
    (fun p vk pub => Some (tt, if broken then Some 5%nat
       else if p =? 100 * vk + pub then None else Some 6%nat))
    (Some (tt, None)) (Some (0, None)) (fun _ => Some (tt, None)) (1, 2, 3, 4).

Example C40_plonk_ex :
  BenchProofToFilePlonk (system false false) 2 9 15 0 =
    ([Wrote []; Verified 309 3 9 None; Wrote [15; 0; 30; 1; 2; 3; 4]], Return None) /\
  BenchProofToFilePlonk (system true false) 2 9 15 0 =
    ([Wrote []; Verified 309 3 9 (Some 5%nat); Errorf 5%nat], Return (Some 5%nat)) /\
  snd (BenchProofMemoryPlonk (system false false) 2 9) = Return None /\
  snd (BenchProofMemoryPlonk (system true false) 2 9) = Return (Some 5%nat).
Proof. vm_compute. repeat split; reflexivity. Qed.

(** So the Groth16 helpers do not have the property of the Plonk helpers: with
    a verifier that rejects everything they write a row and return no error. *)
Theorem C40_groth16_refuted :
  exists S : behaviour Z Z Z Z Z Z Z Z Z nat,
    (forall p vk pub, verify S p vk pub = Some (tt, Some 5%nat)) /\
    (exists log, BenchProofToFileGroth16 S 2 9 15 0 = (log, Return None) /\
       row_written log /\ ~ marked_failed log) /\
    (exists log, BenchProofMemoryGroth16 S 2 9 = (log, Return None) /\ ~ marked_failed log) /\
    (exists log, BenchProof S 2 9 = (log, Return None) /\ ~ marked_failed log).
Proof.
  exists (system true false). split; [intros; reflexivity|].
  split; [|split]; eexists; (split; [vm_compute; reflexivity|]).
  - split.
    + exists [15; 0; 30; 1; 2; 3; 4]. split; [discriminate|]. cbn [In]. tauto.
    + intros [e H]. cbn [In] in H. intuition discriminate.
  - intros [e H]. cbn [In] in H. intuition discriminate.
  - intros [e H]. cbn [In] in H. intuition discriminate.
Qed.
Print Assumptions C40_groth16_refuted.

(** The helpers writing to a file also go on after [NewWitness] failed. *)
Theorem C40_witness_error_refuted :
  exists S : behaviour Z Z Z Z Z Z Z Z Z nat,
    (forall a, exists w, new_witness S a = Some (w, Some 7%nat)) /\
    (exists log, BenchProofToFilePlonk S 2 9 15 0 = (log, Return None) /\ ~ marked_failed log) /\
    (exists log, BenchProofToFileGroth16 S 2 9 15 0 = (log, Return None) /\ ~ marked_failed log) /\
    snd (BenchProofMemoryPlonk S 2 9) = Return (Some 7%nat) /\
    snd (BenchProofMemoryGroth16 S 2 9) = Return (Some 7%nat).
Proof.
  exists (system false true). split; [intros a; exists a; reflexivity|].
  split; [|split; [|split; reflexivity]]; eexists; (split; [vm_compute; reflexivity|]);
    intros [e H]; cbn [In] in H; intuition discriminate.
Qed.
Print Assumptions C40_witness_error_refuted.
