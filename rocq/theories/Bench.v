(** The benchmark helpers of util/util.go:491-806.

    The proving systems, the compiler and the file system are oracles: every
    call returns a value and possibly an error (as in Go, a value comes with an
    error as well), or panics.  What a helper does is a list of events and an
    outcome.  Not modelled: [b.ResetTimer], printing to the console, the random
    identifier, the closing of the file.  Times are oracle values. *)
From Coq Require Import ZArith List.
Import ListNotations.
Local Open Scope Z_scope.

Section Bench.
Variables (circuit assignment CS WIT PUB PK VK PROOF SRS error : Type).

(** [None] is a panic. *)
Definition call (A : Type) : Type := option (A * option error).

(** The behaviour of one proving system and its surroundings. *)
Record behaviour := mkBehaviour {
  compile : circuit -> call CS;
  nb_constraints : CS -> Z;
  new_witness : assignment -> call WIT;
  new_srs : CS -> call SRS;
  setup : CS -> option SRS -> call (PK * VK);
  prove : CS -> PK -> WIT -> call PROOF;
  public : WIT -> call PUB;
  verify : PROOF -> VK -> PUB -> call unit;
  open_file : call unit;
  stat : call Z (* the size *);
  write : list Z -> call unit (* an empty list is the header *);
  times : Z * Z * Z * Z }.

Inductive event :=
| Errorf (e : error)                  (* b.Errorf: the benchmark is marked as failed *)
| Wrote (row : list Z)                (* a line written without error *)
| Verified (p : PROOF) (vk : VK) (pub : PUB) (err : option error).

Inductive outcome (A : Type) :=
| Val (a : A)                         (* carry on *)
| Return (err : option error)         (* the function returns *)
| Panic.
Arguments Val {A}. Arguments Return {A}. Arguments Panic {A}.

Definition prog (A : Type) : Type := list event * outcome A.

Definition seq {A B} (p : prog A) (k : A -> prog B) : prog B :=
  match snd p with
  | Val a => let q := k a in (fst p ++ fst q, snd q)
  | Return e => (fst p, Return e)
  | Panic => (fst p, Panic)
  end.
Notation "x <- c ;; k" := (seq c (fun x => k)) (at level 61, c at next level, right associativity).
Notation "' p <- c ;; k" := (seq c (fun x => match x with p => k end))
  (at level 61, p pattern, c at next level, right associativity).

Definition ask {A} (c : call A) : prog (A * option error) :=
  match c with Some r => ([], Val r) | None => ([], Panic) end.

(** [if err != nil { b.Errorf(...); return err }] *)
Definition check (err : option error) : prog unit :=
  match err with Some e => ([Errorf e], Return (Some e)) | None => ([], Val tt) end.

(** [if err != nil { panic(...) }] *)
Definition or_panic (err : option error) : prog unit :=
  match err with Some _ => ([], Panic) | None => ([], Val tt) end.

Variable S : behaviour.

Definition call_verify (p : PROOF) (vk : VK) (pub : PUB) : prog (option error) :=
  match verify S p vk pub with
  | Some (_, err) => ([Verified p vk pub err], Val err)
  | None => ([], Panic)
  end.

Definition call_write (row : list Z) : prog (option error) :=
  match write S row with
  | Some (_, None) => ([Wrote row], Val None)
  | Some (_, Some e) => ([], Val (Some e))
  | None => ([], Panic)
  end.

(** util.go:526-545, 611-630: open the file and write the header into an empty one. *)
Definition open_log : prog unit :=
  '(_, err) <- ask (open_file S) ;;
  _ <- check err ;;
  '(size, err) <- ask (stat S) ;;
  _ <- check err ;;
  if size =? 0 then
    err <- call_write [] ;;
    check err
  else ([], Val tt).

Definition row (resolution index : Z) (cs : CS) : list Z :=
  let '(t1, t2, t3, t4) := times S in [resolution; index; nb_constraints S cs; t1; t2; t3; t4].

(** util.go:525-608.  The error of [NewWitness] is overwritten, the result of
    [Verify] is dropped; the test after it reads the error of [Prove]. *)
Definition BenchProofToFileGroth16 (c : circuit) (a : assignment) (resolution index : Z) : prog unit :=
  _ <- open_log ;;
  '(cs, err) <- ask (compile S c) ;;
  _ <- check err ;;
  '(fullWitness, _) <- ask (new_witness S a) ;;
  '((pk, vk), err) <- ask (setup S cs None) ;;
  _ <- check err ;;
  '(proof, err) <- ask (prove S cs pk fullWitness) ;;
  _ <- check err ;;
  '(publicWitness, _) <- ask (public S fullWitness) ;;
  _ <- call_verify proof vk publicWitness ;;
  _ <- check err ;;
  err <- call_write (row resolution index cs) ;;
  _ <- check err ;;
  ([], Return None).

(** util.go:610-700 *)
Definition BenchProofToFilePlonk (c : circuit) (a : assignment) (resolution index : Z) : prog unit :=
  _ <- open_log ;;
  '(ccs, err) <- ask (compile S c) ;;
  _ <- check err ;;
  '(fullWitness, _) <- ask (new_witness S a) ;;
  '(srs, err) <- ask (new_srs S ccs) ;;
  _ <- or_panic err ;;
  '((pk, vk), err) <- ask (setup S ccs (Some srs)) ;;
  _ <- check err ;;
  '(proof, err) <- ask (prove S ccs pk fullWitness) ;;
  _ <- check err ;;
  '(publicWitness, _) <- ask (public S fullWitness) ;;
  err <- call_verify proof vk publicWitness ;;
  _ <- check err ;;
  err <- call_write (row resolution index ccs) ;;
  _ <- check err ;;
  ([], Return None).

(** util.go:702-750 *)
Definition BenchProofMemoryGroth16 (c : circuit) (a : assignment) : prog unit :=
  '(cs, err) <- ask (compile S c) ;;
  _ <- check err ;;
  '(fullWitness, err) <- ask (new_witness S a) ;;
  _ <- check err ;;
  '((pk, vk), err) <- ask (setup S cs None) ;;
  _ <- check err ;;
  '(proof, err) <- ask (prove S cs pk fullWitness) ;;
  _ <- check err ;;
  '(publicWitness, _) <- ask (public S fullWitness) ;;
  _ <- call_verify proof vk publicWitness ;;
  ([], Return None).

(** util.go:752-806.  The error of [NewSRS] is overwritten. *)
Definition BenchProofMemoryPlonk (c : circuit) (a : assignment) : prog unit :=
  '(ccs, err) <- ask (compile S c) ;;
  _ <- check err ;;
  '(fullWitness, err) <- ask (new_witness S a) ;;
  _ <- check err ;;
  '(srs, _) <- ask (new_srs S ccs) ;;
  '((pk, vk), err) <- ask (setup S ccs (Some srs)) ;;
  _ <- check err ;;
  '(proof, err) <- ask (prove S ccs pk fullWitness) ;;
  _ <- check err ;;
  '(publicWitness, _) <- ask (public S fullWitness) ;;
  err <- call_verify proof vk publicWitness ;;
  _ <- check err ;;
  ([], Return None).

(** util.go:491-523: [require.NoError] fails the benchmark and ends it; the
    loop runs 20 times with the same keys and witness. *)
Fixpoint prove_loop (n : nat) (cs : CS) (pk : PK) (vk : VK) (fullWitness : WIT) : prog unit :=
  match n with
  | O => ([], Return None)
  | Datatypes.S n =>
      '(proof, err) <- ask (prove S cs pk fullWitness) ;;
      _ <- check err ;;
      '(publicWitness, _) <- ask (public S fullWitness) ;;
      _ <- call_verify proof vk publicWitness ;;
      prove_loop n cs pk vk fullWitness
  end.

Definition BenchProof (c : circuit) (a : assignment) : prog unit :=
  '(cs, err) <- ask (compile S c) ;;
  _ <- check err ;;
  '(fullWitness, err) <- ask (new_witness S a) ;;
  _ <- check err ;;
  '((pk, vk), err) <- ask (setup S cs None) ;;
  _ <- check err ;;
  prove_loop 20 cs pk vk fullWitness.

End Bench.

Arguments compile {_ _ _ _ _ _ _ _ _ _}. Arguments nb_constraints {_ _ _ _ _ _ _ _ _ _}.
Arguments new_witness {_ _ _ _ _ _ _ _ _ _}. Arguments new_srs {_ _ _ _ _ _ _ _ _ _}.
Arguments setup {_ _ _ _ _ _ _ _ _ _}. Arguments prove {_ _ _ _ _ _ _ _ _ _}.
Arguments public {_ _ _ _ _ _ _ _ _ _}. Arguments verify {_ _ _ _ _ _ _ _ _ _}.
Arguments open_file {_ _ _ _ _ _ _ _ _ _}. Arguments stat {_ _ _ _ _ _ _ _ _ _}.
Arguments write {_ _ _ _ _ _ _ _ _ _}. Arguments times {_ _ _ _ _ _ _ _ _ _}.
Arguments mkBehaviour {_ _ _ _ _ _ _ _ _ _}.
Arguments Errorf {_ _ _ _}. Arguments Wrote {_ _ _ _}. Arguments Verified {_ _ _ _}.
Arguments Val {_ _}. Arguments Return {_ _}. Arguments Panic {_ _}.
Arguments BenchProof {_ _ _ _ _ _ _ _ _ _}. Arguments prove_loop {_ _ _ _ _ _ _ _ _ _}.
Arguments BenchProofToFileGroth16 {_ _ _ _ _ _ _ _ _ _}.
Arguments BenchProofToFilePlonk {_ _ _ _ _ _ _ _ _ _}.
Arguments BenchProofMemoryGroth16 {_ _ _ _ _ _ _ _ _ _}.
Arguments BenchProofMemoryPlonk {_ _ _ _ _ _ _ _ _ _}.
