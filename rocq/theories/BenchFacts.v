(** The benchmark helpers: what they report and what the verifier said. *)
From Coq Require Import ZArith List Lia.
From Verif Require Import Bench.
Import ListNotations.
Local Open Scope Z_scope.

Section Statements.
Context {circuit assignment CS WIT PUB PK VK PROOF SRS error : Type}.
Notation behaviour := (behaviour circuit assignment CS WIT PUB PK VK PROOF SRS error).
Notation event := (event PUB VK PROOF error).

(** What a successful benchmark should mean: a proof made by the prover for the
    circuit, the assignment and one pair of keys was accepted by the verifier. *)
Definition proof_verified (S : behaviour) (c : circuit) (a : assignment) (log : list event) : Prop :=
  exists cs w pk vk srs e p pub,
    compile S c = Some (cs, None) /\ new_witness S a = Some (w, e) /\
    setup S cs srs = Some ((pk, vk), None) /\ prove S cs pk w = Some (p, None) /\
    (exists eu, public S w = Some (pub, eu)) /\
    In (Verified p vk pub None) log /\ exists x, verify S p vk pub = Some (x, None).

(** The benchmark is marked as failed. *)
Definition marked_failed (log : list event) : Prop := exists e, In (Errorf e) log.

(** A data row was written. *)
Definition row_written (log : list event) : Prop := exists r, r <> [] /\ In (Wrote r) log.

(** The same behaviour with another verifier. *)
Definition with_verifier (S : behaviour) (v : PROOF -> VK -> PUB -> call error unit) : behaviour :=
  mkBehaviour (compile S) (nb_constraints S) (new_witness S) (new_srs S) (setup S) (prove S) (public S) v
    (open_file S) (stat S) (write S) (times S).

(** A verifier that does not panic. *)
Definition returns (v : PROOF -> VK -> PUB -> call error unit) : Prop := forall p vk pub, v p vk pub <> None.

(** Rows and marks, without the verifier's answers. *)
Definition visible (e : event) : bool := match e with Verified _ _ _ _ => false | _ => true end.

(** ** Symbolic execution: [G] holds of the events and the outcome *)
Notation prog := (prog PUB VK PROOF error).
Definition holds {A} (p : prog A) (G : list event -> outcome error A -> Prop) : Prop := G (fst p) (snd p).

Lemma holds_ask {A B} (c : call error A) (k : A * option error -> prog B) (G : list event -> outcome error B -> Prop) :
  G [] Panic -> (forall v err, c = Some (v, err) -> holds (k (v, err)) G) ->
  holds (seq _ _ _ _ (ask _ _ _ _ c) k) G.
Proof.
  intros H1 H2. unfold holds, seq, ask. destruct c as [[v err]|]; [|exact H1]. exact (H2 v err eq_refl).
Qed.
Lemma holds_check {B} err (k : unit -> prog B) (G : list event -> outcome error B -> Prop) :
  (forall e, err = Some e -> G [Errorf e] (Return (Some e))) -> (err = None -> holds (k tt) G) ->
  holds (seq _ _ _ _ (check _ _ _ _ err) k) G.
Proof.
  intros H1 H2. unfold holds, seq, check. destruct err as [e|]; [exact (H1 e eq_refl)|exact (H2 eq_refl)].
Qed.
Lemma holds_or_panic {B} err (k : unit -> prog B) (G : list event -> outcome error B -> Prop) : G [] Panic -> (err = None -> holds (k tt) G) ->
  holds (seq _ _ _ _ (or_panic _ _ _ _ err) k) G.
Proof.
  intros H1 H2. unfold holds, seq, or_panic. destruct err as [e|]; [exact H1|exact (H2 eq_refl)].
Qed.
Lemma holds_verify {B} (S : behaviour) p vk pub (k : option error -> prog B) (G : list event -> outcome error B -> Prop) : G [] Panic ->
  (forall x err, verify S p vk pub = Some (x, err) ->
    holds (k err) (fun l o => G (Verified p vk pub err :: l) o)) ->
  holds (seq _ _ _ _ (call_verify _ _ _ _ _ _ _ _ _ _ S p vk pub) k) G.
Proof.
  intros H1 H2. unfold holds, seq, call_verify. destruct (verify S p vk pub) as [[x err]|] eqn:E; [|exact H1].
  exact (H2 x err eq_refl).
Qed.
Lemma holds_write {B} (S : behaviour) row (k : option error -> prog B) (G : list event -> outcome error B -> Prop) : G [] Panic ->
  holds (k None) (fun l o => G (Wrote row :: l) o) -> (forall e, holds (k (Some e)) G) ->
  holds (seq _ _ _ _ (call_write _ _ _ _ _ _ _ _ _ _ S row) k) G.
Proof.
  intros H1 H2 H3. unfold holds, seq, call_write. destruct (write S row) as [[x [e|]]|]; [|exact H2|exact H1].
  exact (H3 e).
Qed.

(** Before the data row is written, at most a header is; a failure ends the helper. *)
Definition header (l : list event) : Prop := l = [] \/ l = [Wrote []].
Lemma holds_open {B} (S : behaviour) (k : unit -> prog B) (G : list event -> outcome error B -> Prop) :
  (forall l, header l -> G l Panic) ->
  (forall e, G [Errorf e] (Return (Some e))) ->
  (forall l, header l -> holds (k tt) (fun l' o => G (l ++ l') o)) ->
  holds (seq _ _ _ _ (open_log _ _ _ _ _ _ _ _ _ _ S) k) G.
Proof.
  intros H1 H2 H3. pose proof (H1 [] (or_introl eq_refl)) as H4.
  unfold open_log, holds, seq, ask, check, call_write.
  destruct (open_file S) as [[? [e|]]|]; cbn; [apply H2| |exact H4].
  destruct (stat S) as [[size [e|]]|]; cbn; [apply H2| |exact H4].
  destruct (size =? 0); cbn; [|exact (H3 [] (or_introl eq_refl))].
  destruct (write S []) as [[? [e|]]|]; cbn; [apply H2| |exact H4].
  exact (H3 _ (or_intror eq_refl)).
Qed.

Ltac absent := let H := fresh in intros H;
  repeat match goal with
  | H : header _ |- _ => destruct H as [-> | ->]
  | H : row_written _ |- _ => destruct H as (? & ? & H)
  | H : marked_failed _ |- _ => destruct H as (? & H)
  | H : In _ _ |- _ => progress cbn [In app] in H
  | H : _ \/ _ |- _ => destruct H
  | H : False |- _ => destruct H
  | H : Wrote _ = Wrote _ |- _ => injection H as <-
  end; try discriminate; try congruence.
Ltac verified := do 8 eexists; repeat split; try eassumption;
  [eexists; eassumption|rewrite ?in_app_iff; cbn [In]; tauto|eexists; eassumption].
Ltac failed := eexists; rewrite ?in_app_iff; cbn [In]; tauto.

(** What the Plonk helpers guarantee; [row]: they write a row. *)
Definition reports (row : bool) (S : behaviour) c a (log : list event) (out : outcome error unit) : Prop :=
  (out = Return None -> proof_verified S c a log /\ (row = true -> row_written log) /\ ~ marked_failed log) /\
  (row_written log -> proof_verified S c a log) /\
  (forall e, out = Return (Some e) -> marked_failed log /\ ~ row_written log).

Ltac early := unfold reports; repeat split; try (discriminate || absent; fail); try failed; absent.

Lemma plonk_file (S : behaviour) c a resolution index :
  holds (BenchProofToFilePlonk S c a resolution index) (reports true S c a).
Proof.
  unfold BenchProofToFilePlonk.
  apply holds_open; [intros; early|intros; early|intros l Hl].
  apply holds_ask; [early|intros cs err Hc; cbv beta iota].
  apply holds_check; [intros; early|intros ->].
  apply holds_ask; [early|intros w ew Hw; cbv beta iota].
  apply holds_ask; [early|intros srs err Hs; cbv beta iota].
  apply holds_or_panic; [early|intros ->].
  apply holds_ask; [early|intros [pk vk] err Hk; cbv beta iota].
  apply holds_check; [intros; early|intros ->].
  apply holds_ask; [early|intros p err Hp; cbv beta iota].
  apply holds_check; [intros; early|intros ->].
  apply holds_ask; [early|intros pub ep Hu; cbv beta iota].
  apply holds_verify; [early|intros x err Hv].
  apply holds_check; [intros; early|intros ->].
  apply holds_write; [early| |intros e].
  - apply holds_check; [intros; early|intros _]. unfold holds. cbn [fst snd app]. 
    split; [intros _; split; [verified|split; [|absent]]|split; [intros _; verified|discriminate]].
    intros _. unfold row. destruct (times S) as [[[t1 t2] t3] t4].
    exists [resolution; index; nb_constraints S cs; t1; t2; t3; t4].
    split; [discriminate|rewrite in_app_iff; cbn [In]; tauto].
  - apply holds_check; [intros; early|discriminate].
Qed.

Lemma plonk_memory (S : behaviour) c a :
  holds (BenchProofMemoryPlonk S c a) (reports false S c a).
Proof.
  unfold BenchProofMemoryPlonk.
  apply holds_ask; [early|intros cs err Hc; cbv beta iota].
  apply holds_check; [intros; early|intros ->].
  apply holds_ask; [early|intros w ew Hw; cbv beta iota].
  apply holds_check; [intros; early|intros ->].
  apply holds_ask; [early|intros srs err Hs; cbv beta iota].
  apply holds_ask; [early|intros [pk vk] err' Hk; cbv beta iota].
  apply holds_check; [intros; early|intros ->].
  apply holds_ask; [early|intros p err'' Hp; cbv beta iota].
  apply holds_check; [intros; early|intros ->].
  apply holds_ask; [early|intros pub ep Hu; cbv beta iota].
  apply holds_verify; [early|intros x errv Hv].
  apply holds_check; [intros; early|intros ->].
  unfold holds. cbn [fst snd app]. 
  split; [intros _; split; [verified|split; [discriminate|absent]]|split; [absent|discriminate]].
Qed.


(** What is left of a run when the verifier's answer is disregarded. *)
Definition seen {A} (p : prog A) : list event * outcome error A := (filter visible (fst p), snd p).

Lemma seen_seq {A B} (p q : prog A) (k k' : A -> prog B) : seen p = seen q ->
  (forall a, seen (k a) = seen (k' a)) -> seen (seq _ _ _ _ p k) = seen (seq _ _ _ _ q k').
Proof.
  unfold seen, seq. destruct p as [l o], q as [l' o']. cbn [fst snd]. intros [= H1 <-] Hk.
  destruct o as [x|e|]; cbn [fst snd]; [|congruence..].
  specialize (Hk x). injection Hk as H2 H3. rewrite !filter_app, H1, H2, H3. reflexivity.
Qed.

Lemma seen_drop {B} (S : behaviour) v1 v2 p vk pub (k : prog B) k' : returns v1 -> returns v2 -> seen k = seen k' ->
  seen (seq _ _ _ _ (call_verify _ _ _ _ _ _ _ _ _ _ (with_verifier S v1) p vk pub) (fun _ => k)) =
  seen (seq _ _ _ _ (call_verify _ _ _ _ _ _ _ _ _ _ (with_verifier S v2) p vk pub) (fun _ => k')).
Proof.
  intros R1 R2 Hk. specialize (R1 p vk pub). specialize (R2 p vk pub).
  unfold seen, seq, call_verify. cbn [verify with_verifier].
  destruct (v1 p vk pub) as [[[] e1]|]; [|congruence]. destruct (v2 p vk pub) as [[[] e2]|]; [|congruence].
  cbn [fst snd app filter visible]. exact Hk.
Qed.

Ltac same := repeat (apply seen_seq; [reflexivity|intros [? ?] || intros ?]).

Lemma groth16_file (S : behaviour) v1 v2 c a resolution index : returns v1 -> returns v2 ->
  seen (BenchProofToFileGroth16 (with_verifier S v1) c a resolution index) =
  seen (BenchProofToFileGroth16 (with_verifier S v2) c a resolution index).
Proof.
  intros R1 R2. unfold BenchProofToFileGroth16.
  apply seen_seq; [reflexivity|intros _].
  apply seen_seq; [reflexivity|intros [cs err]].
  apply seen_seq; [reflexivity|intros _].
  apply seen_seq; [reflexivity|intros [w ew]].
  apply seen_seq; [reflexivity|intros [[pk vk] err']].
  apply seen_seq; [reflexivity|intros _].
  apply seen_seq; [reflexivity|intros [p err'']].
  apply seen_seq; [reflexivity|intros _].
  apply seen_seq; [reflexivity|intros [pub e]].
  apply (seen_drop S v1 v2 p vk pub _ _ R1 R2). reflexivity.
Qed.

Lemma groth16_memory (S : behaviour) v1 v2 c a : returns v1 -> returns v2 ->
  seen (BenchProofMemoryGroth16 (with_verifier S v1) c a) =
  seen (BenchProofMemoryGroth16 (with_verifier S v2) c a).
Proof.
  intros R1 R2. unfold BenchProofMemoryGroth16.
  apply seen_seq; [reflexivity|intros [cs err]].
  apply seen_seq; [reflexivity|intros _].
  apply seen_seq; [reflexivity|intros [w ew]].
  apply seen_seq; [reflexivity|intros _].
  apply seen_seq; [reflexivity|intros [[pk vk] err']].
  apply seen_seq; [reflexivity|intros _].
  apply seen_seq; [reflexivity|intros [p err'']].
  apply seen_seq; [reflexivity|intros _].
  apply seen_seq; [reflexivity|intros [pub e]].
  apply (seen_drop S v1 v2 p vk pub _ _ R1 R2). reflexivity.
Qed.

Lemma bench_proof (S : behaviour) v1 v2 c a : returns v1 -> returns v2 ->
  seen (BenchProof (with_verifier S v1) c a) = seen (BenchProof (with_verifier S v2) c a).
Proof.
  intros R1 R2. unfold BenchProof.
  apply seen_seq; [reflexivity|intros [cs err]].
  apply seen_seq; [reflexivity|intros _].
  apply seen_seq; [reflexivity|intros [w ew]].
  apply seen_seq; [reflexivity|intros _].
  apply seen_seq; [reflexivity|intros [[pk vk] err']].
  apply seen_seq; [reflexivity|intros _].
  generalize 20%nat as n. induction n as [|n IH]; [reflexivity|]. cbn [prove_loop].
  apply seen_seq; [reflexivity|intros [p err'']].
  apply seen_seq; [reflexivity|intros _].
  apply seen_seq; [reflexivity|intros [pub e]].
  apply (seen_drop S v1 v2 p vk pub _ _ R1 R2). exact IH.
Qed.

End Statements.
