(** gadget/rangecheck.go: deferred range checks by limb decomposition. *)
From Coq Require Import ZArith List Bool.
From Verif Require Import Field Circuit.
Import ListNotations.
Local Open Scope Z_scope.

Definition mode_eqb (a b : mode) : bool :=
  match a, b with
  | Loose, Loose | TightForSmallAbs, TightForSmallAbs
  | TightForUnknownRange, TightForUnknownRange => true
  | _, _ => false
  end.

(** gadget/rangecheck.go:122-124 *)
Definition decompSize (varSize limbSize : Z) : Z :=
  (varSize + limbSize - 1) / limbSize.

(** gadget/rangecheck.go:129-151: digits of [val * scale] in base [2^limbSize].
    (The error branches concern arities and are unreachable from [commit].) *)
Fixpoint digits_loop (n : nat) (limbSize tmp : Z) : list Z :=
  match n with
  | O => []
  | S n' => (tmp mod 2 ^ limbSize) :: digits_loop n' limbSize (Z.shiftr tmp limbSize)
  end.
Definition DecomposeHint (varSize limbSize val scale : Z) : list Z :=
  digits_loop (Z.to_nat (decompSize varSize limbSize)) limbSize (val * scale).

Section RangeCheck.
Context {MOD : Modulus}.

(** Lookup of a wire in the table [0 .. 2^baseLength - 1]
    (gadget/rangecheck.go:51-57, 118-119). *)
Definition in_range_table (baseLength v : Z) : bool :=
  (0 <=? v) && (v <? 2 ^ baseLength).

(** gadget/rangecheck.go:103-105: [sum limbs[j] * 2^(baseLength*j)]. *)
Definition compose (baseLength : Z) (limbs : list Z) : Z := recompose baseLength limbs 0.

(** gadget/rangecheck.go:75-116: the body of the loop for one collected check.
    Returns the wires appended to [decomposed]. *)
Definition commit_item (baseLength : Z) (c : check_item) : circ (list Z) :=
  let nbLimbs := decompSize (ck_bits c) baseLength in
  let diff := nbLimbs * baseLength - ck_bits c in
  let scaled x := fmul x (emb (2 ^ diff)) in
  if nbLimbs =? 1 then
    Ret ((if mode_eqb (ck_mode c) TightForSmallAbs then [scaled (ck_v c)] else [ck_v c])
         ++ (if mode_eqb (ck_mode c) TightForUnknownRange && negb (diff =? 0)
             then [scaled (ck_v c)] else []))
  else
    let scale := if mode_eqb (ck_mode c) TightForSmallAbs then 2 ^ diff else 1 in
    limbs <- hints (map Some (DecomposeHint (ck_bits c) baseLength (ck_v c) scale)) ;;
    (if mode_eqb (ck_mode c) TightForSmallAbs
     then assert_eq (fmul (ck_v c) (emb scale)) (compose baseLength limbs)
     else assert_eq (ck_v c) (compose baseLength limbs)) ;;;
    Ret (limbs
         ++ (if mode_eqb (ck_mode c) TightForUnknownRange && negb (diff =? 0)
             then [scaled (last limbs 0)] else [])).

Fixpoint commit_items (baseLength : Z) (cs : list check_item) : circ (list Z) :=
  match cs with
  | [] => Ret []
  | c :: t =>
      d <- commit_item baseLength c ;;
      ds <- commit_items baseLength t ;;
      Ret (d ++ ds)
  end.

(** gadget/rangecheck.go:59-120 with the base length already chosen. *)
Definition commit_with (baseLength : Z) (cs : list check_item) : circ unit :=
  match cs with
  | [] => Ret tt
  | _ =>
      ds <- commit_items baseLength cs ;;
      assert (forallb (in_range_table baseLength) ds)
  end.

(** ** Choice of the base length *)

(** gadget/rangecheck.go:178-191 *)
Definition limbs_estimate (baseLength : Z) (c : check_item) : Z :=
  let nb := decompSize (ck_bits c) baseLength in
  if nb * baseLength >? ck_bits c then nb + 1 else nb.
Definition nbDecomposed (baseLength : Z) (cs : list check_item) : Z :=
  fold_right (fun c acc => limbs_estimate baseLength c + acc) 0 cs.
Definition nbR1CSConstraints (baseLength : Z) (cs : list check_item) : Z :=
  2 ^ baseLength + nbDecomposed baseLength cs + Z.of_nat (length cs) + 1.

(** gadget/rangecheck.go:193-206 *)
Definition nbPLONKConstraints (baseLength : Z) (cs : list check_item) : Z :=
  3 * 2 ^ baseLength + 3 * nbDecomposed baseLength cs + nbDecomposed baseLength cs + 1.

(** gadget/rangecheck.go:165-176.  [math.MaxInt64] is the initial minimum; no
    cost reaches it. *)
Definition maxInt64 : Z := 2 ^ 63 - 1.
Definition optimalWidth (countFn : Z -> list check_item -> Z) (cs : list check_item) : Z :=
  snd (fold_left
         (fun acc j =>
            let current := countFn j cs in
            if current <? fst acc then (current, j) else acc)
         (map (fun i => i + 2) (zseq 16)) (maxInt64, 0)).

(** gadget/rangecheck.go:153-163 *)
Inductive frontend_type := R1CS | SCS.
Definition getOptimalBasewidth (ft : frontend_type) (cs : list check_item) : Z :=
  match ft with
  | R1CS => optimalWidth nbR1CSConstraints cs
  | SCS => optimalWidth nbPLONKConstraints cs
  end.

(** gadget/rangecheck.go:67-70: an explicit range size wins. *)
Definition baseLength (size : Z) (ft : frontend_type) (cs : list check_item) : Z :=
  if size <=? 0 then getOptimalBasewidth ft cs else size.

(** gadget/rangecheck.go:59-120 *)
Definition commit (size : Z) (ft : frontend_type) (cs : list check_item) : circ unit :=
  commit_with (baseLength size ft cs) cs.

(** ** Circuits with immediate range checks *)

Definition no_check (_ _ : Z) (_ : mode) : Prop := False.
Definition no_checkb (_ _ : Z) (_ : mode) : bool := false.

(** A single range check, any prover / honest prover. *)
Definition range_ok (b v bits : Z) (m : mode) : Prop :=
  satG no_check (commit_with b [mkCheck v bits m]) tt.
Definition range_exec (b v bits : Z) (m : mode) : bool :=
  match execG no_checkb (commit_with b [mkCheck v bits m]) with
  | Some _ => true
  | None => false
  end.

(** [sat b c r]: with base width [b], some prover can make [c] return [r].
    [exec b c]: what the honest prover obtains. *)
Definition sat (b : Z) {A} (c : circ A) (r : A) : Prop := satG (range_ok b) c r.
Definition exec (b : Z) {A} (c : circ A) : option A := execG (range_exec b) c.

(** The circuit as gnark runs it: define, then the deferred commits. *)
Definition accepts (size : Z) (ft : frontend_type) {A} (c : circ A) (r : A) : Prop :=
  exists tape cs qs,
    trace c tape = Some (r, cs, qs, []) /\
    satG no_check (commit size ft cs) tt /\
    Forall (fun q => in_pow2_table (fst q) (snd q) = true) qs.

End RangeCheck.
