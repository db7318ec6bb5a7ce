(** Property C55: the tables of the circuits come from the literals of util/util.go
    by correct rounding and by the sines and cosines the code asks for. *)
From Coq Require Import ZArith Reals Lra Lia Bool List.
From Flocq Require Import Core BinarySingleNaN Operations.
From Verif Require Import Spec Loc2Index LocConst TableFacts FixSin Angles PropertiesHex.
Import ListNotations.
Local Open Scope Z_scope.

(** Centres and latitudes are the literals, correctly rounded. *)
Theorem C55_literals_32 : rows (rounded_row (E:=8) (M:=23)) literals faces32.
Proof. apply (rowsb_spec (rounded_rowb (E:=8) (M:=23)) _ rounded_rowb_spec). vm_compute. reflexivity. Qed.
Print Assumptions C55_literals_32.

Theorem C55_literals_64 : rows (rounded_row (E:=11) (M:=52)) literals faces64.
Proof. apply (rowsb_spec (rounded_rowb (E:=11) (M:=52)) _ rounded_rowb_spec). vm_compute. reflexivity. Qed.
Print Assumptions C55_literals_64.

(** 32 bits: the other columns are the sines and cosines of the rounded literals,
    correctly rounded (and the difference of two of them, unrounded). *)
Theorem C55_angles_32 : rows (trig_row (E:=8) (M:=23) (nearest (E:=8) (M:=23)) (fun a => a)) literals faces32.
Proof.
  apply (rowsb_spec (trig_rowb (E:=8) (M:=23) (datb (E:=8) (M:=23)) Some)).
  - intros l f. apply trig_rowb_spec; [exact datb_spec|]. intros a r [= <-]. reflexivity.
  - vm_compute. reflexivity.
Qed.
Print Assumptions C55_angles_32.

(** 64 bits: less than one unit in the last place off; the difference is rounded. *)
Theorem C55_angles_64 : rows (trig_row (E:=11) (M:=52) (one_ulp (E:=11) (M:=52)) (rne 11 52)) literals faces64.
Proof.
  apply (rowsb_spec (trig_rowb (E:=11) (M:=52) (ulpb (E:=11) (M:=52)) (rot64 (E:=11) (M:=52)))).
  - intros l f. apply trig_rowb_spec; [exact ulpb_spec|exact rot64_spec].
  - vm_compute. reflexivity.
Qed.
Print Assumptions C55_angles_64.

(** Every column against the exact literals. *)
Theorem C55_exact_32 : rows (true_row (E:=8) (M:=23) (bpow radix2 (-22))) literals faces32.
Proof. apply (rowsb_spec (true_rowb (E:=8) (M:=23) 22) _ (true_rowb_spec 22)). vm_compute. reflexivity. Qed.
Print Assumptions C55_exact_32.

Theorem C55_exact_64 : rows (true_row (E:=11) (M:=52) (bpow radix2 (-50))) literals faces64.
Proof. apply (rowsb_spec (true_rowb (E:=11) (M:=52) 50) _ (true_rowb_spec 50)). vm_compute. reflexivity. Qed.
Print Assumptions C55_exact_64.

Theorem C55_constants_32 : rounded_constants (E:=8) (M:=23) constants32.
Proof. apply rounded_constantsb_spec. vm_compute. reflexivity. Qed.
Print Assumptions C55_constants_32.

Theorem C55_constants_64 : rounded_constants (E:=11) (M:=52) constants64.
Proof. apply rounded_constantsb_spec. vm_compute. reflexivity. Qed.
Print Assumptions C55_constants_64.

(** The turn of the axis is the angle whose sine is the square root of 3/28. *)
Theorem C55_turn : near (bpow radix2 (-60)) (sin ap7rot) (sqrt (3 / 28)).
Proof.
  set (y := fixp 80 333473172251832115336090755351601070065900389 (10 ^ 45)).
  assert (A : (Rabs (F2R y - ap7rot) <= bpow radix2 (-79))%R).
  { eapply Rle_trans; [apply fixp_near; [lia|reflexivity]|apply bpow_le; lia]. }
  destruct (trig_near ap7rot y ltac:(vm_compute; reflexivity) A) as [S _].
  assert (N : near (bpow radix2 (- (61))) (F2R (sin_of y)) (sqrt (3 / 28))).
  { apply nears_spec; [lia|]. vm_compute. reflexivity. }
  unfold near in *.
  replace (sin ap7rot - sqrt (3 / 28))%R with (- (F2R (sin_of y) - sin ap7rot) + (F2R (sin_of y) - sqrt (3 / 28)))%R by ring.
  eapply Rle_trans; [apply Rabs_triang|]. rewrite Rabs_Ropp.
  assert (B : (bpow radix2 (-60) = bpow radix2 (-61) + bpow radix2 (-61))%R)
    by (change (-60) with (-61 + 1); rewrite bpow_plus_1; change (IZR radix2) with 2%R; ring).
  assert (B' : (bpow radix2 (-69) <= bpow radix2 (-61))%R) by (apply bpow_le; lia).
  change (- (61)) with (-61) in N. lra.
Qed.
Print Assumptions C55_turn.

(** The 64-bit sines are not all rounded to nearest: face 2 has the neighbour. *)
Theorem C55_nearest_64_refuted : exists l f, nth_error literals 2 = Some l /\ nth_error faces64 2 = Some f /\
  val (E:=11) (M:=52) (c_sinFaceLng f) <> rne 11 52 (sin (rne 11 52 (lit 18 (l_lng l)))).
Proof.
  eexists. eexists. split; [reflexivity|]. split; [reflexivity|]. cbn [c_sinFaceLng l_lng].
  set (n := -1347517358900396623). 
  destruct (round_frac (E:=11) (M:=52) n (10 ^ 18)) as [x|] eqn:R1; [|vm_compute in R1; discriminate].
  assert (R2 := round_frac_spec _ _ _ R1). unfold lit. rewrite R2. vm_compute in R1. injection R1 as <-.
  set (x := Float radix2 (-6068678675419101) (-52)).
  assert (R3 : rne 11 52 (sin (F2R x)) = F2R (cand (M:=52) (sin_of x))).
  { apply (rneb_spec (E:=11) (M:=52) slack _ (sin_of x)); [vm_compute; reflexivity|].
    eapply Rle_trans; [apply sin_of_near; vm_compute; reflexivity|]. unfold slack. rewrite F2R_bpow. apply bpow_le. lia. }
  change (val (E:=11) (M:=52) 13830330866673084780 <> rne 11 52 (sin (F2R x))).
  rewrite R3. rewrite <- fv_val. intros H.
  assert (L : ltf (cand (M:=52) (sin_of x)) (fv (E:=11) (M:=52) 13830330866673084780) = true) by (vm_compute; reflexivity).
  apply ltf_spec in L. lra.
Qed.
Print Assumptions C55_nearest_64_refuted.

(** Rows that are off by one unit, or have two columns exchanged, are refused; the
    angles of face 0 are about 71.5 and 322 degrees. *)
Example C55_ex :
  match literals, faces32 with
  | l :: _, mkFace x y z sl cl sg cg sa ca sr cr :: _ =>
      rounded_rowb (E:=8) (M:=23) l (mkFace x (y + 1) z sl cl sg cg sa ca sr cr) = false /\
      trig_rowb (E:=8) (M:=23) (datb (E:=8) (M:=23)) Some l (mkFace x y z sl cl sg (cg + 1) sa ca sr cr) = false /\
      trig_rowb (E:=8) (M:=23) (datb (E:=8) (M:=23)) Some l (mkFace x y z sl cl sa ca sg cg sr cr) = false /\
      true_rowb (E:=8) (M:=23) 22 l (mkFace x y z cl sl sg cg sa ca sr cr) = false
  | _, _ => False
  end.
Proof. vm_compute. repeat split. Qed.
