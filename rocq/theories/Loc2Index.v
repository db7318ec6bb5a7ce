(** loc2index32/loc2index32.go and loc2index64/loc2index64.go (the two differ
    in precision and constants only), and the circuits of their test files.

    Not modelled: Go's [math.Sin], [math.Cos] and [math.Tan].  The face tables
    enter as parameters, so do the values the precomputation hints return. *)
From Coq Require Import ZArith List Bool.
From Verif Require Import Field Circuit Gadget Util FloatModel Math.
Import ListNotations.
Local Open Scope Z_scope.

(** The constants, as bit patterns. *)
Record face := mkFace {
  centre_x : Z; centre_y : Z; centre_z : Z;
  c_sinFaceLat : Z; c_cosFaceLat : Z; c_sinFaceLng : Z; c_cosFaceLng : Z;
  c_sinAzimuth : Z; c_cosAzimuth : Z; c_sinAzimuthRot : Z; c_cosAzimuthRot : Z }.

Record constants := mkConstants {
  k_half : Z; k_third : Z; k_two_thirds : Z;
  k_sin60 : Z; k_res : Z;
  k_powers : list Z (* the successive values of [power] *) }.

Section Loc2Index.
Context {MOD : Modulus}.
Variables (E M : Z).
Variable K : constants.
Notation int_const n := (NewConstant E M (int_bits E M n)).
Notation const v := (NewConstant E M v).

(** ** scaleR *)

(** loc2index32.go:19-28; the sign and the flag of [multiplier] are the constant 0. *)
Fixpoint scale_loop (bits powers : list Z) (multiplier : FloatVar) : circ FloatVar :=
  match bits, powers with
  | bit :: bits, power :: powers =>
      t <- Mul E M multiplier (const power) ;;
      e <- select bit (Exponent t) (Exponent multiplier) ;;
      m <- select bit (Mantissa t) (Mantissa multiplier) ;;
      scale_loop bits powers (mkF (emb 0) e m (emb 0))
  | _, _ => Ret multiplier
  end.

(** loc2index32.go:13-31 *)
Definition scaleR (r : FloatVar) (resolution : Z) : circ FloatVar :=
  bits <- to_binary resolution 4 ;;
  multiplier <- scale_loop bits (k_powers K) (int_const 1) ;;
  Mul E M r multiplier.

(** loc2index32.go:38-49 *)
Definition calculateR (sqDist : FloatVar) (resolution : Z) : circ FloatVar :=
  d4 <- Sub E M (int_const 4) sqDist ;;
  nominator <- Mul E M d4 sqDist ;;
  divisor <- Sub E M (int_const 2) sqDist ;;
  sqrNom <- Sqrt E M nominator ;;
  quotient <- Div E M sqrNom divisor ;;
  r <- Div E M quotient (const (k_res K)) ;;
  scaleR r resolution.

(** ** closestFaceCalculations *)

(** The nine results, the square distance first. *)
Record chosen := mkChosen {
  sqDist : FloatVar;
  sinFaceLat : FloatVar; cosFaceLat : FloatVar; sinFaceLng : FloatVar; cosFaceLng : FloatVar;
  sinAzimuth : FloatVar; cosAzimuth : FloatVar; sinAzimuthRot : FloatVar; cosAzimuthRot : FloatVar }.

(** loc2index32.go:67-77 *)
Definition face_distance (f : face) (x2 y2 z2 : FloatVar) : circ FloatVar :=
  d <- Sub E M (const (centre_x f)) x2 ;;
  s1 <- Mul E M d d ;;
  d <- Sub E M (const (centre_y f)) y2 ;;
  s2 <- Mul E M d d ;;
  d <- Sub E M (const (centre_z f)) z2 ;;
  s3 <- Mul E M d d ;;
  tmp <- Add E M s1 s2 ;;
  Add E M tmp s3.

(** loc2index32.go:65-93 *)
Fixpoint face_loop (faces : list face) (x2 y2 z2 : FloatVar) (c : chosen) : circ chosen :=
  match faces with
  | [] => Ret c
  | f :: faces =>
      dist <- face_distance f x2 y2 z2 ;;
      check <- IsGt E M (sqDist c) dist ;;
      d <- FSelect check dist (sqDist c) ;;
      a1 <- FSelect check (const (c_sinFaceLat f)) (sinFaceLat c) ;;
      a2 <- FSelect check (const (c_cosFaceLat f)) (cosFaceLat c) ;;
      a3 <- FSelect check (const (c_sinFaceLng f)) (sinFaceLng c) ;;
      a4 <- FSelect check (const (c_cosFaceLng f)) (cosFaceLng c) ;;
      a5 <- FSelect check (const (c_sinAzimuth f)) (sinAzimuth c) ;;
      a6 <- FSelect check (const (c_cosAzimuth f)) (cosAzimuth c) ;;
      a7 <- FSelect check (const (c_sinAzimuthRot f)) (sinAzimuthRot c) ;;
      a8 <- FSelect check (const (c_cosAzimuthRot f)) (cosAzimuthRot c) ;;
      face_loop faces x2 y2 z2 (mkChosen d a1 a2 a3 a4 a5 a6 a7 a8)
  end.

(** loc2index32.go:51-100 ([lng] is not used). *)
Definition closestFaceCalculations (faces : list face) (x2 y2 z2 lng : FloatVar) : circ chosen :=
  let z := const 0 in
  face_loop faces x2 y2 z2 (mkChosen (int_const 5) z z z z z z z z).

(** ** calculateHex2d: loc2index32.go:102-134 *)
Definition calculateHex2d (sinLat cosLat sinLng cosLng : FloatVar) (c : chosen)
    (r : FloatVar) (resolution : Z) : circ (FloatVar * FloatVar) :=
  bits <- to_binary resolution 4 ;;
  let isClassIII := nth 0 bits (emb 0) in
  a <- Mul E M sinLng (cosFaceLng c) ;;
  b <- Mul E M cosLng (sinFaceLng c) ;;
  d <- Sub E M a b ;;
  y <- Mul E M cosLat d ;;
  e <- Mul E M (cosFaceLat c) sinLat ;;
  g <- Mul E M (sinFaceLat c) cosLat ;;
  h <- Mul E M cosLng (cosFaceLng c) ;;
  i <- Mul E M sinLng (sinFaceLng c) ;;
  j <- Add E M h i ;;
  l <- Mul E M g j ;;
  x <- Sub E M e l ;;
  sinAz <- FSelect isClassIII (sinAzimuthRot c) (sinAzimuth c) ;;
  cosAz <- FSelect isClassIII (cosAzimuthRot c) (cosAzimuth c) ;;
  xx <- Mul E M x x ;;
  yy <- Mul E M y y ;;
  s <- Add E M xx yy ;;
  z <- Sqrt E M s ;;
  sinP <- Div E M y z ;;
  cosP <- Div E M x z ;;
  m <- Mul E M sinAz cosP ;;
  n <- Mul E M cosAz sinP ;;
  sin <- Sub E M m n ;;
  o <- Mul E M cosAz cosP ;;
  p <- Mul E M sinAz sinP ;;
  cos <- Add E M o p ;;
  hx <- Mul E M cos r ;;
  hy <- Mul E M sin r ;;
  Ret (hx, hy).

(** ** NormalizeIJK: loc2index32.go:213-260 *)
Definition NormalizeIJK (iNeg i jNeg j kNeg k : Z) : circ (Z * Z * Z) :=
  iGreaterj <- IsPositive (fsub i j) 32 ;;
  t <- select iGreaterj (fsub i j) (fsub j i) ;;
  jTmp <- select jNeg t (fadd i j) ;;
  jTmpNeg <- select jNeg (fsub (emb 1) iGreaterj) (emb 0) ;;
  iGreaterk <- IsPositive (fsub i k) 32 ;;
  t <- select iGreaterk (fsub i k) (fsub k i) ;;
  kTmp <- select kNeg t (fadd i k) ;;
  kTmpNeg <- select kNeg (fsub (emb 1) iGreaterk) (emb 0) ;;
  (* if i < 0 *)
  i <- select iNeg (emb 0) i ;;
  j <- select iNeg jTmp j ;;
  jNeg <- select iNeg jTmpNeg jNeg ;;
  k <- select iNeg kTmp k ;;
  kNeg <- select iNeg kTmpNeg kNeg ;;
  jGreaterk <- IsPositive (fsub j k) 32 ;;
  t <- select jGreaterk (fsub j k) (fsub k j) ;;
  kTmp <- select kNeg t (fadd j k) ;;
  kTmpNeg <- select kNeg (fsub (emb 1) jGreaterk) (emb 0) ;;
  (* if j < 0 *)
  i <- select jNeg (fadd i j) i ;;
  j <- select jNeg (emb 0) j ;;
  k <- select jNeg kTmp k ;;
  kNeg <- select jNeg kTmpNeg kNeg ;;
  (* if k < 0 *)
  i <- select kNeg (fadd i k) i ;;
  j <- select kNeg (fadd j k) j ;;
  k <- select kNeg (emb 0) k ;;
  iGreaterj <- IsPositive (fsub i j) 32 ;;
  min <- select iGreaterj j i ;;
  g <- IsPositive (fsub min k) 32 ;;
  min <- select g k min ;;
  Ret (fsub i min, fsub j min, fsub k min).

(** ** hex2dToCoordIJK: loc2index32.go:137-210 *)
Definition hex2dToCoordIJK (x y : FloatVar) : circ (Z * Z * Z) :=
  let a1 := FAbs x in
  let a2 := FAbs y in
  x2 <- Div E M a2 (const (k_sin60 K)) ;;
  tmp <- Div E M x2 (int_const 2) ;;
  x1 <- Add E M a1 tmp ;;
  m1 <- Floor E M x1 ;;
  m2 <- Floor E M x2 ;;
  m1int <- ToInt E M m1 ;;
  m2int <- ToInt E M m2 ;;
  r1 <- Sub E M x1 m1 ;;
  r2 <- Sub E M x2 m2 ;;
  doubleR1 <- Add E M r1 r1 ;;
  let m1PlusOne := fadd m1int (emb 1) in
  let m2PlusOne := fadd m2int (emb 1) in
  r1CaseA <- IsLt E M r1 (const (k_half K)) ;;
  r1CaseA1 <- IsLt E M r1 (const (k_third K)) ;;
  r1CaseB1 <- IsLt E M r1 (const (k_two_thirds K)) ;;
  oneMinus <- Sub E M (int_const 1) r1 ;;
  iCaseA2First <- IsLe E M oneMinus r2 ;;
  iCaseA2Second <- IsGt E M doubleR1 r2 ;;
  doubleOneMinus <- Sub E M doubleR1 (int_const 1) ;;
  iCaseB1First <- IsGt E M r2 doubleOneMinus ;;
  iCaseB1Second <- IsGt E M oneMinus r2 ;;
  (* I *)
  t <- select iCaseA2Second m1PlusOne m1int ;;
  t <- select iCaseA2First t m1int ;;
  iA <- select r1CaseA1 m1int t ;;
  t <- select iCaseB1Second m1int m1PlusOne ;;
  t <- select iCaseB1First t m1PlusOne ;;
  iB <- select r1CaseB1 t m1PlusOne ;;
  iCoord <- select r1CaseA iA iB ;;
  (* J *)
  onePlus <- Add E M r1 (int_const 1) ;;
  valueR2PathA <- Div E M onePlus (int_const 2) ;;
  valueR2PathB <- Div E M r1 (int_const 2) ;;
  check1 <- IsGt E M valueR2PathA r2 ;;
  check2 <- IsGt E M oneMinus r2 ;;
  check3 <- IsGt E M valueR2PathB r2 ;;
  t1 <- select check1 m2int m2PlusOne ;;
  t2 <- select check2 m2int m2PlusOne ;;
  caseAjCoord <- select r1CaseA1 t1 t2 ;;
  t1 <- select check2 m2int m2PlusOne ;;
  t2 <- select check3 m2int m2PlusOne ;;
  caseBjCoord <- select r1CaseB1 t1 t2 ;;
  jCoord <- select r1CaseA caseAjCoord caseBjCoord ;;
  (* fold over the axes *)
  iGreater <- IsPositive (fsub iCoord jCoord) 32 ;;
  n1 <- select (Sign y) (emb 1) iGreater ;;
  n2 <- select (Sign y) (fsub (emb 1) iGreater) (emb 0) ;;
  iCoordNegative <- select (Sign x) n1 n2 ;;
  t <- select iGreater (fsub iCoord jCoord) (fsub jCoord iCoord) ;;
  u1 <- select (Sign y) iCoord t ;;
  t <- select iGreater (fsub iCoord jCoord) (fsub jCoord iCoord) ;;
  u2 <- select (Sign y) t iCoord ;;
  iCoord <- select (Sign x) u1 u2 ;;
  NormalizeIJK iCoordNegative iCoord (Sign y) jCoord (emb 0) (emb 0).

(** ** The circuits *)

(** Wires [i], ..., [i + 3] of a hint, used as a float without any check. *)
Definition hint_float (h : nat -> option Z) (i : nat) : circ FloatVar :=
  s <- hint1 (h i) ;;
  e <- hint1 (h (i + 1)%nat) ;;
  m <- hint1 (h (i + 2)%nat) ;;
  a <- hint1 (h (i + 3)%nat) ;;
  Ret (mkF s e m a).

(** From the trigonometric values on: loc2index32_test.go:132-153 and 252-271,
    loc2index64_test.go:148-168. *)
Definition locate (faces : list face) (lng cosLat cosLng z sinLng : FloatVar)
    (resolution I J K : Z) : circ unit :=
  x <- Mul E M cosLat cosLng ;;
  y <- Mul E M cosLat sinLng ;;
  calc <- closestFaceCalculations faces x y z lng ;;
  r <- calculateR (sqDist calc) resolution ;;
  '(hx, hy) <- calculateHex2d z cosLat sinLng cosLng calc r resolution ;;
  '(i, j, k) <- hex2dToCoordIJK hx hy ;;
  assert_eq I i ;;;
  assert_eq J j ;;;
  assert_eq K k.

(** loc2index32_test.go:45-51, loc2index64_test.go:43-50 *)
Definition bounds (pi halfPi : Z) (lat lng : FloatVar) (resolution : Z) : circ unit :=
  a <- IsGt E M lat (const halfPi) ;;
  assert_eq a (emb 0) ;;;
  b <- IsGt E M lng (const pi) ;;
  assert_eq b (emb 0) ;;;
  assert_le_const resolution 15.

(** loc2index32_test.go:54-107: the four floats of one coordinate.  Each
    allocates the constant 0 first and replaces all its wires. *)
Definition precompute (h : nat -> option Z) : circ (FloatVar * FloatVar * FloatVar * FloatVar) :=
  NewFloat E M 0 ;;; NewFloat E M 0 ;;; NewFloat E M 0 ;;; NewFloat E M 0 ;;;
  alpha <- hint_float h 0 ;;
  beta <- hint_float h 4 ;;
  gamma <- hint_float h 8 ;;
  delta <- hint_float h 12 ;;
  Ret (alpha, beta, gamma, delta).

(** The checks on one coordinate, with the three comparisons as parameters
    (loc2index32_test.go:109-131, loc2index64_test.go:124-147). *)
Definition trig_checks (cmp1 cmp2 cmp3 : FloatVar -> FloatVar -> circ unit)
    (alpha beta gamma delta : FloatVar) : circ FloatVar :=
  deltaSquared <- Mul E M delta delta ;;
  gammaSquared <- Mul E M gamma gamma ;;
  identity <- Add E M gammaSquared deltaSquared ;;
  cmp1 identity (int_const 1) ;;;
  t <- Mul E M alpha delta ;;
  cmp2 t gamma ;;;
  t <- Mul E M gamma delta ;;
  t <- Mul E M (int_const 2) t ;;
  cmp3 t beta ;;;
  (* the cosine *)
  t <- Mul E M delta delta ;;
  u <- Mul E M gamma gamma ;;
  Sub E M t u.

(** The part common to both hint-based circuits.  [h1] and [h2] are the outputs
    of the precomputation hint for latitude and longitude.  The checks of the
    longitude come here after those of the latitude, in Go they alternate. *)
Definition hint_circuit (faces : list face) (cmpLat cmpLng : list (FloatVar -> FloatVar -> circ unit))
    (h1 h2 : nat -> option Z) (lng : FloatVar) (resolution I J K : Z) : circ unit :=
  '(alphaLat, betaLat, gammaLat, deltaLat) <- precompute h1 ;;
  '(alphaLng, betaLng, gammaLng, deltaLng) <- precompute h2 ;;
  let cmp l n := nth n l (fun _ _ => Ret tt) in
  cosLat <- trig_checks (cmp cmpLat 0%nat) (cmp cmpLat 1%nat) (cmp cmpLat 2%nat)
    alphaLat betaLat gammaLat deltaLat ;;
  cosLng <- trig_checks (cmp cmpLng 0%nat) (cmp cmpLng 1%nat) (cmp cmpLng 2%nat)
    alphaLng betaLng gammaLng deltaLng ;;
  locate faces lng cosLat cosLng betaLat betaLng resolution I J K.

End Loc2Index.

(** hint/hint.go:26-65 ([E] = 11, [M] = 52) and 67-106 ([E] = 8, [M] = 23).
    [trig] maps the pattern of the angle to those of the tangent of its half,
    of its sine, and of the sine and cosine of its half, as computed by Go's
    [math] package (the two formats differ in intermediate rounding). *)
Definition PrecomputeHint (E M : Z) (trig : Z -> list Z) (v : Z) (i : nat) : option Z :=
  match ValueOf (ComponentsOf v E M) E M with
  | None => None
  | Some w =>
      nth_error (flat_map (fun p => let c := ComponentsOf p E M in [co_s c; co_e c; co_m c; co_a c])
                   (trig w)) i
  end.

Section Circuits.
Context {MOD : Modulus}.

(** loc2index32_test.go:37-153 *)
Definition loc2Index32Circuit (K : constants) (faces : list face) (trig : Z -> list Z)
    (Lat Lng Resolution I J K_ : Z) : circ unit :=
  lat <- NewFloat 8 23 Lat ;;
  lng <- NewFloat 8 23 Lng ;;
  bounds 8 23 pi_32 half_pi_32 lat lng Resolution ;;;
  let c := fun x y => AssertIsEqualOrCustomULP 8 23 x y one_32 in
  hint_circuit 8 23 K faces [c; c; c] [c; c; c]
    (PrecomputeHint 8 23 trig Lat) (PrecomputeHint 8 23 trig Lng) lng Resolution I J K_.

(** [math.Pi * 2] and 2 *)
Definition double_pi_64 : Z := 4618760256179416344.
Definition two_64 : Z := 4611686018427387904.

(** loc2index64_test.go:52-65: computed and not used. *)
Definition leftover_64 (lat lng : FloatVar) : circ unit :=
  Add 11 52 lat (NewConstant 11 52 half_pi_64) ;;;
  tmp <- Add 11 52 lng (NewConstant 11 52 half_pi_64) ;;
  isGreater <- IsGt 11 52 tmp (NewConstant 11 52 pi_64) ;;
  shifted <- Sub 11 52 tmp (NewConstant 11 52 double_pi_64) ;;
  select isGreater (Sign shifted) (Sign tmp) ;;;
  select isGreater (Exponent shifted) (Exponent tmp) ;;;
  select isGreater (Mantissa shifted) (Mantissa tmp) ;;;
  Ret tt.

(** loc2index64_test.go:35-168 *)
Definition loc2Index64Circuit (K : constants) (faces : list face) (trig : Z -> list Z)
    (Lat Lng Resolution I J K_ : Z) : circ unit :=
  lat <- NewFloat 11 52 Lat ;;
  lng <- NewFloat 11 52 Lng ;;
  bounds 11 52 pi_64 half_pi_64 lat lng Resolution ;;;
  leftover_64 lat lng ;;;
  let c := fun x y => AssertIsEqualOrCustomULP 11 52 x y two_64 in
  let u := AssertIsEqualOrULP 52 in
  hint_circuit 11 52 K faces [c; c; u] [c; u; u]
    (PrecomputeHint 11 52 trig Lat) (PrecomputeHint 11 52 trig Lng) lng Resolution I J K_.

(** [math.Pi * 2] *)
Definition double_pi_32 : Z := 1086918619.

(** loc2index32_test.go:213-271, the circuit without hints. *)
Definition loc2Index32CircuitWrapper (K : constants) (faces : list face)
    (Lat Lng Resolution I J K_ : Z) : circ unit :=
  lat <- NewFloat 8 23 Lat ;;
  lng <- NewFloat 8 23 Lng ;;
  bounds 8 23 pi_32 half_pi_32 lat lng Resolution ;;;
  let pi := NewConstant 8 23 pi_32 in
  let halfPi := NewConstant 8 23 half_pi_32 in
  term <- Add 8 23 lat halfPi ;;
  cosLat <- SinTaylor32 term ;;
  tmp <- Add 8 23 lng halfPi ;;
  isGreater <- IsGt 8 23 tmp pi ;;
  shifted <- Sub 8 23 tmp (NewConstant 8 23 double_pi_32) ;;
  s <- select isGreater (Sign shifted) (Sign tmp) ;;
  e <- select isGreater (Exponent shifted) (Exponent tmp) ;;
  m <- select isGreater (Mantissa shifted) (Mantissa tmp) ;;
  cosLng <- SinTaylor32 (mkF s e m (emb 0)) ;;
  sinLng <- SinTaylor32 lng ;;
  z <- SinTaylor32 lat ;;
  locate 8 23 K faces lng cosLat cosLng z sinLng Resolution I J K_.

End Circuits.
