# Formal model of zk-Location: design

Subject: `/repo` (Go, gnark circuits for IEEE-754 arithmetic and H3 cell
membership).  Everything here is Coq 8.16.1, sources in `rocq/theories`, logical
prefix `Verif`.  `lean/` is unused.

## 1. Trusted base

* The Coq 8.16.1 kernel, with its virtual machine for the concrete computations
  (`vm_compute; reflexivity`).
* Axioms: none of our own.  `Print Assumptions` follows every theorem of the
  `Properties*.v` files.  Integer theorems are closed under the global context.
  Theorems that mention real numbers (through Flocq) list axioms of the standard
  library.  Section 6 has the list for each theorem.
* Libraries: the standard library and Flocq 4.1.0.  Flocq's `BinarySingleNaN`,
  a formalisation of IEEE-754 written by others, is the specification of the
  arithmetic.
* The reading of the Go code: each Gallina definition cites file and lines.
  Section 5 says how it was checked.

## 2. What is modelled, and what is not

| Go | Coq | how |
|---|---|---|
| field arithmetic of `frontend.API` | `Field.v` | canonical residues in `[0,p)`; `p` a parameter, odd and large; primality is not needed except in C53 (and proved for BN254) |
| `IsZero`, `Select`, `And`, `Or`, `Xor`, `AssertIsBoolean`, `AssertIsEqual`, `AssertIsLessOrEqual`, `ToBinary` | `Circuit.v` | primitives of gnark, specified: booleanity asserted for the condition operands, functional result |
| `Compiler().NewHint` | `Circuit.v` | one node per output; the honest value is recorded, any other prover may put any field element |
| `Compiler().Defer`, `gadget/rangecheck.go`, the powers-of-two table | `Circuit.v`, `RangeCheck.v`, `Deferred.v` | collected checks and a commit program at the end; an immediate semantics proved equivalent (C08) |
| `logderivarg.Build` of gnark as used by `commit` | `LogDeriv.v` | restated from gnark's source for one-column tables; the challenge is a parameter |
| base-width optimiser, counters | `RangeCheck.v`, `Counters.v`, `Shapes.v` | as in the code, for the R1CS and the SCS estimate |
| `hint/*.go` | `Hints.v` | function by function |
| `gadget/*.go` | `Gadget.v`, `RangeCheck.v` | function by function |
| `float/float.go` | `FloatModel.v` | function by function, generic in `E`, `M` |
| `util.ComponentsOf`, `util.ValueOf` | `Util.v` | `uint64` operations on `Z` with explicit wrap-around |
| circuits of `float/float_test.go` | `Circuits.v` | generic in format and operation |
| `math/math.go`, circuits of `math/math_test.go` | `Math.v`, `MathUlp.v` | function by function; constants as bit patterns |
| `loc2index32`, `loc2index64`: library functions and test circuits | `Loc2Index.v` | one generic definition for the two near-identical packages; constants in `LocConst.v` |
| tables of `util/util.go` | `LocConst.v` | bit patterns |
| `util.HexToFloat`, `HexToFloat32`, `StrToIntSlice`; parsing and writing of text in `ExecuteLatLngToIJK` and `proximity` | `Text.v` | byte strings; the functions of `strconv`, `regexp`, `encoding/hex`, `strings` used there restated from Go's source; `ParseFloat` and the output of subprocesses are parameters |
| `util.RadiansToDegrees`, `ScaledIntToFloat64`, the decimal arguments in `ExecuteLatLngToIJK` and `proximity` | `Convert.v` | IEEE data; the constant 180/pi as its bit pattern; `Sprintf` with `%.30f` restated |
| `proximity.OldHaversine` | `Haversine.v` | exact real arithmetic |
| `util.BenchProof*` | `Bench.v` | control flow; compiler, prover, verifier and files are oracles |

Not modelled:

* the proof systems (Groth16, PLONK), compilation to R1CS or SCS, and the
  derivation of the lookup challenge from a commitment: "accepted" means that the
  constraints hold, with a looked-up value in the table.  C53 relates this to the
  log-derivative argument gnark uses for an arbitrary challenge;
* constraint counts other than the lookup counters of `IntGadget`;
* `LatLngToIJ` (it calls the H3 library), subprocesses and files other than their
  contents, the external `go-haversine` package, the scripts and the `h3-master`
  directory (an empty submodule, so the format of the tools' output is an
  assumption of C50).  Where H3 is the yardstick its
  functions are restated in the specification files, citing H3's C source;
* Go's `math.Sin`, `math.Cos`, `math.Tan` on the host (tables, hint functions):
  parameters, or bit patterns computed with correctly rounded arithmetic.

### Two semantics of a circuit

A circuit is a term of a free monad `circ A`
(`Ret | Hint | Assert | Check | Query`).

* `exec b c : option A` is the honest prover: hints return what the Go hint
  function computes; `None` when a hint fails or a constraint does not hold.
* `sat b c r : Prop` is any prover: hint outputs are existentially quantified
  field elements; all constraints hold and the circuit returns `r`.

`b` is the width of the range-check limbs.  `run` and `accepted` are the two at
the BN254 scalar field.  `Deferred.v` adds the semantics in which checks are
collected and `b` is chosen by the optimiser, as the code does.

### Simplifications

* A hint with n outputs is n consecutive hint nodes.
* `MarkBoolean` is a promise to the compiler, which then omits the booleanity
  constraint of that wire; the model keeps it.  The eight marked wires
  (`float.go:91, 525, 551, 605, 657, 786, 915, 1027`) are computed from wires that
  are boolean in every circuit whose floats come from `NewFloat`, from constants
  or from operations (C27), so nothing changes there.  The floats of the
  hint-based location circuits come straight from hints, with no constraint on
  the sign wire; there the real circuit can only accept more than the model.  The
  theorems about those circuits (C37, C38) state weaknesses, or reduce acceptance
  to a condition in which the position does not occur, and are not affected.
* gnark folds constants; the model does not (same accepted set).
* `loc2index32` and `loc2index64` differ in format, constants and comparison
  tolerances; the model has these as parameters.

## 3. Specification side

`Spec.v` says, without any definition of the model, when four field elements
represent a Flocq `binary_float prec emax` (`prec = M+1`, `emax = 2^(E-1)`): zero,
infinity, NaN, or finite with a normalised mantissa.  Operation theorems read

    represents x fx -> represents y fy ->
    exec/sat (Op x y) r -> represents r (ieee_op fx fy)

with Flocq's `Bplus`, `Bminus`, `Bmult`, `Bdiv`, `Bsqrt`, `Bnearbyint`,
`Bcompare` in rounding mode nearest-even.  `Outcomes.v` describes, again on IEEE
data only, what an arbitrary prover can reach.  `MathSpec.v` restates the
functions of `math/math.go` on IEEE data and on rounded reals; the accuracy
theorems compare with the standard library's `sin`, `cos`, `atan`.  H3's
functions are restated in `HexFacts.v` (`h3_hex2d`, from `_hex2dToCoordIJK`),
`NormFacts.v` (`_ijkNormalize`) and `PipeFacts.v` (`h3_plane`, from
`_geoToHex2d`).

Formats and fields are quantified: `Params E M b` asks `4 <= E < M`,
`2M <= 2^(E-1)`, `E+M+1 <= 64`, `2 <= b <= 17`, `p` odd and `2^(4M+44) <= p`; binary32, binary64 and the
BN254 scalar field are instances.  Theorems that need the limb width to divide the
size of the powers-of-two table say `pow2_size E M mod b = 0`; C22 shows by
accepted forgeries that it is needed, and that the widths the optimiser picks do
not always satisfy it.

## 4. Properties

Statements are in `properties.jsonl`; the theorems are in the `Properties*.v` files,
each beside a concrete `Example`.

* **C01** ComponentsOf is the IEEE-754 value (proved): `ComponentsOf` on every `uint64` against `of_bits` (Flocq data decoded from the bit pattern in `Spec.v`): case split on the exponent field, leading-bit count of subnormals by `Z.log2`.
* **C02** ValueOf inverts ComponentsOf (proved): `ValueOf (ComponentsOf v) = v` up to NaN payloads, from the integer description of C01.
* **C03** NewFloat soundness (proved): `sat` of `NewFloat` inverted: range checks bound the hinted parts, the recomposition fixes them, hence the wires represent the pattern.
* **C04** NewFloat completeness (proved): `exec` of `NewFloat` evaluated symbolically; values of `2^(E+M+1)` and above fail a range check.
* **C05** Meaning of each range-check mode (proved): limb decomposition: soundness by bounding the weighted sum of limbs; each mode gives the stated interval.
* **C06** Honest limb decomposition is complete (proved): the honest limbs are the base-`2^b` digits.
* **C07** QueryPowerOf2 soundness (proved): table membership plus the range check on the result; the refutation exhibits a result outside the loose bound.
* **C08** Deferred checking is equivalent to immediate checking (proved): commutation of `Check`/`Query` nodes with the rest of a circuit; the shape of the checks is independent of the wire values.
* **C09** Abs/IsPositive and the zero ambiguity (proved): from C05; at zero both signs are accepted (refutation by witness).
* **C10** Mul completeness: honest product is the IEEE product (proved): `exec` reduced to integers, the integer rounding identified with Flocq's `round`, then `Bmult_correct`.
* **C11** Mul soundness (proved): as C10 with `sat`; at overflow the prover may pick a malformed float (exact characterisation). Exact characterisation; the malformed output is accepted (overflow_forgery, refuted witness).
* **C12** Div completeness (proved): as C10, quotient and remainder of the scaled mantissas, sticky bit.
* **C13** Div soundness (proved): as C11 for the quotient. Exact characterisation; the malformed output is accepted (overflow_forgery, refuted witness).
* **C14** Sqrt completeness (proved): as C10, integer square root with remainder.
* **C15** Sqrt soundness (proved): as C11; the hinted root is pinned by its two inequalities.
* **C16** Add/Sub completeness and the maximal-exponent cancellation (proved): alignment, cancellation and normalisation on integers, then `Bplus_correct`; exact cancellation in the topmost binade gives +infinity and is part of the statement. The maximal-exponent cancellation class is part of the statement.
* **C17** Add/Sub soundness (proved): `sat` version; the choices left to the prover are enumerated (`Outcomes.v`) and each is shown accepted (`Forge.v`). Exact characterisation; every listed exception is accepted.
* **C18** Comparisons agree with IEEE-754 (proved): comparison of components is comparison of values; NaN handled apart.
* **C19** Trunc/Floor/Ceil completeness (proved): honest truncation against `Bnearbyint` toward zero, down and up.
* **C20** Trunc/Floor/Ceil soundness and the [1,2) forgery (proved): `sat` version; for magnitudes in [1,2) the table entry 2^0 leaves a choice, shown exact and forged.
* **C21** ToInt exactness (proved): `ToInt` equals the integer value of the float.
* **C22** Non-dividing base widths make ToInt forgeable (proved): explicit malicious witnesses evaluated by the virtual machine, for every non-dividing width (ToInt) and for the automatically chosen widths. False results accepted for every non-dividing width (ToInt) and, at the automatically chosen widths, by the repository's own Mul, Div, Floor and conversion circuits.
* **C23** AssertIsEqual is bit equality modulo NaN (proved): equality of wires modulo the NaN flag.
* **C24** AssertIsEqualOrULP exact acceptance set (proved): difference of the packed patterns is one unit.
* **C25** AssertIsEqualOrCustomULP tolerance is absolute (proved): tolerance is the absolute value of the IEEE difference.
* **C26** Neg, Abs and Select on floats (proved): sign wire flips, clears or selects; data level in Flocq.
* **C27** Well-formedness is an invariant of the API (proved): induction on programs over the API.
* **C28** Expression evaluation = IEEE expression evaluation (proved): induction on expression trees, from the operation theorems; the exceptions of C16, C17 and C20 propagate as relations.
* **C29** Polynomial evaluation (proved): Horner circuits against Horner on IEEE data; error bound by induction with Flocq's relative errors; `EvalK` refuted. The result of EvalK with k parts on the constant polynomial 1 at 1 is k, hence not polynomial evaluation for k > 1.
* **C30** Base-width optimiser (proved): minimality over all widths by unfolding the search loop.
* **C31** Lookup counters are exact (proved): the counters equal the number of entries and queries of the committed program.
* **C32** Estimated R1CS cost versus actual lookups (proved): relation between the estimate and the counted lookups.
* **C33** NormalizeIJK canonicalises hexagonal coordinates (proved): case analysis on signs and minima over integers; uniqueness of the canonical representative by arithmetic. H3's normalisation for every prover (magnitudes below 2^249 over BN254) and for the honest prover (below 2^31); its result is the unique canonical representative.
* **C34** hex2dToCoordIJK follows the H3 rounding rules (proved): H3's region table restated on IEEE data; integer parts by C19, C20; exact reals behind every comparison. Honest result equals H3's region table for every finite input except x = -0 (refuted, with witness); exact set of outputs reachable by any prover; a forged output shows the rounding does not bind.
* **C35** closestFaceCalculations returns the nearest face (proved): loop invariant: first minimum of the distances so far. Honest prover: all inputs and all face tables whose centres lie below the topmost binade. Any prover: as long as no distance overflows.
* **C36** scaleR multiplies by sqrt(7)^resolution (proved): bits of the resolution and the product of the selected powers; factors compared with powers of sqrt 7 over the integers. Exact characterisation of the accepted results for every field element as resolution; the repository's factors are within 2^-19 (2^-48) of the powers of the square root of 7.
* **C37** ZKLP hint-based circuits: acceptance does not depend on the location (proved): the position wires do not occur in what remains after the bounds (monotonicity of `sat` in the hint values). Any two positions that pass the bounds checks have the same accepted outputs, for both formats and every assignment of the hint wires; the refuted theorem exhibits one proof accepted for two positions far apart.
* **C38** ZKLP range checks on latitude and longitude (proved): comparison theorem C18 at the constants; negative and NaN inputs compare false. Exact characterisation of what passes the bounds: latitude and longitude are not greater than the bounds (so every negative value and NaN passes), the resolution is at most 15.
* **C39** End-to-end arithmetic circuits (proved): operation theorems composed with allocation and the equality assertion; automatic widths computed. Exact for every dividing width and for the automatic widths that divide; false results at the others are listed under C22.
* **C40** Benchmark helpers: verification result (proved): symbolic execution of the control flow over arbitrary oracles. Plonk helpers: success or a row implies the verifier accepted. Groth16 helpers and BenchProof: reported output independent of the verifier's answer; refutation with a verifier that always rejects.
* **C41** Sine gadget accuracy (proved): rounded Taylor loop bounded by a recurrence evaluated in scaled integers; tail by the alternating series; folding by the Lipschitz bound of sine. Accuracy on [-pi, Pi]; the refuted theorem shows the range is needed.
* **C42** Math test circuits ignore the sign (proved): the circuits compare exponent and mantissa only.
* **C43** Location pipeline equals H3's projection (proved): trigonometric identities over the reals; operation by operation equality with H3's formulas on IEEE data as long as they stay in the middle of the range. Real-number formulas (chord, tangent, azimuth) plus exact IEEE equality of the circuit with H3's projection, for the honest run and for every prover; the plane point must stay in the range where H3's hexagon rounding is proved (located).
* **C44** Hint-free location circuit computes accurate sines and binds the cell (proved): each sine is unique (C41) so the circuit reduces to C43 at fixed data; errors by the Lipschitz bound. Sines fixed and accurate for all provers; acceptance characterised exactly for honest and arbitrary provers through C43 (nearest face exists and the plane point stays in range: located). The longitude -pi/2 exactly is excluded (the sign of the zero cosine is free). Refutation: latitudes below -pi/2 are accepted.
* **C45** Arctangent gadget accuracy (proved): the derivative of polynomial minus arctangent is bounded on [0,1] by subdivision in exact integer arithmetic (virtual machine, with a correctness lemma), the evaluation by the Horner bound of C29, above one by the reciprocal; directions by the addition formulas. All finite arguments for both formats; Atan2 for x nonzero and no overflow of y/x. Refutations: infinite argument, the axis x = 0, and exactness at zero.
* **C46** Face tables describe a regular icosahedron (proved): exact dyadic arithmetic on the patterns, checked by the virtual machine, with a correctness lemma over the reals. Checked over the reals by exact dyadic arithmetic on the bit patterns of the tables; the patterns themselves (results of Go's math.Sin/Cos on the literals) are part of the trusted model.
* **C47** Sums, differences and square roots bind for every range-check width (proved): the answers of the table of powers of two are 2^i + k 2^size; the range check on the normalised sum excludes k > 0 in the first two queries, and rounding by such an answer leaves mantissa zero under a normal exponent, which equals no datum; witnesses for the gadgets by computation. Circuit-level soundness for all widths; the gadget-level and composition-level failures are the _refuted theorems.
* **C48** Location and math circuits at the automatically chosen range-check width (proved): the sequence of range checks of each circuit is computed symbolically (independent of inputs), the width by the virtual machine; soundness from C29, C41 and C45 at width 8; honest runs by repeating the sine argument for the honest view at any width; forgeries by computation. Widths for all inputs; sine, arctangent, degree ten sound; honest runs of the hint-free location circuit; refutations: a wrong cell accepted by the hint-free location circuit, a wrong value by the cubic circuit, and the degree-ten test vector.
* **C49** Hexadecimal text of floats (proved): induction over the digits against numerals defined by Horner's rule; the file by splitting at the separators; every non-zero double with a single-precision value has a pattern above 2^32. Strconv.ParseUint and FormatUint, encoding/hex and strings.Fields are restated from Go's source. The statement that the single-precision file is readable is refuted.
* **C50** Parsing the output of the H3 tools (proved): the backtracking matcher against a declarative match relation; greedy repetition is determined when the next character stops it; the boundary by induction over the printed numbers. The matcher covers the pattern constructs used (literals, classes with +, groups). ParseFloat is a parameter; the output format of the tools is an assumption. That the boundary is read back is refuted for negative coordinates.
* **C51** Proximity: haversine distance and the closest vertex (proved): half-angle formulas and atan2 on the unit circle; triangle inequality from Cauchy-Schwarz on cross products; the loop by induction with transitivity of IEEE comparison. OldHaversine over the reals; the rounding errors of Go's math functions and the external haversine package called by main are not modelled (the loop is proved for any distance function). That the result is the distance to the boundary is refuted.
* **C52** Products and quotients at every range-check width (proved): the rounding equation lifted to the integers when the limbs of its four parts fit into 250 bits; a wrong power of two exceeds the significand so every part but the last is zero, and the last is the quotient; conversely the prover divides by the padding modulo the prime. Operand values then follow from uniqueness of normalised significands; short significands are coprime to the odd part of every wrong power. Exact in both directions under a size condition on the width, met by all widths for binary32 and all but 15 and 17 for binary64. That products bind at the automatic widths is refuted.
* **C53** Lookups are membership up to few challenges (proved): both sums multiplied by the product of all distinct poles are polynomials of lower degree; at a query outside the table their difference is the number of such queries times a product of non-zero differences, so it has fewer roots than coefficients; BN254's modulus is prime by Pocklington's criterion. Gnark's argument is restated (it is a dependency); that the challenge is unpredictable is the proof system's business.
* **C54** The cell contains the point (proved): the region tests with their rounded operands are a case analysis in linear arithmetic (lra) with a slack of 9u; the folds are isometries of the grid and normalisation keeps i-k and j-k; the hexagon is the Voronoi cell because m^2-mn+n^2 dominates the hexagonal norm on integers. The plane coordinates are the data given to hex2dToCoordIJK; how they arise is C42-C45.
* **C55** The constant tables come from the published literals (proved): sines and cosines by a fixed-point Taylor series with a proved error of 2^-70; a checker decides, for each column, whether the fraction between two neighbours forces the rounding; the rows are computed by the kernel and the checker's soundness is proved. The literals themselves (face centres and azimuths of H3's icosahedron) are data; that the centres form an icosahedron is C46.
* **C56** The plane point is H3's projection of the position (proved): forward error analysis of every operation of calculateR and calculateHex2d with explicit constants; some face is within 0.676 of every position because the fourth moments of the twenty centres are isotropic (checked on the tables); the nearest face by induction over the loop. The failing position is computed. Forward error analysis with the exact literals of util.go as the definition of a face; positions within 20 dl of a face centre are excluded (and fail, see the refuted theorem).
* **C57** The accepted cell contains the position (proved): C56's projection error composed with C54's cell containment (scaled hexagons are monotone and shift by at most twice the coordinate error); C44's reduction supplies the sines of the circuit without hints. The refuting position is located by C56 in 64 bits, its 32-bit cell by C43. Excludes positions within 20 dl of the centre of the nearest face; the cell is guaranteed only up to the stated widening.
* **C58** The hint-based location circuits accept accurate hints (proved): Each comparison is characterised on IEEE data (EqFacts), the products by forward error analysis with one unit of 4 roundoffs; no datum equals pi, so the cosine of the half angle is nonzero and the signs agree. The cosine is within 36 roundoffs, which C57 turns into the cell. The values at the refuting longitude are checked to be correctly rounded with the fixed-point sine of C55. The library's functions are any functions of the stated accuracy; that Go's math package is that accurate is an assumption. That accurate hints suffice in 64 bits is refuted.
* **C59** The published coordinates do not tell the face (proved): The projection is inverted on each face (a unit vector in the frame of the face, turned into latitude and longitude by arcsine and arccosine); the centres of the literals are at least 7/10 apart (a check of all pairs of the table, transferred to the literals by C55), so the triangle inequality gives that the face is the nearest one and that the positions are far apart; C57 gives a cell whose widened hexagon contains the centre of the given cell, and reduced coordinates make it this cell. The position is the exact inverse of the projection at the centre of the cell; the sines and cosines fed to the circuit are any data within dl of it, and such data exist. From latitude and longitude as data the position need not be representable.
* **C60** An accepted proof puts the position into one of twenty discs (proved): Distances on the sphere are controlled by those on the plane (both points unprojected from the same face, inner products in its frame), the widened hexagon lies in a disc about the centre of the cell, and C57 places the position; the places are the inverse projections used in C59. Positions within 20 dl of a face centre are excluded, as in C56; that the twenty places cannot be told apart is C59. In the circuit without hints the latitude and longitude are assumed in range (the circuit does not check lower bounds, C38, C44).
* **C61** The committed lookup counts (proved): The definition of a circuit is run without evaluating assertions; a static predicate (hints, checks and queries of every path are the same) is proved for every operation by composition, and the counters follow by induction; the rows are compared by computation. The lookup columns (second and third number of every entry). The first number, gnark's count of native constraints, needs gnark's compiler and is not modelled.
* **C62** For how many challenges a false claim can pass, circuit by circuit (proved): A predicate (no more powers-of-two queries than range checks, all for one table) is proved for every operation and circuit by composition; with the static shape of the range checks of C48 it bounds the numbers of table entries and lookups, and C53 counts challenges; the numbers are compared by computation. C39, C47, C48, C52 turn false claims into unacceptable ones. The numbers are upper bounds. The challenge is an arbitrary field element here; how gnark derives it from commitments is not modelled (as in C53).
* **C63** The interval circuits of math/ (proved): The exponent and mantissa wires of a finite float are its binade and its significand; the circuits are unfolded to the single result of C45 (or the results of C41) and the comparison of wires, with the width 8 that the configuration chooses. Api.AssertIsLessOrEqual with a variable bound is taken as the comparison of canonical representatives. The sine is restricted to [-pi, pi], outside of which the gadget is no sine (C41).
* **C64** Unit conversions and the decimal arguments of the H3 tools (proved): Forward error analysis with the bounds on pi of C41; the text by induction over the digits and the nearest integer with ties to even; reading back because half a unit of the thirtieth place is less than a quarter of the spacing of doubles from 2^-46 on. Go's Sprintf is restated from its documentation and source (exact decimal value, rounded half to even). That the tool reads its arguments with a correctly rounding strtod is a hypothesis of the reading theorem (rne).

## 5. How the model was checked against the code

* Reading: function by function, with line citations.
* Data of the repository: the location circuits were evaluated
  in the model with honest hints on the lines of `data/f32/loc2index32.txt` and
  `data/f64/loc2index64.txt`.  All 48 lines of the 64-bit file are accepted.  Of the 144 lines
  of the 32-bit file 137 are; the other seven (lines 136 and 139-144, resolutions
  14 and 15) carry cells computed by H3 in double precision, which binary32 does
  not reach.
* The arithmetic vectors (`data/f32`, `data/f64`: add, sub, mul, div, lt, le, sqrt, trunc, floor,
  ceil, to_i*_*, and constant allocation as in TestF32ConstantAllocation): the model, extracted
  to OCaml outside this repository, was run with honest hints at width 8 on all 659 031 lines.
  It rejects 20 of them: 4 lines of `f32/sub` and 8 each of `f64/add` and `f64/sub`, all
  cancellations at the largest exponent such as 7F000000 - 7F000000 = 0, which is the
  exception C16 states.  So the repository's own tests cannot pass on these lines.  (The tests
  of IsGt and IsGe read files `gt` and `ge` that do not exist, and pass without running.)
* The vectors of math/ (1000 lines each): of `f32/atan_ulp`, `f64/atan_ulp` and `f64/sin_ulp` the
  extracted model rejects 603, 602 and 804, among them every line with a negative value (C63);
  of `f64/atan`, `f64/sin`, `f64/poly_cubic` and `f64/poly_degree10`, which the circuits compare
  exactly, 238, 654, 519 and 710.  The comments in the test file say as much of the exact
  comparison ("Assertion of Mantissa fails").
* Counts: `benchmarks/float/constraints.csv`, all 84 lookup numbers (C61).
* Mutation testing: `seeded/LOG.jsonl`, one line per deliberately wrong edit of the
  model, with the theorems that stopped proving.

## 6. Assumptions of each theorem

`R` stands for the four axioms of the standard library that real numbers and Flocq
bring in: `ClassicalDedekindReals.sig_not_dec`,
`ClassicalDedekindReals.sig_forall_dec`,
`FunctionalExtensionality.functional_extensionality_dep`, `Classical_Prop.classic`.
"closed" means that `Print Assumptions` reports "Closed under the global context".

| theorem | file | assumptions |
|---|---|---|
| `C01_components` | `PropertiesGadget.v` | R |
| `C01_value` | `PropertiesGadget.v` | R |
| `C02_valueof` | `PropertiesGadget.v` | R |
| `C02_injective` | `PropertiesGadget.v` | R |
| `C03_newfloat_sound` | `PropertiesGadget.v` | R |
| `C03_newconstant` | `PropertiesGadget.v` | R |
| `C04_newfloat_complete` | `PropertiesGadget.v` | R |
| `C04_newfloat_rejects` | `PropertiesGadget.v` | R |
| `C05_modes` | `PropertiesGadget.v` | closed |
| `C05_small_abs` | `PropertiesGadget.v` | closed |
| `C06_digits` | `PropertiesGadget.v` | closed |
| `C06_complete` | `PropertiesGadget.v` | closed |
| `C07_tight` | `PropertiesGadget.v` | closed |
| `C07_loose` | `PropertiesGadget.v` | closed |
| `C07_complete` | `PropertiesGadget.v` | closed |
| `C07_determined` | `PropertiesGadget.v` | closed |
| `C07_unbounded_refuted` | `PropertiesGadget.v` | closed |
| `C08_explicit_width` | `PropertiesGadget.v` | closed |
| `C08_automatic_width` | `PropertiesGadget.v` | closed |
| `C08_static` | `PropertiesGadget.v` | closed |
| `C09_abs_sound` | `PropertiesGadget.v` | closed |
| `C09_abs_complete` | `PropertiesGadget.v` | closed |
| `C09_is_positive` | `PropertiesGadget.v` | closed |
| `C09_max` | `PropertiesGadget.v` | closed |
| `C09_min` | `PropertiesGadget.v` | closed |
| `C09_max_min_complete` | `PropertiesGadget.v` | closed |
| `C09_zero_refuted` | `PropertiesGadget.v` | closed |
| `C10_mul_complete` | `PropertiesArith.v` | R |
| `C11_mul_sound` | `PropertiesArith.v` | R |
| `C11_mul_overflow_forgery` | `PropertiesArith.v` | R |
| `C11_overflow_no_datum` | `PropertiesArith.v` | R |
| `C11_mul_only_ieee_refuted` | `PropertiesArith.v` | R |
| `C12_div_complete` | `PropertiesArith.v` | R |
| `C13_div_sound` | `PropertiesArith.v` | R |
| `C13_div_overflow_forgery` | `PropertiesArith.v` | R |
| `C13_div_only_ieee_refuted` | `PropertiesArith.v` | R |
| `C14_sqrt_complete` | `PropertiesArith.v` | R |
| `C15_sqrt_sound` | `PropertiesArith.v` | R |
| `C16_add_complete` | `PropertiesArith.v` | R |
| `C16_sub_complete` | `PropertiesArith.v` | R |
| `C16_sub_always_ieee_refuted` | `PropertiesArith.v` | R |
| `C17_add_sound` | `PropertiesArith.v` | R |
| `C17_sub_sound` | `PropertiesArith.v` | R |
| `C17_add_overflow_forgery` | `PropertiesArith.v` | R |
| `C17_add_cancel_forgery` | `PropertiesArith.v` | R |
| `C17_add_only_ieee_refuted` | `PropertiesArith.v` | R |
| `C17_sub_overflow_forgery` | `PropertiesArith.v` | R |
| `C17_sub_cancel_forgery` | `PropertiesArith.v` | R |
| `C18_cmp_complete` | `PropertiesOps.v` | R |
| `C18_cmp_sound` | `PropertiesOps.v` | R |
| `C19_trunc_complete` | `PropertiesOps.v` | R |
| `C19_floor_complete` | `PropertiesOps.v` | R |
| `C19_ceil_complete` | `PropertiesOps.v` | R |
| `C20_trunc_sound` | `PropertiesOps.v` | R |
| `C20_floor_sound` | `PropertiesOps.v` | R |
| `C20_ceil_sound` | `PropertiesOps.v` | R |
| `C20_trunc_forgery` | `PropertiesOps.v` | R |
| `C20_floor_forgery` | `PropertiesOps.v` | R |
| `C20_ceil_forgery` | `PropertiesOps.v` | R |
| `C20_trunc_only_ieee_refuted` | `PropertiesOps.v` | R |
| `C21_toint_complete` | `PropertiesOps.v` | R |
| `C21_toint_sound` | `PropertiesOps.v` | R |
| `C21_toint_sound_any` | `PropertiesOps.v` | R |
| `C22_mul32_auto_refuted` | `PropertiesCircuits.v` | R |
| `C22_mul64_auto_refuted` | `PropertiesCircuits.v` | R |
| `C22_div32_auto_refuted` | `PropertiesCircuits.v` | R |
| `C22_div64_auto_refuted` | `PropertiesCircuits.v` | R |
| `C22_floor64_auto_refuted` | `PropertiesCircuits.v` | R |
| `C22_toint64_auto_refuted` | `PropertiesCircuits.v` | R |
| `C22_toint_forgery` | `PropertiesOps.v` | R |
| `C22_toint_refuted` | `PropertiesOps.v` | R |
| `C22_mul_refuted` | `PropertiesOps.v` | R |
| `C22_trunc_refuted` | `PropertiesOps.v` | R |
| `C23_eq` | `PropertiesOps.v` | R |
| `C24_eq_or_ulp` | `PropertiesOps.v` | R |
| `C24_largest_and_infinity` | `PropertiesOps.v` | R |
| `C24_subnormals_not` | `PropertiesOps.v` | R |
| `C25_custom_complete` | `PropertiesOps.v` | R |
| `C25_custom_sound` | `PropertiesOps.v` | R |
| `C26_neg` | `PropertiesOps.v` | closed |
| `C26_abs` | `PropertiesOps.v` | closed |
| `C26_select` | `PropertiesOps.v` | closed |
| `C26_select_boolean` | `PropertiesOps.v` | closed |
| `C27_well_formed` | `PropertiesExpr.v` | R |
| `C27_well_formed_represents` | `PropertiesExpr.v` | R |
| `C28_complete` | `PropertiesExpr.v` | R |
| `C28_sound` | `PropertiesExpr.v` | R |
| `C28_outcomes` | `PropertiesExpr.v` | R |
| `C28_forgeable` | `PropertiesExpr.v` | R |
| `C28_always_ieee_refuted` | `PropertiesExpr.v` | R |
| `C29_eval_complete` | `PropertiesMath.v` | R |
| `C29_eval_sound` | `PropertiesMath.v` | R |
| `C29_eval_error` | `PropertiesMath.v` | R |
| `C29_evalk_one` | `PropertiesMath.v` | closed |
| `C29_evalk_many` | `PropertiesMath.v` | R |
| `C29_evalk_two_refuted` | `PropertiesMath.v` | R |
| `C30_optimal_width` | `PropertiesGadget.v` | closed |
| `C31_counters` | `PropertiesGadget.v` | closed |
| `C31_counters_auto` | `PropertiesGadget.v` | closed |
| `C32_estimate` | `PropertiesGadget.v` | closed |
| `C32_cost` | `PropertiesGadget.v` | closed |
| `C32_defined` | `PropertiesGadget.v` | closed |
| `C33_normalize_sound` | `PropertiesLoc.v` | closed |
| `C33_normalize_complete` | `PropertiesLoc.v` | closed |
| `C33_canonical` | `PropertiesLoc.v` | closed |
| `C34_hex2d_complete` | `PropertiesHex.v` | R |
| `C34_hex2d_exact` | `PropertiesHex.v` | R |
| `C34_hex2d_sound` | `PropertiesHex.v` | R |
| `C34_minus_zero_refuted` | `PropertiesHex.v` | R |
| `C34_any_prover_refuted` | `PropertiesHex.v` | R |
| `C35_closest_complete` | `PropertiesLoc.v` | R |
| `C35_closest_sound` | `PropertiesLoc.v` | R |
| `C35_closest_unique` | `PropertiesLoc.v` | R |
| `C36_scale_exact` | `PropertiesLoc.v` | R |
| `C36_scale_sound` | `PropertiesLoc.v` | R |
| `C36_scale_complete` | `PropertiesLoc.v` | R |
| `C36_factor_32` | `PropertiesLoc.v` | R |
| `C36_factor_64` | `PropertiesLoc.v` | R |
| `C37_same_outputs_32` | `PropertiesLoc.v` | R |
| `C37_same_outputs_64` | `PropertiesLoc.v` | R |
| `C37_binding_refuted` | `PropertiesLoc.v` | R |
| `C38_checks_32` | `PropertiesLoc.v` | R |
| `C38_checks_64` | `PropertiesLoc.v` | R |
| `C38_above_refused` | `PropertiesLoc.v` | R |
| `C38_negative_or_nan_pass` | `PropertiesLoc.v` | R |
| `C39_mul` | `PropertiesCircuits.v` | R |
| `C39_div` | `PropertiesCircuits.v` | R |
| `C39_sqrt` | `PropertiesCircuits.v` | R |
| `C39_add` | `PropertiesCircuits.v` | R |
| `C39_sub` | `PropertiesCircuits.v` | R |
| `C39_trunc` | `PropertiesCircuits.v` | R |
| `C39_floor` | `PropertiesCircuits.v` | R |
| `C39_ceil` | `PropertiesCircuits.v` | R |
| `C39_comparisons` | `PropertiesCircuits.v` | R |
| `C39_allocation` | `PropertiesCircuits.v` | R |
| `C39_conversion` | `PropertiesCircuits.v` | R |
| `C39_conversion_complete` | `PropertiesCircuits.v` | R |
| `C39_widths` | `PropertiesCircuits.v` | closed |
| `C39_mul32_groth16` | `PropertiesCircuits.v` | R |
| `C39_add32_groth16` | `PropertiesCircuits.v` | R |
| `C39_unary32` | `PropertiesCircuits.v` | R |
| `C39_conversion32` | `PropertiesCircuits.v` | R |
| `C39_conversion64_groth16` | `PropertiesCircuits.v` | R |
| `C39_comparisons_auto` | `PropertiesCircuits.v` | R |
| `C40_plonk_file` | `PropertiesBench.v` | closed |
| `C40_plonk_memory` | `PropertiesBench.v` | closed |
| `C40_groth16_file` | `PropertiesBench.v` | closed |
| `C40_groth16_memory` | `PropertiesBench.v` | closed |
| `C40_bench_proof` | `PropertiesBench.v` | closed |
| `C40_groth16_refuted` | `PropertiesBench.v` | closed |
| `C40_witness_error_refuted` | `PropertiesBench.v` | closed |
| `C41_sin64` | `PropertiesMath.v` | R |
| `C41_sin64_near` | `PropertiesMath.v` | R |
| `C41_sin32` | `PropertiesMath.v` | R |
| `C41_sin32_near` | `PropertiesMath.v` | R |
| `C41_beyond_pi_refuted` | `PropertiesMath.v` | R |
| `C42_sign_free` | `PropertiesMath.v` | R |
| `C42_sign_free_polynomial` | `PropertiesMath.v` | R |
| `C43_tangent` | `PropertiesPipe.v` | R |
| `C43_direction` | `PropertiesPipe.v` | functional_extensionality_dep, sig_forall_dec, sig_not_dec |
| `C43_locate_complete` | `PropertiesPipe.v` | R |
| `C43_locate_exact` | `PropertiesPipe.v` | R |
| `C43_locate_sound` | `PropertiesPipe.v` | R |
| `C44_wrapper` | `PropertiesWrapper.v` | R |
| `C44_binding` | `PropertiesWrapper.v` | R |
| `C44_latitude_bounded_refuted` | `PropertiesWrapper.v` | R |
| `C45_atan64` | `PropertiesAtan.v` | R |
| `C45_atan32` | `PropertiesAtan.v` | R |
| `C45_atan2_64` | `PropertiesAtan.v` | R |
| `C45_infinity_refuted` | `PropertiesAtan.v` | functional_extensionality_dep, sig_forall_dec |
| `C45_atan2_axis_refuted` | `PropertiesAtan.v` | R |
| `C45_zero_refuted` | `PropertiesAtan.v` | R |
| `C46_tables_32` | `PropertiesTable.v` | R |
| `C46_tables_64` | `PropertiesTable.v` | R |
| `C46_constants_32` | `PropertiesTable.v` | R |
| `C46_constants_64` | `PropertiesTable.v` | R |
| `C47_add` | `PropertiesWidth.v` | R |
| `C47_sub` | `PropertiesWidth.v` | R |
| `C47_sqrt` | `PropertiesWidth.v` | R |
| `C47_sqrt_gadget` | `PropertiesWidth.v` | R |
| `C47_gadgets` | `PropertiesWidth.v` | R |
| `C47_auto32` | `PropertiesWidth.v` | R |
| `C47_auto64` | `PropertiesWidth.v` | R |
| `C47_sum_gadget_refuted` | `PropertiesWidth.v` | R |
| `C47_composition_refuted` | `PropertiesWidth.v` | R |
| `C47_sqrt_gadget_wide_refuted` | `PropertiesWidth.v` | R |
| `C48_location_widths` | `PropertiesAuto.v` | closed |
| `C48_math_widths` | `PropertiesAuto.v` | closed |
| `C48_sine` | `PropertiesAuto.v` | R |
| `C48_arctangent` | `PropertiesAuto.v` | R |
| `C48_degree_ten` | `PropertiesAuto.v` | R |
| `C48_degree_ten_vector_refuted` | `PropertiesAuto.v` | R |
| `C48_same_outputs_32` | `PropertiesAuto.v` | R |
| `C48_same_outputs_64` | `PropertiesAuto.v` | R |
| `C48_wrapper_honest` | `PropertiesAuto.v` | R |
| `C48_wrapper_binding_refuted` | `PropertiesAuto.v` | closed |
| `C48_polynomial_refuted` | `PropertiesAuto.v` | R |
| `C49_hex_to_float` | `PropertiesText.v` | closed |
| `C49_range` | `PropertiesText.v` | closed |
| `C49_roundtrip` | `PropertiesText.v` | closed |
| `C49_file` | `PropertiesText.v` | closed |
| `C49_float32_file` | `PropertiesText.v` | R |
| `C49_float32_file_refuted` | `PropertiesText.v` | R |
| `C49_slice` | `PropertiesText.v` | closed |
| `C49_slice_error_refuted` | `PropertiesText.v` | closed |
| `C50_leftmost` | `PropertiesText.v` | closed |
| `C50_ijk` | `PropertiesText.v` | closed |
| `C50_ijk_rejected` | `PropertiesText.v` | closed |
| `C50_itoa` | `PropertiesText.v` | closed |
| `C50_index` | `PropertiesText.v` | closed |
| `C50_boundary` | `PropertiesText.v` | closed |
| `C50_quadrants` | `PropertiesText.v` | closed |
| `C50_boundary_refuted` | `PropertiesText.v` | closed |
| `C50_fields` | `PropertiesText.v` | closed |
| `C50_centre` | `PropertiesText.v` | closed |
| `C50_centre_missing` | `PropertiesText.v` | closed |
| `C51_great_circle` | `PropertiesText.v` | R |
| `C51_metric` | `PropertiesText.v` | R |
| `C51_closest` | `PropertiesText.v` | R |
| `C51_vertices` | `PropertiesText.v` | R |
| `C51_boundary_refuted` | `PropertiesText.v` | R |
| `C52_mul` | `PropertiesProducts.v` | R |
| `C52_div` | `PropertiesProducts.v` | R |
| `C52_widths` | `PropertiesProducts.v` | closed |
| `C52_gadgets` | `PropertiesProducts.v` | R |
| `C52_dividing` | `PropertiesProducts.v` | R |
| `C52_wrong` | `PropertiesProducts.v` | R |
| `C52_auto32` | `PropertiesProducts.v` | R |
| `C52_auto64` | `PropertiesProducts.v` | R |
| `C52_auto_quotient` | `PropertiesProducts.v` | R |
| `C52_auto_product` | `PropertiesProducts.v` | R |
| `C52_product_refuted` | `PropertiesProducts.v` | R |
| `C53_field_prime` | `PropertiesLookup.v` | closed |
| `C53_argument_sound` | `PropertiesLookup.v` | closed |
| `C53_argument_complete` | `PropertiesLookup.v` | closed |
| `C53_circuit_sound` | `PropertiesLookup.v` | closed |
| `C53_circuit_complete` | `PropertiesLookup.v` | closed |
| `C54_cell_is_nearest` | `PropertiesCell.v` | functional_extensionality_dep, sig_forall_dec, sig_not_dec |
| `C54_h3_cell` | `PropertiesCell.v` | R |
| `C54_circuit_complete` | `PropertiesCell.v` | R |
| `C54_circuit_sound` | `PropertiesCell.v` | R |
| `C55_literals_32` | `PropertiesAngles.v` | R |
| `C55_literals_64` | `PropertiesAngles.v` | R |
| `C55_angles_32` | `PropertiesAngles.v` | R |
| `C55_angles_64` | `PropertiesAngles.v` | R |
| `C55_exact_32` | `PropertiesAngles.v` | R |
| `C55_exact_64` | `PropertiesAngles.v` | R |
| `C55_constants_32` | `PropertiesAngles.v` | R |
| `C55_constants_64` | `PropertiesAngles.v` | R |
| `C55_turn` | `PropertiesAngles.v` | R |
| `C55_nearest_64_refuted` | `PropertiesAngles.v` | R |
| `C56_projection` | `PropertiesGnomonic.v` | R |
| `C56_projects_32` | `PropertiesGnomonic.v` | R |
| `C56_projects_64` | `PropertiesGnomonic.v` | R |
| `C56_every_position_refuted` | `PropertiesGnomonic.v` | R |
| `C57_cell_32` | `PropertiesWhere.v` | R |
| `C57_cell_64` | `PropertiesWhere.v` | R |
| `C57_wrapper` | `PropertiesWhere.v` | R |
| `C57_own_cell_refuted` | `PropertiesWhere.v` | R |
| `C58_hints_32` | `PropertiesHints.v` | R |
| `C58_hints_64` | `PropertiesHints.v` | R |
| `C58_honest_64_refuted` | `PropertiesHints.v` | R |
| `C59_ambiguous_32` | `PropertiesFaces.v` | R |
| `C59_ambiguous_64` | `PropertiesFaces.v` | R |
| `C60_pins_32` | `PropertiesBind.v` | R |
| `C60_pins_64` | `PropertiesBind.v` | R |
| `C60_wrapper` | `PropertiesBind.v` | R |
| `C61_csv` | `PropertiesCosts.v` | closed |
| `C61_amortised` | `PropertiesCosts.v` | closed |
| `C62_float32` | `PropertiesError.v` | closed |
| `C62_float64` | `PropertiesError.v` | closed |
| `C62_math` | `PropertiesError.v` | closed |
| `C62_location` | `PropertiesError.v` | closed |
| `C62_chance` | `PropertiesError.v` | closed |
| `C62_claims32` | `PropertiesError.v` | R |
| `C62_claims64` | `PropertiesError.v` | R |
| `C62_comparisons` | `PropertiesError.v` | R |
| `C62_functions` | `PropertiesError.v` | R |
| `C63_atan64` | `PropertiesUlp.v` | R |
| `C63_atan32` | `PropertiesUlp.v` | R |
| `C63_sin64` | `PropertiesUlp.v` | R |
| `C63_interval` | `PropertiesUlp.v` | R |
| `C63_negative` | `PropertiesUlp.v` | R |
| `C63_vectors_refuted` | `PropertiesUlp.v` | R |
| `C63_bounds_refuted` | `PropertiesUlp.v` | R |
| `C64_degrees` | `PropertiesConvert.v` | R |
| `C64_scaled` | `PropertiesConvert.v` | R |
| `C64_scaled_back` | `PropertiesConvert.v` | R |
| `C64_scaled_int` | `PropertiesConvert.v` | R |
| `C64_scaled_refuted` | `PropertiesConvert.v` | R |
| `C64_decimals` | `PropertiesConvert.v` | functional_extensionality_dep, sig_forall_dec |
| `C64_text` | `PropertiesConvert.v` | functional_extensionality_dep, sig_forall_dec |
| `C64_read` | `PropertiesConvert.v` | R |
| `C64_read_refuted` | `PropertiesConvert.v` | R |
| `C64_argument` | `PropertiesConvert.v` | R |
