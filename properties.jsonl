{"id": "C01", "title": "ComponentsOf is the IEEE-754 value", "statement": "The four components (sign, exponent, mantissa, abnormal flag) that util.ComponentsOf computes from a bit pattern denote exactly the IEEE-754 datum of that pattern: zeros, subnormals, normals, infinities and NaNs are classified correctly and the real value (-1)^s * mantissa * 2^(exponent-M) equals the IEEE value.", "quantifier": "every 32-bit and every 64-bit pattern (all v < 2^(E+M+1))", "why_tests_cant": "2^32 / 2^64 patterns; tests only sample a few thousand.", "anchors": ["util/util.go:ComponentsOf", "float/float.go:NewConstant", "float/float.go:NewF32Constant", "float/float.go:NewF64Constant"]}
{"id": "C02", "title": "ValueOf inverts ComponentsOf", "statement": "util.ValueOf(util.ComponentsOf(v)) = v for every non-NaN bit pattern, and is the canonical quiet pattern class (some NaN) for NaN; hence two different non-NaN patterns never share components.", "quantifier": "every bit pattern v < 2^(E+M+1), both formats", "why_tests_cant": "Exhaustive round trip over 2^64 patterns is impossible; one wrong subnormal shift would only show on specific patterns.", "anchors": ["util/util.go:ComponentsOf", "util/util.go:ValueOf", "util/util.go:ComponentsToF32", "util/util.go:ComponentsToF64"]}
{"id": "C03", "title": "NewFloat soundness", "statement": "If the constraints of Context.NewFloat(v) are satisfied by ANY choice of hint values (malicious prover), then v is a valid (E+M+1)-bit pattern and the returned float is exactly the components of v. Holds for every range-check base width from 2 to 17, including widths that do not divide the checked bit lengths.", "quantifier": "every field element v, every assignment of hints, every base width", "why_tests_cant": "The quantifier ranges over all malicious witnesses in a 254-bit field; tests only run the honest hints.", "anchors": ["float/float.go:NewFloat", "hint/hint.go:DecodeFloatHint", "hint/hint.go:NormalizeHint", "gadget/rangecheck.go:commit"]}
{"id": "C04", "title": "NewFloat completeness", "statement": "For every valid bit pattern the honest hints satisfy all constraints of NewFloat and return the components of the pattern; for v >= 2^(E+M+1) no honest run is accepted.", "quantifier": "every pattern, every base width", "why_tests_cant": "Needs all 2^64 inputs.", "anchors": ["float/float.go:NewFloat", "hint/hint.go:DecodeFloatHint", "hint/hint.go:NormalizeHint"]}
{"id": "C05", "title": "Meaning of each range-check mode", "statement": "With base width b: Loose accepts exactly the values below 2^(b*ceil(bits/b)); TightForUnknownRange accepts exactly the values below 2^bits; TightForSmallAbs accepts exactly the values v for which v*2^diff mod p is below 2^(b*ceil(bits/b)), and hence, for values known to be small in absolute value, exactly those in [0,2^bits).", "quantifier": "every field element, every bit length, every base width, every choice of limbs by the prover", "why_tests_cant": "Statement about all field elements and all limb decompositions, including adversarial ones.", "anchors": ["gadget/rangecheck.go:commit", "gadget/rangecheck.go:Check", "gadget/rangecheck.go:decompSize", "gadget/gadget.go:AssertBitLength"]}
{"id": "C06", "title": "Honest limb decomposition is complete", "statement": "DecomposeHint returns base-2^b digits of value*scale, so for every value that fits in the stated number of bits the range check of every mode is satisfiable by the honest prover.", "quantifier": "every value, bit length, base width and mode", "why_tests_cant": "Unbounded quantification over values and widths.", "anchors": ["gadget/rangecheck.go:DecomposeHint", "gadget/rangecheck.go:commit"]}
{"id": "C07", "title": "QueryPowerOf2 soundness", "statement": "If base width b divides the table size M+E+1, any accepted QueryPowerOf2(e) returns exactly 2^e and e lies in [0,M+E]; if b does not divide it, the accepted results are exactly 2^i + k*2^size with i-k = e, 0<=k<2^(cap-size), i<size, so the result is not determined by e.", "quantifier": "every field element e, every hint value, every base width", "why_tests_cant": "Adversarial hint values; the honest hint always returns 2^e so no test can see the second case.", "anchors": ["gadget/gadget.go:QueryPowerOf2", "gadget/gadget.go:NewPowersOfTwoTable", "hint/hint.go:PowerOfTwoHint"]}
{"id": "C08", "title": "Deferred checking is equivalent to immediate checking", "statement": "Collecting range checks and power-of-two queries during circuit definition and discharging them in the deferred commit accepts exactly the same (input, output) pairs as checking each one at its call site with the final base width.", "quantifier": "every circuit written against the API, every witness", "why_tests_cant": "Quantifies over circuits.", "anchors": ["gadget/rangecheck.go:commit", "gadget/rangecheck.go:Check", "gadget/gadget.go:commit", "gadget/gadget.go:QueryPowerOf2"]}
{"id": "C09", "title": "Abs/IsPositive and the zero ambiguity", "statement": "IntGadget.Abs returns |v| for v small, and its sign bit is determined for v<>0; for v=0 the constraints accept both sign bits (the honest prover always answers 1). Max and Min built on it are nevertheless fully determined.", "quantifier": "every v with |v| < 2^length (and any accepted v), every hint", "why_tests_cant": "The ambiguity is only reachable by a malicious prover.", "anchors": ["gadget/gadget.go:Abs", "gadget/gadget.go:IsPositive", "gadget/gadget.go:Max", "gadget/gadget.go:Min", "hint/hint.go:AbsHint"]}
{"id": "C10", "title": "Mul completeness: honest product is the IEEE product", "statement": "For all floats x and y the honest run of Context.Mul is accepted and returns the IEEE-754 product rounded to nearest even (including subnormal results, overflow to infinity, signed zeros, infinities and NaN).", "quantifier": "all pairs of floats of the format, every base width", "why_tests_cant": "2^64 (f32) or 2^128 (f64) input pairs; tests use a fixed list of vectors.", "anchors": ["float/float.go:Mul", "float/float.go:round", "float/float.go:fixOverflow", "hint/hint.go:DecomposeMantissaForRoundingHint", "hint/hint.go:NthBitHint"]}
{"id": "C11", "title": "Mul soundness", "statement": "When the base width divides M+E+1, every accepted run of Mul returns the IEEE product, with one exception: when the product's final exponent is exactly E_MAX the prover may return the non-abnormal malformed float (sign, E_MAX, mantissa, 0); no other output is accepted.", "quantifier": "all pairs of floats, every hint assignment", "why_tests_cant": "Adversarial witnesses over a 254-bit field.", "anchors": ["float/float.go:Mul", "float/float.go:round", "float/float.go:fixOverflow"]}
{"id": "C12", "title": "Div completeness", "statement": "For all floats x, y the honest run of Context.Div is accepted and returns the IEEE-754 quotient rounded to nearest even, including division by zero, 0/0, inf/inf, subnormal and overflowing quotients.", "quantifier": "all pairs of floats, every base width", "why_tests_cant": "Input space too large; sticky-bit errors show only on near-half quotients.", "anchors": ["float/float.go:Div", "float/float.go:round", "hint/hint.go:DivHint"]}
{"id": "C13", "title": "Div soundness", "statement": "When the base width divides M+E+1, every accepted run of Div returns the IEEE quotient, except for the E_MAX-exponent malformed float described for Mul.", "quantifier": "all pairs of floats, every hint assignment", "why_tests_cant": "Adversarial witnesses.", "anchors": ["float/float.go:Div", "float/float.go:round", "float/float.go:fixOverflow"]}
{"id": "C14", "title": "Sqrt completeness", "statement": "For every float x the honest run of Context.Sqrt is accepted and returns the correctly rounded IEEE square root (NaN for negative non-zero, sqrt(-0) = -0, sqrt(+inf) = +inf). This settles the two 'TODO: obtained by empirical analysis' comments in the code.", "quantifier": "all floats, every base width", "why_tests_cant": "Correctness of the M+3-bit working precision is justified in the source by 'empirical analysis' only.", "anchors": ["float/float.go:Sqrt", "float/float.go:round", "hint/hint.go:SqrtHint"]}
{"id": "C15", "title": "Sqrt soundness", "statement": "When the base width divides M+E+1, every accepted run of Sqrt returns the correctly rounded IEEE square root and nothing else, for any prover.", "quantifier": "all floats, every hint assignment", "why_tests_cant": "The remainder range checks are over a field where n may be a fraction or a huge residue.", "anchors": ["float/float.go:Sqrt", "float/float.go:round"]}
{"id": "C16", "title": "Add/Sub completeness and the maximal-exponent cancellation", "statement": "The honest run of Add (Sub) returns the IEEE sum (difference) rounded to nearest even for all floats except exactly one class: finite operands whose exact sum is zero and whose exponent is the largest finite exponent, where the code returns an infinity instead of zero (e.g. FLT_MAX - FLT_MAX).", "quantifier": "all pairs of floats, every base width", "why_tests_cant": "Input space 2^64/2^128; alignment and capped-shift (delta >= M+3) reasoning needs a proof.", "anchors": ["float/float.go:Add", "float/float.go:Sub", "float/float.go:Neg", "float/float.go:round", "float/float.go:fixOverflow", "hint/hint.go:NormalizeHint", "hint/hint.go:AbsHint"]}
{"id": "C17", "title": "Add/Sub soundness", "statement": "When the base width divides M+E+1, every accepted run of Add returns the IEEE sum up to: (a) the sign of an exact zero obtained from operands of opposite sign is chosen by the prover; (b) results whose exponent is exactly E_MAX may be returned as a malformed non-abnormal float; (c) maximal-exponent cancellation may give zero or infinity. Nothing else is accepted.", "quantifier": "all pairs of floats, every hint assignment", "why_tests_cant": "Adversarial witnesses; the honest prover never exhibits (a).", "anchors": ["float/float.go:Add", "float/float.go:Sub", "float/float.go:round", "float/float.go:fixOverflow"]}
{"id": "C18", "title": "Comparisons agree with IEEE-754", "statement": "IsLt, IsLe, IsGt and IsGe return exactly the IEEE-754 comparison (false on NaN, -0 = +0) for every accepted witness and every base width; and the honest run is always accepted.", "quantifier": "all pairs of floats, every hint assignment, every base width", "why_tests_cant": "Soundness against all provers and all input pairs.", "anchors": ["float/float.go:less", "float/float.go:IsLt", "float/float.go:IsLe", "float/float.go:IsGt", "float/float.go:IsGe"]}
{"id": "C19", "title": "Trunc/Floor/Ceil completeness", "statement": "The honest runs of Trunc, Floor and Ceil return the IEEE round-toward-zero, round-down and round-up to integral value, for all floats including infinities, NaN, signed zeros and subnormals.", "quantifier": "all floats, every base width", "why_tests_cant": "All inputs; the Floor overflow branch (\u2026111.1 rounding up a power of two) is rarely hit.", "anchors": ["float/float.go:Trunc", "float/float.go:Floor", "float/float.go:Ceil", "hint/hint.go:TruncHint", "hint/hint.go:FloorHint"]}
{"id": "C20", "title": "Trunc/Floor/Ceil soundness and the [1,2) forgery", "statement": "When the base width divides M+E+1, Trunc/Floor/Ceil are sound for every float whose exponent is not 0; for 1 <= |x| < 2 a malicious prover can additionally obtain the result computed as if |x| < 1 (e.g. Trunc(1.5) = 0, Floor(1.5) = 0, Floor(-1.5) = -1), and nothing else.", "quantifier": "all floats, every hint assignment", "why_tests_cant": "Only a malicious prover can pick the other sign bit for exponent 0.", "anchors": ["float/float.go:Trunc", "float/float.go:Floor", "float/float.go:Ceil", "gadget/gadget.go:IsPositive"]}
{"id": "C21", "title": "ToInt exactness", "statement": "For an integral float (output of Trunc/Floor/Ceil) with exponent at most M+E, ToInt returns its integer value (negative values as p-|x|); with a dividing base width no other result is accepted; for exponents above M+E no witness is accepted.", "quantifier": "all integral floats, every hint assignment", "why_tests_cant": "Adversarial hints and 2^64 inputs.", "anchors": ["float/float.go:ToInt", "gadget/gadget.go:QueryPowerOf2"]}
{"id": "C22", "title": "Non-dividing base widths make ToInt forgeable", "statement": "If the range-check base width does not divide M+E+1, then for integral floats with small exponent ToInt accepts a wrong integer (e.g. ToInt(1.0) = 2 + 2^32 for binary32), and Mul, Trunc and others accept wrong results for specific inputs; the base width chosen automatically by the code for its own test circuits is such a width.", "quantifier": "every non-dividing base width / the concrete widths selected by optimalWidth", "why_tests_cant": "Requires exhibiting a malicious witness; honest hints never show it.", "anchors": ["gadget/gadget.go:QueryPowerOf2", "gadget/rangecheck.go:optimalWidth", "float/float.go:ToInt", "float/float.go:Mul"]}
{"id": "C23", "title": "AssertIsEqual is bit equality modulo NaN", "statement": "For well-formed floats AssertIsEqual accepts exactly when both are NaN or both have the same bit pattern (so +0 and -0 are distinguished).", "quantifier": "all pairs of floats", "why_tests_cant": "Universal over pairs.", "anchors": ["float/float.go:AssertIsEqual"]}
{"id": "C24", "title": "AssertIsEqualOrULP exact acceptance set", "statement": "For well-formed floats AssertIsEqualOrULP accepts exactly: both NaN; same sign and equal; or same sign and adjacent normalised mantissas. It therefore accepts adjacent normal floats, accepts the pair (largest finite, infinity), and rejects adjacent subnormals and the pair (0, smallest subnormal).", "quantifier": "all pairs of floats", "why_tests_cant": "Universal over pairs; boundary cases at binade, subnormal and infinity borders.", "anchors": ["float/float.go:AssertIsEqualOrULP"]}
{"id": "C25", "title": "AssertIsEqualOrCustomULP tolerance is absolute", "statement": "AssertIsEqualOrCustomULP32/64(x,y,t) accepts (honest prover) exactly when signs agree (or NaN) and either the components are equal or the rounded difference |x-y| is at most t as a real number; t is an absolute tolerance, not a count of units in the last place.", "quantifier": "all pairs of floats and every tolerance constant", "why_tests_cant": "Universal over pairs.", "anchors": ["float/float.go:AssertIsEqualOrCustomULP32", "float/float.go:AssertIsEqualOrCustomULP64"]}
{"id": "C26", "title": "Neg, Abs and Select on floats", "statement": "Neg, Abs and Select compute IEEE negation, absolute value and conditional choice on well-formed floats and preserve well-formedness; Select with a non-boolean condition is never accepted.", "quantifier": "all floats, all field elements as condition", "why_tests_cant": "Universal.", "anchors": ["float/float.go:Neg", "float/float.go:Abs", "float/float.go:Select"]}
{"id": "C27", "title": "Well-formedness is an invariant of the API", "statement": "Starting from NewFloat/NewConstant, every honestly computed float of any expression built from Add, Sub, Mul, Div, Sqrt, Trunc, Floor, Ceil, Neg, Abs, Select is well formed (mantissa zero or in [2^M,2^(M+1)), exponent in range, flags boolean), so the preconditions of all operations always hold.", "quantifier": "all expressions, all inputs", "why_tests_cant": "Induction over all programs using the API.", "anchors": ["float/float.go:FloatVar", "float/float.go:Add", "float/float.go:Mul", "float/float.go:Div", "float/float.go:Sqrt", "float/float.go:Floor"]}
{"id": "C28", "title": "Expression evaluation = IEEE expression evaluation", "statement": "The honest run of any expression tree over the API equals the IEEE-754 evaluation of the tree (outside the maximal-exponent cancellation class); and with a dividing base width any accepted run equals it too provided no intermediate result overflows, cancels to an exact zero, or is rounded to an integer from [1,2).", "quantifier": "all expression trees, all inputs, all hints", "why_tests_cant": "Induction over programs.", "anchors": ["float/float.go:Add", "float/float.go:Sub", "float/float.go:Mul", "float/float.go:Div", "float/float.go:Sqrt"]}
{"id": "C29", "title": "Polynomial evaluation", "statement": "Polynomial.Eval computes the IEEE Horner evaluation with p[i] the coefficient of x^i; EvalK with k=1 equals Eval on the reversed coefficient list, and EvalK with k>1 is not polynomial evaluation in general.", "quantifier": "all coefficient lists, all points", "why_tests_cant": "Universal over lists.", "anchors": ["math/math.go:Polynomial.Eval", "math/math.go:Polynomial.EvalK"]}
{"id": "C30", "title": "Base-width optimiser", "statement": "optimalWidth always returns a width in [2,17] that minimises the given cost function, and the smallest such width.", "quantifier": "all collections of range checks", "why_tests_cant": "Universal over collections.", "anchors": ["gadget/rangecheck.go:optimalWidth", "gadget/rangecheck.go:nbR1CSConstraints", "gadget/rangecheck.go:nbPLONKConstraints"]}
{"id": "C31", "title": "Lookup counters are exact", "statement": "With an explicit range size the counters reported by LookupQueryConstraints equal the number of table lookups plus decomposition equalities that commit actually creates, for every sequence of API calls.", "quantifier": "all sequences of gadget calls", "why_tests_cant": "Universal over call sequences.", "anchors": ["gadget/gadget.go:AssertBitLength", "gadget/gadget.go:LookupQueryConstraints", "gadget/gadget.go:QueryPowerOf2", "gadget/rangecheck.go:commit"]}
{"id": "C32", "title": "Estimated R1CS cost versus actual lookups", "statement": "nbR1CSConstraints never underestimates the number of limb lookups commit performs, and overestimates by exactly one per Loose or TightForSmallAbs check whose bit length is not a multiple of the base width.", "quantifier": "all collections of range checks and base widths", "why_tests_cant": "Universal.", "anchors": ["gadget/rangecheck.go:nbR1CSConstraints", "gadget/rangecheck.go:commit"]}
{"id": "C33", "title": "NormalizeIJK canonicalises hexagonal coordinates", "statement": "NormalizeIJK returns the unique coordinates (i,j,k) with all components non-negative and at least one zero that differ from the input by a multiple of (1,1,1) (agreeing with H3's ijkNormalize), for every accepted witness.", "quantifier": "all integer triples in range, every hint assignment, every base width", "why_tests_cant": "Universal, adversarial.", "anchors": ["loc2index64/loc2index64.go:NormalizeIJK", "loc2index32/loc2index32.go:NormalizeIJK"]}
{"id": "C34", "title": "hex2dToCoordIJK follows the H3 rounding rules", "statement": "The honest integer coordinates computed by hex2dToCoordIJK from a planar point equal those of H3's _hex2dToCoordIJK evaluated in IEEE arithmetic with the same operation order.", "quantifier": "all finite float pairs in range", "why_tests_cant": "Branch-heavy code with region tests; universal over float pairs.", "anchors": ["loc2index64/loc2index64.go:hex2dToCoordIJK", "loc2index32/loc2index32.go:hex2dToCoordIJK"]}
{"id": "C35", "title": "closestFaceCalculations returns the nearest face", "statement": "The selected face coordinates are those of the first icosahedron face minimising the computed squared distance, together with that minimal distance.", "quantifier": "all inputs, all face tables", "why_tests_cant": "Universal over inputs; the loop must carry the argmin consistently.", "anchors": ["loc2index64/loc2index64.go:closestFaceCalculations", "loc2index32/loc2index32.go:closestFaceCalculations"]}
{"id": "C36", "title": "scaleR multiplies by sqrt(7)^resolution", "statement": "scaleR multiplies r by the scaling constant selected by the resolution variable, and only resolutions present in the selector are accepted.", "quantifier": "all resolutions and all r", "why_tests_cant": "Universal over the resolution wire, which may be any field element.", "anchors": ["loc2index64/loc2index64.go:scaleR", "loc2index32/loc2index32.go:scaleR"]}
{"id": "C37", "title": "ZKLP hint-based circuits: acceptance does not depend on the location", "statement": "Users rely on an accepted location proof binding (I,J,K) to the private latitude and longitude. In the hint-based circuits it does not: the trigonometric hints are never constrained by latitude or longitude, so for any two in-range positions the sets of accepted (I,J,K) coincide.", "quantifier": "all pairs of in-range positions, all outputs, all witnesses", "why_tests_cant": "Statement over malicious witnesses; the honest hint always derives the values from the location.", "anchors": ["loc2index32/loc2index32_test.go:loc2Index32Circuit.Define", "loc2index64/loc2index64_test.go:loc2Index64Circuit.Define", "hint/hint.go:PrecomputeHint32", "hint/hint.go:PrecomputeHint64"]}
{"id": "C38", "title": "ZKLP range checks on latitude and longitude", "statement": "The circuits reject latitude above pi/2 and longitude above pi but accept arbitrarily negative values and NaN.", "quantifier": "all float inputs", "why_tests_cant": "Missing checks are invisible to tests with valid inputs.", "anchors": ["loc2index32/loc2index32_test.go:loc2Index32Circuit.Define", "loc2index64/loc2index64_test.go:loc2Index64Circuit.Define"]}
{"id": "C39", "title": "End-to-end arithmetic circuits", "statement": "The repository's binary/unary operation circuits (NewFloat on both operands and on the claimed result, operation, AssertIsEqual) accept exactly the triples of bit patterns where the third is the IEEE result (any NaN for NaN), up to the listed exceptions for Add, Trunc and Floor, when the base width divides M+E+1.", "quantifier": "all triples of field elements, every hint assignment", "why_tests_cant": "Combines soundness and completeness over the whole input space.", "anchors": ["float/float_test.go:F32BinaryCircuit", "float/float_test.go:F32UnaryCircuit", "float/float_test.go:F32ComparisonCircuit", "float/float.go:NewFloat", "float/float.go:AssertIsEqual"]}
{"id": "C40", "title": "Benchmark helpers: verification result", "statement": "BenchProofToFilePlonk and BenchProofMemoryPlonk report success only if proof verification succeeded; the Groth16 variants discard the verification error and report a row regardless.", "quantifier": "all proving-system behaviours (prover/verifier as oracles)", "why_tests_cant": "A failing verifier never occurs in benchmarks.", "anchors": ["util/util.go:BenchProofToFileGroth16", "util/util.go:BenchProofMemoryGroth16", "util/util.go:BenchProofToFilePlonk", "util/util.go:BenchProofMemoryPlonk"]}
{"id": "C41", "title": "Sine gadget accuracy", "statement": "For every finite argument x in [-pi, Pi] (Pi the circuit's own constant) SinTaylor64 and SinTaylor32 have an honest run, and every result any prover can have accepted is a finite float within 2.3e-14 (64-bit) or 1.3e-5 (32-bit) of sin x, and within 5e-15 or 2.5e-6 when -1.6 <= x; beyond pi the folding loses the sign, and the accepted result for x = 4 is positive while sin 4 is negative.", "quantifier": "all arguments in the range, all provers, every range-check width dividing the table size, any large enough prime", "why_tests_cant": "Tests compare 1000 samples and drop the sign; the accuracy holds for all of the 2^62 arguments and for dishonest hints.", "anchors": ["math/math.go:SinTaylor64", "math/math.go:SinTaylor32"]}
{"id": "C42", "title": "Math test circuits ignore the sign", "statement": "PolynomialEvalCircuit, PolynomialEvalCircuitDegTen, CircuitATanRemez64 and SinCircuit accept an expected value exactly when they accept the same bit pattern with the sign flipped.", "quantifier": "all arguments, all expected values, all provers", "why_tests_cant": "The tests only run expected values with the right sign.", "anchors": ["math/math_test.go:PolynomialEvalCircuit.Define", "math/math_test.go:CircuitATanRemez64.Define", "math/math_test.go:SinCircuit.Define"]}
{"id": "C43", "title": "Location pipeline equals H3's projection", "statement": "For sines and cosines of a position given as finite floats, and a nearest face whose plane point stays in range, the circuit from face selection to hexagon (closestFaceCalculations, calculateR, scaleR, calculateHex2d, hex2dToCoordIJK) run honestly accepts exactly H3's _geoToHex2d followed by _hex2dToCoordIJK evaluated in IEEE arithmetic; any prover reaches exactly that cell, or one built from a forged integer part when the scaled coordinate lies in [1,2). The formulas used for radius and direction equal H3's tangent of the great-circle distance and rotation by the azimuth.", "quantifier": "all positions, all resolutions, all provers, both formats, every width dividing the table size", "why_tests_cant": "The tests compare a few dozen positions against H3 and cannot quantify over dishonest hints.", "anchors": ["loc2index32/loc2index32.go:calculateR", "loc2index32/loc2index32.go:calculateHex2d", "loc2index64/loc2index64.go:calculateR", "loc2index64/loc2index64.go:calculateHex2d"]}
{"id": "C44", "title": "Hint-free location circuit computes accurate sines and binds the cell", "statement": "For every finite latitude in (-pi/2, pi/2] and longitude in [-pi, pi] (the circuit's constants) other than -pi/2, the sines and cosines computed by loc2Index32CircuitWrapper are the same for every prover and within 3.1e-6 (latitude) or 1.5e-5 (longitude) of the real ones; the honest run accepts exactly H3's cell for them, and any prover only that cell unless a scaled coordinate lies in [1,2) where an integer part can be forged. A latitude of -2 radians is accepted too: no lower bound is checked.", "quantifier": "all positions in the range, all resolutions, all provers, every width dividing the table size, any large enough prime", "why_tests_cant": "The tests run 144 positions with the honest prover only.", "anchors": ["loc2index32/loc2index32_test.go:loc2Index32CircuitWrapper.Define", "math/math.go:SinTaylor32"]}
{"id": "C45", "title": "Arctangent gadget accuracy", "statement": "For every finite argument AtanRemez64 and AtanRemez32 have an honest run, every result any prover can have accepted is that honest result, and it is a finite float with the sign of the argument within 1e-13 (64-bit) or 5.4e-6 (32-bit) of the arctangent. Atan2, for finite arguments with x nonzero and a quotient that does not overflow, gives one result for all provers, within 1e-13 of an angle in [-pi, pi] of the point (x, y). At an infinite argument, and for Atan2 on the axis x = 0, the honest result stands for no IEEE datum; the arctangent of zero is not zero.", "quantifier": "all finite arguments, all provers, every range-check width dividing the table size, any large enough prime", "why_tests_cant": "Tests compare samples of magnitudes and drop the sign; the accuracy is for all 2^63 finite arguments and includes dishonest hints; infinity and the axis are not sampled.", "anchors": ["math/math.go:AtanRemez64", "math/math.go:AtanRemez32", "math/math.go:Atan2"]}
{"id": "C46", "title": "Face tables describe a regular icosahedron", "statement": "The sines and cosines tabulated for the twenty faces lie on the unit circle, the tabulated face centres are pairwise at the angles of a regular icosahedron's face centres, each tabulated axis points to a vertex of its face and the rotated axis lies asin(sqrt(3/28)) before it, and the constants of the plane grid satisfy their defining equations, all within an explicit power-of-two error (2^-21 and 2^-20 for 32-bit, 2^-49 and 2^-47 for 64-bit).", "quantifier": "all twenty faces and all pairs of faces, both formats", "why_tests_cant": "No test checks the tables; a wrong digit shows only for positions on the affected face.", "anchors": ["util/util.go:FaceCenterPoint_32", "util/util.go:FaceCenterPoint_64", "util/util.go:Azimuth", "util/util.go:Azimuth_32"]}
{"id": "C47", "title": "Sums, differences and square roots bind for every range-check width", "statement": "For every base width of the range check from 2 to 17, dividing the table size or not, and hence for the automatically chosen widths with Groth16 and PLONK, the addition, subtraction and square-root circuits accept exactly the IEEE result (for cancelling operands also the other zero or an infinity, as in C39), whatever the prover supplies. The gadgets alone do not have this property when the width does not divide the table size: a sum of two doubles can be forged into wires representing no datum, and a larger circuit that compares or multiplies such a sum accepts a false comparison or a zero product.", "quantifier": "all operands, all provers, all widths 2..17, both formats and proof systems, any prime of at least 2^250", "why_tests_cant": "Tests use the honest prover and one operand at a time; the forged power of two needs a field element no test supplies.", "anchors": ["float/float.go:Add", "float/float.go:Sub", "float/float.go:Sqrt", "gadget/gadget.go:QueryPowerOf2", "gadget/rangecheck.go:getOptimalBasewidth"]}
{"id": "C48", "title": "Location and math circuits at the automatically chosen range-check width", "statement": "The repository builds every circuit with range-check size 0, that is, with the base width of least cost for the checks collected. For all inputs that width is 9 for the two 32-bit location circuits, 11 for the 64-bit one, 8 for the sine, arctangent and degree-ten polynomial circuits and 6 (Groth16) or 7 (PLONK) for the cubic one. At those widths: accepted values of the sine, arctangent and degree-ten circuits are finite doubles within the bounds of C41, C45 and C29 in magnitude, and some value is accepted for every argument; the location circuits with hints accept the same cells from all positions; the repository's prover runs the location circuit without hints to H3's cell and no other. But 9 and 11 do not divide the table size: the location circuit without hints accepts a wrong cell from a dishonest prover, and the cubic circuit accepts 5 where the polynomial is below -400000. The degree-ten circuit rejects the test vector of the repository, whoever proves.", "quantifier": "all inputs, all provers, both proof systems, BN254 scalar field", "why_tests_cant": "The width depends on the multiset of all checks of the circuit, and forging needs a non-power of two as a table answer, which no honest prover supplies.", "anchors": ["gadget/rangecheck.go:getOptimalBasewidth", "loc2index32/loc2index32.go:Define", "loc2index64/loc2index64.go:Define", "math/math_test.go:Define"]}
{"id": "C49", "title": "Hexadecimal text of floats", "statement": "HexToFloat accepts exactly the non-empty hexadecimal numerals below 2^64 (either case, leading zeros allowed, no prefix, sign or underscore) and returns the double with that bit pattern; HexToFloat32 the same below 2^32; a larger numeral is an out-of-range error. floatToHex followed by HexToFloat is the identity on bit patterns and no shorter text is read as the same float. The file written by WriteHexCellsToFile, split at white space, is read by HexToFloat as the written patterns in order. With useFloat32 the text is still that of a double, so HexToFloat32 rejects it for every coordinate other than zero. StrToIntSlice returns the bytes; for hexadecimal input the longest decodable prefix, malformed input being cut off silently, so distinct inputs give the same slice.", "quantifier": "all strings, all bit patterns, all lists of cells", "why_tests_cant": "The tests read well-formed data files of fixed width; the error branches and the single-precision writer are never run.", "anchors": ["util/util.go:HexToFloat", "util/util.go:HexToFloat32", "util/util.go:StrToIntSlice", "proximity/proximity.go:floatToHex", "proximity/proximity.go:WriteHexCellsToFile"]}
{"id": "C50", "title": "Parsing the output of the H3 tools", "statement": "The pattern matcher returns the leftmost match and fails only if there is none. IJK coordinates printed in decimal are read back exactly, clamped silently at 2^63-1; a negative coordinate is a parse error. The index after '--- ' and the centre of a cell (with signs) are read back. The boundary pattern has no sign: vertices are read back when no latitude or longitude is negative; for negative latitudes the sign is lost; for negative longitudes with non-negative latitudes (all of North America) each longitude is taken as a latitude and paired with the latitude of the next vertex, so the vertices are exchanged, shifted, one too few and unsigned; with both negative (South America) nothing is read and no error is reported.", "quantifier": "all outputs of the printed form, any number of vertices and digits, any surrounding text without digits", "why_tests_cant": "proximity has no tests; its main program uses one location with both coordinates positive (the sign of the longitude was dropped by hand).", "anchors": ["util/util.go:ExecuteLatLngToIJK", "proximity/proximity.go:executeLatLngToIJK", "proximity/proximity.go:latLngToCell", "proximity/proximity.go:cellToLatLng", "proximity/proximity.go:cellToBoundary"]}
{"id": "C51", "title": "Proximity: haversine distance and the closest vertex", "statement": "In exact arithmetic OldHaversine is the great-circle distance on the sphere of radius 6371000 and a metric on its points: between 0 and pi times the radius, symmetric, zero exactly for equal points, with the triangle inequality. The search loop of main returns, in double arithmetic and for any distance function (NaN included) and any number of passes, the least of the distances to the vertices and the initial value; for an empty boundary the initial MaxFloat64. The distance to the nearest vertex exceeds the distance to any point of an edge by at most half the edge; it is not the distance to the boundary, and half an edge is reached.", "quantifier": "all coordinates, all boundaries, all distance functions, any number of passes", "why_tests_cant": "proximity has no tests; the formula holds for all pairs of points.", "anchors": ["proximity/proximity.go:OldHaversine", "proximity/proximity.go:main"]}
{"id": "C52", "title": "Products and quotients at every range-check width", "statement": "For every base width b of the range check (with binary64, all but 15 and 17) the multiplication and division circuits accept exactly: the IEEE result; and, if one of the wrong answers 2^(s+k) + k*2^(M+E+1) to the query for 2^s, k >= 1, fits in the limbs and divides the exact significand padded to whole limbs, s being the shift of the subnormal range, a zero of the right sign or, for abnormal or overflowing results, NaN. Widths that divide M+E+1 leave the IEEE result only. At the automatically chosen widths (multiplication 4 with Groth16 and 5 with PLONK for binary32, 6 for binary64; division 5 and 6) quotients that do not fall below the normal range bind, as do products in the normal range whose exact significand needs at most 27 bits (62 with binary64), and with Groth16 all binary32 products. Otherwise they do not: 3303821 * 325 is accepted as 0.", "quantifier": "all operands and claimed results, all provers, all widths, both formats and proof systems, any prime of at least 2^250", "why_tests_cant": "Tests use the honest prover; which operands can be forged depends on the divisors of their product.", "anchors": ["float/float.go:Mul", "float/float.go:Div", "float/float.go:round", "gadget/gadget.go:QueryPowerOf2", "gadget/rangecheck.go:getOptimalBasewidth"]}
{"id": "C53", "title": "Lookups are membership up to few challenges", "statement": "The deferred range checks and powers-of-two queries are enforced by a log-derivative argument at a challenge x. Over a prime field with more elements than queries: if some queried wire is not in its table, then whatever multiplicities and other hints the prover fixes beforehand, fewer than (table entries + queries) values of x are passed; if all queries are in their tables, the honest counts pass every x that is not a queried value. Hence a circuit that does not accept a result (every looked-up wire in its table) lets it through for fewer than max(2^b + limbs, table size + queries) of the challenges. The BN254 modulus is prime.", "quantifier": "all circuits, results, hint values, limbs, multiplicities and challenges; all base widths up to 253", "why_tests_cant": "A test sees one challenge and honest multiplicities.", "anchors": ["gadget/rangecheck.go:commit", "gadget/rangecheck.go:buildTable", "gadget/gadget.go:commit", "gadget/gadget.go:NewPowersOfTwoTable"]}
{"id": "C54", "title": "The cell contains the point", "statement": "For every pair of finite coordinates up to 2^29 in magnitude (-0 included), the cell that hex2dToCoordIJK returns to the repository's prover has the point in its hexagon widened by u(12(|x|+|y|)+90), u the unit roundoff; the unit hexagon of a cell is exactly the set of points for which no other cell centre is nearer. Whatever hints a prover supplies, the point is in the hexagon scaled by 5/2 plus that slack, and in the hexagon itself when neither skewed coordinate lies in [1,2); 12/5 is not enough.", "quantifier": "all finite coordinates up to 2^29, both formats, all witnesses, all cells", "why_tests_cant": "Tests compare a few indices with a reference and cannot rule out a point near a hexagon edge that lands in the wrong cell, nor a malicious witness.", "anchors": ["loc2index32/loc2index32.go:hex2dToCoordIJK", "loc2index64/loc2index64.go:hex2dToCoordIJK"]}
{"id": "C55", "title": "The constant tables come from the published literals", "statement": "In both formats every centre coordinate and every sine and cosine of a face latitude in the tables is the decimal literal of util.go correctly rounded, and so are the resolution constants. The sines and cosines of the face longitudes, the azimuths and the azimuths turned by the aperture-7 rotation are, in 32 bits, the correctly rounded sines and cosines of the rounded angles and, in 64 bits, less than one unit in the last place from them (not always the nearest: face 2). Against the exact angles every column, centres included, is within 2^-22 respectively 2^-50. The rotation is the angle whose sine is sqrt(3/28).", "quantifier": "all twenty faces, all eleven columns, both formats", "why_tests_cant": "Tests read the table but have no exact sine or cosine to compare with; the comparison needs proved bounds on transcendental functions.", "anchors": ["util/util.go:FaceCenterPoint_32", "loc2index32/loc2index32.go:closestFaceCalculations", "loc2index64/loc2index64.go:closestFaceCalculations"]}
{"id": "C56", "title": "The plane point is H3's projection of the position", "statement": "Given sines and cosines of latitude and longitude that are at most dl off (dl from 2^-19 in 32 bits, 2^-47 in 64 bits, up to 10^-4), for every position on the sphere and every resolution up to 15: all distances are finite, the face that is picked exists, has its centre at most 15 dl further (along the chord) than any other face and within 0.68, and, unless the position is within 20 dl of that centre, the plane coordinates before rounding to a cell are those of H3's gnomonic projection on that face up to 148 dl sqrt(7)^res. At the centre of a face the repository's prover can fail for every index (division 0/0).", "quantifier": "all real positions, all sines and cosines within dl, both formats, resolutions 0 to 15", "why_tests_cant": "Accuracy over a continuum of positions, the covering of the sphere by the twenty faces, and the isolated failing positions are beyond sampling.", "anchors": ["loc2index32/loc2index32.go:closestFaceCalculations", "loc2index32/loc2index32.go:calculateR", "loc2index32/loc2index32.go:calculateHex2d", "loc2index64/loc2index64.go:calculateHex2d"]}
{"id": "C57", "title": "The accepted cell contains the position", "statement": "For a position whose sines and cosines are given up to dl, the repository's prover is accepted with exactly one cell, and that cell's hexagon, scaled by 1 + 480 dl sqrt(7)^res, contains H3's projection of the position on a face that is nearest up to 15 dl, unless the position is within 20 dl of the centre of that face. Any prover is accepted only with cells for which that holds with 5/2 in place of 1. From latitude and longitude alone (the 32-bit circuit without sine hints) dl is 15 * 10^-6. The widening cannot be dropped: at resolution 15, 32 bits and exact sines, the accepted cell of latitude 0, longitude 0 does not contain the position, not even when scaled by 3.", "quantifier": "all positions, resolutions 0 to 15, both formats, all provers", "why_tests_cant": "The guarantee is about every real position and every witness; tests compare a few positions with H3.", "anchors": ["loc2index32/loc2index32.go:hex2dToCoordIJK", "loc2index64/loc2index64.go:hex2dToCoordIJK", "loc2index32/loc2index32_test.go:loc2Index32CircuitWrapper.Define"]}
{"id": "C58", "title": "The hint-based location circuits accept accurate hints", "statement": "Let the hint return tan(x/2), sin x, sin(x/2) and cos(x/2) for latitude and longitude with a relative error of at most 8 units of roundoff and the right sign. The 32-bit circuit then accepts the repository's prover at every position within its bounds (not within 20 * 2^-18 of the centre of the nearest face), with exactly one cell, whose hexagon contains the position up to the widening of C57 (dl = 2^-18). The 64-bit circuit does so (dl = 2^-47) if and only if the three comparisons up to one unit in the last place hold. These do not follow from the accuracy: with correctly rounded values, and the sine computed from them as in the code, the repository's prover is refused at a longitude of about 1.0334, for every resolution and cell.", "quantifier": "all latitudes and longitudes in range, all resolutions 0 to 15, every accurate library", "why_tests_cant": "The tolerance checks fail for about one longitude in 200, depending on the last bit of the library's results; the tests use a fixed list of positions.", "anchors": ["loc2index32/loc2index32_test.go:loc2Index32Circuit.Define", "loc2index64/loc2index64_test.go:loc2Index64Circuit.Define", "hint/hint.go:PrecomputeHint32", "hint/hint.go:PrecomputeHint64"]}
{"id": "C59", "title": "The published coordinates do not tell the face", "statement": "The location circuits publish the resolution and I, J, K, but not the face on which they count. For every resolution at which the errors do not exceed half a cell (all of them in 64 bits, 0 to 6 in 32 bits) and every cell other than the one at the origin whose centre is within a quarter of the radius of the sphere from the centre of the face, there are 20 positions, pairwise at least a fifth of the radius (1274 km) apart, at which the repository's prover is accepted with exactly these values. A verifier cannot tell them apart.", "quantifier": "all resolutions, all cells in the stated range, all sines and cosines of the stated accuracy", "why_tests_cant": "The tests compare I, J, K with H3's for one position at a time; that two distant positions agree in all public values is a statement about pairs.", "anchors": ["loc2index32/loc2index32.go:closestFace", "loc2index32/loc2index32_test.go:loc2Index32Circuit", "loc2index64/loc2index64.go:closestFace", "loc2index64/loc2index64_test.go:loc2Index64Circuit"]}
{"id": "C60", "title": "An accepted proof puts the position into one of twenty discs", "statement": "For every public output (resolution, I, J, K) there are 20 places on the sphere, one per face and independent of the position: the inverse projections of the centre of the cell. Whenever the projection part of a location circuit accepts sines and cosines within dl of those of a position (any prover), the position lies within 5/2 circumradii of the cell plus 106 dl of one of the 20 places, or within 20 dl of the centre of a face; for the repository's prover one circumradius suffices. For the circuit without hints, with latitude and longitude in range, this holds unconditionally with dl = 15e-6.", "quantifier": "all public outputs, all positions, all provers", "why_tests_cant": "The tests confirm that the right cell is accepted; what an accepted proof tells about the position quantifies over all positions and provers with the same output.", "anchors": ["loc2index32/loc2index32.go:closestFaceCalculations", "loc2index32/loc2index32.go:hex2dToCoordIJK", "loc2index32/loc2index32_test.go:loc2Index32CircuitWrapper", "loc2index64/loc2index64.go:hex2dToCoordIJK"]}
{"id": "C61", "title": "The committed lookup counts", "statement": "benchmarks/float/constraints.csv gives, for both formats and the range-check widths 8, 12, 16, the number of lookup constraints per operation (Init, Add, Sub, Mul, Div, Sqrt, Cmp) and per table. Defining the test circuit that writes the file adds exactly these numbers to the counters of the gadget, for every field and whatever is on the wires; and n operations of a kind, on any operands and in any state of the counters, add exactly n times the number.", "quantifier": "all rows of the file, all fields, all wire values, all numbers of operations, all operands", "why_tests_cant": "The test prints what it measures in one compilation; that the counts do not depend on operands or on what was defined before is universal.", "anchors": ["float/float_constraints_test.go:count_constraints", "float/float_constraints_test.go:FloatCircuit.Define", "float/float_constraints_test.go:TestFloatCircuitConstraints", "gadget/gadget.go:LookupQueryConstraints", "gadget/gadget.go:AssertBitLength"]}
{"id": "C62", "title": "For how many challenges a false claim can pass, circuit by circuit", "statement": "For each circuit of the repository (the test circuits of float/ for both formats, the seven circuits of math/, the three location circuits), with the range-check width its configuration chooses and for either proof system, an explicit number n is given such that, if the public inputs are not acceptable (no satisfying wires exist), then whatever wires, limbs and multiplicities a prover commits to, fewer than n of the more than 2^253 challenges of the lookup arguments let it pass; n is at most 12036. Hence a claimed sum, difference, product, quotient, square root or comparison that is not the outcome of IEEE 754 (as described in C47, C52, C39), and a claimed sine or arctangent off by more than the circuit's accuracy, passes for fewer than n challenges.", "quantifier": "all public inputs, both proof systems, all committed wires, limbs and multiplicities, all challenges", "why_tests_cant": "Tests run one prover with one challenge; the error probability of the randomised lookup argument quantifies over all provers' commitments and counts challenges.", "anchors": ["gadget/rangecheck.go:commit", "gadget/gadget.go:commit", "float/float_test.go:TestF32UnaryCircuit", "math/math_test.go", "loc2index32/loc2index32_test.go:loc2Index32CircuitWrapper", "loc2index64/loc2index64.go"]}
{"id": "C63", "title": "The interval circuits of math/", "statement": "CircuitATanRemez32ULP, CircuitATanRemez64ULP and CircuitSin64ULP compare the exponent of the result with that of an expected value and its mantissa with those of two bounds. For every finite argument there is one float near the arctangent (1e-13 for binary64, 54e-7 for binary32) such that exactly the expected values in its binade with bounds whose significands enclose its own are accepted, for any prover and either proof system; for the sine (arguments from -pi to pi) every acceptance is of this form and some expected value is accepted. With bounds in the binade of the expected value the magnitude of the function is in the interval up to the accuracy. But intervals of negative numbers, with the ends in their order, are empty for these circuits: no prover satisfies them, in particular not with lines 101 of data/f32/atan_ulp and data/f64/atan_ulp and line 1 of data/f64/sin_ulp, on which the repository's tests expect success; and the exponents of the bounds are not looked at, so 1024 is accepted as a lower bound of the arctangent of 1.", "quantifier": "all arguments, expected values and bounds, all provers, both proof systems", "why_tests_cant": "The tests run listed vectors; which expected values and bounds any prover can get accepted is universal.", "anchors": ["math/math_test.go:CircuitATanRemez32ULP", "math/math_test.go:CircuitATanRemez64ULP", "math/math_test.go:CircuitSin64ULP", "math/math_test.go:TestCircuitATanRemez64ULP"]}
{"id": "C64", "title": "Unit conversions and the decimal arguments of the H3 tools", "statement": "RadiansToDegrees is within 1.5e-16 (relative, plus half the smallest double) of x times 180/pi for every double up to 2^1000. ScaledIntToFloat64 of an int up to 2^53 in magnitude is the correctly rounded n/1e9, n is recovered from it below 2^52, and the error is bounded for every int; but 2^53 and 2^53+1 give the same double. The text fmt.Sprintf(\"%.30f\") makes of a finite double is the decimal number of thirty places nearest to its exact value, ties to even, with its sign; a correctly rounding reader gets the same double back when it is zero or at least 2^-46 in magnitude, but some smaller doubles are printed as zero. So an angle of at most 4 radians reaches the tool in degrees within 4e-14.", "quantifier": "all doubles, all ints", "why_tests_cant": "The tests convert two angles; accuracy and reading back are claims about all 2^64 doubles.", "anchors": ["util/util.go:RadiansToDegrees", "util/util.go:ScaledIntToFloat64", "util/util.go:ExecuteLatLngToIJK", "proximity/proximity.go"]}
