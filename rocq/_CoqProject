-Q theories Verif
theories/Field.v
theories/Circuit.v
theories/Hints.v
theories/RangeCheck.v
theories/Gadget.v
theories/Util.v
theories/FloatModel.v
theories/FieldFacts.v
theories/CircuitFacts.v
theories/Tactics.v
theories/RangeFacts.v
theories/GadgetFacts.v
theories/Deferred.v
theories/Shapes.v
theories/Counters.v
theories/RoundFacts.v
theories/Spec.v
theories/RoundCore.v
theories/RepFacts.v
theories/MulFacts.v
theories/DivFacts.v
theories/SqrtFacts.v
theories/AddFacts.v
theories/AddSpec.v
theories/Forge.v
theories/CmpFacts.v
theories/TruncFacts.v
theories/TruncSpec.v
theories/ToIntFacts.v
theories/CompFacts.v
theories/NewFacts.v
theories/GadgetExtra.v
theories/EqFacts.v
theories/Witness.v
theories/PropertiesGadget.v
theories/PropertiesArith.v
theories/PropertiesOps.v
theories/Outcomes.v
theories/Circuits.v
theories/CircuitSpec.v
theories/AnyWidth.v
theories/CircuitShapes.v
theories/PropertiesCircuits.v
theories/PropertiesWidth.v
theories/Expr.v
theories/ExprFacts.v
theories/PropertiesExpr.v
theories/Math.v
theories/MathSpec.v
theories/ValueFacts.v
theories/MathFacts.v
theories/ErrorFacts.v
theories/EvalKFacts.v
theories/SinFacts.v
theories/SinError.v
theories/SinAccuracy.v
theories/MathCircuitFacts.v
theories/PropertiesMath.v
theories/Loc2Index.v
theories/LocConst.v
theories/NormFacts.v
theories/ScaleFacts.v
theories/ClosestFacts.v
theories/LocFacts.v
theories/LocCircuitFacts.v
theories/HexFacts.v
theories/PipeFacts.v
theories/TableFacts.v
theories/WrapperFacts.v
theories/AtanPoly.v
theories/AtanFacts.v
theories/AtanAccuracy.v
theories/PropertiesLoc.v
theories/PropertiesHex.v
theories/PropertiesPipe.v
theories/PropertiesTable.v
theories/PropertiesWrapper.v
theories/PropertiesAtan.v
theories/LocShapes.v
theories/MathAuto.v
theories/HonestFacts.v
theories/PropertiesAuto.v
theories/Bench.v
theories/BenchFacts.v
theories/PropertiesBench.v
theories/Text.v
theories/TextFacts.v
theories/RegexFacts.v
theories/TextParse.v
theories/FileFacts.v
theories/Haversine.v
theories/PropertiesText.v
theories/ForgeSpec.v
theories/ForgeFacts.v
theories/AnyWidthMul.v
theories/AnyWidthOps.v
theories/AnyWidthData.v
theories/PropertiesProducts.v
theories/Prime.v
theories/LogDeriv.v
theories/PropertiesLookup.v
theories/HexCell.v
theories/PropertiesCell.v
theories/FixSin.v
theories/Angles.v
theories/PropertiesAngles.v
theories/PlaneError.v
theories/PlanePoint.v
theories/Covering.v
theories/Gnomonic.v
theories/PropertiesGnomonic.v
theories/CellFacts.v
theories/PropertiesWhere.v
theories/HintFacts.v
theories/PropertiesHints.v
theories/FaceFree.v
theories/PropertiesFaces.v
theories/BindFacts.v
theories/PropertiesBind.v
theories/Costs.v
theories/PropertiesCosts.v
theories/Frugal.v
theories/MathUlp.v
theories/UlpFacts.v
theories/PropertiesUlp.v
theories/PropertiesError.v
theories/Convert.v
theories/ConvertFacts.v
theories/PropertiesConvert.v
