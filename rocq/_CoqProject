-Q theories Verif
theories/Model/Arith.v
theories/Model/Base.v
theories/Model/Bessel.v
theories/Model/BesselTables.v
theories/Model/Beta.v
theories/Model/Cache.v
theories/Model/Dawson.v
theories/Model/Error.v
theories/Model/ErrorTables.v
theories/Model/Faddeeva.v
theories/Model/FaddeevaTables.v
theories/Model/Gamma.v
theories/Model/Utils.v
theories/Float/Bits64.v
theories/Float/Caches.v
theories/Float/Exact.v
theories/Float/Ieee.v
theories/Float/Platforms.v
theories/Spec/Bessel2Spec.v
theories/Spec/BesselSpec.v
theories/Spec/ComplexSpec.v
theories/Spec/DawsonSpec.v
theories/Spec/ErfSpec.v
theories/Spec/F64Spec.v
theories/Spec/GammaSpec.v
theories/Spec/History.v
theories/Spec/IncBetaSpec.v
theories/Spec/IncGammaSpec.v
theories/Spec/KHalfSpec.v
theories/Spec/LibmSpec.v
theories/Spec/Lower.v
theories/Spec/Outcome.v
theories/Spec/PowSpec.v
theories/Spec/TrigSpec.v
theories/Proofs/BesselAcc.v
theories/Proofs/BesselExamples.v
theories/Proofs/BesselI1.v
theories/Proofs/BesselInt.v
theories/Proofs/BesselJAcc.v
theories/Proofs/BesselJReal.v
theories/Proofs/BesselLim.v
theories/Proofs/BesselODE.v
theories/Proofs/BesselPanics.v
theories/Proofs/BesselRat.v
theories/Proofs/BesselReal.v
theories/Proofs/BesselRec.v
theories/Proofs/BesselSeries.v
theories/Proofs/BesselThms.v
theories/Proofs/BetaAcc.v
theories/Proofs/BetaCfAcc.v
theories/Proofs/BetaCfBad.v
theories/Proofs/BetaCfReal.v
theories/Proofs/BetaCfTrunc.v
theories/Proofs/BetaExamples.v
theories/Proofs/BetaLarge.v
theories/Proofs/BetaSym.v
theories/Proofs/BetaiAcc.v
theories/Proofs/BetaiBad.v
theories/Proofs/BetaiLog.v
theories/Proofs/BetaiRange.v
theories/Proofs/Boundaries.v
theories/Proofs/CacheExamples.v
theories/Proofs/CacheFacts.v
theories/Proofs/Clenshaw.v
theories/Proofs/DawsonBad.v
theories/Proofs/DawsonExamples.v
theories/Proofs/DawsonLarge.v
theories/Proofs/DawsonNeg.v
theories/Proofs/DawsonSeries.v
theories/Proofs/DawsonTaylor.v
theories/Proofs/DawsonTrue.v
theories/Proofs/Domains.v
theories/Proofs/Eqz.v
theories/Proofs/ErfcAcc.v
theories/Proofs/ErfcExists.v
theories/Proofs/ErfcODE.v
theories/Proofs/ErfccPoly.v
theories/Proofs/ErfccReal.v
theories/Proofs/ErfcxAcc.v
theories/Proofs/ErfcxAsym.v
theories/Proofs/ErfcxChain.v
theories/Proofs/ErfcxExamples.v
theories/Proofs/ErfcxMac.v
theories/Proofs/ErfcxPos.v
theories/Proofs/ErfcxSafe.v
theories/Proofs/ErfcxTable.v
theories/Proofs/ErfcxThms.v
theories/Proofs/EulerGamma.v
theories/Proofs/Examples.v
theories/Proofs/ExpBounds.v
theories/Proofs/Ext.v
theories/Proofs/F64.v
theories/Proofs/F64Ops.v
theories/Proofs/Factorial.v
theories/Proofs/FaddeevaAxes.v
theories/Proofs/FaddeevaExact.v
theories/Proofs/FaddeevaExamples.v
theories/Proofs/FaddeevaLarge.v
theories/Proofs/FaddeevaSafe.v
theories/Proofs/FaddeevaSym.v
theories/Proofs/FlErr.v
theories/Proofs/GammaAcc.v
theories/Proofs/GammaCore.v
theories/Proofs/GammaEqn.v
theories/Proofs/GammaExamples.v
theories/Proofs/GammaExists.v
theories/Proofs/GammaFacts.v
theories/Proofs/GammaNaN.v
theories/Proofs/GammaNaNExamples.v
theories/Proofs/GammaPQ.v
theories/Proofs/GammaPoly.v
theories/Proofs/GammaRange.v
theories/Proofs/GammaSign.v
theories/Proofs/GammaThms.v
theories/Proofs/GammpAcc.v
theories/Proofs/GammpAll.v
theories/Proofs/GaussInt.v
theories/Proofs/GcfAcc.v
theories/Proofs/GcfBounds.v
theories/Proofs/GcfLoop.v
theories/Proofs/GcfReal.v
theories/Proofs/GcfThms.v
theories/Proofs/GserAcc.v
theories/Proofs/Horner.v
theories/Proofs/HornerErr.v
theories/Proofs/ILarge.v
theories/Proofs/ILargeThms.v
theories/Proofs/IRat.v
theories/Proofs/Ideal.v
theories/Proofs/InAcc.v
theories/Proofs/InThms.v
theories/Proofs/IncGamma.v
theories/Proofs/IncGammaTotal.v
theories/Proofs/InvGammaPanic.v
theories/Proofs/InvGammaTiny.v
theories/Proofs/InvGuess.v
theories/Proofs/InvHalley.v
theories/Proofs/InvMain.v
theories/Proofs/InvThms.v
theories/Proofs/JYLarge.v
theories/Proofs/JYLargeThms.v
theories/Proofs/JYUp.v
theories/Proofs/JYUpThms.v
theories/Proofs/JYanch.v
theories/Proofs/JYasym.v
theories/Proofs/JYode.v
theories/Proofs/JYrat.v
theories/Proofs/JnAcc.v
theories/Proofs/JnThms.v
theories/Proofs/KAcc.v
theories/Proofs/KHalf.v
theories/Proofs/KHalfDeriv.v
theories/Proofs/KHalfI.v
theories/Proofs/KHalfOver.v
theories/Proofs/KHalfRec.v
theories/Proofs/KHalfThms.v
theories/Proofs/KLarge.v
theories/Proofs/KLargeThms.v
theories/Proofs/KPoly.v
theories/Proofs/KRat.v
theories/Proofs/KnAcc.v
theories/Proofs/Lanczos.v
theories/Proofs/Lits.v
theories/Proofs/LnGammaAcc.v
theories/Proofs/LnGammaFl.v
theories/Proofs/LnGammaThms.v
theories/Proofs/Miller.v
theories/Proofs/MillerJ.v
theories/Proofs/NuLargeOrder.v
theories/Proofs/NuPanic.v
theories/Proofs/NuTiny.v
theories/Proofs/PiBounds.v
theories/Proofs/Poly.v
theories/Proofs/PolyShift.v
theories/Proofs/PolyTree.v
theories/Proofs/PolyZ.v
theories/Proofs/PosHorner.v
theories/Proofs/RatODE.v
theories/Proofs/RoundTrip.v
theories/Proofs/SecondRat.v
theories/Proofs/SecondSeries.v
theories/Proofs/SecondThms.v
theories/Proofs/Stirling.v
theories/Proofs/StirlingConst.v
theories/Proofs/Symmetry.v
theories/Proofs/UtilsBits.v
theories/Proofs/UtilsExamples.v
theories/Proofs/UtilsSpec.v
theories/Proofs/Wronskian.v
theories/Proofs/WronskianExamples.v
theories/Proofs/YAcc.v
theories/Proofs/YnAcc.v
theories/Proofs/YnNaN.v
theories/Proofs/YnThms.v
theories/Props/AccuracyProps.v
theories/Props/BesselAccProps.v
theories/Props/BesselNuProps.v
theories/Props/BesselProps.v
theories/Props/BetaProps.v
theories/Props/BetaiAccProps.v
theories/Props/BetaiProps.v
theories/Props/CacheProps.v
theories/Props/DawsonLargeProps.v
theories/Props/DawsonProps.v
theories/Props/ErfcxProps.v
theories/Props/ErrorProps.v
theories/Props/ExactProps.v
theories/Props/FactorialProps.v
theories/Props/FaddeevaAxesProps.v
theories/Props/FaddeevaProps.v
theories/Props/GammaFnProps.v
theories/Props/GammaProps.v
theories/Props/ILargeProps.v
theories/Props/InAccProps.v
theories/Props/IncGammaProps.v
theories/Props/InvGammaProps.v
theories/Props/InverseProps.v
theories/Props/JYLargeProps.v
theories/Props/JYUpProps.v
theories/Props/JnAccProps.v
theories/Props/KHalfProps.v
theories/Props/KLargeProps.v
theories/Props/NuLargeOrderProps.v
theories/Props/RoundTripProps.v
theories/Props/SecondProps.v
theories/Props/UtilsProps.v
theories/Props/YnNaNProps.v
theories/Props/YnProps.v
