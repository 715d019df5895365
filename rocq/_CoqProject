-Q theories Verif
theories/F64.v
theories/PyParams.v
theories/Integrals.v
theories/PySet.v
theories/PyState.v
theories/PySpec.v
theories/PyWrites.v
theories/PyCoherence.v
theories/PyCovCoherence.v
theories/PyAlways.v
theories/PyValid.v
theories/PyUnless.v
theories/PyFresh.v
theories/Props_Cache.v
theories/Props_Valid.v
theories/Config.v
theories/ConfigLemmas.v
theories/Trip.v
theories/Props_Config.v
theories/Props_Trip.v
theories/Arrays.v
theories/Sched.v
theories/Drivers.v
theories/Accel.v
theories/Props_Drivers.v
theories/CExpr.v
theories/Terms.v
theories/Signal.v
theories/TermsMeta.v
theories/TermsSum.v
theories/Additive.v
theories/SignalSum.v
theories/Lookup.v
theories/Uses.v
theories/Exchange.v
theories/ExchangeSignal.v
theories/Built.v
theories/Weights.v
theories/Props_Terms.v
theories/FileIO.v
theories/FileLemmas.v
theories/Output.v
theories/Props_Files.v
theories/Props_Reset.v
theories/Coupling.v
theories/Numeric.v
theories/Props_Numeric.v
theories/Covariance.v
theories/CovLemmas.v
theories/Props_Cov.v
theories/Props_Gauss.v
theories/Props_Positive.v
theories/Fft.v
theories/Props_Fft.v
theories/Props_Fft2.v
theories/Tanhsinh.v
theories/TanhsinhLemmas.v
theories/Props_Quad.v
theories/Background.v
theories/Props_Background.v
theories/Fit.v
theories/Props_Fit.v
theories/ClassConfig.v
theories/PyKeep.v
theories/Props_Class.v
theories/Tables.v
theories/Props_Tables.v
theories/Props_Values.v
theories/Parser.v
theories/ParserLemmas.v
theories/Props_Parser.v
theories/Main.v
theories/MainLemmas.v
theories/Props_Main.v
theories/Bounds.v
theories/Props_Bounds.v
theories/Legendre.v
theories/Kernels.v
theories/Props_Kernels.v
theories/Multipoles.v
theories/Flat.v
theories/Props_Multipoles.v
theories/Props_Options.v
theories/Props_Limit.v
theories/Evolved.v
theories/Props_Evolved.v
theories/Sonine.v
theories/Lensing.v
theories/LensingTerms.v
theories/Props_Lensing.v
theories/Props_Rerun.v
theories/Props_Crash.v
theories/LogGamma.v
theories/Props_LogGamma.v
theories/Memory.v
theories/MemoryLemmas.v
theories/MemorySteps.v
theories/MemoryTidy.v
theories/Props_Memory.v
theories/Rounding.v
theories/Nodes.v
theories/Cli.v
theories/Props_Cli.v
theories/Props_Rounding.v
theories/Meet.v
theories/Props_Meet.v
theories/Props_Threshold.v
theories/Props_Nonlinear.v
theories/Props_Along.v
theories/Props_Field.v
theories/Props_Near.v
theories/Representation.v
theories/Props_Representation.v
