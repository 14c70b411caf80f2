-Q theories Verif
theories/PyBase.v
theories/PyBaseFacts.v
theories/Params.v
theories/ParamsFacts.v
theories/PropParams.v
theories/QcLib.v
theories/FDMatrix.v
theories/FDMatrixFacts.v
theories/FDCoeffs.v
theories/FDCoeffsFacts.v
theories/FDOpsFacts.v
theories/PropFD.v
theories/IndexedExp.v
theories/IndexedExpFacts.v
theories/Inverter.v
theories/InverterFacts.v
theories/PropIndexedExp.v
theories/Grid.v
theories/GridFacts.v
theories/GridTensorFacts.v
theories/PropGrid.v
theories/PyList.v
theories/PyListFacts.v
theories/FDRead.v
theories/FDReadFacts.v
theories/FDReadMem.v
theories/PropFDRead.v
theories/Functional.v
theories/FunctionalFacts.v
theories/Loop.v
theories/LoopFacts.v
theories/PropFunctional.v
theories/ExprTree.v
theories/ExprTreeFacts.v
theories/PropExprTree.v
theories/Simd.v
theories/SimdFacts.v
theories/PropSimd.v
theories/Cse.v
theories/CseFacts.v
theories/CsePostFacts.v
theories/CsePreFacts.v
theories/PropCse.v
theories/Parallel.v
theories/ParallelFacts.v
theories/PropParallel.v
theories/CacheFS.v
theories/PropCacheFS.v
theories/CFunction.v
theories/CFunctionFacts.v
theories/PropCFunction.v
theories/Generic.v
theories/PropGeneric.v
theories/MoL.v
theories/MoLFacts.v
theories/Butcher.v
theories/ButcherFacts.v
theories/ButcherOrder.v
theories/ButcherCompute.v
theories/PropMoL.v
theories/PropButcher.v
theories/PropButcherNear.v
theories/PropTexts.v
theories/BSSNLamAlg.v
theories/PropBSSNLam.v
theories/PropAB.v
theories/Chare.v
theories/ChareFacts.v
theories/ChareCoord.v
theories/PropChare.v
theories/BCs.v
theories/BCsFacts.v
theories/PropBCs.v
theories/Checkpoint.v
theories/PropCheckpoint.v
theories/Registry.v
theories/RegistryFacts.v
theories/PropRegistry.v
theories/PropRegistryText.v
theories/PropCodeParams.v
theories/Planes.v
theories/PropPlanes.v
theories/CPow.v
theories/PropCPow.v
theories/Kernel.v
theories/KernelFacts.v
theories/KernelGen.v
theories/KernelSound.v
theories/PropKernel.v
theories/Intrinsics.v
theories/IntrinsicsFacts.v
theories/PropIntrinsics.v
theories/SimdLoop.v
theories/SimdLoopFacts.v
theories/PropSimdLoop.v
theories/RfmPrecompute.v
theories/RfmPrecomputeFacts.v
theories/PropRfmPrecompute.v
theories/RefMetric.v
theories/RefMetricReal.v
theories/RefMetricCalc.v
theories/RefMetricFacts.v
theories/RefMetricInvFacts.v
theories/RefMetricFlat.v
theories/RefMetricAccept.v
theories/PropRefMetric.v
theories/RefMetricPre.v
theories/RefMetricPreFacts.v
theories/RefMetricPreKinds.v
theories/RefMetricPreVals.v
theories/PropRefMetricPre.v
theories/GRMetric.v
theories/GRMetricFacts.v
theories/PropGRMetric.v
theories/BSSN.v
theories/BSSNFacts.v
theories/PropBSSNConv.v
theories/BSSNCalc.v
theories/BSSNGeo.v
theories/BSSNInv.v
theories/BSSNConn.v
theories/PropBSSNDeriv.v
theories/BSSNRicci.v
theories/BSSNRicciFacts.v
theories/PropBSSNRicci.v
theories/BSSNEvolAlg.v
theories/BSSNMomAlg.v
theories/BSSNPhys.v
theories/BSSNTime.v
theories/BSSNEvolEx.v
theories/PropBSSNEvol.v
theories/BSSNConstraints.v
theories/PropBSSNAdm.v
theories/T4munu.v
theories/T4munuFacts.v
theories/PropT4munu.v
theories/BSSNGauge.v
theories/BSSNGaugeFacts.v
theories/PropBSSNGauge.v
theories/WaveEquation.v
theories/WaveFacts.v
theories/PropWaveEquation.v
theories/NRPyElliptic.v
theories/NRPyEllipticFacts.v
theories/PropNRPyElliptic.v
theories/LorentzBoost.v
theories/PropLorentzBoost.v
theories/TensorRotation.v
theories/PropTensorRotation.v
theories/GRHD.v
theories/PropPiecewise.v
theories/PropHLL.v
theories/PropGRHD.v
theories/Jacobians.v
theories/PropJacobians.v
theories/ValidateExpr.v
theories/PropValidateExpr.v
theories/InitialData.v
theories/PropInitialData.v
theories/PropInitialKerr.v
theories/PropInitialUIUC.v
theories/PropInitialBL.v
theories/Psi4.v
theories/PropPsi4Tetrad.v
theories/PropPsi4.v
theories/SpinHarmonics.v
theories/SpinHarmonicsFacts.v
theories/SpinHarmonicsNorm.v
theories/PropSpinHarmonics.v
theories/TOVEquations.v
theories/PropTOV.v
theories/Tovola.v
theories/PropTovola.v
theories/Parfile.v
theories/ParfileFacts.v
theories/PropParfile.v
theories/PropParfileDefault.v
theories/PropParfileLimits.v
theories/TPCoord.v
theories/PropTPCoord.v
theories/Schedule.v
theories/PropSchedule.v
theories/ParamCCL.v
theories/PropParamCCL.v
theories/Interface.v
theories/PropInterface.v
