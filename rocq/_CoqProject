-Q theories Verif
theories/Base.v
theories/RInst.v
theories/QcInst.v
theories/FloatInst.v
theories/AdvanceModel.v
theories/AdvanceSpec.v
theories/AdvanceProofs.v
theories/TargetProofs.v
theories/TargetReal.v
theories/AdvanceExtra.v
theories/AdvanceRetry.v
theories/PropAdvance.v
theories/ExAdvance.v
theories/Laws.v
theories/LawInst.v
theories/Compose.v
theories/ExplicitModel.v
theories/ExplicitSpec.v
theories/ExplicitProofs.v
theories/ExplicitOrder.v
theories/ExplicitExtra.v
theories/PropExplicit.v
theories/ExExplicit.v
theories/ImplicitModel.v
theories/ImplicitSpec.v
theories/ImplicitProofs.v
theories/ImplicitRefine.v
theories/ImplicitExtra.v
theories/Track.v
theories/ImplicitRun.v
theories/ImplicitMore.v
theories/ImplicitClaims.v
theories/ImplicitWitness.v
theories/PropImplicit.v
theories/ExImplicit.v
theories/NonlinDiag.v
theories/NonlinModel.v
theories/NonlinWp.v
theories/NonlinDiagProofs.v
theories/NonlinSpec.v
theories/NonlinProofs.v
theories/NonlinSolve.v
theories/NonlinLines.v
theories/NonlinClaims.v
theories/NonlinRuns.v
theories/NonlinSeq.v
theories/NonlinFollow.v
theories/NonlinLaws.v
theories/NonlinExact.v
theories/NonlinReal.v
theories/NonlinTheory.v
theories/NonlinRest.v
theories/Tuples.v
theories/NonlinWitness.v
theories/NonlinMoreSpec.v
theories/NonlinMore.v
theories/NonlinStep.v
theories/NonlinWitness2.v
theories/NonlinCont.v
theories/NonlinFinal.v
theories/PropNonlin.v
theories/QrModel.v
theories/QrSpec.v
theories/QrProofs.v
theories/QrSolve.v
theories/QrExts.v
theories/QrEnd.v
theories/QrReuse.v
theories/PropQr.v
theories/ExNonlin.v
theories/MatrixFreeModel.v
theories/MatrixFreeSpec.v
theories/MatrixFreeProofs.v
theories/PropMatrixFree.v
theories/ExMatrixFree.v
theories/SubspaceModel.v
theories/SubspaceSpec.v
theories/SubspaceProofs.v
theories/SubspaceClaims.v
theories/PropSubspace.v
theories/ExSubspace.v
theories/RomSpec.v
theories/RomDeriv.v
theories/LspgModel.v
theories/LspgSpec.v
theories/LspgProofs.v
theories/LspgInst.v
theories/LspgClaims.v
theories/LspgWitness.v
theories/LspgMore.v
theories/LspgAsks.v
theories/PropLspg.v
theories/ExLspg.v
theories/ImplicitSim.v
theories/GalerkinModel.v
theories/GalerkinSpec.v
theories/GalerkinProofs.v
theories/GalerkinClaims.v
theories/GalerkinOrtho.v
theories/ProblemObjects.v
theories/ProblemObjectsSpec.v
theories/ProblemObjectsProofs.v
theories/PropGalerkin.v
theories/ExGalerkin.v
theories/LinearRomModel.v
theories/LinearRomSpec.v
theories/LinearRomProofs.v
theories/LinearRomWitness.v
theories/PropLinearRom.v
theories/ExLinearRom.v
theories/ReconModel.v
theories/ReconSpec.v
theories/ReconProofs.v
theories/ReconWitness.v
theories/PropRecon.v
theories/ExRecon.v
theories/FactoryModel.v
theories/FactorySpec.v
theories/FactoryProofs.v
theories/PropFactory.v
theories/ExFactory.v
theories/SteadyLspgModel.v
theories/SteadyLspgSpec.v
theories/SteadyLspgProofs.v
theories/SteadyLspgSolve.v
theories/TrilinosModel.v
theories/TrilinosSpec.v
theories/TrilinosProofs.v
theories/PropSteady.v
theories/ExSteady.v
theories/LinsolveModel.v
theories/LinsolveSpec.v
theories/LinsolveProofs.v
theories/LinsolveMore.v
theories/LapackInst.v
theories/PropLinsolve.v
theories/ExLinsolve.v
theories/StencilModel.v
theories/StencilSpec.v
theories/StencilProofs.v
theories/PropStencil.v
theories/ExStencil.v
theories/ReuseSpec.v
theories/ReuseProofs.v
theories/ReuseProofs2.v
theories/PropReuse.v
theories/ExReuse.v
theories/RomExactProofs.v
theories/RomExactClaims.v
theories/RomExactWitness.v
theories/PropRomExact.v
theories/ExRomExact.v
theories/StabilitySpec.v
theories/StabilityProofs.v
theories/StabilityRuns.v
theories/StabilityOrder.v
theories/StabilityPairs.v
theories/PropStability.v
theories/ExStability.v
theories/DissipSpec.v
theories/DissipProofs.v
theories/DissipChain.v
theories/DissipClaims.v
theories/DissipPairs.v
theories/PropDissip.v
theories/ExDissip.v
theories/RomErrorProofs.v
theories/RomErrorRuns.v
theories/RomErrorClaims.v
theories/PropRomError.v
theories/ExRomError.v
theories/RomRunSpec.v
theories/RomRunProofs.v
theories/RomRunClaims.v
theories/PropRomRun.v
theories/ExRomRun.v
theories/FactoryMore.v
theories/RomLsSpec.v
theories/CompleteRun.v
theories/ExactRun.v
theories/RomLsProofs.v
theories/RomLsClaims.v
theories/PropRomLs.v
theories/ExRomLs.v
theories/LinRunSpec.v
theories/LinRunProofs.v
theories/LinRunClaims.v
theories/PropLinRun.v
theories/ExLinRun.v
theories/RefineSim.v
theories/GalLinSpec.v
theories/GalLinProofs.v
theories/GalLinClaims.v
theories/PropGalLin.v
theories/ExGalLin.v
theories/SolverObjects.v
theories/SolverObjectsSpec.v
theories/SolverObjectsProofs.v
theories/SolverObjectsClaims.v
theories/PropSolverObjects.v
theories/ExSolverObjects.v
theories/ArbCreate.v
theories/PropArbCreate.v
theories/ExArbCreate.v
theories/LinsolveMf.v
theories/LinsolveMfSpec.v
theories/LinsolveMfProofs.v
theories/PropLinsolveMf.v
theories/ExLinsolveMf.v
theories/TupleMats.v
theories/LinGlue.v
theories/LinGlueProofs.v
theories/LinGlueRuns.v
theories/PropLinGlue.v
theories/ExLinGlue.v
theories/ArgsModel.v
theories/ArgsSpec.v
theories/ArgsProofs.v
theories/ArgsRefute.v
theories/PropArgs.v
theories/ExArgs.v
theories/HouseModel.v
theories/HouseSpec.v
theories/HouseProofs.v
theories/HouseSolve.v
theories/HouseEnd.v
theories/HouseExts.v
theories/HouseInst.v
theories/PropHouse.v
theories/ExHouse.v
theories/MoreSpec.v
theories/MoreClaims.v
theories/PropMore.v
theories/ExMore.v
theories/LinSizes.v
theories/PropLinSizes.v
theories/ExLinSizes.v
theories/NewtonSpec.v
theories/NewtonProofs.v
theories/NewtonClaims.v
theories/PropNewton.v
theories/ExNewton.v
theories/NewtonRunSpec.v
theories/NewtonRunProofs.v
theories/NewtonRunSteps.v
theories/NewtonRunDissip.v
theories/NewtonRunClaims.v
theories/PropNewtonRun.v
theories/ExNewtonRun.v
theories/LmSpec.v
theories/LmProofs.v
theories/LmClaims.v
theories/PropLm.v
theories/ExLm.v
theories/GalNewtonSpec.v
theories/GalNewtonProofs.v
theories/GalNewtonClaims.v
theories/PropGalNewton.v
theories/ExGalNewton.v
theories/OrderSpec.v
theories/OrderCalculus.v
theories/OrderTrees.v
theories/OrderProofs.v
theories/OrderClaims.v
theories/OrderTheorems.v
theories/PropOrder.v
theories/ExOrder.v
theories/NewtonBdf2.v
theories/PropNewtonBdf2.v
theories/ExOrderImpl.v
theories/RomOrder.v
theories/RomOrderExpl.v
theories/RomOrderClaims.v
theories/PropRomOrder.v
theories/ExRomOrder.v
theories/LmMats.v
theories/GaussSpec.v
theories/GaussProofs.v
theories/GaussClaims.v
theories/PropGauss.v
theories/ExGauss.v
theories/LspgGnSpec.v
theories/LspgGnProofs.v
theories/LspgGnClaims.v
theories/PropLspgGn.v
theories/ExLspgGn.v
theories/RomVarSpec.v
theories/RomVarProofs.v
theories/RomVarClaims.v
theories/PropRomVar.v
theories/ExRomVar.v
theories/SteadyNlSpec.v
theories/SteadyNlProofs.v
theories/SteadyNlClaims.v
theories/PropSteadyNl.v
theories/ExSteadyNl.v
theories/LspgErrSpec.v
theories/LspgErrProofs.v
theories/LspgErrClaims.v
theories/PropLspgErr.v
theories/ExLspgErr.v
theories/LspgBasisSpec.v
theories/LspgBasisProofs.v
theories/LspgBasisClaims.v
theories/PropLspgBasis.v
theories/ExLspgBasis.v
