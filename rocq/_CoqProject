-Q theories Verif

theories/Model/Adiabats.v
theories/Model/ApplyFloors.v
theories/Model/Bondi.v
theories/Model/Boundary.v
theories/Model/BoundaryConvert.v
theories/Model/BoundaryDeck.v
theories/Model/BoyerLindquist.v
theories/Model/C2PStats.v
theories/Model/Cached.v
theories/Model/Con2PrimClassic.v
theories/Model/Con2PrimRobust.v
theories/Model/Config.v
theories/Model/DataBox.v
theories/Model/Decomposition.v
theories/Model/Driver.v
theories/Model/Equilibration.v
theories/Model/Fixup.v
theories/Model/FixupRad.v
theories/Model/Floors.v
theories/Model/FluidSource.v
theories/Model/FluxFix.v
theories/Model/FluxKernel.v
theories/Model/FmksSetup.v
theories/Model/Geodesics.v
theories/Model/Geometry.v
theories/Model/GeometryDeck.v
theories/Model/History.v
theories/Model/Interpolation.v
theories/Model/LightBulb.v
theories/Model/LinearAlgebra.v
theories/Model/LinearModes.v
theories/Model/MOCMC.v
theories/Model/Modified.v
theories/Model/MomentOpacities.v
theories/Model/MonopoleGR.v
theories/Model/MonteCarlo.v
theories/Model/NetField.v
theories/Model/NeutrinoDecks.v
theories/Model/Num.v
theories/Model/Opacity.v
theories/Model/OutputDiag.v
theories/Model/ParFor.v
theories/Model/PostStep.v
theories/Model/Prim2Con.v
theories/Model/Progenitor.v
theories/Model/RadClosure.v
theories/Model/RadSource.v
theories/Model/RadTimestep.v
theories/Model/RadTransport.v
theories/Model/ReconIEEE.v
theories/Model/Reconstruction.v
theories/Model/Relativity.v
theories/Model/Riemann.v
theories/Model/Robust.v
theories/Model/RootFind.v
theories/Model/RootFindITP.v
theories/Model/SelfCheck.v
theories/Model/Startup.v
theories/Model/TOV.v
theories/Model/TestProblems.v
theories/Model/Tetrads.v
theories/Model/Torus.v
theories/Model/TracerSeed.v
theories/Model/Tracers.v
theories/Model/Units.v
theories/Spec/AdiabatSpec.v
theories/Spec/BoundaryDeckSpec.v
theories/Spec/BoundarySpec.v
theories/Spec/CacheSpec.v
theories/Spec/ConfigSpec.v
theories/Spec/Conservation.v
theories/Spec/DecompositionSpec.v
theories/Spec/EquilibriumSpec.v
theories/Spec/ExpandSpec.v
theories/Spec/FixupSpec.v
theories/Spec/FloorSpec.v
theories/Spec/FluxSpec.v
theories/Spec/GRMHD.v
theories/Spec/GeodesicSpec.v
theories/Spec/GeomSpec.v
theories/Spec/GeometryDeckSpec.v
theories/Spec/HistorySpec.v
theories/Spec/Hypersurface.v
theories/Spec/InterpSpec.v
theories/Spec/MomentOpacitySpec.v
theories/Spec/MonteCarloSpec.v
theories/Spec/NetSpec.v
theories/Spec/NeutrinoSpec.v
theories/Spec/OpacitySpec.v
theories/Spec/OrbitSpec.v
theories/Spec/OutputSpec.v
theories/Spec/PostStepSpec.v
theories/Spec/RadExchange.v
theories/Spec/RadSource.v
theories/Spec/RadSpec.v
theories/Spec/RadTransportSpec.v
theories/Spec/ReconSpec.v
theories/Spec/Relativity.v
theories/Spec/RootSpec.v
theories/Spec/SeedSpec.v
theories/Spec/SelfCheckSpec.v
theories/Spec/SphereSpec.v
theories/Spec/StarSpec.v
theories/Spec/StartupSpec.v
theories/Spec/StatsSpec.v
theories/Spec/StepSpec.v
theories/Spec/SystemSpec.v
theories/Spec/Tensor.v
theories/Spec/TilingSpec.v
theories/Spec/TracerSpec.v
theories/Spec/UnitsSpec.v
theories/Spec/WaveSpec.v
theories/Proofs/AdmProofs.v
theories/Proofs/BLProofs.v
theories/Proofs/BoundaryDeckProofs.v
theories/Proofs/BoundaryProofs.v
theories/Proofs/C2PSolve.v
theories/Proofs/C2PUnique.v
theories/Proofs/CachedProofs.v
theories/Proofs/ClassicInverse.v
theories/Proofs/ClassicProofs.v
theories/Proofs/Con2PrimProofs.v
theories/Proofs/ConfigProofs.v
theories/Proofs/CurvatureProofs.v
theories/Proofs/DataBoxProofs.v
theories/Proofs/ExpandProofs.v
theories/Proofs/FDProofs.v
theories/Proofs/FaceProofs.v
theories/Proofs/FixupProofs.v
theories/Proofs/FlatWitness.v
theories/Proofs/FloorProofs.v
theories/Proofs/FluxCTProofs.v
theories/Proofs/FluxFixProofs.v
theories/Proofs/FmksVelocity.v
theories/Proofs/GeomBase.v
theories/Proofs/GeomDeriv.v
theories/Proofs/GeomSystems.v
theories/Proofs/InterpProofs.v
theories/Proofs/LightBulbProofs.v
theories/Proofs/LinearAlgebraProofs.v
theories/Proofs/MOCMCGrid.v
theories/Proofs/MOCMCProofs.v
theories/Proofs/ModifiedProofs.v
theories/Proofs/Mp5B64.v
theories/Proofs/NumB64.v
theories/Proofs/NumR.v
theories/Proofs/OrbitProofs.v
theories/Proofs/P2CSimple.v
theories/Proofs/ParForProofs.v
theories/Proofs/Prim2ConProofs.v
theories/Proofs/RadProofs.v
theories/Proofs/ReconB64.v
theories/Proofs/ReconProofs.v
theories/Proofs/ReconWitness.v
theories/Proofs/ReflectProofs.v
theories/Proofs/RelProofs.v
theories/Proofs/RelativityProofs.v
theories/Proofs/RiemannProofs.v
theories/Proofs/RobustProofs.v
theories/Proofs/RootFindB64.v
theories/Proofs/RootFindProofs.v
theories/Proofs/SignalProofs.v
theories/Proofs/SourceProofs.v
theories/Proofs/SumProofs.v
theories/Proofs/TensorTac.v
theories/Proofs/TetradProofs.v
theories/Proofs/ThomasProofs.v
theories/Proofs/TorusProofs.v
theories/Proofs/TransformProofs.v
theories/Proofs/WaveProofs.v
theories/Proofs/WenoB64.v
theories/Proofs/WenoB64b.v
theories/Properties/P_Adiabats.v
theories/Properties/P_Bondi.v
theories/Properties/P_Boundary.v
theories/Properties/P_BoundaryConvert.v
theories/Properties/P_BoundaryDeck.v
theories/Properties/P_BoyerLindquist.v
theories/Properties/P_BoyerLindquistTime.v
theories/Properties/P_C2PStats.v
theories/Properties/P_Cached.v
theories/Properties/P_ClassicIEEE.v
theories/Properties/P_ClassicNewton.v
theories/Properties/P_ClassicSpeeds.v
theories/Properties/P_Con2Prim.v
theories/Properties/P_Con2PrimClassic.v
theories/Properties/P_Con2PrimUnique.v
theories/Properties/P_Config.v
theories/Properties/P_ConfigFluid.v
theories/Properties/P_Decomposition.v
theories/Properties/P_DecompositionFlux.v
theories/Properties/P_Driver.v
theories/Properties/P_Equilibration.v
theories/Properties/P_FaceCeiling.v
theories/Properties/P_FaceLimits.v
theories/Properties/P_FaceWaves.v
theories/Properties/P_Fixup.v
theories/Properties/P_FixupRad.v
theories/Properties/P_FixupSource.v
theories/Properties/P_Floors.v
theories/Properties/P_FloorsMagnetic.v
theories/Properties/P_FluxCT.v
theories/Properties/P_FluxFix.v
theories/Properties/P_FluxKernel.v
theories/Properties/P_FluxPositivity.v
theories/Properties/P_FmksSetup.v
theories/Properties/P_GRMHD.v
theories/Properties/P_Geodesics.v
theories/Properties/P_Geometry.v
theories/Properties/P_GeometryDeck.v
theories/Properties/P_History.v
theories/Properties/P_Interp.v
theories/Properties/P_LightBulb.v
theories/Properties/P_LinAlg.v
theories/Properties/P_LinearModes.v
theories/Properties/P_MOCMC.v
theories/Properties/P_MOCMCSource.v
theories/Properties/P_MOCMCTiling.v
theories/Properties/P_MomentOpacities.v
theories/Properties/P_Monopole.v
theories/Properties/P_MonopoleData.v
theories/Properties/P_MonopoleRates.v
theories/Properties/P_MonteCarlo.v
theories/Properties/P_NetField.v
theories/Properties/P_NeutrinoDecks.v
theories/Properties/P_Opacity.v
theories/Properties/P_OutputDiag.v
theories/Properties/P_PostStep.v
theories/Properties/P_Progenitor.v
theories/Properties/P_RadClosure.v
theories/Properties/P_RadExchange.v
theories/Properties/P_RadExchangeExact.v
theories/Properties/P_RadFlux.v
theories/Properties/P_RadImplicit.v
theories/Properties/P_RadStationary.v
theories/Properties/P_RadTimestep.v
theories/Properties/P_RadTransform.v
theories/Properties/P_RadTransport.v
theories/Properties/P_Recon.v
theories/Properties/P_ReconIEEE.v
theories/Properties/P_Relativity.v
theories/Properties/P_Riemann.v
theories/Properties/P_Robust.v
theories/Properties/P_RootFind.v
theories/Properties/P_SelfCheck.v
theories/Properties/P_Source.v
theories/Properties/P_Startup.v
theories/Properties/P_TOV.v
theories/Properties/P_TestFlows.v
theories/Properties/P_TestProblems.v
theories/Properties/P_Tetrads.v
theories/Properties/P_Torus.v
theories/Properties/P_TorusSetup.v
theories/Properties/P_TracerSeed.v
theories/Properties/P_Tracers.v
theories/Properties/P_Units.v
theories/Properties/P_WaveCharts.v
theories/Properties/P_WenoIEEE.v
