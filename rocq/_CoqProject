-Q theories Verif
theories/Arr.v
theories/ArrFacts.v
theories/Spec.v
theories/Numpy.v
theories/Pnnls.v
theories/GeomUtils.v
theories/SpecGeom.v
theories/Polyhedron.v
theories/PnnlsFacts.v
theories/QpFacts.v
theories/Oracle.v
theories/SolverThms.v
theories/PropsSolver.v
theories/PolyThms.v
theories/PropsPoly.v
theories/NullFacts.v
theories/PolySolveThms.v
theories/PropsPolySolve.v
theories/PolySetThms.v
theories/PropsPolySet.v
theories/PolyBoundThms.v
theories/PropsPolyBound.v
theories/PolyChebThms.v
theories/PropsPolyCheb.v
theories/PolyCacheThms.v
theories/PropsPolyCache.v
theories/PolyVertThms.v
theories/PropsPolyVert.v
theories/SpecDyn.v
theories/Dynamics.v
theories/DynThms.v
theories/PropsDyn.v
theories/CondenseThms.v
theories/PropsCondense.v
theories/PolyMore.v
theories/McaisThms.v
theories/PropsMcais.v
theories/WellThms.v
theories/PropsWell.v
theories/LqrThms.v
theories/PropsLqr.v
theories/ZohThms.v
theories/PropsZoh.v
theories/Mpqp.v
theories/Projection.v
theories/SpecMpc.v
theories/MpqpThms.v
theories/PropsMpqp.v
theories/Controllers.v
theories/CtrlThms.v
theories/PropsCtrl.v
theories/Gurobi.v
theories/Programs.v
theories/SpecProg.v
theories/ProgThms.v
theories/PropsProg.v
theories/Hybrid.v
theories/HybridThms.v
theories/PropsHybrid.v
theories/HybridOptThms.v
theories/PropsHybridOpt.v
theories/SpecLoop.v
theories/HybridLoopThms.v
theories/PropsHybridLoop.v
theories/Workflow.v
theories/WorkThms.v
theories/PropsWork.v
theories/GeomThms.v
theories/HullOracle.v
theories/SpecVert.v
theories/VertOracle.v
theories/VertFacts.v
theories/VertThms.v
theories/PropsVert.v
theories/ProjThms.v
theories/PropsProj.v
theories/ProjSkipThms.v
theories/PropsProjSkip.v
theories/PropsGeom.v
theories/Voronoi.v
theories/VorThms.v
theories/PropsVor.v
theories/ExampleCtrl.v
theories/ExThms.v
theories/PropsEx.v
theories/SpecSym.v
theories/Symbolic.v
theories/SymThms.v
theories/PropsSym.v
theories/Heap.v
theories/HeapThms.v
theories/PropsHeap.v
theories/SpecKkt.v
theories/Drake.v
theories/DrakeThms.v
theories/PropsDrake.v
theories/NeighThms.v
theories/TermThms.v
theories/PropsTerm.v
theories/PropsNeigh.v
theories/TolThms.v
theories/PropsTol.v
theories/DareThms.v
theories/PropsDare.v
theories/SpecPlot.v
theories/Plots.v
theories/PlotThms.v
theories/PropsPlot.v
theories/PolyPlotThms.v
theories/PropsPolyPlot.v
theories/PlanarThms.v
theories/PropsPlanar.v
theories/CtrlPlotThms.v
theories/PropsCtrlPlot.v
theories/SpecDisj.v
theories/Disj.v
theories/DisjThms.v
theories/PropsDisj.v
theories/Notebooks.v
theories/NoteThms.v
theories/PropsNote.v
theories/ExplThms.v
theories/PropsExpl.v
theories/MembThms.v
theories/PropsMemb.v
theories/CoverThms.v
theories/PropsCover.v
theories/ContThms.v
theories/PropsCont.v
theories/HorizonThms.v
theories/PropsHorizon.v
theories/LawThms.v
theories/PropsLaw.v
theories/EquivThms.v
theories/PropsEquiv.v
theories/HybLinThms.v
theories/PropsHybLin.v
theories/ExLoopThms.v
theories/PropsExLoop.v
theories/CartPole.v
theories/CartThms.v
theories/PropsCart.v
theories/SampThms.v
theories/PropsSamp.v
theories/ExampleState.v
theories/ExStateThms.v
theories/PropsExState.v
theories/RegionThms.v
theories/PropsRegion.v
theories/MembOpThms.v
theories/PropsMembOp.v
theories/OdeThms.v
theories/PropsOde.v
theories/AgreeThms.v
theories/PropsAgree.v
theories/Walls.v
theories/WallThms.v
theories/PropsWall.v
theories/EntryThms.v
theories/PropsEntry.v
theories/SpecEig.v
theories/FtaThms.v
theories/PropsFta.v
theories/EigThms.v
theories/PropsEig.v
theories/SpectralThms.v
theories/PropsSpectral.v
theories/ContractThms.v
theories/PropsContract.v
theories/SpecRound.v
theories/Round.v
theories/RoundThms.v
theories/PropsRound.v
theories/Round64.v
theories/Round64Thms.v
theories/PropsRound64.v
theories/RoundSimThms.v
theories/PropsRoundSim.v
theories/RoundPwaThms.v
theories/PropsRoundPwa.v
theories/SpecCart.v
theories/CartDyn.v
theories/CartDynThms.v
theories/PropsCartDyn.v
theories/LocalThms.v
theories/PropsLocal.v
theories/ElasticThms.v
theories/PropsElastic.v
theories/PlantThms.v
theories/PropsPlant.v
theories/SpecHold.v
theories/HoldThms.v
theories/PropsHold.v
theories/CartHoldThms.v
theories/PropsCartHold.v
theories/SpecOrigin.v
theories/OriginThms.v
theories/PropsOrigin.v
theories/CartOriginThms.v
theories/PropsCartOrigin.v
theories/CartNumThms.v
theories/PropsCartNum.v
theories/RoundExpl.v
theories/RoundExplThms.v
theories/PropsRoundExpl.v
theories/RobustThms.v
theories/PropsRobust.v
theories/RoundLoopThms.v
theories/PropsRoundLoop.v
theories/ExplGapThms.v
theories/PropsExplGap.v
theories/ExplValThms.v
theories/PropsExplVal.v
theories/SpecValue.v
theories/RoundValue.v
theories/RowsThms.v
theories/PropsRows.v
theories/RoundValThms.v
theories/PropsRoundVal.v
theories/SpecHyb.v
theories/HybEquivThms.v
theories/PropsHybEquiv.v
theories/RobustMarginThms.v
theories/PropsRobustMargin.v
theories/HybAgreeThms.v
theories/PropsHybAgree.v
theories/HybTieThms.v
theories/PropsHybTie.v
theories/McaisLawThms.v
theories/PropsMcaisLaw.v
theories/ProjIndex.v
theories/ProjIndexThms.v
theories/PropsProjIndex.v
theories/WallAssertThms.v
theories/PropsWallAssert.v
theories/McaisProdThms.v
theories/PropsMcaisProd.v
theories/UnitTests.v
