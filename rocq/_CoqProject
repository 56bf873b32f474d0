-Q theories Verif

theories/Base.v
theories/Xr.v
theories/Samp.v
theories/Lgamma.v
theories/Prims.v
theories/Cgpm.v
theories/Lib.v
theories/SpecPrims.v
theories/PrimsInv.v
theories/PrimsDens.v
theories/NegBin.v
theories/PrimsThm.v
theories/PrimsThm2.v
theories/SpecComp.v
theories/CompInv.v
theories/CompDens.v
theories/PropPrims.v
theories/CompThm.v
theories/DemoComp.v
theories/PropComp.v
theories/SpecSim.v
theories/SimShape.v
theories/SimLaw.v
theories/SimTotal.v
theories/PropSim.v
theories/SpecBook.v
theories/Book.v
theories/PropBook.v
theories/SpecTable.v
theories/Trans.v
theories/SpecHist.v
theories/Table.v
theories/Gibbs.v
theories/Hist.v
theories/PropTable.v
theories/Query.v
theories/SpecQuery.v
theories/QueryThm.v
theories/PropQuery.v
theories/Args.v
theories/SpecArgs.v
theories/ArgsThm.v
theories/PropArgs.v
theories/Meta.v
theories/MetaThm.v
theories/Alias.v
theories/SpecMeta.v
theories/AliasThm.v
theories/PropMeta.v
theories/Chain.v
theories/SpecChain.v
theories/ChainThm.v
theories/ChainLaw.v
theories/PropChain.v
theories/Walks.v
theories/SpecWalks.v
theories/WalksThm.v
theories/PropWalks.v
theories/Views.v
theories/SpecViews.v
theories/ViewsThm.v
theories/ViewsThm2.v
theories/ViewsThm3.v
theories/ViewsThm4.v
theories/ViewsThm5.v
theories/PropViews.v
theories/Hypers.v
theories/SpecHypers.v
theories/HypersThm.v
theories/Crosscat.v
theories/HypersThm2.v
theories/PropHypers.v
theories/Progress.v
theories/SpecProgress.v
theories/ProgressThm.v
theories/PropProgress.v
theories/SpecCrosscat.v
theories/CrosscatThm.v
theories/CrosscatThm2.v
theories/CrosscatThm3.v
theories/PropCrosscat.v
theories/Cpp.v
theories/SpecCpp.v
theories/CppThm.v
theories/CppThm2.v
theories/CppThm3.v
theories/PropCpp.v
theories/Sample.v
theories/SpecSample.v
theories/SampleThm.v
theories/SampleThm2.v
theories/SampleThm3.v
theories/SampleThm4.v
theories/PropSample.v
theories/Ensemble.v
theories/SpecEnsemble.v
theories/EnsembleThm.v
theories/EnsembleThm2.v
theories/EnsembleThm3.v
theories/EnsembleThm4.v
theories/EnsembleThm5.v
theories/EnsembleThm6.v
theories/PropEnsemble.v
theories/Entropy.v
theories/SpecEntropy.v
theories/EntropyThm.v
theories/PropEntropy.v
theories/Regress.v
theories/SpecRegress.v
theories/RegressThm.v
theories/RegressThm2.v
theories/RegressThm3.v
theories/PropRegress.v
theories/Dsl.v
theories/SpecDsl.v
theories/DslThm.v
theories/DslThm2.v
theories/DslThm3.v
theories/DslThm4.v
theories/DslThm5.v
theories/PropDsl.v
theories/DslThm6.v
theories/DslThm7.v
theories/PropDsl2.v
theories/Matrix.v
theories/RegressThm4.v
theories/RegressThm5.v
theories/PropRegress2.v
theories/Integral.v
theories/SpecDensity.v
theories/Integral2.v
theories/Marginal.v
theories/Marginal2.v
theories/PropDensity.v
theories/CrosscatThm4.v
theories/SpecMoves.v
theories/ViewsLaw.v
theories/ViewsLaw2.v
theories/ViewsLaw3.v
theories/PropMoves.v
theories/RegressMeta.v
theories/SpecReload.v
theories/ReloadThm.v
theories/PropReload.v
theories/SpecNetScore.v
theories/NetScoreThm.v
theories/PropNetScore.v
theories/Depend.v
theories/SpecDepend.v
theories/DependThm.v
theories/DependThm2.v
theories/DependThm3.v
theories/DemoDepend.v
theories/PropDepend.v
theories/PropEngine.v
theories/SpecLatents.v
theories/LatentsThm.v
theories/PropLatents.v
theories/Ast.v
theories/SpecAst.v
theories/AstThm.v
theories/PropAst.v
theories/SpecMany.v
theories/ManyLaw.v
theories/ManyLaw2.v
theories/ManyLaw3.v
theories/ManyLaw4.v
theories/ManyLaw5.v
theories/ManyLaw6.v
theories/ManyLaw7.v
theories/PropMany.v
theories/SpecSame.v
theories/SameThm.v
theories/SameHist.v
theories/SameRel.v
theories/PropSame.v
theories/SpecPost.v
theories/PostThm.v
theories/PostThm2.v
theories/PostThm3.v
theories/PostThm4.v
theories/PropPost.v
theories/SpecError.v
theories/IidLaw.v
theories/ErrThm.v
theories/ErrThm2.v
theories/PropError.v
theories/SpecConv.v
theories/ConvThm.v
theories/PropConv.v
theories/SpecPasses.v
theories/PassThm.v
theories/PropPasses.v
theories/PropDividers.v
theories/JointThm.v
