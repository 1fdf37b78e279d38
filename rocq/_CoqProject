-Q theories Verif

theories/Base.v
theories/CoreModel.v
theories/OrderFacts.v
theories/CoreSpec.v
theories/CoreOrder.v
theories/CorePattern.v
theories/CoreText.v
theories/CoreFrame.v
theories/Properties_Core.v
theories/QualityModel.v
theories/QualitySpec.v
theories/QualityProofs.v
theories/BinomialModel.v
theories/BinomialProofs.v
theories/Properties_Quality.v
theories/VerticalModel.v
theories/VerticalSpec.v
theories/VerticalProofs.v
theories/SubgroupListModel.v
theories/SubgroupListSpec.v
theories/SubgroupListProofs.v
theories/Properties_Structures.v
theories/FPTreeModel.v
theories/SDMapModel.v
theories/FPTreeProofs.v
theories/FPGrowthProofs.v
theories/FPGrowthProofs2.v
theories/FPGrowthProofs3.v
theories/MiningSpec.v
theories/MiningProofs.v
theories/SDMapProofs.v
theories/Properties_SDMap.v
theories/SDMapStarModel.v
theories/SDMapStarProofs.v
theories/SDMapStarFit.v
theories/Properties_SDMapStar.v
theories/VLSDModel.v
theories/VLSDRel.v
theories/VLSDProofs.v
theories/VLSDTrace.v
theories/Properties_VLSD.v
theories/BSDModel.v
theories/BSDRows.v
theories/BSDProofs.v
theories/Properties_BSD.v
theories/BSDBest.v
theories/Properties_BSDBest.v
theories/ListModel.v
theories/ListSpec.v
theories/ListProofs.v
theories/Properties_Lists.v
theories/AbelProofs.v
theories/MDLSpec.v
theories/MDLModel.v
theories/MDLProofs.v
theories/MDLLoops.v
theories/Properties_MDL.v
theories/CredModel.v
theories/Properties_Cred.v
theories/IDSDModel.v
theories/IDSDTop.v
theories/IDSDSpec.v
theories/IDSDProofs.v
theories/IDSDFit.v
theories/Properties_IDSD.v
theories/Properties_Reduce.v
theories/QFinderModel.v
theories/QFinderSpec.v
theories/QFinderTop.v
theories/QFinderFit.v
theories/Properties_QFinder.v
theories/FileModel.v
theories/FileSpec.v
theories/FileProofs.v
theories/FileLoad.v
theories/VLSDLength.v
theories/Properties_Files.v
theories/SDIGAModel.v
theories/SDIGASpec.v
theories/SDIGAProofs.v
theories/SDIGASearch.v
theories/SDIGAMain.v
theories/Properties_SDIGA.v
theories/CoreExact.v
theories/PatternExact.v
theories/Properties_Exact.v
theories/ConstructorModel.v
theories/Properties_Constructors.v
theories/NodeModel.v
theories/Properties_Nodes.v
theories/Properties_Repeat.v
theories/FloatModel.v
theories/FloatProofs.v
theories/Properties_Float.v
theories/Properties_FloatAlg.v
theories/ReportModel.v
theories/ReportSpec.v
theories/ReportProofs.v
theories/Properties_Report.v
theories/VerticalText.v
theories/Properties_VerticalText.v
theories/SDMapStarErrors.v
theories/CrashModel.v
theories/CrashSpec.v
theories/CrashProofs.v
theories/CrashMiners.v
theories/CrashVLSD.v
theories/CrashStar.v
theories/Properties_Crash.v
theories/Properties_CrashVLSD.v
theories/Properties_CrashStar.v
theories/Properties_CrashOther.v
theories/Properties_Access.v
theories/SessionModel.v
theories/SessionProofs.v
theories/Properties_Session.v
theories/FloatBinomial.v
theories/FloatBinomialProofs.v
theories/Properties_FloatBinomial.v
theories/LabelModel.v
theories/LabelProofs.v
theories/Properties_Labels.v
theories/Properties_LabelsTrees.v
theories/Properties_Counters.v
theories/AliasModel.v
theories/AliasProofs.v
theories/AliasInv.v
theories/Properties_Alias.v
theories/FPTreeText.v
theories/TreeTextSpec.v
theories/FPTreeTextProofs.v
theories/Properties_TreeText.v
theories/Properties_FloatLists.v
theories/SingletonModel.v
theories/Properties_Singletons.v
theories/BSDSteps.v
theories/Properties_BSDSteps.v
theories/FitArgModel.v
theories/Properties_FitArgs.v
theories/RecursionModel.v
theories/RecursionProofs.v
theories/RecursionProofs2.v
theories/RecursionProofs3.v
theories/Properties_Recursion.v
theories/ReorderProofs.v
theories/Properties_Reorder.v
theories/CoreArgModel.v
theories/Properties_CoreArgs.v
theories/Properties_Monotone.v
theories/Properties_Relabel.v
theories/Properties_Columns.v
theories/Properties_Repeated.v
