-Q theories Verif
theories/Criterion.v
theories/Config.v
theories/EnumSpec.v
theories/EnumProofs.v
theories/PropEnums.v
theories/SeqFlow.v
theories/SeqSpec.v
theories/SeqDemo.v
theories/SeqProofs.v
theories/SeqProofs2.v
theories/SeqProofs3.v
theories/PropSeq.v
theories/ParFlow.v
theories/ParSpec.v
theories/ParDemo.v
theories/ParProofs.v
theories/ParProofs2.v
theories/ParDraws.v
theories/ParProofs3.v
theories/ParProofs4.v
theories/ParProofs5.v
theories/ParProofs6.v
theories/ParProofs7.v
theories/PropPar.v
theories/Schemes.v
theories/SchemesSpec.v
theories/SchemesProofs.v
theories/SchemesProofs2.v
theories/SchemesProofs3.v
theories/PropSchemes.v
theories/DDCheck.v
theories/DDSpec.v
theories/DDProofs.v
theories/DDProofs2.v
theories/DDProofs3.v
theories/DDProofs4.v
theories/DDProofs5.v
theories/DDProofs6.v
theories/Qubits.v
theories/QubitsProofs.v
theories/GateProofs.v
theories/QubitsProofs2.v
theories/DDSem.v
theories/DDSemProofs.v
theories/DDSemProofs2.v
theories/DDSemProofs3.v
theories/DDSemProofs4.v
theories/DDSemProofs5.v
theories/DDDemo.v
theories/DDDemoProofs.v
theories/DDFlow.v
theories/DDMain.v
theories/DDFlowProofs.v
theories/DDDemoProofs2.v
theories/DDDemoProofs3.v
theories/PropDD.v
theories/OrderSpec.v
theories/OrderProofs.v
theories/PropOrder.v
theories/PropDDSem.v
theories/PartialEq.v
theories/PartialEqProofs.v
theories/PartialDemo.v
theories/PartialDemoProofs.v
theories/PropPartial.v
theories/Queue.v
theories/QueueSpec.v
theories/QueueProofs.v
theories/QueueProofs2.v
theories/QueueProofs3.v
theories/QueueProofs4.v
theories/QueueProofs5.v
theories/PropQueue.v
theories/StateGen.v
theories/StateGenSpec.v
theories/StateGenProofs.v
theories/StateGenProofs2.v
theories/PropStateGen.v
theories/Perm.v
theories/PermSpec.v
theories/PermProofs.v
theories/ZX.v
theories/ZXSpec.v
theories/ZXProofs.v
theories/ZXProofs2.v
theories/ZXSem.v
theories/ZXSemProofs.v
theories/ZXSemProofs2.v
theories/ZXDemo.v
theories/ZXDemoProofs.v
theories/PropZX.v
theories/ZXSpider.v
theories/PropZXSem.v
theories/Prep.v
theories/PrepSpec.v
theories/PrepProofs.v
theories/PrepProofs2.v
theories/Passes.v
theories/PassesSpec.v
theories/PrepProofs3.v
theories/PropPrep.v
theories/PyParam.v
theories/PyParamSpec.v
theories/PyParamProofs.v
theories/PropPyParam.v
theories/PyConfig.v
theories/PyConfigProofs.v
theories/PropPyConfig.v
theories/PyProfile.v
theories/PyProfileSpec.v
theories/PyProfileProofs.v
theories/PyProfileSolver.v
theories/PropPyProfile.v
theories/Setters.v
theories/SettersSpec.v
theories/PropSetters.v
theories/VerdictSpec.v
theories/VerdictProofs.v
theories/PropVerdict.v
theories/EndToEnd.v
theories/EndToEndProofs.v
theories/PropEndToEnd.v
theories/PrepSem.v
theories/LiftProofs.v
theories/PrepSemProofs.v
theories/PrepSemProofs2.v
theories/PrepSemProofs3.v
theories/PropPrepSem.v
theories/RefusalSpec.v
theories/RefusalProofs.v
theories/PropRefusal.v
theories/Report.v
theories/ReportSpec.v
theories/ReportProofs.v
theories/PropReport.v
theories/Tolerance.v
theories/PropTolerance.v
theories/Stim.v
theories/StimSpec.v
theories/StimProofs.v
theories/StimSem.v
theories/StimSemProofs.v
theories/StimDemo.v
theories/StimDemoProofs.v
theories/PropStim.v
theories/Choice.v
theories/ChoiceProofs.v
theories/PropChoice.v
theories/ParDecide.v
theories/ParDecideProofs.v
theories/ParDecideDemo.v
theories/PropParDecide.v
theories/Construct.v
theories/ConstructProofs.v
theories/ConstructProofs2.v
theories/ConstructDemo.v
theories/ConstructProofs3.v
theories/PropConstruct.v
theories/PartialFlow.v
theories/PartialFlowProofs.v
theories/PartialFlowProofs2.v
theories/PartialFlowDemo.v
theories/PropPartialFlow.v
theories/ParamInst.v
theories/ParamSem.v
theories/ParamProofs.v
theories/ParamProofs2.v
theories/ParamDemo.v
theories/ParamDemo2.v
theories/PropParam.v
theories/ProfileGen.v
theories/ProfileGenSpec.v
theories/ProfileGenProofs.v
theories/ProfileGenProofs2.v
theories/ProfileGenProofs3.v
theories/PropProfileGen.v
theories/ProfileData.v
theories/ProfileDataSpec.v
theories/ProfileDataProofs.v
theories/ProfileDataProofs2.v
theories/ProfileDataProofs3.v
theories/ProfileDataProofs4.v
theories/PropProfileData.v
theories/PyVerify.v
theories/PyVerifySpec.v
theories/PyVerifyProofs.v
theories/PropPyVerify.v
theories/PyEntry.v
theories/PyEntrySpec.v
theories/PyEntryProofs.v
theories/PropPyEntry.v
theories/ZXAnc.v
theories/ZXAncProofs.v
theories/ZXAncDemo.v
theories/PropZXAnc.v
theories/ZXFix.v
theories/ZXFixProofs.v
theories/PropZXFix.v
theories/Relation.v
theories/RelationProofs.v
theories/RelationDemo.v
theories/PropRelation.v
theories/PyParamTimeSpec.v
theories/PyParamTime.v
theories/PropPyParamTime.v
theories/RefPackage.v
theories/RefFlow.v
theories/RefSpec.v
theories/RefFlowProofs.v
theories/PropRefFlow.v
theories/Defaults.v
theories/DefaultsSpec.v
theories/PropDefaults.v
theories/Trace.v
theories/TraceProofs.v
theories/RaceProofs.v
theories/ParTrace.v
theories/RaceSpec.v
theories/ParTraceProofs.v
theories/ParTraceProofs2.v
theories/ParTraceProofs3.v
theories/ParTraceProofs4.v
theories/ParTraceProofs5.v
theories/ParTraceProofs6.v
theories/PropRaces.v
theories/SeqThreads.v
theories/SeqThreadsSpec.v
theories/SeqThreadsProofs.v
theories/SeqThreadsProofs2.v
theories/SeqThreadsProofs3.v
theories/SeqThreadsProofs4.v
theories/SeqThreadsProofs5.v
theories/PropSeqThreads.v
theories/QueueTrace.v
theories/QueueTraceProofs.v
theories/QueueTraceProofs2.v
theories/QueueTraceProofs3.v
theories/QueueTraceProofs4.v
theories/PropQueueRaces.v
theories/ParRefusalSpec.v
theories/ParRefusalProofs.v
theories/PropParRefusal.v
theories/PyObjects.v
theories/PyObjectsSpec.v
theories/PyObjectsProofs.v
theories/PropPyObjects.v
theories/ParAgain.v
theories/ParAgainSpec.v
theories/ParAgainProofs.v
theories/ParAgainProofs2.v
theories/ParAgainProofs3.v
theories/PropParAgain.v
theories/SeqThrow.v
theories/LifeSpec.v
theories/LifeProofs.v
theories/PropLife.v
theories/LifeSem.v
theories/LifeSemProofs.v
theories/PropLifeSem.v
theories/LifeGivenSpec.v
theories/LifeGivenProofs.v
theories/PropLifeGiven.v
theories/EmptySpec.v
theories/EmptyProofs.v
theories/PropEmpty.v
theories/ExhaustSpec.v
theories/ExhaustProofs.v
theories/ExhaustSem.v
theories/ExhaustSemProofs.v
theories/ExhaustDemo.v
theories/ExhaustGivenProofs.v
theories/PropExhaust.v
