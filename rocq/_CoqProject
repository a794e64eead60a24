-Q theories Verif
theories/PyBase.v
theories/Num.v
theories/DomainModel.v
theories/NdArray.v
theories/StoreModel.v
theories/NumStore.v
theories/PyFacts.v
theories/Spec.v
theories/DomainFacts.v
theories/StoreSpec.v
theories/TreeFacts.v
theories/TreeFacts2.v
theories/StoreFacts.v
theories/NumFacts.v
theories/StoreOps.v
theories/BigSum.v
theories/StoreMarg.v
theories/StoreMarg2.v
theories/FactorModel.v
theories/PropFacts1.v
theories/StoreExpr.v
theories/TreePruned.v
theories/PropFacts2.v
theories/Checks.v
theories/PropsStores.v
theories/StoreChecks.v
theories/StoreLists.v
theories/StorePartial.v
theories/PropsFree.v
theories/PropsStores2.v
theories/FactorSpec.v
theories/FactorFacts.v
theories/FactorFacts2.v
theories/FactorFacts3.v
theories/FactorChecks.v
theories/CtorFacts.v
theories/RenameFacts1.v
theories/PropsFactors.v
theories/GenModel.v
theories/GenSpec.v
theories/GenFacts.v
theories/GenFacts2.v
theories/GenFacts3.v
theories/CanonFacts7.v
theories/GenChecks.v
theories/GenFacts4.v
theories/PropsGen.v
theories/GraphModel.v
theories/GraphSpec.v
theories/GraphFacts.v
theories/GraphFacts2.v
theories/GraphFacts3.v
theories/GraphChecks.v
theories/PropFacts3.v
theories/ModelModel.v
theories/ModelSpec.v
theories/ModelFacts.v
theories/ModelChecks.v
theories/PropsModels.v
theories/NetSem.v
theories/NetSpec.v
theories/FactorSem.v
theories/InferModel.v
theories/NetFacts.v
theories/BuildFacts.v
theories/VeFacts.v
theories/VeFacts2.v
theories/VeFacts3.v
theories/VeFacts4.v
theories/VeFacts5.v
theories/VeFacts6.v
theories/OrderSpec.v
theories/OrderFacts.v
theories/PropFacts4.v
theories/InferChecks.v
theories/PropsInfer.v
theories/CausalModel.v
theories/CausalSpec.v
theories/BuildFacts2.v
theories/CausalFacts.v
theories/CausalFacts2.v
theories/CfFacts.v
theories/CfFacts2.v
theories/CfFacts3.v
theories/PropFacts5.v
theories/CausalChecks.v
theories/PropsCausal.v
theories/UaiModel.v
theories/UaiSpec.v
theories/UaiFacts.v
theories/UaiFacts2.v
theories/UaiFacts3.v
theories/UaiFacts4.v
theories/PropFacts6.v
theories/UaiChecks.v
theories/PropsUai.v
theories/LearnModel.v
theories/LearnSpec.v
theories/LearnFacts.v
theories/LearnFacts2.v
theories/LearnFacts3.v
theories/LearnChecks.v
theories/PropsLearn.v
theories/AggModel.v
theories/AggSpec.v
theories/AggFacts.v
theories/AggFacts2.v
theories/AggChecks.v
theories/MultiModel.v
theories/MultiSpec.v
theories/MultiFacts.v
theories/MultiFacts2.v
theories/MultiChecks.v
theories/PropsMulti.v
theories/DataModel.v
theories/DataSpec.v
theories/DataFacts.v
theories/DataFacts2.v
theories/DataFacts3.v
theories/DataFacts4.v
theories/DataChecks.v
theories/PropsData.v
theories/PgmpyModel.v
theories/PgmpySpec.v
theories/PgmpyFacts.v
theories/PgmpyFacts2.v
theories/PgmpyFacts3.v
theories/PgmpyFacts4.v
theories/PgmpyChecks.v
theories/PropsPgmpy.v
theories/BTreeModel.v
theories/BTreeSpec.v
theories/BTreeFacts.v
theories/BTreeFacts2.v
theories/BTreeFacts3.v
theories/BTreeFacts4.v
theories/BTreeFacts5.v
theories/BTreeChecks.v
theories/PropsBTree.v
theories/HeapModel.v
theories/HeapSpec.v
theories/HeapFacts.v
theories/HeapFacts2.v
theories/HeapFacts3.v
theories/HeapFacts4.v
theories/HeapFacts5.v
theories/HeapFacts6.v
theories/HeapFacts7.v
theories/HeapFacts8.v
theories/HeapChecks.v
theories/HeapChecks2.v
theories/PropsHeap.v
theories/EmMath.v
theories/EmSpec.v
theories/EmFacts1.v
theories/EmFacts2.v
theories/EmFacts3.v
theories/EmFacts4.v
theories/EmFacts5.v
theories/EmFacts6.v
theories/EmFacts7.v
theories/EmFacts8.v
theories/EmChecks.v
theories/PropsEm.v
theories/SepSpec.v
theories/SepFacts1.v
theories/SepFacts2.v
theories/BlanketModel.v
theories/SepFacts3.v
theories/SepChecks.v
theories/PropsSep.v
theories/QModel.v
theories/QSpec.v
theories/QFacts1.v
theories/QFacts2.v
theories/QFacts3.v
theories/QFacts4.v
theories/QFacts5.v
theories/QFacts6.v
theories/QFacts7.v
theories/QFacts8.v
theories/QFacts9.v
theories/QFacts10.v
theories/QFacts11.v
theories/QFacts12.v
theories/QFacts13.v
theories/QChecks.v
theories/PropsQ.v
theories/ConvModel.v
theories/ConvSpec.v
theories/ConvFacts.v
theories/ConvFacts2.v
theories/ConvFacts3.v
theories/ConvChecks.v
theories/PropsConv.v
theories/GradModel.v
theories/GradSpec.v
theories/GradFacts1.v
theories/GradFacts2.v
theories/GradFacts3.v
theories/GradFacts4.v
theories/GradFacts5.v
theories/GradChecks.v
theories/PropsGrad.v
theories/PipeModel.v
theories/PipeSpec.v
theories/PipeFacts.v
theories/PipeFacts2.v
theories/PipeFacts3.v
theories/PipeFacts4.v
theories/PipeFacts5.v
theories/PipeFacts6.v
theories/PipeChecks.v
theories/PropsPipe.v
theories/OptSpec.v
theories/OptFacts1.v
theories/OptFacts2.v
theories/OptFacts3.v
theories/OptFacts4.v
theories/OptFacts5.v
theories/OptChecks.v
theories/PropsOpt.v
theories/OpModel.v
theories/OpSpec.v
theories/OpFacts1.v
theories/OpFacts2.v
theories/OpFacts3.v
theories/OpFacts4.v
theories/OpChecks.v
theories/OpFacts5.v
theories/PropsOps.v
theories/FusionSpec.v
theories/FusionFacts.v
theories/FusionFacts2.v
theories/FusionFacts3.v
theories/FusionChecks.v
theories/PropsFusion.v
theories/AccessModel.v
theories/AccessFacts.v
theories/CaseSpec.v
theories/CaseFacts.v
theories/PropsGraphs.v
theories/FrameModel.v
theories/FrameSpec.v
theories/FrameFacts.v
theories/FrameChecks.v
theories/PropsFrame.v
theories/FileModel.v
theories/FileSpec.v
theories/FileFacts.v
theories/FileFacts2.v
theories/FileFacts3.v
theories/FileChecks.v
theories/PropsFile.v
theories/LawSpec.v
theories/LawFacts.v
theories/LawFacts2.v
theories/LawFacts3.v
theories/LawChecks.v
theories/PropsLaw.v
theories/CalcSpec.v
theories/CalcFacts1.v
theories/CalcFacts2.v
theories/CalcFacts3.v
theories/CalcFacts4.v
theories/CalcFacts5.v
theories/CalcFacts6.v
theories/CalcChecks.v
theories/PropsCalc.v
theories/CanonSpec.v
theories/CanonFacts1.v
theories/CanonFacts2.v
theories/CanonFacts3.v
theories/CanonFacts4.v
theories/CanonFacts5.v
theories/CanonFacts6.v
theories/CanonChecks.v
theories/PropsCanon.v
theories/CanonFacts8.v
theories/CanonFacts9.v
theories/CanonFacts10.v
theories/RespChecks.v
theories/PropsResp.v
theories/RenameSpec.v
theories/RenameFacts2.v
theories/RenameFacts3.v
theories/RenameFacts4.v
theories/RenameChecks.v
theories/PropsRename.v
theories/UtilModel.v
theories/UtilSpec.v
theories/UtilFacts.v
theories/PropsUtil.v
theories/AxiomSpec.v
theories/AxiomFacts.v
theories/AxiomChecks.v
theories/PropsAxiom.v
theories/ElimSpec.v
theories/ElimFacts.v
theories/ElimFacts2.v
theories/ElimChecks.v
theories/PropsElim.v
theories/LimitSpec.v
theories/LimitFacts.v
theories/LimitFacts2.v
theories/PropsLimit.v
theories/CoherSpec.v
theories/CoherFacts.v
theories/PropsCoher.v
theories/SampleSpec.v
theories/SampleMath.v
theories/SampleFacts.v
theories/SampleFacts2.v
theories/SampleFacts3.v
theories/SampleFacts4.v
theories/SampleChecks.v
theories/PropsSample.v
theories/UaiTextFacts.v
theories/PropsUaiText.v
theories/DataRaise.v
theories/PropsRaise.v
theories/PropsFail.v
theories/PropsUaiStates.v
theories/ConvDet.v
theories/PropsDet.v
