-Q theories Verif
theories/Base.v
theories/BVModel.v
theories/BVSpec.v
theories/BVProofs.v
theories/BVProofs2.v
theories/BVProofs3.v
theories/BVProofs4.v
theories/BVProofs5.v
theories/PropsBV.v
theories/UtilModel.v
theories/UtilSpec.v
theories/UtilProofs.v
theories/UtilProofs2.v
theories/PropsUtil.v
theories/KindModel.v
theories/SortModel.v
theories/SortProofs.v
theories/DagModel.v
theories/DagProofs.v
theories/TermModel.v
theories/Sem.v
theories/SemProofs.v
theories/DagSpec.v
theories/KindProofs.v
theories/PropsDag.v
theories/ArrayModel.v
theories/SimpModel.v
theories/OpModel.v
theories/OpSpec.v
theories/OpProofs.v
theories/OpProofs2.v
theories/OpProofs3.v
theories/OpProofs4.v
theories/OpProofs5.v
theories/OpProofs6.v
theories/OpProofs7.v
theories/OpExamples.v
theories/PropsOp.v
theories/ShapeProofs.v
theories/ConvModel.v
theories/ConvSpec.v
theories/ConvProofs.v
theories/WalkProofs.v
theories/GoodProofs.v
theories/SplitProofs.v
theories/ConvExamples.v
theories/PropsConv.v
theories/CnfModel.v
theories/CnfSpec.v
theories/CnfProofs.v
theories/CnfAtoms.v
theories/CnfProofs2.v
theories/CnfProofs3.v
theories/CnfProofs4.v
theories/CnfProofs5.v
theories/CnfMapModel.v
theories/CnfMapSpec.v
theories/CnfMapProofs.v
theories/PropsCnf.v
theories/PropsCnfMap.v
theories/LexModel.v
theories/LexSpec.v
theories/LexProofs.v
theories/PropsLex.v
theories/ParseModel.v
theories/ParseSpec.v
theories/ParseProofs.v
theories/ParseProofs2.v
theories/ParseTerm.v
theories/ParseLits.v
theories/ParseMore.v
theories/PropsParse.v
theories/TypedSpec.v
theories/TypedProofs.v
theories/PostModel.v
theories/PostProofs.v
theories/ApplyModel.v
theories/ApplySpec.v
theories/ApplyProofs.v
theories/CommandModel.v
theories/CommandSpec.v
theories/CommandProofs.v
theories/CommandProofs2.v
theories/CommandTerm.v
theories/CommandMore.v
theories/PropsCommand.v
theories/TraverseModel.v
theories/TraverseSpec.v
theories/TraverseProofs.v
theories/TraverseProofs2.v
theories/TraverseProofs3.v
theories/TraverseProofs4.v
theories/PropsTraverse.v
theories/PropsApply.v
theories/NumModel.v
theories/RoundModel.v
theories/NumSpec.v
theories/NumProofs.v
theories/NumMore.v
theories/FunModel.v
theories/FunSpec.v
theories/FunProofs.v
theories/FunProofs2.v
theories/FunProofs3.v
theories/FunProofs4.v
theories/FunProofs5.v
theories/FunProofs6.v
theories/PropsFun.v
theories/PropsNum.v
theories/ArrSimpModel.v
theories/ArrSpec.v
theories/ArrProofs.v
theories/ArrProofs2.v
theories/ArrExists.v
theories/PropsArr.v
theories/EvalModel.v
theories/EvalSpec.v
theories/EvalProofs.v
theories/EvalProofs2.v
theories/EvalProofs3.v
theories/EvalProofs4.v
theories/EvalProofs5.v
theories/PropsEval.v
theories/NormModel.v
theories/NormSpec.v
theories/NormProofs.v
theories/NormProofs2.v
theories/PropsNorm.v
theories/DnfModel.v
theories/DnfSpec.v
theories/DnfProofs.v
theories/DnfProofs2.v
theories/PropsDnf.v
theories/PrintModel.v
theories/PrintSpec.v
theories/PrintProofs.v
theories/PrintProofs2.v
theories/PropsPrint.v
theories/CtorModel.v
theories/CtorSpec.v
theories/CtorProofs.v
theories/CtorProofs2.v
theories/CtorProofs3.v
theories/PropsCtor.v
theories/ArityModel.v
theories/PropsArity.v
theories/ObjModel.v
theories/PropsObj.v
theories/DumpModel.v
theories/DumpSpec.v
theories/DumpProofs.v
theories/PropsDump.v
theories/PropsSorts.v
theories/CollectModel.v
theories/CollectSpec.v
theories/CollectProofs.v
theories/PropsCollect.v
theories/LetModel.v
theories/LetSpec.v
theories/LetProofs.v
theories/PropsLet.v
theories/MTextModel.v
theories/MTextSpec.v
theories/MTextProofs.v
theories/PropsMText.v
theories/PropsMText2.v
theories/MeanSpec.v
theories/MeanProofs.v
theories/MeanProofs2.v
theories/MeanBv.v
theories/MeanDef.v
theories/MeanLits.v
theories/MeanProofs3.v
theories/MeanProofs4.v
theories/MeanProofs5.v
theories/PropsMean.v
theories/ValueModel.v
theories/ValueSpec.v
theories/ValueProofs.v
theories/PropsValue.v
theories/MeanConv.v
theories/PropsMeanConv.v
theories/ErrSpec.v
theories/ErrProofs.v
theories/PropsErr.v
theories/EvalMore.v
theories/EvalArr.v
theories/PropsTight.v
theories/PropsEvalArr.v
theories/EvTextSpec.v
theories/EvTextProofs.v
theories/EvTextProofs2.v
theories/PropsEvText.v
theories/PropsTrue1.v
theories/PropsTrue2.v
theories/PropsTrue3.v
theories/PropsTrue4.v
theories/PropsTrue5.v
theories/PropsTrue6.v
theories/NameModel.v
theories/NameSpec.v
theories/NameProofs.v
theories/PropsName.v
theories/IopModel.v
theories/PropsIop.v
theories/PropsPow.v
theories/Atan2Model.v
theories/PropsAtan2.v
theories/PropsAtan3.v
theories/PropsPi.v
theories/PropsAtan4.v
theories/PropsMeanBad.v
theories/StrSpec.v
theories/StrProofs.v
theories/PropsStr.v
theories/SciModel.v
theories/SciSpec.v
theories/SciProofs.v
theories/SciProofs2.v
theories/SciProofs3.v
theories/PropsSci.v
theories/PropsMod.v
theories/PropsIacc.v
theories/CheckSpec.v
theories/CheckProofs.v
theories/PropsCheck.v
theories/RecipProofs.v
theories/PropsRecip.v
theories/PropsExtra.v
theories/PropsFlags.v
theories/PropsKinds.v
theories/PropsMut.v
theories/PropsClass.v
theories/DispModel.v
theories/PropsDisp.v
theories/TextModel.v
theories/TextSpec.v
theories/PropsText.v
theories/IntModel.v
theories/IntSpec.v
theories/PropsInt.v
theories/PropsDivR.v
theories/ConstModel.v
theories/PropsConst.v
theories/PropsPowInf.v
