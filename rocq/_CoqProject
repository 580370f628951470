-Q theories Verif
theories/EffModel.v
theories/EffSpec.v
theories/EffProofs.v
theories/EffRefine.v
theories/EffEquiv.v
theories/EffLemmas.v
theories/EffProps.v
theories/ThreadModel.v
theories/ThreadProofs.v
theories/ThreadProps.v
theories/TermModel.v
theories/TermSpec.v
theories/TermProofs.v
theories/TermScopes.v
theories/TermData.v
theories/TermEval.v
theories/TermSubst.v
theories/TermUser.v
theories/TermFvs.v
theories/TermBeta.v
theories/TermTrace.v
theories/TermRun.v
theories/TermExamples.v
theories/TermProps.v
theories/CmpModel.v
theories/CmpSpec.v
theories/CmpProofs.v
theories/CmpProps.v
theories/ObjModel.v
theories/ObjSpec.v
theories/ObjProofs.v
theories/ObjProps.v
theories/StrModel.v
theories/StrSpec.v
theories/StrProofs.v
theories/StrProps.v
theories/IdxModel.v
theories/IdxSpec.v
theories/IdxProofs.v
theories/IdxProps.v
theories/ArrModel.v
theories/ArrSpec.v
theories/ArrProofs.v
theories/ArrNames.v
theories/ArrBind.v
theories/ArrSizes.v
theories/ArrUnbind.v
theories/ArrProps.v
theories/NeedModel.v
theories/NeedSpec.v
theories/NeedProofs.v
theories/NeedProps.v
theories/ProdModel.v
theories/ProdSpec.v
theories/ProdProofs.v
theories/ProdCases.v
theories/ProdProps.v
theories/JsonModel.v
theories/JsonSpec.v
theories/JsonProofs.v
theories/JsonProps.v
theories/TupModel.v
theories/TupSpec.v
theories/TupProofs.v
theories/TupProps.v
theories/ConvModel.v
theories/ConvSpec.v
theories/ConvProofs.v
theories/ConvProps.v
theories/ToolsModel.v
theories/ToolsSpec.v
theories/ToolsProofs.v
theories/ToolsProps.v
theories/UserModel.v
theories/UserSpec.v
theories/UserProofs.v
theories/UserProps.v
theories/ReplModel.v
theories/ReplSpec.v
theories/ReplProofs.v
theories/ReplProps.v
theories/RegionModel.v
theories/RegionSpec.v
theories/RegionProofs.v
theories/RegionProps.v
theories/UnifModel.v
theories/UnifSpec.v
theories/UnifSubst.v
theories/UnifProofs.v
theories/UnifCanon.v
theories/UnifSound.v
theories/UnifExamples.v
theories/UnifProps.v
theories/TypModel.v
theories/TypSpec.v
theories/TypProofs.v
theories/TypExamples.v
theories/TypProps.v
theories/NumModel.v
theories/NumSpec.v
theories/NumProofs.v
theories/NumMore.v
theories/NumExamples.v
theories/NumProps.v
theories/DistModel.v
theories/DistSpec.v
theories/DistProofs.v
theories/DistBatch.v
theories/DistLaws.v
theories/DistBridge.v
theories/DistExpand.v
theories/DistExamples.v
theories/DistProps.v
theories/ShimModel.v
theories/ShimProofs.v
theories/ShimProps.v
theories/EmbModel.v
theories/EmbSpec.v
theories/EmbProofs.v
theories/EmbProps.v
theories/MethModel.v
theories/MethSpec.v
theories/MethProofs.v
theories/MethProps.v
theories/TgetModel.v
theories/TgetSpec.v
theories/TgetProofs.v
theories/TgetProps.v
theories/NopModel.v
theories/NopSpec.v
theories/NopProofs.v
theories/NopLaws.v
theories/NopProps.v
theories/GatModel.v
theories/GatSpec.v
theories/GatProofs.v
theories/GatLaws.v
theories/GatProps.v
theories/FunModel.v
theories/FunSpec.v
theories/FunProofs.v
theories/FunLaws.v
theories/FunTrans.v
theories/FunInst.v
theories/FunExpr.v
theories/FunJit.v
theories/FunProps.v
theories/DcModel.v
theories/DcSpec.v
theories/DcProofs.v
theories/DcProps.v
theories/CallModel.v
theories/CallSpec.v
theories/CallProofs.v
theories/CallLaws.v
theories/CallProps.v
theories/RefModel.v
theories/RefSpec.v
theories/RefProofs.v
theories/RefProps.v
theories/SynModel.v
theories/SynSpec.v
theories/SynProofs.v
theories/SynProps.v
theories/UnbModel.v
theories/UnbSpec.v
theories/UnbProofs.v
theories/UnbLaws.v
theories/UnbProps.v
theories/LcModel.v
theories/LcSpec.v
theories/LcProofs.v
theories/LcLaws.v
theories/LcCases.v
theories/LcProps.v
theories/AopModel.v
theories/AopSpec.v
theories/AopProofs.v
theories/AopProps.v
theories/EvtModel.v
theories/EvtSpec.v
theories/EvtProofs.v
theories/EvtUnbind.v
theories/EvtProps.v
theories/RscModel.v
theories/RscSpec.v
theories/RscProofs.v
theories/RscOff.v
theories/RscProps.v
theories/SrModel.v
theories/SrSpec.v
theories/SrProofs.v
theories/SrLaws.v
theories/SrCases.v
theories/SrFuse.v
theories/SrProps.v
theories/MpModel.v
theories/MpSpec.v
theories/MpProofs.v
theories/MpLaws.v
theories/MpCases.v
theories/MpProps.v
theories/BeamModel.v
theories/BeamSpec.v
theories/BeamProofs.v
theories/BeamProps.v
theories/TdModel.v
theories/TdSpec.v
theories/TdProofs.v
theories/TdLaws.v
theories/TdProps.v
theories/RdModel.v
theories/RdSpec.v
theories/RdProofs.v
theories/RdProps.v
theories/LexModel.v
theories/LexSpec.v
theories/LexProofs.v
theories/LexProps.v
theories/AgModel.v
theories/AgSpec.v
theories/AgProofs.v
theories/AgProps.v
theories/IntroModel.v
theories/IntroSpec.v
theories/IntroProofs.v
theories/IntroProps.v
theories/NtModel.v
theories/NtSpec.v
theories/NtProofs.v
theories/NtLaws.v
theories/NtCases.v
theories/NtProps.v
theories/NpdModel.v
theories/NpdSpec.v
theories/NpdProofs.v
theories/NpdLaws.v
theories/NpdProps.v
theories/ColModel.v
theories/ColSpec.v
theories/ColProofs.v
theories/ColLaws.v
theories/ColProps.v
theories/DefModel.v
theories/DefSpec.v
theories/DefProofs.v
theories/DefProps.v
theories/TadModel.v
theories/TadSpec.v
theories/TadProofs.v
theories/TadProps.v
theories/JmModel.v
theories/JmSpec.v
theories/JmProofs.v
theories/JmProps.v
theories/VjpModel.v
theories/VjpSpec.v
theories/VjpProofs.v
theories/VjpLaws.v
theories/VjpExpr.v
theories/VjpCases.v
theories/VjpProps.v
theories/AnnModel.v
theories/AnnSpec.v
theories/AnnProofs.v
theories/AnnProps.v
theories/ItModel.v
theories/ItSpec.v
theories/ItProofs.v
theories/ItProps.v
theories/StmModel.v
theories/StmSpec.v
theories/StmProofs.v
theories/StmProps.v
theories/AttModel.v
theories/AttSpec.v
theories/AttProofs.v
theories/AttProps.v
theories/NstModel.v
theories/NstSpec.v
theories/NstProofs.v
theories/NstProps.v
theories/ImgModel.v
theories/ImgSpec.v
theories/ImgProofs.v
theories/ImgProps.v
theories/SnpModel.v
theories/SnpSpec.v
theories/SnpProofs.v
theories/SnpProps.v
theories/SdModel.v
theories/SdSpec.v
theories/SdProofs.v
theories/SdLaws.v
theories/SdCache.v
theories/SdCases.v
theories/SdProps.v
theories/FbModel.v
theories/FbSpec.v
theories/FbProofs.v
theories/FbProps.v
theories/MemModel.v
theories/MemSpec.v
theories/MemProofs.v
theories/MemLaws.v
theories/MemProps.v
theories/OffModel.v
theories/OffSpec.v
theories/OffProofs.v
theories/OffProps.v
theories/RdrModel.v
theories/RdrSpec.v
theories/RdrProofs.v
theories/RdrProps.v
