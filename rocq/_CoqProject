-Q theories Verif
theories/AllocProofs.v
theories/AllocProps.v
theories/ArithModel.v
theories/ArithProofs.v
theories/ArithProps.v
theories/ArithSpec.v
theories/ArrZ.v
theories/ArrayModel.v
theories/ArrayProofs.v
theories/ArrayProps.v
theories/AsgModel.v
theories/AsgProps.v
theories/AsgSpec.v
theories/Base.v
theories/CExprModel.v
theories/CExprProofs.v
theories/CExprProps.v
theories/CExprSep.v
theories/CExprSpec.v
theories/CStrModel.v
theories/CStrProofs.v
theories/CStrProps.v
theories/CStrSpec.v
theories/CalModel.v
theories/CalProps.v
theories/CalSpec.v
theories/CandProofs.v
theories/CarveProofs.v
theories/CaseModel.v
theories/CaseProps.v
theories/CdclModel.v
theories/CdclProps.v
theories/CdclSpec.v
theories/CheckSumModel.v
theories/CheckSumProofs.v
theories/CheckSumProps.v
theories/CheckSumSpec.v
theories/CiphModel.v
theories/CiphProps.v
theories/CiphSpec.v
theories/ClkModel.v
theories/ClkProps.v
theories/ClkSpec.v
theories/CodecModel.v
theories/CodecProofs.v
theories/CodecProps.v
theories/CodecSpec.v
theories/CrunModel.v
theories/CrunProps.v
theories/CrunSpec.v
theories/DateModel.v
theories/DateProps.v
theories/DeclMeaning.v
theories/DeclModel.v
theories/DeclProofs.v
theories/DeclProps.v
theories/DeclSpec.v
theories/DesigModel.v
theories/DesigProps.v
theories/DesigSpec.v
theories/EnumModel.v
theories/EnumProps.v
theories/EnumSpec.v
theories/ExtendProofs.v
theories/FilesModel.v
theories/FilesProofs.v
theories/FilesProps.v
theories/FilesSpec.v
theories/FinProofs.v
theories/FlowModel.v
theories/FlowProofs.v
theories/FlowProps.v
theories/FlowSpec.v
theories/FnameModel.v
theories/FnameProps.v
theories/FnameSpec.v
theories/FoldModel.v
theories/FoldProps.v
theories/ForModel.v
theories/ForProps.v
theories/FpModel.v
theories/FpProps.v
theories/GCProofs.v
theories/GlobModel.v
theories/GlobProps.v
theories/GlobSpec.v
theories/HeapModel.v
theories/HeapProps.v
theories/HeapSpec.v
theories/Ic2Model.v
theories/Ic2Props.v
theories/Ic2Spec.v
theories/IdentModel.v
theories/IdentProps.v
theories/InModel.v
theories/InProofs.v
theories/InProps.v
theories/IndirModel.v
theories/IndirProps.v
theories/IndirSpec.v
theories/InitModel.v
theories/InitProofs.v
theories/InitProps.v
theories/InitSpec.v
theories/IntStrModel.v
theories/IntStrProps.v
theories/KstrModel.v
theories/KstrProofs.v
theories/KstrProps.v
theories/KstrSpec.v
theories/LayCProps.v
theories/LayModel.v
theories/LayProofs.v
theories/LayProps.v
theories/LineModel.v
theories/LineProps.v
theories/LinkModel.v
theories/LinkProps.v
theories/LinkSpec.v
theories/LitModel.v
theories/LitProps.v
theories/LongIntModel.v
theories/LongIntProps.v
theories/MarkProofs.v
theories/Md5Model.v
theories/Md5Proofs.v
theories/Md5Props.v
theories/Md5Spec.v
theories/ModRegModel.v
theories/ModRegProps.v
theories/MtwModel.v
theories/MtwProps.v
theories/MtwSpec.v
theories/NestEqs.v
theories/NestModel.v
theories/NestProofs.v
theories/NestProps.v
theories/NestSim.v
theories/NestSpec.v
theories/NetioModel.v
theories/NetioProps.v
theories/NetioSpec.v
theories/NewProofs.v
theories/NumModel.v
theories/NumProps.v
theories/NumSpec.v
theories/OakModel.v
theories/OakProps.v
theories/OakSpec.v
theories/OnceModel.v
theories/OnceProps.v
theories/OnceSpec.v
theories/OperModel.v
theories/OperProps.v
theories/OperSpec.v
theories/OpsModel.v
theories/OpsProps.v
theories/OptIfModel.v
theories/OptIfProps.v
theories/OptModel.v
theories/OptProps.v
theories/OrealModel.v
theories/OrealProofs.v
theories/OrealProps.v
theories/OrealScale.v
theories/OrealSpec.v
theories/OrealText.v
theories/OstrModel.v
theories/OstrProofs.v
theories/OstrProps.v
theories/OstrSpec.v
theories/OutHexProofs.v
theories/OutModel.v
theories/OutProofs.v
theories/OutProps.v
theories/OutSpec.v
theories/PathModel.v
theories/PathProofs.v
theories/PathProps.v
theories/PathSpec.v
theories/RandModel.v
theories/RandProps.v
theories/RegisterModel.v
theories/RegisterProofs.v
theories/RegisterProps.v
theories/ResrcModel.v
theories/ResrcProofs.v
theories/ResrcProps.v
theories/ResrcSpec.v
theories/ScanProofs.v
theories/ScopeModel.v
theories/ScopeProps.v
theories/SearchProps.v
theories/SetExprModel.v
theories/SetExprProps.v
theories/SetExprSpec.v
theories/SetsModel.v
theories/SetsProps.v
theories/SetsSpec.v
theories/SortProofs.v
theories/StdModel.v
theories/StdProps.v
theories/StdSpec.v
theories/StrengthModel.v
theories/StrengthProps.v
theories/StringsMatchProofs.v
theories/StringsModel.v
theories/StringsProofs.v
theories/StringsProps.v
theories/StringsSpec.v
theories/SymBytes.v
theories/SymCount.v
theories/SymImport.v
theories/SymMany.v
theories/SymModel.v
theories/SymProps.v
theories/SymPtrModel.v
theories/SymPtrProps.v
theories/SymSim.v
theories/SymSpec.v
theories/SynComplete.v
theories/SynModel.v
theories/SynProofs.v
theories/SynProps.v
theories/SynSound.v
theories/SynSpec.v
theories/TdefModel.v
theories/TdefProps.v
theories/TdefSpec.v
theories/TempProps.v
theories/TextNumModel.v
theories/TextNumProps.v
theories/TextsInv.v
theories/TextsLocal.v
theories/TextsModel.v
theories/TextsOps.v
theories/TextsOps2.v
theories/TextsOps3.v
theories/TextsOps4.v
theories/TextsProofs.v
theories/TextsProps.v
theories/TextsRing.v
theories/TextsSpec.v
theories/TfileModel.v
theories/TfileProps.v
theories/TfileSpec.v
theories/TprocModel.v
theories/TprocProps.v
theories/TprocSpec.v
theories/TransProofs.v
theories/TransSpec.v
theories/TypeModel.v
theories/TypeProofs.v
theories/TypeProps.v
theories/TypeSpec.v
theories/UnitComplete.v
theories/UnitModel.v
theories/UnitProofs.v
theories/UnitProps.v
theories/UnitSound.v
theories/UnitSpec.v
theories/UtfModel.v
theories/UtfProofs.v
theories/UtfProps.v
theories/UtfSpec.v
theories/UtimeModel.v
theories/UtimeProps.v
theories/UtimeSpec.v
theories/UtxtModel.v
theories/UtxtProps.v
theories/UtxtSpec.v
theories/XferModel.v
theories/XferProofs.v
theories/XferProps.v
theories/XferSpec.v
theories/ZbufModel.v
theories/ZbufProps.v
theories/ZbufSpec.v
