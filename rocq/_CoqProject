-Q theories Verif
theories/AbstractModel.v
theories/AbstractSpec.v
theories/AbstractTheorems.v
theories/AnimalModel.v
theories/AnimalTheorems.v
theories/ArithModel.v
theories/ArithProofs.v
theories/ArithTheorems.v
theories/AtomModel.v
theories/AtomProofs.v
theories/AtomSpec.v
theories/AtomTheorems.v
theories/Base.v
theories/BitVec.v
theories/BurnModel.v
theories/BurnTheorems.v
theories/ByteModel.v
theories/ByteSpec.v
theories/ByteTheorems.v
theories/C2DModel.v
theories/C2DSpec.v
theories/C2DTheorems.v
theories/CallStackModel.v
theories/CallStackProofs.v
theories/CallStackSpec.v
theories/CallStackTheorems.v
theories/CastModel.v
theories/CastTheorems.v
theories/ClassCastModel.v
theories/ClassCastSpec.v
theories/ClassCastTheorems.v
theories/ClassExtractTheorems.v
theories/ClassParseComplete.v
theories/ClassParseEnds.v
theories/ClassParseModel.v
theories/ClassParseSound.v
theories/ClassParseSound2.v
theories/ClassParseSpec.v
theories/ClassParseTheorems.v
theories/ClassSizeComplete.v
theories/ClassSizeExact.v
theories/ClassSizeModel.v
theories/ClassSizeProofs.v
theories/ClassSizeSpec.v
theories/ClassSizeTheorems.v
theories/CmdModel.v
theories/CmdSpec.v
theories/CmdTheorems.v
theories/ColorModel.v
theories/ColorTheorems.v
theories/ConstResModel.v
theories/ConstResProofs.v
theories/ConstResSpec.v
theories/ConstResTheorems.v
theories/CrcModel.v
theories/CrcSpec.v
theories/CrcTheorems.v
theories/DRegModel.v
theories/DRegTheorems.v
theories/DeclSizeModel.v
theories/DeclSizeSpec.v
theories/DeclSizeTheorems.v
theories/DefaultClass.v
theories/DefaultInit.v
theories/DefaultModel.v
theories/DefaultPlaces.v
theories/DefaultProofs.v
theories/DefaultSpec.v
theories/DefaultTheorems.v
theories/DupFuncModel.v
theories/DupFuncProofs.v
theories/DupFuncSpec.v
theories/DupFuncTheorems.v
theories/ElementTypeModel.v
theories/ElementTypeTheorems.v
theories/EqualOpModel.v
theories/EqualOpProofs.v
theories/EqualOpSpec.v
theories/EqualOpTheorems.v
theories/ErrDriverTheorems.v
theories/ErrHandlerModel.v
theories/ErrHandlerTheorems.v
theories/EventWindowModel.v
theories/EventWindowTheorems.v
theories/EwBufModel.v
theories/EwBufSpec.v
theories/EwBufTheorems.v
theories/ExprComplete.v
theories/ExprModel.v
theories/ExprPrint.v
theories/ExprProofs.v
theories/ExprSpec.v
theories/ExprTheorems.v
theories/ExprTokens.v
theories/ExprValue.v
theories/FamilyModel.v
theories/FamilyProofs.v
theories/FamilyTheorems.v
theories/FileModel.v
theories/FileSpec.v
theories/FileTheorems.v
theories/FoldModel.v
theories/FoldProofs.v
theories/FoldSpec.v
theories/FoldTheorems.v
theories/FoldUnknown.v
theories/FrameModel.v
theories/FrameProofs.v
theories/FrameSpec.v
theories/FrameTheorems.v
theories/GenNameModel.v
theories/GenNameSpec.v
theories/GenNameTheorems.v
theories/HexEscapeModel.v
theories/HexEscapeProofs.v
theories/HexEscapeSpec.v
theories/HexEscapeTheorems.v
theories/IndexModel.v
theories/IndexProofs.v
theories/IndexSpec.v
theories/IndexTheorems.v
theories/InitUseModel.v
theories/InitUseTheorems.v
theories/InstModel.v
theories/InstSpec.v
theories/InstTheorems.v
theories/IsAsModel.v
theories/IsAsProofs.v
theories/IsAsSpec.v
theories/IsAsTheorems.v
theories/LayoutModel.v
theories/LayoutSpec.v
theories/LayoutTheorems.v
theories/LexerLiterals.v
theories/LexerModel.v
theories/LexerProofs.v
theories/LexerSpec.v
theories/LexerTheorems.v
theories/LexerWords.v
theories/LeximitedModel.v
theories/LeximitedProofs.v
theories/LeximitedSpec.v
theories/LeximitedTheorems.v
theories/LoopModel.v
theories/LoopProofs.v
theories/LoopSpec.v
theories/LoopTheorems.v
theories/MDistModel.v
theories/MDistSpec.v
theories/MDistTheorems.v
theories/MangleModel.v
theories/MangleParams.v
theories/MangleProofs.v
theories/MangleSpec.v
theories/MangleStrings.v
theories/MangleTheorems.v
theories/ModelParamModel.v
theories/ModelParamTheorems.v
theories/OpCallModel.v
theories/OpCallSpec.v
theories/OpCallTheorems.v
theories/OpDispatchModel.v
theories/OpDispatchSpec.v
theories/OpDispatchTheorems.v
theories/OrderModel.v
theories/OrderProofs.v
theories/OrderSpec.v
theories/OrderTheorems.v
theories/OverloadModel.v
theories/OverloadProofs.v
theories/OverloadSpec.v
theories/OverloadTheorems.v
theories/ParamModel.v
theories/ParamProofs.v
theories/ParamSpec.v
theories/ParamTheorems.v
theories/PickModel.v
theories/PickSpec.v
theories/PickTheorems.v
theories/PreparseModel.v
theories/PreparseProofs.v
theories/PreparseSpec.v
theories/PreparseTheorems.v
theories/PrimModel.v
theories/PrimProofs.v
theories/PrimSpec.v
theories/PrimTheorems.v
theories/PrintfModel.v
theories/PrintfSpec.v
theories/PrintfTheorems.v
theories/QColonModel.v
theories/QColonSpec.v
theories/QColonTheorems.v
theories/RandModel.v
theories/RandTheorems.v
theories/RefModel.v
theories/RefProofs.v
theories/RefSpec.v
theories/RefTheorems.v
theories/RetRefModel.v
theories/RetRefSpec.v
theories/RetRefTheorems.v
theories/RetValModel.v
theories/RetValSpec.v
theories/RetValTheorems.v
theories/ScopeModel.v
theories/ScopeSpec.v
theories/ScopeTheorems.v
theories/SourceStreamModel.v
theories/SourceStreamProofs.v
theories/SourceStreamSpec.v
theories/SourceStreamTheorems.v
theories/StdNumModel.v
theories/StdNumProofs.v
theories/StmtComplete.v
theories/StmtModel.v
theories/StmtProofs.v
theories/StmtSound.v
theories/StmtSpec.v
theories/StmtTheorems.v
theories/StoreModel.v
theories/StoreProofs.v
theories/StoreSpec.v
theories/StoreTheorems.v
theories/StringPoolModel.v
theories/StringPoolProofs.v
theories/StringPoolSpec.v
theories/StringPoolTheorems.v
theories/Strto64Model.v
theories/Strto64Proofs.v
theories/Strto64Spec.v
theories/Strto64Theorems.v
theories/SymTableModel.v
theories/SymTableOwners.v
theories/SymTableProofs.v
theories/SymTableSpec.v
theories/SymTableTheorems.v
theories/TelomereModel.v
theories/TelomereTheorems.v
theories/TypeTableModel.v
theories/TypeTableProofs.v
theories/TypeTableTheorems.v
theories/UModModel.v
theories/UModTheorems.v
theories/UTypeModel.v
theories/VTableModel.v
theories/VTableProofs.v
theories/VTableSpec.v
theories/VTableTheorems.v
theories/ValueTextModel.v
theories/ValueTextSpec.v
theories/ValueTextTheorems.v
