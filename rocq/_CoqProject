-Q theories Verif
theories/Base.v
theories/StrModel.v
theories/StrProofs.v
theories/StrProps.v
theories/UtilModel.v
theories/UtilProofs.v
theories/UtilProps.v
theories/CommentModel.v
theories/CommentProofs.v
theories/CommentProps.v
theories/TokenModel.v
theories/LexModel.v
theories/LexSpec.v
theories/LexRefine.v
theories/LexBlank.v
theories/LexMain.v
theories/LexTrivia.v
theories/LexAll.v
theories/LexSense.v
theories/LexProps.v
theories/DocModel.v
theories/DocProofs.v
theories/DocEmit.v
theories/DocFit.v
theories/DocMin.v
theories/DocProps.v
theories/ExceedProps.v
theories/StreamModel.v
theories/StreamProofs.v
theories/StreamProps.v
theories/TokListModel.v
theories/TokListProofs.v
theories/TokListProps.v
theories/BranchModel.v
theories/BranchProofs.v
theories/LifeProofs.v
theories/BranchProps.v
theories/ArithModel.v
theories/ArithProps.v
theories/BufferModel.v
theories/BufferProofs.v
theories/BufferProps.v
theories/VectorModel.v
theories/VectorProps.v
theories/QueueModel.v
theories/QueueProps.v
theories/MapModel.v
theories/MapProofs.v
theories/MapProps.v
theories/ArenaModel.v
theories/ArenaProofs.v
theories/ArenaProps.v
theories/LinesModel.v
theories/LinesProps.v
theories/ErrorModel.v
theories/ErrorProps.v
theories/DiffModel.v
theories/DiffProps.v
theories/RulerModel.v
theories/RulerProps.v
theories/CppAlignModel.v
theories/CppAlignProps.v
theories/CppSenseProps.v
theories/AgainAlignProps.v
theories/IncludeModel.v
theories/IncludeProps.v
theories/GuardModel.v
theories/GuardProps.v
theories/SimpleModel.v
theories/SimpleProps.v
theories/PrintfModel.v
theories/PrintfProps.v
theories/StaticModel.v
theories/StaticProps.v
theories/StmtModel.v
theories/StmtProps.v
theories/FileModel.v
theories/FileProps.v
theories/YamlModel.v
theories/YamlProofs.v
theories/YamlProps.v
theories/ForwardModel.v
theories/ForwardProofs.v
theories/ForwardProps.v
theories/ParserModel.v
theories/ParserProps.v
theories/ExprModel.v
theories/ExprProofs.v
theories/ExprProps.v
theories/IndentProps.v
theories/BuildModel.v
theories/BuildProofs.v
theories/ExprDocModel.v
theories/ExprDocProofs.v
theories/ExprDocProps.v
theories/SynModel.v
theories/RunProofs.v
theories/SynProofs.v
theories/SynProps.v
theories/InkProofs.v
theories/DeclModel.v
theories/DeclProofs.v
theories/BelowProofs.v
theories/DeclProps.v
theories/WholeModel.v
theories/WholeProofs.v
theories/WholeProps.v
theories/SdeclModel.v
theories/SdeclProofs.v
theories/SdeclLeave.v
theories/SdeclSpec.v
theories/SdeclCollect.v
theories/SdeclMain.v
theories/SdeclProps.v
theories/ProtoModel.v
theories/ProtoProps.v
theories/LoopModel.v
theories/LoopProps.v
theories/RecoverModel.v
theories/RecoverProofs.v
theories/RecoverSteps.v
theories/RecoverProps.v
theories/DdocModel.v
theories/DdocProofs.v
theories/DdocSpec.v
theories/DdocSteps.v
theories/DdocFinal.v
theories/DdocSafe.v
theories/DdocProps.v
theories/SearchModel.v
theories/SearchProps.v
theories/BracesModel.v
theories/BracesProps.v
theories/CleanupModel.v
theories/CleanupProps.v
theories/MainModel.v
theories/MainProps.v
theories/TmpModel.v
theories/TmpProofs.v
theories/TmpProps.v
theories/AgainProps.v
