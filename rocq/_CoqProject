-Q theories Verif
theories/SortModel.v
theories/SortSpec.v
theories/SortProofs.v
theories/SortProperties.v
theories/HashModel.v
theories/HashSpec.v
theories/HashProofs.v
theories/HashProperties.v
theories/JobModel.v
theories/JobSpec.v
theories/JobProofs.v
theories/JobProperties.v
theories/MapIterModel.v
theories/MapIterSpec.v
theories/MapIterProofs.v
theories/MapIterProperties.v
theories/DateModel.v
theories/DateSpec.v
theories/DateProofs.v
theories/DateTextModel.v
theories/DateTextProofs.v
theories/DateProperties.v
theories/BigModel.v
theories/BigSpec.v
theories/BigProofs.v
theories/BigSubProofs.v
theories/BigMulProofs.v
theories/BigBitProofs.v
theories/BigShiftProofs.v
theories/BigTextProofs.v
theories/BigDivProofs.v
theories/BigProperties.v
theories/StrModel.v
theories/StrSpec.v
theories/StrProofs.v
theories/StrProperties.v
theories/KeyModel.v
theories/KeySpec.v
theories/KeyProofs.v
theories/KeyProperties.v
theories/SubstModel.v
theories/SubstSpec.v
theories/SubstProofs.v
theories/SubstProperties.v
theories/NumModel.v
theories/NumSpec.v
theories/NumProofs.v
theories/NumProperties.v
theories/ValModel.v
theories/ValSpec.v
theories/ValProofs.v
theories/BufModel.v
theories/BufSpec.v
theories/BufElemSpec.v
theories/BufProofs.v
theories/BufElemProofs.v
theories/BufProperties.v
theories/ValProperties.v
theories/UriModel.v
theories/UriSpec.v
theories/UriProofs.v
theories/UriProperties.v
theories/UtfModel.v
theories/UtfSpec.v
theories/UtfProofs.v
theories/UtfProperties.v
theories/StoreModel.v
theories/StoreSpec.v
theories/StoreProofs.v
theories/ObjModel.v
theories/ObjSpec.v
theories/ObjProofs.v
theories/ArrProofs.v
theories/HeapProofs.v
theories/LevelProofs.v
theories/StoreProperties.v
theories/ObjProperties.v
theories/GcModel.v
theories/GcSpec.v
theories/GcProofs.v
theories/GcProperties.v
theories/RbtModel.v
theories/RbtSpec.v
theories/RbtProofs.v
theories/RbtFixProofs.v
theories/RbtRemoveProofs.v
theories/RbtTreeProofs.v
theories/RbtOpsProofs.v
theories/RbtProperties.v
theories/InputModel.v
theories/InputSpec.v
theories/JsonModel.v
theories/JsonSpec.v
theories/JsonLexProofs.v
theories/JsonParseProofs.v
theories/JsonTokProofs.v
theories/JsonQuoteProofs.v
theories/JsonRefuteProofs.v
theories/InputProofs.v
theories/JsonProperties.v
theories/PromiseModel.v
theories/PromiseSpec.v
theories/PromiseProofs.v
theories/PromiseProperties.v
theories/PromiseAllModel.v
theories/PromiseAllSpec.v
theories/PromiseAllProofs.v
theories/PromiseAllProperties.v
theories/ViewModel.v
theories/ViewSpec.v
theories/ViewProofs.v
theories/ViewSafeProofs.v
theories/ViewCopyProofs.v
theories/ViewProperties.v
theories/JsonCloseProofs.v
theories/AtomModel.v
theories/AtomSpec.v
theories/AtomProofs.v
theories/AtomLinProofs.v
theories/AtomProperties.v
theories/WaitModel.v
theories/WaitSpec.v
theories/WaitProofs.v
theories/WaitStepProofs.v
theories/WaitProperties.v
theories/ProxyModel.v
theories/ProxySpec.v
theories/ProxyProofs.v
theories/ProxyTrapProofs.v
theories/ProxyProperties.v
theories/RegModel.v
theories/RegSpec.v
theories/RegBase.v
theories/RegProofs.v
theories/RegTerm.v
theories/RegText.v
theories/RegLang.v
theories/RegCharSpec.v
theories/RegEcma.v
theories/RegWorld.v
theories/RegExecModel.v
theories/RegExecSpec.v
theories/RegExecProofs.v
theories/RegProperties.v
theories/RegParseModel.v
theories/RegParseSpec.v
theories/RegParseProofs.v
theories/RegParseTree.v
theories/RegParseSafe.v
theories/RegParseTotal.v
theories/RegParseProperties.v
theories/ModModel.v
theories/ModSpec.v
theories/ModDfs.v
theories/ModLink.v
theories/ModEval.v
theories/ModAsync.v
theories/ModProgram.v
theories/ModProperties.v
theories/ResModel.v
theories/ResSpec.v
theories/ResProofs.v
theories/ResProperties.v
theories/OpModel.v
theories/OpSpec.v
theories/OpProofs.v
theories/OpProperties.v
theories/EnvModel.v
theories/EnvSpec.v
theories/EnvProofs.v
theories/EnvSim.v
theories/EnvReuse.v
theories/EnvProperties.v
theories/ForInModel.v
theories/ForInSpec.v
theories/ForInProofs.v
theories/ForInRun.v
theories/ForInProperties.v
theories/ArgsModel.v
theories/ArgsSpec.v
theories/ArgsProofs.v
theories/ArgsProperties.v
theories/MethModel.v
theories/MethSpec.v
theories/MethProofs.v
theories/MethPlain.v
theories/MethProperties.v
theories/FlowModel.v
theories/FlowSpec.v
theories/FlowFacts.v
theories/FlowProofs.v
theories/FlowAccept.v
theories/FlowProperties.v
theories/GenModel.v
theories/GenSpec.v
theories/GenProofs.v
theories/GenProperties.v
theories/DtoaModel.v
theories/DtoaSpec.v
theories/DtoaProofs.v
theories/DtoaText.v
theories/DtoaShort.v
theories/DtoaLayout.v
theories/DtoaMethods.v
theories/DtoaIndex.v
theories/DtoaProperties.v
theories/ExprModel.v
theories/ExprSpec.v
theories/ExprFuel.v
theories/ExprGrammar.v
theories/ExprComplete.v
theories/ExprSound.v
theories/ExprValue.v
theories/ExprProperties.v
theories/LexNumModel.v
theories/LexNumSpec.v
theories/LexNumRound.v
theories/LexNumScan.v
theories/LexNumString.v
theories/LexNumConvert.v
theories/LexNumBig.v
theories/LexNumTrip.v
theories/LexNumParse.v
theories/LexNumProperties.v
theories/LexNumSourceSpec.v
theories/LexNumSource.v
theories/LexNumSourceLex.v
theories/LexNumSourceMain.v
theories/LexNumSourceProperties.v
theories/LexTextModel.v
theories/LexTextSpec.v
theories/LexTextString.v
theories/LexTextTemplate.v
theories/LexTextRegexp.v
theories/LexTextProperties.v
theories/LexTabModel.v
theories/LexTabSpec.v
theories/LexTabProofs.v
theories/LexTabMain.v
theories/LexTabProperties.v
theories/MathModel.v
theories/MathSpec.v
theories/MathProofs.v
theories/MathRound.v
theories/MathPower.v
theories/MathProperties.v
theories/IterModel.v
theories/IterSpec.v
theories/IterProofs.v
theories/IterProperties.v
theories/GapModel.v
theories/GapSpec.v
theories/GapProofs.v
theories/GapProperties.v
theories/DescModel.v
theories/DescSpec.v
theories/DescProofs.v
theories/DescProperties.v
theories/IntObjModel.v
theories/IntObjSpec.v
theories/IntObjProofs.v
theories/IntObjProperties.v
theories/GlobModel.v
theories/GlobSpec.v
theories/GlobProofs.v
theories/GlobProperties.v
theories/PrivModel.v
theories/PrivSpec.v
theories/PrivProofs.v
theories/PrivProperties.v
theories/BoundModel.v
theories/BoundSpec.v
theories/BoundProofs.v
theories/BoundProperties.v
theories/SymRegModel.v
theories/SymRegProofs.v
theories/SymRegProperties.v
theories/ErrModel.v
theories/ErrSpec.v
theories/ErrProperties.v
