-Q theories Verif
theories/Outcome.v
theories/BitLemmas.v
theories/LebSpec.v
theories/VarIntModel.v
theories/VarIntProofs.v
theories/VarIntProps.v
theories/StreamModel.v
theories/StreamProofs.v
theories/StreamProps.v
theories/ByteBufferModel.v
theories/ByteBufferSpec.v
theories/ByteBufferProofs.v
theories/ByteBufferProps.v
theories/CodecModel.v
theories/CodecSpec.v
theories/CodecProofs.v
theories/InsnListModel.v
theories/CodecProps.v
theories/InterpModel.v
theories/InterpSpec.v
theories/InterpProofs.v
theories/InterpCallProofs.v
theories/InterpSafe.v
theories/InterpProps.v
theories/HashModel.v
theories/HashProofs.v
theories/HashProps.v
theories/MemModel.v
theories/MemSpec.v
theories/MemProofs.v
theories/MemProps.v
theories/IListModel.v
theories/IListSpec.v
theories/IListProofs.v
theories/IListProps.v
theories/TablesModel.v
theories/TablesSpec.v
theories/TablesProofs.v
theories/TablesProps.v
theories/IrModel.v
theories/IrSpec.v
theories/IrProofs.v
theories/IrProps.v
theories/FloatSpec.v
theories/FloatFacts.v
theories/LexModel.v
theories/LexSpec.v
theories/LexProofs.v
theories/LexRun.v
theories/LexTiles.v
theories/LexStrings.v
theories/LexProps.v
theories/ParseModel.v
theories/ParseUnfold.v
theories/ParseSpec.v
theories/ParseProofs.v
theories/ParseShow.v
theories/ParseReads.v
theories/ParseText.v
theories/ParseProps.v
theories/VecModel.v
theories/VecSpec.v
theories/VecProofs.v
theories/VecTree.v
theories/VecRun.v
theories/VecProg.v
theories/VecProps.v
theories/RcModel.v
theories/RcSpec.v
theories/RcProofs.v
theories/RcProg.v
theories/RcProps.v
theories/CmdModel.v
theories/CmdSpec.v
theories/CmdProps.v
theories/SexprModel.v
theories/SexprSpec.v
theories/SexprProps.v
theories/SpanModel.v
theories/SpanProps.v
theories/LockModel.v
theories/LockProps.v
theories/MaybeModel.v
theories/MaybeSpec.v
theories/MaybeProofs.v
theories/MaybeProps.v
theories/WasmModel.v
theories/WasmSpec.v
theories/WasmProofs.v
theories/WasmProps.v
theories/DisModel.v
theories/DisSpec.v
theories/DisProofs.v
theories/DisProps.v
theories/SpellSpec.v
theories/SpellProps.v
theories/WastModel.v
theories/WastSpec.v
theories/WastProofs.v
theories/WastPieces.v
theories/WastProps.v
theories/OwnModel.v
theories/OwnSpec.v
theories/OwnProofs.v
theories/OwnProps.v
theories/ResModel.v
theories/ResSpec.v
theories/ResProofs.v
theories/ResProps.v
theories/DisTextSpec.v
theories/DisTextProps.v
theories/AsmModel.v
theories/AsmSpec.v
theories/AsmProofs.v
theories/AsmProps.v
theories/TokModel.v
theories/TokSpec.v
theories/TokProps.v
theories/WasmPartProps.v
theories/DisPartProps.v
theories/WastPartProps.v
theories/WasmLooseProps.v
theories/WasmCutProps.v
theories/WasmCut2Props.v
theories/WasmCut3Props.v
theories/WasmCut4Props.v
theories/WasmCut5Props.v
theories/MiscModel.v
theories/MiscProps.v
theories/InterpExact.v
theories/InterpExactProps.v
theories/InterpResultProps.v
theories/DisVerboseModel.v
theories/DisVerboseSpec.v
theories/DisVerboseProofs.v
theories/DisVerboseProps.v
theories/WasmNameProps.v
theories/WasmNameProps2.v
theories/CutProofs.v
theories/CutProps.v
theories/NodeHeapModel.v
theories/NodeHeapSpec.v
theories/NodeHeapProofs.v
theories/NodeHeapChange.v
theories/NodeHeapProps.v
theories/NodeHeapKeysProps.v
theories/ParseOverflow.v
theories/ParseOverflowProps.v
theories/HeapParseModel.v
theories/HeapParseSpec.v
theories/HeapParseProofs.v
theories/HeapParseProps.v
theories/WasmBodyProps.v
theories/InterpRepeatProps.v
theories/InterpBuiltProps.v
theories/StackModel.v
theories/StackProps.v
theories/RcCopyModel.v
theories/RcCopySpec.v
theories/RcCopyProps.v
theories/ByteBufferValueModel.v
theories/ByteBufferValueProps.v
theories/LineModel.v
theories/LineProps.v
theories/SymNodeModel.v
theories/SymNodeProps.v
theories/InterpBuiltResultProps.v
theories/InterpRepeatResultProps.v
theories/WasmCut6Props.v
theories/RcCopy2Props.v
theories/RcCopy3Props.v
theories/InterpOtherEndsProps.v
theories/WastPrintModel.v
theories/WastPrintSpec.v
theories/WastPrintProofs.v
theories/WastPrintProps.v
theories/SexprNumModel.v
theories/SexprNumProps.v
