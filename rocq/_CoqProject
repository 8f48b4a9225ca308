-Q theories Verif
theories/Cyclic.v
theories/HashMapModel.v
theories/HashMapSpec.v
theories/HashMapProofs.v
theories/HashMapProps.v
theories/HTableModel.v
theories/HTableSpec.v
theories/HTableProofs.v
theories/HTableProps.v
theories/CHmapModel.v
theories/CHmapSpec.v
theories/CHmapProofs.v
theories/CHmapProps.v
theories/StrPoolModel.v
theories/StrPoolProofs.v
theories/StrPoolProps.v
theories/FnvModel.v
theories/FnvSpec.v
theories/FnvProofs.v
theories/FnvProps.v
theories/BswapModel.v
theories/BswapSpec.v
theories/BswapProofs.v
theories/BswapProps.v
theories/MemPoolModel.v
theories/MemPoolSpec.v
theories/MemPoolProofs.v
theories/MemPoolProps.v
theories/BufModel.v
theories/BufSpec.v
theories/BufProofs.v
theories/BufProps.v
theories/Utf8Model.v
theories/Utf8Spec.v
theories/Utf8Proofs.v
theories/Utf8Props.v
theories/EscapeModel.v
theories/EscapeSpec.v
theories/EscapeProofs.v
theories/EscapeProps.v
theories/FormatModel.v
theories/FormatSpec.v
theories/FormatProofs.v
theories/FormatProps.v
theories/SearchModel.v
theories/SearchSpec.v
theories/SearchProofs.v
theories/SearchProps.v
theories/StrModel.v
theories/StrSpec.v
theories/StrProofs.v
theories/StrProps.v
theories/RtStringModel.v
theories/RtStringSpec.v
theories/RtStringProofs.v
theories/RtStringProps.v
theories/SmartPtrModel.v
theories/SmartPtrSpec.v
theories/SmartPtrProofs.v
theories/SmartPtrProps.v
theories/OutStreamModel.v
theories/OutStreamSpec.v
theories/OutStreamProofs.v
theories/OutStreamProps.v
theories/Base64Model.v
theories/Base64Spec.v
theories/Base64Proofs.v
theories/Base64Props.v
theories/ListModel.v
theories/ListSpec.v
theories/ListProofs.v
theories/ListProps.v
theories/VectorModel.v
theories/VectorSpec.v
theories/VectorProofs.v
theories/VectorProps.v
theories/TrieModel.v
theories/TrieSpec.v
theories/TrieProofs.v
theories/TrieProps.v
theories/FetchModel.v
theories/FetchSpec.v
theories/FetchProofs.v
theories/FetchProps.v
theories/LogFieldModel.v
theories/LogFieldProps.v
theories/PathModel.v
theories/PathSpec.v
theories/PathProofs.v
theories/PathProps.v
theories/FServerModel.v
theories/FServerSpec.v
theories/FServerProofs.v
theories/FServerProps.v
theories/TransferModel.v
theories/TransferSpec.v
theories/TransferProofs.v
theories/TransferProps.v
theories/FileEvModel.v
theories/FileEvSpec.v
theories/FileEvProofs.v
theories/FileEvProps.v
theories/TimerModel.v
theories/TimerSpec.v
theories/TimerProofs.v
theories/TimerProps.v
theories/CoroModel.v
theories/CoroSpec.v
theories/CoroProofs.v
theories/CoroProps.v
theories/PrimModel.v
theories/PrimSpec.v
theories/PrimProofs.v
theories/PrimProps.v
theories/LlvmModel.v
theories/LlvmSpec.v
theories/LlvmProofs.v
theories/LlvmProps.v
theories/FoldModel.v
theories/FoldSpec.v
theories/FoldProofs.v
theories/FoldProps.v
theories/CtLoopModel.v
theories/CtLoopSpec.v
theories/CtLoopProofs.v
theories/CtLoopProps.v
theories/ParseModel.v
theories/ParseSpec.v
theories/ParseProofs.v
theories/ParseProps.v
theories/LexModel.v
theories/LexSpec.v
theories/LexProofs.v
theories/LexProps.v
theories/DiagModel.v
theories/DiagSpec.v
theories/DiagProofs.v
theories/DiagProps.v
theories/StageModel.v
theories/StageSpec.v
theories/StageProofs.v
theories/StageProps.v
theories/ArgsModel.v
theories/ArgsSpec.v
theories/ArgsProofs.v
theories/ArgsProps.v
theories/SwitchModel.v
theories/SwitchSpec.v
theories/SwitchProofs.v
theories/SwitchProps.v
theories/KTableModel.v
theories/KTableProofs.v
theories/ScopeModel.v
theories/ScopeSpec.v
theories/ScopeProofs.v
theories/ScopeProps.v
theories/SuggestModel.v
theories/SuggestSpec.v
theories/SuggestProofs.v
theories/SuggestProps.v
theories/MacroModel.v
theories/MacroSpec.v
theories/MacroProofs.v
theories/MacroProps.v
theories/CaptureModel.v
theories/CaptureSpec.v
theories/CaptureProofs.v
theories/CaptureProps.v
theories/OverloadModel.v
theories/OverloadSpec.v
theories/OverloadProofs.v
theories/OverloadProps.v
theories/CaptureProofs2.v
theories/EditModel.v
theories/EditSpec.v
theories/EditProofs.v
theories/EditProps.v
theories/MangleModel.v
theories/MangleSpec.v
theories/MangleProofs.v
theories/MangleProps.v
theories/DeferModel.v
theories/DeferSpec.v
theories/DeferProofs.v
theories/DeferProps.v
theories/InternModel.v
theories/InternSpec.v
theories/InternProofs.v
theories/InternProps.v
theories/ProgArgsModel.v
theories/ProgArgsSpec.v
theories/ProgArgsProofs.v
theories/ProgArgsProps.v
theories/JsonModel.v
theories/JsonSpec.v
theories/JsonProofs.v
theories/JsonProps.v
theories/HttpModel.v
theories/HttpSpec.v
theories/HttpProofs.v
theories/HttpProps.v
theories/HttpReqModel.v
theories/HttpReqSpec.v
theories/HttpReqProofs.v
theories/HttpReqProps.v
theories/HttpRespModel.v
theories/HttpRespSpec.v
theories/HttpRespProofs.v
theories/HttpRespProps.v
theories/MemModel.v
theories/MemSpec.v
theories/MemEval.v
theories/MemStatic.v
theories/MemProofs.v
theories/MemFlow.v
theories/MemWalk.v
theories/MemCalm.v
theories/MemProps.v
theories/ExcModel.v
theories/ExcSpec.v
theories/ExcProofs.v
theories/ExcProps.v
theories/LoopModel.v
theories/LoopSpec.v
theories/LoopProofs.v
theories/LoopProps.v
theories/OrdModel.v
theories/OrdSpec.v
theories/OrdProofs.v
theories/OrdProps.v
theories/CPrModel.v
theories/CPrSpec.v
theories/CPrProofs.v
theories/CPrProps.v
theories/InhModel.v
theories/InhSpec.v
theories/InhProofs.v
theories/InhProps.v
theories/FlowModel.v
theories/FlowSpec.v
theories/FlowProofs.v
theories/FlowProps.v
theories/CondModel.v
theories/CondSpec.v
theories/CondProofs.v
theories/CondProps.v
theories/ExpandModel.v
theories/ExpandSpec.v
theories/ExpandProofs.v
theories/ExpandProps.v
theories/CtIfModel.v
theories/CtIfSpec.v
theories/CtIfProofs.v
theories/CtIfProps.v
theories/DefArgModel.v
theories/DefArgSpec.v
theories/DefArgProofs.v
theories/DefArgProps.v
theories/UMatchModel.v
theories/UMatchSpec.v
theories/UMatchProofs.v
theories/UMatchProps.v
