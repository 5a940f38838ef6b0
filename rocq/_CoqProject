-Q theories Verif
theories/Base.v
theories/Event.v
theories/Tree.v
theories/LowerModel.v
theories/LowerSpec.v
theories/FlatProofs.v
theories/LowerProofs.v
theories/DecProofs.v
theories/ForwardModel.v
theories/ForwardProofs.v
theories/MethProofs.v
theories/WidenProofs.v
theories/CoreProps.v
theories/ExtractModel.v
theories/ExtractSpec.v
theories/ExtractProofs.v
theories/ExtractProps.v
theories/DataModel.v
theories/DataProofs.v
theories/LabelHeapModel.v
theories/LabelHeapSpec.v
theories/LabelHeapProofs.v
theories/DataProps.v
theories/FragModel.v
theories/BufferModel.v
theories/FragSpec.v
theories/FragProofs.v
theories/BufferSpec.v
theories/BufferProofs.v
theories/BufferHistProofs.v
theories/BufferProps.v
theories/JsonModel.v
theories/JsonGrammar.v
theories/JsonSpec.v
theories/JsonNumProofs.v
theories/JsonMethProofs.v
theories/JsonProofs.v
theories/JsonImageProofs.v
theories/JsonParse.v
theories/JsonProps.v
theories/JsonSimProofs.v
theories/JsonLocalProofs.v
theories/JsonLocalProps.v
theories/JsonWriterProps.v
theories/JsonFragProps.v
theories/Utf8.v
theories/JsonUtf8Props.v
theories/FmtModel.v
theories/FmtSpec.v
theories/FmtProofs.v
theories/FmtProps.v
theories/BufferFragProps.v
theories/FmtTextProps.v
theories/FlattenModel.v
theories/FlattenSpec.v
theories/FlattenProofs.v
theories/FlattenProps.v
theories/StackModel.v
theories/StackProps.v
theories/TokenModel.v
theories/TokenSpec.v
theories/TokenProps.v
theories/StdModel.v
theories/StdSpec.v
theories/StdProps.v
theories/DeriveModel.v
theories/DeriveSpec.v
theories/DeriveProofs.v
theories/DeriveProps.v
theories/DeriveAcceptSpec.v
theories/DeriveAcceptProps.v
theories/NestedModel.v
theories/NestedSpec.v
theories/NestedProofs.v
theories/NestedWhole.v
theories/NestedProps.v
theories/NestedGivenProps.v
theories/SerdeModel.v
theories/SerdeSpec.v
theories/SerdeProofs.v
theories/SerdeProps.v
theories/ReaderModel.v
theories/ReaderSpec.v
theories/ReaderProofs.v
theories/ReaderNestProofs.v
theories/ReaderProps.v
theories/ArrayVecModel.v
theories/ArrayVecSpec.v
theories/ArrayVecProps.v
theories/NoAllocModel.v
theories/NoAllocSpec.v
theories/NoAllocProps.v
theories/BufferedSpec.v
theories/BufferedProps.v
theories/AdapterModel.v
theories/AdapterProps.v
theories/AttrModel.v
theories/AttrSpec.v
theories/AttrProps.v
theories/ReadBackProps.v
theories/AdaptiveModel.v
theories/AdaptiveProps.v
theories/JsonTextSpec.v
theories/JsonTextProofs.v
theories/JsonTextProps.v
theories/RustModel.v
theories/RustSpec.v
theories/RustProofs.v
theories/RustJsonProps.v
theories/RustSerdeSpec.v
theories/RustSerdeProps.v
theories/RustFmtSpec.v
theories/RustFmtProps.v
theories/NestedMono.v
theories/NestedNoAllocModel.v
theories/NestedNoAllocSpec.v
theories/NestedNoAllocProofs.v
theories/NestedNoAllocProps.v
theories/PreencodeModel.v
theories/PreencodeSpec.v
theories/PreencodeProofs.v
theories/PreencodeProps.v
theories/TokenWriteModel.v
theories/TokenWriteSpec.v
theories/TokenWriteProofs.v
theories/TokenWriteProps.v
theories/CollectProps.v
theories/UnderstoodSpec.v
theories/UnderstoodProps.v
theories/StackExactProps.v
theories/ReaderFateSpec.v
theories/MinifySpec.v
theories/MinifyProofs.v
theories/ReaderFateProofs.v
theories/ReaderFateProps.v
theories/MinifyProps.v
theories/AdaptiveBufProps.v
theories/WrittenSpec.v
theories/WrittenProofs.v
theories/CountProofs.v
theories/WrittenProps.v
theories/RustExactProps.v
theories/TagIdProps.v
theories/NestedDefaultModel.v
theories/NestedDefaultSpec.v
theories/NestedDefaultProofs.v
theories/NestedDefaultProps.v
theories/FragNoAllocModel.v
theories/FragNoAllocSpec.v
theories/FragNoAllocProps.v
theories/SizeSpec.v
theories/SizeProps.v
theories/SerdeErrModel.v
theories/SerdeErrSpec.v
theories/SerdeErrProofs.v
theories/SerdeErrProps.v
theories/JsonErrModel.v
theories/JsonErrSpec.v
theories/JsonErrProofs.v
theories/JsonErrProps.v
theories/JsonIoProps.v
theories/JsonNumExactSpec.v
theories/JsonNumExactProps.v
theories/VariantNumProps.v
theories/JsonNumCutProps.v
theories/RustFmtExactProps.v
theories/AttrExactProps.v
theories/BufErrModel.v
theories/BufErrSpec.v
theories/BufErrProofs.v
theories/BufErrProps.v
theories/NestedErrModel.v
theories/NestedErrSpec.v
theories/NestedErrProofs.v
theories/NestedErrProps.v
theories/FormatterModel.v
theories/FormatterSpec.v
theories/FormatterProps.v
theories/SerdeFailModel.v
theories/SerdeFailSpec.v
theories/SerdeFailProofs.v
theories/SerdeFailProps.v
theories/SerdeTextModel.v
theories/SerdeTextSpec.v
theories/SerdeTextProofs.v
theories/SerdeTextProps.v
theories/FlatRustModel.v
theories/FlatRustSpec.v
theories/FlatRustProofs.v
theories/FlatRustProps.v
theories/ReaderWrapModel.v
theories/ReaderWrapSpec.v
theories/ReaderWrapProofs.v
theories/ReaderWrapProps.v
theories/FlattenWrapModel.v
theories/FlattenWrapSpec.v
theories/FlattenWrapProofs.v
theories/FlattenWrapExactProofs.v
theories/FlattenWrapProps.v
theories/EntryProps.v
theories/EnumExactProps.v
theories/PreencodeExactProps.v
theories/LabelThreadModel.v
theories/LabelThreadSpec.v
theories/LabelThreadProofs.v
theories/LabelThreadProps.v
theories/BufferedExactProps.v
theories/MemBufModel.v
theories/MemBufSpec.v
theories/MemBufProofs.v
theories/MemBufProps.v
theories/JsonContextSpec.v
theories/JsonContextProps.v
theories/BufferedNumProps.v
