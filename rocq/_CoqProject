-Q theories Verif
theories/Base.v
theories/Base64Model.v
theories/Base64Spec.v
theories/Base64Proof.v
theories/Base64Decode.v
theories/Base64Props.v
theories/Decimal10.v
theories/DatetimeModel.v
theories/DatetimeSpec.v
theories/DatetimeProof.v
theories/DatetimeProps.v
theories/Float.v
theories/NumericModel.v
theories/NumericSpec.v
theories/NumericProof.v
theories/NumericProps.v
theories/BitsetModel.v
theories/BitsetProof.v
theories/BitsetProps.v
theories/HashModel.v
theories/HashProof.v
theories/DispatchModel.v
theories/DispatchProof.v
theories/HashAlike.v
theories/HashProps.v
theories/RefsModel.v
theories/RefsProof.v
theories/RefsProps.v
theories/EnumModel.v
theories/EnumProof.v
theories/EnumProps.v
theories/Json.v
theories/PathModel.v
theories/PathSpec.v
theories/PathProof.v
theories/PathProps.v
theories/StackModel.v
theories/StackSpec.v
theories/StackProof.v
theories/StackProps.v
theories/Types.v
theories/SerializeModel.v
theories/Events.v
theories/WriteModel.v
theories/WriteSpec.v
theories/NeverProof.v
theories/WriteProof.v
theories/FiniteProof.v
theories/OutsideProof.v
theories/DerivedProof.v
theories/WriteProps.v
theories/DeserializeModel.v
theories/DenoteSpec.v
theories/DenoteProof.v
theories/SameSpec.v
theories/SameProof.v
theories/DenoteFacts.v
theories/MemberFacts.v
theories/MapFacts.v
theories/VariantFacts.v
theories/DeserializeProps.v
theories/FloatFacts.v
theories/FloatProps.v
theories/ParseModel.v
theories/ParseRead.v
theories/ParseSpec.v
theories/PlaceFacts.v
theories/ParseProof.v
theories/ParseFacts.v
theories/ParseLimit.v
theories/MergeSpec.v
theories/MergeProof.v
theories/MergeFacts.v
theories/AgreeSpec.v
theories/AgreeProof.v
theories/ParseStack.v
theories/AcceptFacts.v
theories/ParseProps.v
theories/RoundSpec.v
theories/DocSpec.v
theories/RoundProof.v
theories/RoundParse.v
theories/RoundProps.v
theories/GraphSpec.v
theories/GraphProof.v
theories/GraphProps.v
theories/VariantProps.v
theories/SchemaModel.v
theories/SchemaSpec.v
theories/SchemaFacts.v
theories/SchemaProof.v
theories/SchemaProps.v
theories/CulpritSpec.v
theories/CulpritProof.v
theories/CulpritProps.v
theories/TextModel.v
theories/TextSpec.v
theories/TextChars.v
theories/TextProof.v
theories/TextWrite.v
theories/TextProps.v
theories/SchemaGenSpec.v
theories/SchemaGenProof.v
theories/SchemaGenProps.v
theories/SchemaReadSpec.v
theories/SchemaReadProof.v
theories/NumberModel.v
theories/NumberSpec.v
theories/NumberProof.v
theories/NumberProps.v
theories/FragmentSpec.v
theories/FragmentProof.v
theories/RespellSpec.v
theories/SafetySpec.v
theories/SafetyProof.v
theories/SafetyText.v
theories/SafetyProps.v
theories/RewriteSpec.v
theories/RewriteProof.v
theories/RewriteProps.v
theories/HeapModel.v
theories/HeapSpec.v
theories/HeapProof.v
theories/HeapWriteModel.v
theories/HeapWriteProof.v
theories/HeapWriteTree.v
theories/HeapProps.v
theories/DropProps.v
theories/InsituModel.v
theories/InsituSpec.v
theories/InsituProof.v
theories/InsituProps.v
theories/ReaderModel.v
theories/ReaderProof.v
theories/DepthProof.v
theories/DepthProps.v
theories/OffsetSpec.v
theories/OffsetProof.v
theories/OffsetRead.v
theories/OffsetProps.v
theories/MessageModel.v
theories/MessageSpec.v
theories/MessageProof.v
theories/MessageFacts.v
theories/MessageRead.v
theories/MessageProps.v
theories/ErrorModel.v
theories/ErrorSpec.v
theories/ErrorProof.v
theories/ErrorProps.v
theories/StorageModel.v
theories/StorageSpec.v
theories/StorageProof.v
theories/StorageProps.v
theories/SchemaTextModel.v
theories/SchemaTextSpec.v
theories/SchemaTextProof.v
theories/SchemaFits.v
theories/SchemaTextProps.v
theories/HierarchyModel.v
theories/HierarchySpec.v
theories/HierarchyProof.v
theories/HierarchyProps.v
theories/SupportModel.v
theories/SupportSpec.v
theories/SupportSelect.v
theories/SupportProof.v
theories/SupportProps.v
theories/SupportLink.v
theories/SupportLinkProps.v
theories/DescribeModel.v
theories/DescribeProps.v
theories/ThreadModel.v
theories/ThreadSpec.v
theories/ThreadProof.v
theories/ThreadProps.v
theories/SchemaReadAll.v
theories/SchemaReadProps.v
theories/CarryModel.v
theories/CarrySpec.v
theories/CarryProof.v
theories/CarryProps.v
theories/LifetimeModel.v
theories/LifetimeSpec.v
theories/LifetimeProof.v
theories/LifetimeGone.v
theories/LifetimeProps.v
theories/EvolveSpec.v
theories/EvolveProof.v
theories/EvolveProps.v
theories/VisitModel.v
theories/VisitSpec.v
theories/VisitProof.v
theories/VisitCount.v
theories/VisitProps.v
theories/SyntaxSpec.v
theories/SyntaxProof.v
theories/SyntaxRead.v
theories/SyntaxReplay.v
theories/SyntaxProps.v
theories/FragmentRead.v
theories/FragmentTarget.v
theories/FragmentProps.v
theories/IsomorphProof.v
theories/IsomorphProps.v
theories/SizeSpec.v
theories/SizeProof.v
theories/SizeProps.v
theories/LayerSpec.v
theories/LayerProof.v
theories/LayerParse.v
theories/LayerAny.v
theories/LayerProps.v
theories/IndetModel.v
theories/IndetSpec.v
theories/IndetProof.v
theories/IndetSafe.v
theories/IndetCopy.v
theories/IndetProps.v
theories/ValidSpec.v
theories/ValidProof.v
theories/ValidParse.v
theories/ValidText.v
theories/ValidProps.v
theories/DefinedSpec.v
theories/DefinedProof.v
theories/DefinedProps.v
theories/Suite.v
