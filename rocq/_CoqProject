-Q theories Verif
theories/Base.v
theories/Utf8.v
theories/JsonSpec.v
theories/NumberModel.v
theories/NumberProof.v
theories/OptionsModel.v
theories/EscapeModel.v
theories/EscapeProof.v
theories/JsonParse.v
theories/CompactModel.v
theories/CompactProof.v
theories/IntModel.v
theories/IntProof.v
theories/BufModel.v
theories/DurationModel.v
theories/DurationProof.v
theories/CalendarSpec.v
theories/TypesModel.v
theories/TimeModel.v
theories/TimeProof.v
theories/FloatModel.v
theories/FloatProof.v
theories/FloatSpec.v
theories/FloatShort.v
theories/DurationFloat.v
theories/LeafModel.v
theories/LeafProof.v
theories/TypesFacts.v
theories/TagsModel.v
theories/TagsProof.v
theories/MemModel.v
theories/FieldsModel.v
theories/FieldsSpec.v
theories/FieldsSelect.v
theories/FieldsProof.v
theories/FieldsThm.v
theories/FieldsSlots.v
theories/Base64Model.v
theories/InstrModel.v
theories/ExecModel.v
theories/ValueModel.v
theories/ExecMono.v
theories/ExecLeaf.v
theories/ExecProof.v
theories/HostFacts.v
theories/VencFacts.v
theories/MarshalThm.v
theories/ExampleHost.v
theories/Base64Proof.v
theories/DocSpec.v
theories/EntriesFacts.v
theories/DocLeaf.v
theories/PartFacts.v
theories/DocProof.v
theories/TimeTotal.v
theories/SafeProof.v
theories/ApiFacts.v
theories/ExampleVals.v
theories/Properties_Strings.v
theories/Properties_Numbers.v
theories/PartsThm.v
theories/ExampleConst.v
theories/StrictParse.v
theories/Properties_Raw.v
theories/Properties_Time.v
theories/ShapeThm.v
theories/CallFacts.v
theories/ExampleRead.v
theories/Properties_Options.v
theories/Properties_Fields.v
theories/Properties_Members.v
theories/Properties_Slots.v
theories/ShuffleThm.v
theories/OrderThm.v
theories/Properties_Maps.v
theories/AppendThm.v
theories/CycleThm.v
theories/Properties_Api.v
theories/MethodsThm.v
theories/Properties_Marshalers.v
theories/ConcModel.v
theories/ConcLogic.v
theories/ConcSound.v
theories/ConcGlobal.v
theories/ConcBuild.v
theories/ConcHeap.v
theories/ConcRun.v
theories/ConcCalls.v
theories/ConcExec.v
theories/Properties_Conc.v
theories/Properties_Bytes.v
theories/Properties_Floats.v
theories/Properties_Text.v
theories/ErrorModel.v
theories/Properties_Errors.v
theories/Properties_Build.v
theories/TextThm.v
theories/Properties_Safe.v
theories/TimeExact.v
theories/Properties_Exact.v
theories/Properties_Edges.v
theories/Properties_Sync.v
theories/Properties_Order.v
theories/Properties_Lossless.v
theories/Properties_Instant.v
theories/Properties_Keys.v
theories/Properties_Names.v
theories/Properties_FloatText.v
theories/Properties_Std.v
theories/CompactText.v
theories/Properties_Compact.v
theories/TimeText.v
theories/Properties_TimeText.v
theories/Properties_Precedence.v
theories/Properties_Compose.v
theories/Properties_Frame.v
theories/Properties_Html.v
theories/Properties_NoCompact.v
theories/Properties_Convert.v
theories/Properties_Lists.v
theories/Properties_Static.v
theories/Properties_Failures.v
theories/Properties_Embed.v
theories/Properties_Permute.v
theories/Properties_Data.v
theories/FloatSize.v
theories/SizeFacts.v
theories/Properties_Size.v
theories/Properties_Lines.v
theories/Properties_Generic.v
theories/FloatTotal.v
theories/Properties_GenericStd.v
theories/Properties_Pairs.v
