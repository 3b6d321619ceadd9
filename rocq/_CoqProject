-Q theories Verif

theories/Base.v
theories/BaseProofs.v
theories/Wire.v
theories/WireProofs.v
theories/LoopProofs.v
theories/Unknown.v
theories/UnknownProofs.v
theories/Value.v
theories/Descr.v
theories/Fields.v
theories/Codec.v
theories/DescrOk.v
theories/DescrProofs.v
theories/FieldsProofs.v
theories/LenProofs.v
theories/MergeProofs.v
theories/Prop_Wire.v
theories/Prop_Unknown.v
theories/DepthProofs.v
theories/ExampleSchema.v
theories/Prop_Fields.v
theories/Prop_Len.v
theories/Prop_Decode.v
theories/RoundSpec.v
theories/RoundProofs.v
theories/ExtendProofs.v
theories/RestrictProofs.v
theories/RecordProofs.v
theories/MergeRules.v
theories/UnkMerge.v
theories/RoundMain.v
theories/RoundSame.v
theories/Prop_Round.v
theories/EntryProofs.v
theories/EntryAny.v
theories/PresenceProofs.v
theories/Prop_Merge.v
theories/History.v
theories/Prop_History.v
theories/Proto.v
theories/Build.v
theories/VisitProofs.v
theories/EventProofs.v
theories/BuildFrame.v
theories/BuildNames.v
theories/BuildQuiet.v
theories/BuildResolve.v
theories/BuildInv.v
theories/DeclSpec.v
theories/DeclProofs.v
theories/PoolFacts.v
theories/ExampleFiles.v
theories/PoolExts.v
theories/WalkOnce.v
theories/Prop_Pool.v
theories/Shared.v
theories/SharedProofs.v
theories/Global.v
theories/Prop_Share.v
theories/PoolMembers.v
theories/Prop_Members.v
theories/DefaultSpec.v
theories/Prop_Defaults.v
theories/ResolveSpec.v
theories/ResolveProofs.v
theories/Prop_Resolve.v
theories/BuildSafe.v
theories/Prop_Safe.v
theories/Options.v
theories/Prop_Options.v
theories/Float.v
theories/TextLex.v
theories/TextFormat.v
theories/TextParse.v
theories/TextLexProofs.v
theories/TextInts.v
theories/Prop_Text.v
theories/EncBytes.v
theories/TextTokens.v
theories/TextSafe.v
theories/TextDup.v
theories/Prop_TextSafe.v
theories/ItemRound.v
theories/TextScalars.v
theories/TextRound.v
theories/Prop_TextRound.v
theories/Json.v
theories/JsonSer.v
theories/JsonDe.v
theories/JsonMask.v
theories/JsonNumbers.v
theories/Prop_JsonScalars.v
theories/CompatSpec.v
theories/Compat.v
theories/Prop_Transcode.v
theories/JsonWkt.v
theories/Prop_JsonWkt.v
theories/ExampleJson.v
theories/JsonSafe.v
theories/Prop_JsonSafe.v
theories/Prop_JsonRules.v
theories/AgreeProofs.v
theories/Bulk.v
theories/JsonWktBack.v
theories/JsonTree.v
theories/JsonScalarBack.v
theories/JsonTypedBack.v
theories/JsonRound.v
theories/Prop_JsonRound.v
theories/Prop_Declared.v
theories/WireSpec.v
theories/WireSpecScalars.v
theories/WireSpecRead.v
theories/WireSpecWrite.v
theories/Prop_WireSpec.v
theories/FailSpec.v
theories/FailProofs.v
theories/Prop_Failed.v
theories/SaneSpec.v
theories/BridgeProofs.v
theories/Prop_Bridge.v
theories/OptResolve.v
theories/OptSpec.v
theories/OptProofs.v
theories/OptPlaces.v
theories/OptPass.v
theories/Prop_CustomOptions.v
theories/TextRegex.v
theories/TextRegexProofs.v
theories/TextRegexLex.v
theories/TextMeaning.v
theories/TextMeaningProofs.v
theories/TextMeaningMain.v
theories/TextMeaningFail.v
theories/Prop_TextMeaning.v
theories/JsonMeaning.v
theories/JsonMeaningScalars.v
theories/JsonMeaningB64.v
theories/JsonMeaningBuf.v
theories/JsonMeaningMain.v
theories/Prop_JsonMeaning.v
theories/JsonWritten.v
theories/JsonWrittenScalars.v
theories/JsonWrittenValue.v
theories/JsonWrittenMain.v
theories/JsonWrittenAll.v
theories/JsonWrittenTotal.v
theories/Prop_JsonWritten.v
theories/ValidSpec.v
theories/AcceptSteps.v
theories/AcceptNames.v
theories/AcceptRefs.v
theories/AcceptResolve.v
theories/AcceptVisible.v
theories/Prop_Accepts.v
theories/Raw.v
theories/RawSpec.v
theories/RawPlaces.v
theories/RawWalk.v
theories/RawAgain.v
theories/RawTrack.v
theories/RawBack.v
theories/Prop_GivenBack.v
theories/JoinSpec.v
theories/Join.v
theories/JoinAhead.v
theories/JoinCalls.v
theories/JoinAgain.v
theories/Prop_Join.v
theories/TextWritten.v
theories/TextWrittenWords.v
theories/TextWrittenUnknown.v
theories/TextWrittenRows.v
theories/TextWrittenAll.v
theories/TextWrittenDeeper.v
theories/Prop_TextWritten.v
theories/EndsSize.v
theories/EndsAny.v
theories/EndsText.v
theories/EndsJson.v
theories/Prop_Ends.v
theories/FaultSpec.v
theories/FaultNames.v
theories/FaultUses.v
theories/Prop_Faults.v
theories/Label.v
theories/Prop_Labels.v
theories/Generate.v
theories/Prop_Generate.v
theories/NamedSpec.v
theories/NamedProofs.v
theories/NamedJson.v
theories/Prop_Named.v
theories/RenewAny.v
theories/TextAny.v
theories/Prop_TextAny.v
theories/Prop_Rollback.v
theories/Nav.v
theories/NavProofs.v
theories/Prop_Tree.v
theories/Prop_Ranges.v
theories/Prop_SafeOptions.v
theories/Prop_Visible.v
theories/Prop_Oneofs.v
theories/Prop_EnumRanges.v
theories/Prop_Package.v
