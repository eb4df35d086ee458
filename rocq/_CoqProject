-Q theories Verif
theories/Base.v
theories/F64.v
theories/Number.v
theories/BaseProps.v
theories/F64Props.v
theories/F64Text.v
theories/NumberSpec.v
theories/NumberProps.v
theories/NumberProps2.v
theories/NumberProps3.v
theories/F32.v
theories/F32Spec.v
theories/F32Props.v
theories/F32Props2.v
theories/F32Props3.v
theories/PropertiesNum.v
theories/BTree.v
theories/Value.v
theories/BTreeProps.v
theories/ValueSpec.v
theories/ValueProps.v
theories/ValueProps2.v
theories/OrdSpec.v
theories/OrdProps.v
theories/PropertiesVal.v
theories/ToKserd.v
theories/ToKserdProps.v
theories/Base91.v
theories/Base91Props.v
theories/PropertiesConv.v
theories/Nav.v
theories/NavSpec.v
theories/NavProps.v
theories/NavProps2.v
theories/NavProps3.v
theories/PropertiesNav.v
theories/Nom.v
theories/Parse.v
theories/ParseErr.v
theories/ParseVectors.v
theories/ParseSpec.v
theories/MapOrder.v
theories/ParseProps.v
theories/ParseErrProps.v
theories/ParseErrProps2.v
theories/ParseErrProps3.v
theories/ParseErrProps4.v
theories/ParseErrProps5.v
theories/ParseErrProps6.v
theories/ParseErrProps7.v
theories/PropertiesTitle.v
theories/BracketSpec.v
theories/BracketProps.v
theories/BracketProps2.v
theories/BracketProps3.v
theories/BracketProps4.v
theories/BracketProps5.v
theories/ParseErrProps8.v
theories/ParseErrProps9.v
theories/ParseErrProps10.v
theories/PropertiesBracket.v
theories/PropertiesParse.v
theories/Fmt.v
theories/Formatter.v
theories/FmtVectors.v
theories/FmtText.v
theories/FmtSpec.v
theories/FmtProps.v
theories/FormatterProps.v
theories/FormatterProps2.v
theories/FormatterProps3.v
theories/FmtProps2.v
theories/FormatterProps4.v
theories/RtProps.v
theories/FmtPanic.v
theories/PropertiesFmt.v
theories/Grammar.v
theories/GrammarProps.v
theories/RtSpec.v
theories/RtProps2.v
theories/RtProps3.v
theories/RtProps4.v
theories/RtProps5.v
theories/RtProps6.v
theories/RtProps7.v
theories/PropertiesRt.v
theories/VGrammar.v
theories/VGrammarProps.v
theories/VAssemble.v
theories/VGrammarProps2.v
theories/VSpec.v
theories/VRtProps.v
theories/VRtProps2.v
theories/VRtProps3.v
theories/VRtProps4.v
theories/VRtProps5.v
theories/VRtProps6.v
theories/PropertiesVerbose.v
theories/Format.v
theories/FormatProps.v
theories/FormatProps2.v
theories/PropertiesFormat.v
theories/Syntax.v
theories/SyntaxProps.v
theories/SyntaxProps2.v
theories/SyntaxProps3.v
theories/SyntaxProps4.v
theories/PropertiesSyntax.v
theories/Encode.v
theories/EncodeSpec.v
theories/EncodeProps.v
theories/EncodeProps2.v
theories/EncodeProps3.v
theories/EncodeProps4.v
theories/EncodeProps5.v
theories/EncodeProps6.v
theories/EncodeProps7.v
theories/TextSpec.v
theories/NameSpec.v
theories/NameProps.v
theories/EncodeProps8.v
theories/EncodeProps9.v
theories/EncodeProps10.v
theories/PropertiesEnc.v
theories/PropertiesF32.v
theories/DecodeSpec.v
theories/DecodeProps.v
theories/DecodeProps2.v
theories/PropertiesDec.v
theories/LayoutSpec.v
theories/LayoutProps.v
theories/LayoutProps2.v
theories/LayoutProps3.v
theories/LayoutProps4.v
theories/LayoutProps5.v
theories/StuckSpec.v
theories/StuckProps.v
theories/StuckProps2.v
theories/LayoutProps6.v
theories/LayoutProps7.v
theories/PropertiesLayout.v
theories/Mutate.v
theories/MutateSpec.v
theories/MutateProps.v
theories/PropertiesMut.v
theories/LooksSpec.v
theories/LooksProps.v
theories/LooksProps2.v
theories/LooksProps3.v
theories/LooksProps4.v
theories/PropertiesLooks.v
theories/DocSpec.v
theories/DocProps.v
theories/ConvSpec.v
theories/ConvProps.v
theories/PropertiesSerde.v
theories/Own.v
theories/OwnSpec.v
theories/OwnProps.v
theories/OwnProps2.v
theories/OwnProps3.v
theories/PropertiesOwn.v
theories/NavIter.v
theories/NavIterSpec.v
theories/NavIterProps.v
theories/PropertiesIter.v
theories/DecimalSpec.v
theories/DecimalProps.v
theories/DecimalProps2.v
theories/PropertiesDecimal.v
theories/Ser.v
theories/SerSpec.v
theories/SerProps.v
theories/PropertiesSer.v
theories/Deser.v
theories/DeserSpec.v
theories/DeserProps.v
theories/DeserProps2.v
theories/DeserProps3.v
theories/PropertiesDeser.v
theories/NumPrim.v
theories/NumPrimProps.v
theories/PropertiesPrim.v
theories/Errors.v
theories/ErrorsProps.v
theories/PropertiesErr.v
theories/EolSpec.v
theories/EolProps.v
theories/EolProps2.v
theories/EolProps3.v
theories/EolProps4.v
theories/PropertiesEol.v
theories/ParseCost.v
theories/CostSpec.v
theories/CostProps.v
theories/CostProps2.v
theories/CostProps3.v
theories/CostProps4.v
theories/CostProps5.v
theories/ParseWork.v
theories/WorkProps.v
theories/WorkProps2.v
theories/WorkProps3.v
theories/WorkProps4.v
theories/PropertiesCost.v
theories/RepoVectors.v
theories/RepoVectors2.v
theories/RepoVectors3.v
theories/RepoVectors4.v
theories/DepthSpec.v
theories/ParseDepth.v
theories/DepthProps.v
theories/DepthProps2.v
theories/DepthProps3.v
theories/PropertiesDepth.v
theories/OrderSpec.v
theories/OrderProps.v
theories/PropertiesOrder.v
theories/InjSpec.v
theories/InjProps.v
theories/PropertiesInj.v
theories/Debug.v
theories/DebugSpec.v
theories/DebugProps.v
theories/DebugProps2.v
theories/DebugProps3.v
theories/DebugProps4.v
theories/DebugProps5.v
theories/PropertiesDebug.v
theories/HistorySpec.v
theories/HistoryProps.v
theories/HistoryProps2.v
theories/PropertiesHistory.v
theories/SizeSpec.v
theories/SizeProps.v
theories/SizeProps2.v
theories/PropertiesSize.v
theories/CutSpec.v
theories/CutProps.v
theories/CutProps2.v
theories/CutProps3.v
theories/CutProps4.v
theories/PropertiesCut.v
theories/PasteSpec.v
theories/PasteProps.v
theories/PasteProps2.v
theories/PropertiesPaste.v
theories/LocalSpec.v
theories/LocalProps.v
theories/LocalProps2.v
theories/LocalProps3.v
theories/PropertiesLocal.v
theories/EditProps.v
theories/PropertiesEdit.v
theories/NameProps2.v
theories/EncOrdSpec.v
theories/EncOrdProps.v
theories/PropertiesEncOrd.v
theories/TrailSpec.v
theories/TrailProps.v
theories/TrailProps2.v
theories/TrailProps3.v
theories/TrailProps4.v
theories/PropertiesTrail.v
theories/EvolveSpec.v
theories/EvolveProps.v
theories/EvolveProps2.v
theories/PropertiesEvolve.v
theories/DeserText.v
theories/DeserTextSpec.v
theories/DeserTextProps.v
theories/PropertiesDecErr.v
theories/FmtDepth.v
theories/FmtDepthSpec.v
theories/FmtDepthProps.v
theories/FmtDepthProps2.v
theories/FmtDepthProps3.v
theories/PropertiesFmtDepth.v
theories/MisreadSpec.v
theories/MisreadProps.v
theories/MisreadProps2.v
theories/MisreadProps3.v
theories/MisreadProps4.v
theories/MisreadProps5.v
theories/MisreadProps6.v
theories/MisreadProps7.v
theories/LegibleSpec.v
theories/LegibleProps.v
theories/LegibleProps2.v
theories/LegibleProps3.v
theories/LegibleProps4.v
theories/MisreadSpec2.v
theories/MisreadProps8.v
theories/MisreadProps9.v
theories/MisreadProps10.v
theories/TextSpec2.v
theories/EncodeProps20.v
theories/EncodeProps21.v
theories/PropertiesName.v
theories/PropertiesText.v
theories/DocSpec2.v
theories/DocProps2.v
theories/PropertiesDoc.v
theories/LegibleSpec2.v
theories/LegibleProps5.v
theories/LegibleProps6.v
theories/LegibleProps7.v
theories/AppendSpec.v
theories/AppendProps.v
theories/PropertiesAppend.v
theories/PropertiesMisread.v
theories/PropertiesLegible.v
theories/FmtWork.v
theories/FmtWorkProps.v
theories/FmtWorkProps2.v
theories/FmtWorkProps3.v
theories/FmtWorkProps4.v
theories/PropertiesFmtWork.v
