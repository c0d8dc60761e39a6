-Q theories Verif
theories/AbiModel.v
theories/AbiProofs.v
theories/AbiProps.v
theories/AbiSpec.v
theories/ArgsAny.v
theories/ArgsAnyProps.v
theories/ArgsAnySpec.v
theories/ArgsLayout.v
theories/ArgsModel.v
theories/ArgsMoveProps.v
theories/ArgsOrder.v
theories/ArgsParse.v
theories/ArgsProofs.v
theories/ArgsProps.v
theories/ArgsSpec.v
theories/ArgsSyntax.v
theories/ArgsText.v
theories/ArgsUse.v
theories/Base.v
theories/BrandModel.v
theories/BrandProofs.v
theories/BrandProps.v
theories/BrandSpec.v
theories/CfgModel.v
theories/CfgProps.v
theories/CfgSpec.v
theories/DbusCursorProofs.v
theories/DbusCursorQueries.v
theories/DbusElement.v
theories/DbusFlagBits.v
theories/DbusFlagBitsProofs.v
theories/DbusFlagBitsProps.v
theories/DbusHashProps.v
theories/DbusMakeModel.v
theories/DbusMakeProofs.v
theories/DbusMakeProps.v
theories/DbusObs.v
theories/DbusSigAnnot.v
theories/DbusSigModel.v
theories/DbusSigProofs.v
theories/DbusSigProps.v
theories/DbusSigRefine.v
theories/DbusSigRefuted.v
theories/DbusSigResults.v
theories/DbusSigSpec.v
theories/DbusSigTheory.v
theories/DbusSpec.v
theories/DbusWordModel.v
theories/DbusWordMono.v
theories/DbusWordParse.v
theories/DbusWordProofs.v
theories/DbusWordProps.v
theories/DbusWordResults.v
theories/DbusWordSim.v
theories/DbusWordSpec.v
theories/DocModel.v
theories/DocMore.v
theories/DocProofs.v
theories/DocProps.v
theories/DocRecoverProps.v
theories/DocSpec.v
theories/DosProofs.v
theories/DosProps.v
theories/DosSpec.v
theories/DvarAccept.v
theories/DvarAcceptProps.v
theories/DvarAlign.v
theories/DvarAlignProps.v
theories/DvarBig.v
theories/DvarDecCommit.v
theories/DvarDecProps.v
theories/DvarDecReads.v
theories/DvarDecSpec.v
theories/DvarDecTyping.v
theories/DvarDecode.v
theories/DvarEncode.v
theories/DvarFixed.v
theories/DvarFixedProps.v
theories/DvarLoopProps.v
theories/DvarLoss.v
theories/DvarLossProps.v
theories/DvarLossSpec.v
theories/DvarModel.v
theories/DvarMoreProps.v
theories/DvarProofs.v
theories/DvarProps.v
theories/DvarReadProps.v
theories/DvarSound.v
theories/DvarSpec.v
theories/DvarSubs.v
theories/DvarTurn.v
theories/DvarTurnProps.v
theories/DvarTurnSpec.v
theories/DvarTyping.v
theories/DvarTypingProofs.v
theories/DvarVisit.v
theories/ElemModel.v
theories/ElemProps.v
theories/EndeModel.v
theories/EndeProps.v
theories/EtcModel.v
theories/EtcProps.v
theories/EtcSpec.v
theories/FfiModel.v
theories/FfiProofs.v
theories/FfiProps.v
theories/FfiSpec.v
theories/FieldModel.v
theories/FieldProofs.v
theories/FieldProps.v
theories/FieldSpec.v
theories/FixPtrModel.v
theories/FixPtrProps.v
theories/FmtModel.v
theories/FmtProofs.v
theories/FmtProps.v
theories/FmtSpec.v
theories/HashApi.v
theories/HashCollide.v
theories/HashCollideProps.v
theories/HashCollideSpec.v
theories/HashProofs.v
theories/HashProps.v
theories/HashSpec.v
theories/HelpProofs.v
theories/HmacModel.v
theories/IoAgainProps.v
theories/IoErrProofs.v
theories/IoErrProps.v
theories/IoMapModel.v
theories/IoMapProofs.v
theories/IoMapProps.v
theories/IoMapSpec.v
theories/JsonAgree.v
theories/JsonAgreeProps.v
theories/JsonAgreeSpec.v
theories/JsonHist.v
theories/JsonLex.v
theories/JsonLexNum.v
theories/JsonLexStr.v
theories/JsonLexTotal.v
theories/JsonModel.v
theories/JsonProofs.v
theories/JsonProps.v
theories/JsonRfc.v
theories/JsonSpec.v
theories/JsonSyntax.v
theories/LayModel.v
theories/LayoutModel.v
theories/LayoutProofs.v
theories/LayoutProps.v
theories/LayoutSpec.v
theories/LossyModel.v
theories/LossyProofs.v
theories/LossyProps.v
theories/LossySpec.v
theories/MarkModel.v
theories/MarkProps.v
theories/MemModel.v
theories/MemProofs.v
theories/MemProps.v
theories/MemSpec.v
theories/OsStrModel.v
theories/OsStrProps.v
theories/OwnModel.v
theories/OwnProofs.v
theories/OwnProps.v
theories/OwnSpec.v
theories/PackModel.v
theories/PackProps.v
theories/PackSpec.v
theories/PeModel.v
theories/PeProps.v
theories/PeSpec.v
theories/PhanModel.v
theories/PhanProps.v
theories/PinModel.v
theories/PinProofs.v
theories/PinProps.v
theories/PlatModel.v
theories/PlatProps.v
theories/PlatSpec.v
theories/PolModel.v
theories/PolProps.v
theories/PrimeCert.v
theories/PtrModel.v
theories/PtrProofs.v
theories/PtrProps.v
theories/PtrSpec.v
theories/ReplayDbus.v
theories/ReplayFfi.v
theories/ReplayFmt.v
theories/ReplayHash.v
theories/ReplayIo.v
theories/ReplayJson.v
theories/ReplayOsi.v
theories/ReplayTok.v
theories/ReportModel.v
theories/ReportProofs.v
theories/ReportProps.v
theories/ReportSpec.v
theories/ReportSyntax.v
theories/RngDist.v
theories/RngEqModel.v
theories/RngEqProps.v
theories/RngModel.v
theories/RngMore.v
theories/RngProofs.v
theories/RngProps.v
theories/RngRef.v
theories/RngSeedProps.v
theories/RngSpec.v
theories/Sha256Model.v
theories/Sha256Proofs.v
theories/Sha256Spec.v
theories/ShareModel.v
theories/ShareProps.v
theories/ShowModel.v
theories/ShowProps.v
theories/StrModel.v
theories/StrOrder.v
theories/StrOrderProps.v
theories/StrOrderSpec.v
theories/StrProofs.v
theories/StrProps.v
theories/StrSpec.v
theories/StrUtf8.v
theories/StreamModel.v
theories/StreamProofs.v
theories/StreamProps.v
theories/StreamSpec.v
theories/ThreadModel.v
theories/ThreadProofs.v
theories/ThreadProps.v
theories/ThreadSpec.v
theories/TokEnd.v
theories/TokEndProps.v
theories/TokExact.v
theories/TokExactProps.v
theories/TokExactSpec.v
theories/TokLex.v
theories/TokModel.v
theories/TokMore.v
theories/TokNumber.v
theories/TokProofs.v
theories/TokProps.v
theories/TokRemainProps.v
theories/TokRestartProps.v
theories/TokSafe.v
theories/TokSession.v
theories/TokSpaceProps.v
theories/TokSpec.v
theories/TokString.v
theories/TokSyntax.v
theories/TokTextProps.v
theories/TokTextSpec.v
theories/VarModel.v
theories/VarProps.v
theories/WrapModel.v
theories/WrapProofs.v
theories/WrapProps.v
theories/XoshiroPeriod.v
theories/XoshiroPoly.v
theories/XoshiroProofs.v
