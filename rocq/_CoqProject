-Q theories Verif
theories/Bytes.v
theories/BytesFacts.v
theories/Utf8.v
theories/Utf8Proofs.v
theories/Containers.v
theories/ContainersProofs.v
theories/HashSortProofs.v
theories/Detect.v
theories/DetectProofs.v
theories/UnicodeTables.v
theories/Category.v
theories/CategoryProofs.v
theories/PropsBasic.v
theories/Outcome.v
theories/Quote.v
theories/QuoteSpec.v
theories/QuoteProofs.v
theories/QuoteProofs2.v
theories/QuoteProofs3.v
theories/PropsQuote.v
theories/Parser.v
theories/ParserSpec.v
theories/ParserProofs.v
theories/ParserTerm.v
theories/ParserMono.v
theories/ParserAft.v
theories/PropsParser.v
theories/Dom.v
theories/Printer.v
theories/Grammar.v
theories/LexProofs.v
theories/BuildProofs.v
theories/GrammarProofs.v
theories/RootProofs.v
theories/DetectGrammar.v
theories/PropsGrammar.v
theories/Compact.v
theories/Stray.v
theories/CompactProofs.v
theories/CompactDoc.v
theories/LeafQuote.v
theories/CompactLine.v
theories/PropsPrinter.v
theories/Line.v
theories/PropsLine.v
theories/BlockProofs.v
theories/Pretty.v
theories/LeafBlock.v
theories/PrettyProofs.v
theories/PrettyOut.v
theories/PrettyDoc.v
theories/PrettyNodes.v
theories/PropsPretty.v
theories/CQuote.v
theories/CQuoteProofs.v
theories/PropsText.v
theories/Json.v
theories/JsonPrint.v
theories/JsonSpec.v
theories/JsonProofs.v
theories/JsonRead.v
theories/JsonWrite.v
theories/PropsJson.v
theories/Trim.v
theories/TrimSpec.v
theories/TrimProofs.v
theories/PropsTrim.v
theories/Respace.v
theories/RespaceLex.v
theories/RespaceProofs.v
theories/RespaceDoc.v
theories/PropsSpace.v
theories/LineEnds.v
theories/LineEndsText.v
theories/LineEndsLex.v
theories/LineEndsDoc.v
theories/PropsLineEnds.v
theories/NsDom.v
theories/NsSpec.v
theories/NsProofs.v
theories/NsCore.v
theories/NsDoc.v
theories/NsNames.v
theories/NsPlain.v
theories/PropsNs.v
theories/TokenSpec.v
theories/TokenLex.v
theories/TokenProofs.v
theories/PropsTokens.v
theories/JoinSpec.v
theories/NsJoin.v
theories/JoinTokens.v
theories/PropsJoin.v
theories/Load.v
theories/PropsLoad.v
theories/NsPrinter.v
theories/RenderSpec.v
theories/Render.v
theories/RenderProofs.v
theories/RenderThemes.v
theories/PropsRender.v
theories/Highlight.v
theories/HighlightProofs.v
theories/PropsHighlight.v
theories/NestSpec.v
theories/RenderNest.v
theories/PropsNest.v
theories/NsGrammar.v
theories/NsReads.v
theories/NsEffect.v
theories/NsMeans.v
theories/NsDetect.v
theories/PropsNsGrammar.v
theories/NsCompact.v
theories/NsCompactDoc.v
theories/NsPlaced.v
theories/PropsNsPrint.v
theories/Ixml.v
theories/IxmlSpec.v
theories/IxmlNames.v
theories/IxmlTrans.v
theories/IxmlLang.v
theories/IxmlLex.v
theories/IxmlParse.v
theories/IxmlUse.v
theories/PropsIxml.v
theories/IxmlDoc.v
theories/IxmlDocSpec.v
theories/IxmlOut.v
theories/IxmlTree.v
theories/IxmlOutUse.v
theories/IxmlWrite.v
theories/PropsIxmlDoc.v
theories/Clines.v
theories/ClinesSpec.v
theories/PropsClines.v
theories/Getters.v
theories/GettersSpec.v
theories/PropsGetters.v
theories/TreeEdit.v
theories/TreeEditSpec.v
theories/PropsTreeEdit.v
theories/ForEach.v
theories/ForEachSpec.v
theories/PropsForEach.v
theories/Pager.v
theories/PropsPager.v
theories/Select.v
theories/SelectSpec.v
theories/PropsSelect.v
theories/Fixup.v
theories/PropsFixup.v
theories/ColorDef.v
theories/ColorDefSpec.v
theories/PropsColorDef.v
theories/Typed.v
theories/TypedSpec.v
theories/PropsTyped.v
theories/Yaep.v
theories/YaepSpec.v
theories/YaepFix.v
theories/YaepGram.v
theories/YaepProofs.v
theories/PropsYaep.v
theories/YaepParse.v
theories/YaepParseFacts.v
theories/YaepTrees.v
theories/YaepParseProofs.v
theories/PropsYaepParse.v
theories/YaepCache.v
theories/PropsYaepCache.v
theories/IxmlRun.v
theories/PropsIxmlRun.v
theories/IxmlReport.v
theories/PropsIxmlReport.v
theories/YaepTree.v
theories/YaepTreeSpec.v
theories/YaepTreeProofs.v
theories/PropsYaepTree.v
theories/IxmlWhole.v
theories/PropsIxmlWhole.v
theories/YaepAmb.v
theories/YaepAmbProofs.v
theories/PropsYaepAmb.v
theories/IxmlWarn.v
theories/PropsIxmlWarn.v
theories/CmdLine.v
theories/PropsCmdLine.v
theories/CmdOutput.v
theories/PropsCmdOutput.v
theories/LoadCmd.v
theories/PropsLoadCmd.v
