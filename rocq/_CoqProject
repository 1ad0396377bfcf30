-Q theories Verif
theories/Base.v
theories/JsonModel.v
theories/JsonSpec.v
theories/JsonProofs.v
theories/JsonUnique.v
theories/JsonCorrupt.v
theories/JsonShrink.v
theories/PropJson.v
theories/PropJsonShrink.v
theories/Utf8.v
theories/JsonReadModel.v
theories/JsonReadSpec.v
theories/JsonReadProofs.v
theories/JsonReadProofs2.v
theories/PropJsonRead.v
theories/CssModel.v
theories/CssTests.v
theories/CssSpec.v
theories/CssProofs1.v
theories/CssProofs2.v
theories/CssProofs3.v
theories/CssProofs4.v
theories/CssProofs5.v
theories/CssProofs6.v
theories/PropCss.v
theories/CssGapSpec.v
theories/CssProofs7.v
theories/CssProofs8.v
theories/CssProofs9.v
theories/CssProofs10.v
theories/CssProofs11.v
theories/PropCssGap.v
theories/PropCssTame.v
theories/CssProofs12.v
theories/CssProofs13.v
theories/CssProofs14.v
theories/CssProofs15.v
theories/PropCssTwice.v
theories/CssSyntaxSpec.v
theories/CssSyntaxProofs1.v
theories/CssSyntaxProofs2.v
theories/CssSyntaxProofs3.v
theories/PropCssSyntax.v
theories/CssPlainSpec.v
theories/CssPlainProofs1.v
theories/CssPlainProofs2.v
theories/CssPlainProofs3.v
theories/PropCssPlain.v
theories/CssRulesSpec.v
theories/CssRulesProofs1.v
theories/CssRulesProofs2.v
theories/CssDirectProofs.v
theories/CssRulesProofs3.v
theories/CssRulesProofs4.v
theories/CssRulesProofs5.v
theories/PropCssRules.v
theories/JsModel.v
theories/JsUtilModel.v
theories/JsAggModel.v
theories/JsTests.v
theories/JsUtilSpec.v
theories/JsUtilProofs.v
theories/JsUtilProofs2.v
theories/PropJsUtil.v
theories/JsLexSpec.v
theories/JsLexProofs1.v
theories/JsLexProofs2.v
theories/JsLexProofs3.v
theories/JsWords.v
theories/JsLexProofs4.v
theories/JsLexProofs5.v
theories/JsLexProofs6.v
theories/PropJsLex.v
theories/JsRoundSpec.v
theories/JsRoundProofs1.v
theories/JsRoundProofs2.v
theories/JsRoundProofs3.v
theories/JsLayoutSpec.v
theories/JsLayoutProofs.v
theories/PropJsRound.v
theories/PropJsLayout.v
theories/EsSpec.v
theories/EsProofs1.v
theories/EsProofs2.v
theories/PropJsEs.v
theories/JsPlainSpec.v
theories/JsPlainProofs1.v
theories/JsPlainProofs2.v
theories/PropJsPlain.v
theories/JsTreeSpec.v
theories/JsTreeProofs1.v
theories/JsTreeProofs6.v
theories/JsTreeProofs2.v
theories/JsTreeProofs3.v
theories/JsTreeProofs4.v
theories/JsTreeProofs5.v
theories/PropJsTree.v
theories/JsAggSpec.v
theories/JsAggProofs1.v
theories/JsAggProofs2.v
theories/JsAggProofs3.v
theories/JsArrSpec.v
theories/JsArrProofs1.v
theories/JsArrProofs2.v
theories/JsArrProofs3.v
theories/JsArrProofs4.v
theories/PropJsAgg.v
theories/JsPipeSpec.v
theories/JsPipeProofs.v
theories/PropJsPipe.v
theories/JsPipeProofs2.v
theories/PropJsPipe2.v
theories/HtmlModel.v
theories/HtmlTests.v
theories/HtmlSpec.v
theories/HtmlProofs1.v
theories/HtmlProofs2.v
theories/HtmlProofs3.v
theories/HtmlProofs4.v
theories/HtmlProofs5.v
theories/HtmlProofs6.v
theories/HtmlProofs7.v
theories/HtmlSyntaxSpec.v
theories/HtmlProofs8.v
theories/HtmlProofs9.v
theories/HtmlProofs10.v
theories/HtmlProofs11.v
theories/HtmlProofs12.v
theories/HtmlProofs13.v
theories/HtmlPlainSpec.v
theories/HtmlPlainProofs.v
theories/PropHtml.v
theories/PropHtmlSyntax.v
theories/PropHtmlTwice.v
theories/PropHtmlPlain.v
theories/HtmlTreeSpec.v
theories/HtmlTreeProofs1.v
theories/HtmlTreeProofs2.v
theories/HtmlTreeProofs3.v
theories/HtmlTreeProofs4.v
theories/PropHtmlTree.v
theories/JsAggTreeSpec.v
theories/JsAggTreeProofs1.v
theories/JsAggTreeProofs2.v
theories/PropAggTree.v
theories/JsArrTreeSpec.v
theories/JsArrTreeProofs.v
theories/PropArrTree.v
theories/JsCleanTreeProofs.v
theories/PropCleanTree.v
theories/CliModel.v
theories/CliSpec.v
theories/CliProofs1.v
theories/CliProofs2.v
theories/CliProofs3.v
theories/CliProofs4.v
theories/PropCli.v
