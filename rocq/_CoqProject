-Q theories Verif

theories/Base.v
theories/BaseProofs.v
theories/Schema.v
theories/SpecWire.v
theories/GoModel.v
theories/GoBitProofs.v
theories/GoEncProofs.v
theories/GoEncMain.v
theories/GoDecProofs.v
theories/GoRound.v
theories/GoPrefix.v
theories/GoCore.v
theories/CfBits.v
theories/CfBitProofs.v
theories/TgtModel.v
theories/TgtEncProofs.v
theories/TgtDecProofs.v
theories/TgtPrims.v
theories/PyTarget.v
theories/PyExact.v
theories/KtTarget.v
theories/CTarget.v
theories/JavaTarget.v
theories/CsTarget.v
theories/JsString.v
theories/JsTarget.v
theories/Interop.v
theories/SelfClear.v
theories/PropsTargets.v
theories/TgtPrefix.v
theories/PropsSize.v
theories/TgtAny.v
theories/TgtAnyInst.v
theories/PropsAny.v
theories/PropsNull.v
theories/GoConst.v
theories/GoDirect.v
theories/PropsGo.v
theories/OrderedMap.v
theories/UtilMisc.v
theories/Package.v
theories/TextNorm.v
theories/NameStyle.v
theories/Calc.v
theories/Options.v
theories/FrontModel.v
theories/FrontSpec.v
theories/FrontProofs.v
theories/PropsFront.v
theories/CompileModel.v
theories/CompileSpec.v
theories/CompileProofs.v
theories/PropsCompile.v
theories/Literals.v
theories/PropsLit.v
theories/ExprModel.v
theories/ExprSpec.v
theories/ExprProofs.v
theories/ExprLex.v
theories/ExprLexMain.v
theories/ExprParse.v
theories/PropsExpr.v
theories/LexModel.v
theories/LexSpec.v
theories/LexProofs.v
theories/LexLayout.v
theories/PropsLex.v
theories/StrLit.v
theories/PropsStr.v
theories/Syntax.v
theories/Parser.v
theories/ParserProofs.v
theories/ParserDecl.v
theories/ParserLang.v
theories/PropsParse.v
theories/Paths.v
theories/Text.v
theories/TextRel.v
theories/PropsText.v
theories/TextSpec.v
theories/PropsSays.v
theories/FloatLit.v
theories/FloatShort.v
theories/PropsFloat.v
theories/ExprVisit.v
theories/PropsSource.v
theories/PropsEnd.v
theories/PrintTree.v
theories/GoSem.v
theories/GoSemDet.v
theories/GoText.v
theories/GoTextLex.v
theories/GoTextEnc.v
theories/GoTextField.v
theories/GoTextDec.v
theories/GoTextDecField.v
theories/GoTextStruct.v
theories/PropsGoText.v
theories/PySem.v
theories/PySemDet.v
theories/PyText.v
theories/PyTextLex.v
theories/PyTextEnc.v
theories/PyTextDec.v
theories/PyTextStruct.v
theories/PropsPyText.v
theories/GenOut.v
theories/GenOutSpec.v
theories/GenOutProofs.v
theories/PropsOut.v
theories/PropsImports.v
theories/Indent.v
theories/StrEmit.v
theories/Main.v
theories/CSem.v
theories/CText.v
theories/CTextEnc.v
theories/CTextStruct.v
theories/CSemDet.v
theories/PropsCText.v
theories/CTextD.v
theories/CTextDec.v
theories/CTextDecField.v
theories/CTextStructDec.v
theories/PropsCTextDec.v
