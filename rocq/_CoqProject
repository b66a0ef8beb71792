-Q theories Verif

theories/Base.v
theories/Reader.v
theories/Codepoint.v
theories/Punct.v
theories/Token.v
theories/Scanner.v
theories/Ast.v
theories/Convert.v
theories/ParserBase.v
theories/ParserExpr.v
theories/ParserStmt.v
theories/Parser.v
theories/Hoare.v
theories/SpecLex.v
theories/ScanBase.v
theories/ScanTrivia.v
theories/ScanToken.v
theories/ScanTokens2.v
theories/ScanNext.v
theories/SpecScan.v
theories/ScanSim.v
theories/LexFacts.v
theories/SpecReader.v
theories/ReaderFacts.v
theories/ScanForward.v
theories/Witness.v
theories/LexProofs.v
theories/PropsLex.v
theories/SpecParse.v
theories/ParserInv.v
theories/TermBase.v
theories/TermExpr.v
theories/TermStmt.v
theories/TermTop.v
theories/Fuel.v
theories/FrameFacts.v
theories/ParseProofs.v
theories/PropsParse.v
theories/SpecTree.v
theories/Valid.v
theories/ValidConv.v
theories/ValidBase.v
theories/ValidExpr.v
theories/ValidStmt.v
theories/ValidTop.v
theories/SpecSlots.v
theories/TreeProofs.v
theories/FindPart.v
theories/PropsTree.v
theories/Errors.v
theories/Json.v
theories/ErrorsProofs.v
theories/SpecJson.v
theories/SpecForm.v
theories/SpecSpell.v
theories/JsonProofs.v
theories/PropsJson.v
theories/SpellBase.v
theories/SpellConv.v
theories/SpellExpr.v
theories/SpellStmt.v
theories/SpellTop.v
theories/PropsSpell.v
theories/SpecNames.v
theories/NamesProofs.v
theories/PropsNames.v
theories/SpecBare.v
theories/SpecLayout.v
theories/SpecGrammar.v
theories/GramTempl.v
theories/GramLex.v
theories/GramBase.v
theories/GramTac.v
theories/GramPat.v
theories/GramExpr.v
theories/GramExpr2.v
theories/GramExpr3.v
theories/GramExpr4.v
theories/GramStmt.v
theories/GramStmt2.v
theories/GramStmt3.v
theories/GramBal.v
theories/GramTop.v
theories/GramMod.v
theories/SpecPrint.v
theories/PrintProofs.v
theories/GramWitness.v
theories/PropsGrammar.v
theories/SpecTouch.v
theories/Rel.v
theories/SimBase.v
theories/SimConv.v
theories/SimTac.v
theories/SimExpr.v
theories/SimStmt.v
theories/SimTop.v
theories/SpecStrict.v
theories/StrictProofs.v
theories/TouchProofs.v
theories/PropsStrict.v
theories/ScanShift.v
theories/SpecShift.v
theories/ShiftProofs.v
theories/PropsShift.v
theories/SpecRelay.v
theories/ScanLocal.v
theories/RelayScan.v
theories/RelayProofs.v
theories/PropsRelay.v
theories/SpecCol.v
theories/ScanCol.v
theories/ScanErr.v
theories/SpecBlame.v
theories/BlameBase.v
theories/BlameConv.v
theories/BlameExpr.v
theories/BlameStmt.v
theories/BlameTop.v
theories/BlameTree.v
theories/BlameProofs.v
theories/PropsBlame.v
theories/SpecBuild.v
theories/BuildProofs.v
theories/PropsBuild.v
theories/SpecUcd.v
theories/UcdProofs.v
theories/PropsUcd.v
theories/PropsProgram.v
theories/SpecSize.v
theories/SizeProofs.v
theories/PropsSize.v
theories/SpecRename.v
theories/RenRel.v
theories/RenBase.v
theories/RenConv.v
theories/RenTac.v
theories/RenExpr.v
theories/RenStmt.v
theories/RenTop.v
theories/RenProofs.v
theories/RenErrors.v
theories/PropsRename.v
theories/SpecUnparse.v
theories/UnparseProofs.v
theories/PropsUnparse.v
theories/SpecPrintMod.v
theories/PrintModProofs.v
theories/PropsModule.v
theories/SpecUnparseMod.v
theories/UnparseModProofs.v
theories/PropsUnparseMod.v
theories/FormatProofs.v
theories/PropsFormat.v
