-Q theories Verif
theories/Base.v
theories/Chars.v
theories/F64.v
theories/Word.v
theories/Token.v
theories/Reader.v
theories/Lexer.v
theories/Punc.v
theories/Ast.v
theories/Track.v
theories/Cover.v
theories/Stack.v
theories/PState.v
theories/Parser.v
theories/Api.v
theories/Wp.v
theories/SpecReader.v
theories/ReaderProofs.v
theories/PropReader.v
theories/SpecLexer.v
theories/LexWp.v
theories/LexLit.v
theories/LexerProofs.v
theories/LexClient.v
theories/SpecClient.v
theories/LexTheorems.v
theories/F64Proofs.v
theories/PropLexer.v
theories/SpecStack.v
theories/StackProofs.v
theories/Node.v
theories/NodeProofs.v
theories/SpecTree.v
theories/TreeProofs.v
theories/CoverProofs.v
theories/PropTree.v
theories/PropRefuted.v
theories/SpecGrammar.v
theories/ParserWp.v
theories/ParserK.v
theories/ParserExpr.v
theories/ParserOps.v
theories/ParserStmt.v
theories/SpecParser.v
theories/ParserTop.v
theories/SpecPlace.v
theories/GrammarProps.v
theories/SpecEntry.v
theories/PropParser.v
theories/KeepProofs.v
theories/SimProofs.v
theories/SimTop.v
theories/PropStrict.v
theories/SpecLoc.v
theories/LocProofs.v
theories/PropLoc.v
theories/Message.v
theories/SpecMessage.v
theories/MessageProofs.v
theories/PropMessage.v
theories/LeafProofs.v
theories/AstEq.v
theories/SpecEq.v
theories/EqProofs.v
theories/PropEq.v
theories/Unjson.v
theories/Estree.v
theories/SpecEstree.v
theories/EstreeProofs.v
theories/EstreeConv.v
theories/EstreeComp.v
theories/EstreeImg.v
theories/EstreeMake.v
theories/EstreeSafe.v
theories/EstreeExtra.v
theories/PropEstree.v
theories/LexComp.v
theories/LexComp2.v
theories/LexExact.v
theories/SpecLayout.v
theories/LexLayout.v
theories/PropLayout.v
theories/CompBase.v
theories/CompTok.v
theories/CompExpr.v
theories/CompFun.v
theories/CompStmt.v
theories/CompTop.v
theories/CompEntry.v
theories/PropComplete.v
theories/Cost.v
theories/CostErase.v
theories/CostProofs.v
theories/PropCost.v
theories/SpecBlank.v
theories/LayBase.v
theories/LayBlank.v
theories/LayProofs.v
theories/PropBlank.v
theories/SpecError.v
theories/PropError.v
theories/SpecExact.v
theories/ExactProofs.v
theories/PortProofs.v
theories/EndProofs.v
theories/EndText.v
theories/PropExact.v
theories/PropPorts.v
theories/PropDirective.v
theories/SpecNumber.v
theories/F64More.v
theories/Rounding.v
theories/PropNumber.v
theories/Derive.v
theories/Easter.v
theories/SpecDerive.v
theories/DeriveProofs.v
theories/EasterProofs.v
theories/EasterInj.v
theories/PropDerive.v
theories/SpecBlame.v
theories/EstreeBlame.v
theories/EstreeFault.v
theories/EstreeRefuse.v
theories/PropBlame.v
theories/PropEnd.v
theories/PropEscape.v
theories/EstreeKeys.v
theories/SpecKeys.v
theories/EstreeSits.v
theories/PropKeys.v
theories/Resume.v
theories/ResumeErase.v
theories/ResumeProofs.v
theories/SpecResume.v
theories/ResumeObject.v
theories/PropResume.v
theories/Machine.v
theories/PropMachine.v
theories/MachineProofs.v
theories/PropDivision.v
theories/PropComments.v
theories/PropForLet.v
theories/PropForIn.v
theories/PropNew.v
theories/Refuse.v
theories/PropLabel.v
theories/RestProofs.v
theories/PropRest.v
theories/JoinProofs.v
theories/SpecJoin.v
theories/PropJoin.v
theories/BlankTree.v
theories/PropJoinText.v
