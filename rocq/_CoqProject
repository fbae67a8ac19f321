-Q theories Verif
theories/Utf8.v
theories/GoScanner.v
theories/Token.v
theories/Lexer.v
theories/Ast.v
theories/SymTable.v
theories/MacroTable.v
theories/SetTable.v
theories/Parser.v
theories/Utf8Facts.v
theories/LexFacts.v
theories/Grammar.v
theories/Stream.v
theories/LexText.v
theories/ParserFacts.v
theories/GrammarFacts.v
theories/TreeSpec.v
theories/TreeFacts.v
theories/TreeFacts2.v
theories/TreeFacts3.v
theories/TreeFacts4.v
theories/PanicSpec.v
theories/PanicFacts.v
theories/BoundarySpec.v
theories/LexTail.v
theories/LexProps.v
theories/AstSpec.v
theories/AstFacts.v
theories/Quote.v
theories/Compose.v
theories/PropParse.v
theories/Closed.v
theories/PropCompose.v
theories/RoundSpec.v
theories/RoundFacts.v
theories/PropRound.v
theories/PropAst.v
theories/Symbols.v
theories/PropSymbols.v
theories/Arith.v
theories/Exact.v
theories/OrderLaws.v
theories/Box.v
theories/Ship.v
theories/ShipSpec.v
theories/ShipFacts.v
theories/ShipFacts2.v
theories/PackSpec.v
theories/PackFacts.v
theories/ExactFacts.v
theories/PropPack.v
theories/PropShip.v
theories/MtexTable.v
theories/Mtex.v
theories/MtexSpec.v
theories/MtexFacts.v
theories/MtexFacts2.v
theories/MtexFacts3.v
theories/MtexFacts4.v
theories/FracSpec.v
theories/MtexFacts5.v
theories/PropMtex.v
theories/Ttf.v
theories/TtfSpec.v
theories/TtfFacts.v
theories/TtfExact.v
theories/PropTtf.v
theories/Once.v
theories/PropOnce.v
theories/MtexHoare.v
theories/Render.v
theories/RenderFacts.v
theories/PropRender.v
theories/Float64Facts.v
theories/PropImage.v
theories/Cli.v
theories/PropCli.v
theories/ReadSpec.v
theories/ReadFacts.v
theories/PropRead.v
theories/ConformAst.v
theories/ConformBox.v
theories/ConformMtex.v
theories/ConformSym.v
theories/GeomSpec.v
theories/GeomFacts.v
theories/GeomFacts2.v
theories/RadFacts.v
theories/PropGeom.v
theories/SizeSpec.v
theories/SizeFacts.v
theories/PropSize.v
theories/MtexSim.v
theories/PropFormula.v
theories/Backends.v
theories/PropBackends.v
theories/PropMake.v
theories/PicSpec.v
theories/PicFacts.v
theories/PicFacts2.v
theories/PicFacts3.v
theories/RoomFacts.v
theories/PropPic.v
theories/PropPng.v
theories/Gui.v
theories/PropGui.v
theories/PropError.v
theories/SideSpec.v
theories/SideFacts.v
theories/SideFacts2.v
theories/PropSide.v
theories/GenSyms.v
theories/PropGen.v
theories/PropUnits.v
theories/ConformGen.v
theories/PropRows.v
theories/LexSpec.v
theories/PropLex.v
theories/PropCost.v
theories/Warn.v
theories/PropWarn.v
theories/Apx.v
theories/ApxSpec.v
theories/SizeApx.v
theories/PropApx.v
theories/FontSim.v
theories/TtfRound.v
theories/SizeTtfSpec.v
theories/PropSizeTtf.v
theories/Ci.v
theories/PropCi.v
theories/Heap.v
theories/HeapSpec.v
theories/HeapFacts.v
theories/HeapSim.v
theories/HeapSim2.v
theories/HeapShip.v
theories/PropHeap.v
theories/ConcSpec.v
theories/PropConc.v
theories/LogSpec.v
theories/LogMtex.v
theories/LogFacts.v
theories/LogQuiet.v
theories/LogFloat.v
theories/LogRoot.v
theories/PropLog.v
theories/PropLogTtf.v
theories/PicApxSpec.v
theories/PicApx.v
theories/PicApx2.v
theories/PicApxBar.v
theories/PicApx3.v
theories/PropPicApx.v
theories/PropPicRender.v
