-Q theories Verif
theories/Base.v
theories/Float32.v
theories/Event.v
theories/Tables.v
theories/Prim.v
theories/PrimTable.v
theories/Lex.v
theories/Macros.v
theories/Primitives.v
theories/Spans.v
theories/Parser.v
theories/FontTable.v
theories/Mathml.v
theories/SpecLex.v
theories/LexFacts.v
theories/LexMore.v
theories/PrimFacts.v
theories/Over.v
theories/Keep.v
theories/Measure.v
theories/Order.v
theories/Terminate.v
theories/KeepRun.v
theories/Api.v
theories/PropTermination.v
theories/SpecEvent.v
theories/Shape.v
theories/ShapeRun.v
theories/MarkRun.v
theories/SpecOpen.v
theories/Depth.v
theories/DepthRun.v
theories/SpecGrammar.v
theories/SpecRows.v
theories/SpecMarks.v
theories/SpecInput.v
theories/ShapeStrict.v
theories/CheckInput.v
theories/PropShape.v
theories/SpecColor.v
theories/LexColor.v
theories/SpecNum.v
theories/FloatFacts.v
theories/LexNum.v
theories/FloorFacts.v
theories/PropLex.v
theories/SpecMacro.v
theories/MacroFacts.v
theories/Sim.v
theories/SimRun.v
theories/SpanFacts.v
theories/MacroRun.v
theories/Quiet.v
theories/Preamble.v
theories/LexPanic.v
theories/SpanRun.v
theories/Memory.v
theories/MemoryRun.v
theories/NoPanic.v
theories/SpecMessage.v
theories/OverRun.v
theories/ErrContext.v
theories/SpecContext.v
theories/ContextFacts.v
theories/PropPanic.v
theories/MacroErr.v
theories/PropMacro.v
theories/SpecStream.v
theories/SpecXml.v
theories/DisplayFacts.v
theories/XmlFacts.v
theories/RenderFacts.v
theories/TableFacts.v
theories/RenderTree.v
theories/RenderDoc.v
theories/RenderPanic.v
theories/SpecFont.v
theories/RenderMore.v
theories/Whole.v
theories/RenderProps.v
theories/Append.v
theories/PropRender.v
theories/SpecFormula.v
theories/FormulaLex.v
theories/FormulaActs.v
theories/FormulaNucleus.v
theories/FormulaNucleus2.v
theories/FormulaNucleus3.v
theories/FormulaNucleus4.v
theories/FormulaStep.v
theories/FormulaDerive.v
theories/FormulaPrefix.v
theories/FormulaCompose.v
theories/FormulaProps.v
theories/FormulaHole.v
theories/SpecFault.v
theories/FormulaFault.v
theories/FormulaFirst.v
theories/SpecBeyond.v
theories/FormulaDecide.v
theories/FormulaDecide2.v
theories/PropFormula.v
theories/SpecDraw.v
theories/RenderDraw.v
theories/RenderRows.v
theories/DrawTrees.v
theories/DrawFacts.v
theories/DrawScope.v
theories/DrawHole.v
theories/RenderDrawn.v
theories/PropDraw.v
theories/SpecClean.v
theories/EvFine.v
theories/FineRun.v
theories/FineInput.v
theories/WholeFacts.v
theories/ErrMarkup.v
theories/PropWhole.v
theories/Frame.v
theories/SpecCall.v
theories/CallRun.v
theories/CallFacts.v
theories/FormulaCore.v
theories/PropDecide.v
theories/PropCall.v
theories/SpecSymbol.v
theories/SymbolFacts.v
theories/PropSymbol.v
theories/SpecDimension.v
theories/FloatShow.v
theories/FloatRound.v
theories/FloatRead.v
theories/PropDimension.v
theories/SpecDefect.v
theories/SpecUse.v
theories/CommandErr.v
theories/UseErr.v
theories/PropDefect.v
theories/SpecShown.v
theories/ShownFacts.v
theories/ShownText.v
theories/PropShown.v
theories/PropMemory.v
theories/SpecAppend.v
theories/FormulaAppend.v
theories/FormulaSpace.v
theories/PropAppend.v
