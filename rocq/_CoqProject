-Q theories Verif
theories/Base.v
theories/Machine.v
theories/Heap.v
theories/Compiler.v
theories/Print.v
theories/Parser.v
theories/ParserFacts.v
theories/Texts.v
theories/Grammar.v
theories/Roundtrip.v
theories/Organizer.v
theories/Examples.v
theories/Spec.v
theories/Refute.v
theories/Facts.v
theories/HeapSim.v
theories/Valuation.v
theories/Process.v
theories/Refine.v
theories/UnifyTop.v
theories/PropRefuted.v
theories/PropUnify.v
theories/Mono.v
theories/Turn.v
theories/Shape.v
theories/Session.v
theories/Search.v
theories/Code.v
theories/Put.v
theories/PutRun.v
theories/Get.v
theories/Alloc.v
theories/Atoms.v
theories/Clause.v
theories/Stack.v
theories/Ready.v
theories/Heads.v
theories/Builtins.v
theories/Sols.v
theories/Solve.v
theories/Terms.v
theories/Shown.v
theories/Parsed.v
theories/Tables.v
theories/Root.v
theories/Order.v
theories/Cells.v
theories/Runs.v
theories/Answers.v
theories/Complete.v
theories/Total.v
theories/Ground.v
theories/Flat.v
theories/Safe.v
theories/Isolation.v
theories/Witness.v
theories/Finite.v
theories/Cyclic.v
theories/Calls.v
theories/Double.v
theories/Append.v
theories/Arith.v
theories/Loads.v
theories/Slots.v
theories/Wf.v
theories/Settle.v
theories/Sim.v
theories/Lock.v
theories/LockComp.v
theories/LockHist.v
theories/LockInst.v
theories/Independence.v
theories/Faithful.v
theories/Clash.v
theories/PropText.v
theories/PropTables.v
theories/PropSearch.v
theories/Once.v
theories/PropSound.v
theories/PropCalls.v
theories/PropArith.v
theories/Ends.v
theories/EndsLoad.v
theories/TestSuite.v
theories/PropHeap.v
theories/PropSafe.v
theories/PropIndep.v
theories/PropCompile.v
theories/Tree.v
theories/TreeTurn.v
theories/TreeInv.v
theories/TreeRun.v
theories/TreeSrc.v
theories/TreeFacts.v
theories/TreeShape.v
theories/TreeAll.v
theories/TreeCase.v
theories/Labels.v
theories/Bound.v
theories/Names.v
theories/Returns.v
theories/Clean.v
theories/Shows.v
theories/LabelText.v
theories/PropTree.v
theories/Limit.v
theories/PropLimit.v
theories/Nearer.v
theories/NearCase.v
theories/PropNearer.v
theories/Exprs.v
theories/Chains.v
theories/Power.v
theories/PropExpr.v
theories/Language.v
theories/PropLanguage.v
theories/Positions.v
theories/CompAt.v
theories/PropPositions.v
theories/ErrPos.v
theories/PropErrPos.v
theories/Wide.v
theories/Linear.v
theories/LinearCase.v
theories/PropLinear.v
theories/WideMore.v
theories/PropWide.v
theories/AnswerText.v
theories/PropAnswerText.v
theories/Terminal.v
theories/TermFacts.v
theories/TermCase.v
theories/PropTerminal.v
theories/Trailing.v
theories/Reload.v
theories/Unambiguous.v
theories/Spelling.v
theories/Naming.v
theories/Meaning.v
theories/ReadCase.v
theories/PropRead.v
theories/Lists.v
theories/Memory.v
theories/RestCase.v
theories/PropRest.v
theories/OrgAt.v
theories/RunAt.v
theories/PropErrAt.v
theories/Stale.v
theories/StaleCase.v
theories/Web.v
theories/WebText.v
theories/WebFacts.v
theories/WebCase.v
theories/PropStale.v
theories/Draw.v
theories/DrawFacts.v
theories/Page.v
theories/PageFacts.v
theories/DrawCase.v
theories/PropWeb.v
theories/DrawText.v
theories/PropDraw.v
theories/Unfit.v
theories/PropUnfit.v
theories/TipAt.v
theories/TipRun.v
theories/TipFacts.v
theories/TipLoad.v
theories/PropTips.v
theories/Column.v
theories/Alert.v
theories/PropAlert.v
theories/Editors.v
theories/PropEditors.v
theories/Startup.v
theories/PropStartup.v
theories/Clock.v
theories/ClockFacts.v
theories/ClockCase.v
theories/PropClock.v
theories/Size.v
theories/SizeCase.v
theories/BoxSize.v
theories/PropSize.v
theories/SizeHist.v
theories/PropSizeHist.v
theories/Early.v
theories/PropEarly.v
theories/SizeTree.v
theories/PropSizeMore.v
theories/BoxLimit.v
theories/PropBoxLimit.v
theories/TermText.v
theories/PropTermText.v
theories/TermEnds.v
theories/PropTermEnds.v
theories/IsAnswer.v
theories/PropIs.v
theories/Reached.v
theories/PropReached.v
theories/IsEnds.v
theories/PropIsEnds.v
theories/CallEnds.v
theories/PropCallEnds.v
