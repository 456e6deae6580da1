-Q theories Verif
theories/Base.v
theories/Varint.v
theories/VarintProofs.v
theories/PropVarint.v
theories/Prime.v
theories/PrimeProofs.v
theories/Value.v
theories/Hash.v
theories/Table.v
theories/TableSpec.v
theories/ListFacts.v
theories/TableProofs.v
theories/TableProofs2.v
theories/TableProofs3.v
theories/TableProofs4.v
theories/PropTable.v
theories/PropPrime.v
theories/HashProofs.v
theories/ValueProofs.v
theories/Ops.v
theories/FloatFacts.v
theories/ValueSpec.v
theories/OpsProofs.v
theories/StrOrder.v
theories/PropValue.v
theories/FloatOrder.v
theories/MathLib.v
theories/MathProofs.v
theories/PropMath.v
theories/Ast.v
theories/Fold.v
theories/FoldSpec.v
theories/FoldProofs.v
theories/PropFold.v
theories/Bytes.v
theories/BytesProofs.v
theories/ByteBuffer.v
theories/ByteBufferProofs.v
theories/PropByteBuffer.v
theories/Constants.v
theories/ConstSpec.v
theories/ConstProofs.v
theories/PropConst.v
theories/Lines.v
theories/LineSpec.v
theories/LineProofs.v
theories/PropLines.v
theories/Lists.v
theories/ListSpec.v
theories/ListProofs.v
theories/PropLists.v
theories/Sort.v
theories/SortProofs.v
theories/PropSort.v
theories/Strings.v
theories/StrSpec.v
theories/StrProofs.v
theories/StrProofs2.v
theories/PropStr.v
theories/VM.v
theories/Stmt.v
theories/Limits.v
theories/Compiler.v
theories/Gen.v
theories/GenProofs.v
theories/GenProofs2.v
theories/SimBase.v
theories/Sim.v
theories/Program.v
theories/ProgProofs.v
theories/CompSpec.v
theories/CompProofs.v
theories/TotalProofs.v
theories/CompState.v
theories/SessProofs.v
theories/PropCompile.v
theories/PropCompile2.v
theories/Calls.v
theories/CallSpec.v
theories/CallProofs.v
theories/PropCalls.v
theories/Closures.v
theories/ClosureSpec.v
theories/ClosureProofs.v
theories/PropClosures.v
theories/Text.v
theories/TextSpec.v
theories/TextProofs.v
theories/PropText.v
theories/Lexer.v
theories/LexSpec.v
theories/LexProofs.v
theories/PropLex.v
theories/Parser.v
theories/ParseSpec.v
theories/ParseProofs.v
theories/ParseProofs2.v
theories/ParseFuel.v
theories/Source.v
theories/PropParse.v
theories/Sets.v
theories/SetSpec.v
theories/SetProofs.v
theories/PropSets.v
theories/Api.v
theories/ApiSpec.v
theories/ApiProofs.v
theories/PropApi.v
theories/Globals.v
theories/GlobalProofs.v
theories/PropGlobals.v
theories/MatchSpec.v
theories/Match.v
theories/MatchProofs.v
theories/MatchProofs2.v
theories/MatchProofs3.v
theories/MatchProofs4.v
theories/MatchProofs5.v
theories/MatchProofs6.v
theories/MatchProofs7.v
theories/PropMatch.v
theories/Refs.v
theories/RefSpec.v
theories/RefProofs.v
theories/RefProofs2.v
theories/RefProofs3.v
theories/RefProofs4.v
theories/RefProofs5.v
theories/RefProofs6.v
theories/RefProofs7.v
theories/RefCheck.v
theories/PropRefs.v
theories/Fn.v
theories/FnSpec.v
theories/FnCompiler.v
theories/FnCode.v
theories/FnGen.v
theories/FnGen2.v
theories/FnGen3.v
theories/FnGen4.v
theories/FnGen5.v
theories/FnSim.v
theories/FnSim2.v
theories/FnSim3.v
theories/FnSim4.v
theories/PropFn.v
theories/Names.v
theories/Heap.v
theories/HeapSpec.v
theories/HeapProofs.v
theories/HeapProofs2.v
theories/HeapProofs3.v
theories/HeapProofs4.v
theories/HeapProofs5.v
theories/HeapSpec2.v
theories/HeapProofs6.v
theories/HeapProofs7.v
theories/PropHeap.v
theories/PropHeap2.v
theories/HeapProofs8.v
theories/PropHeap3.v
theories/Obj.v
theories/ObjCompiler.v
theories/ObjGen.v
theories/ObjGen2.v
theories/ObjFacts.v
theories/ObjSim.v
theories/ObjProg.v
theories/PropObj.v
theories/Tree.v
theories/TreeParser.v
theories/TreeSpec.v
theories/TreeProofs.v
theories/TreeProofs2.v
theories/TreeProofs3.v
theories/TreeProofs4.v
theories/TreeFuel.v
theories/PropTree.v
theories/ObjSource.v
theories/ObjFold.v
theories/ObjWritten.v
theories/PropSource.v
theories/TreeExact.v
theories/FnSource.v
theories/FnFold.v
theories/FnWritten.v
theories/PropFnSource.v
theories/FnLegal.v
theories/FnTotal.v
theories/PropFnLegal.v
theories/ObjLegal.v
theories/ObjTotal.v
theories/PropObjLegal.v
theories/RefClosure.v
theories/RefClosureSpec.v
theories/RefClosureProofs.v
theories/RefClosureProofs2.v
theories/RefClosureProofs3.v
theories/RefClosureProofs4.v
theories/PropRefClosure.v
theories/Repl.v
theories/ReplSpec.v
theories/ReplProofs.v
theories/ReplProofs2.v
theories/ReplProofs3.v
theories/ReplLegal.v
theories/PropRepl.v
theories/FloatText.v
theories/FloatTextSpec.v
theories/FloatTextProofs.v
theories/PropFloatText.v
theories/LexInput.v
theories/LexInputProofs.v
theories/LexInputProofs2.v
theories/LexInputProofs3.v
theories/PropLexInput.v
theories/Interp.v
theories/InterpSpec.v
theories/InterpProofs.v
theories/PropInterp.v
theories/Io.v
theories/PropIo.v
theories/ArgCheck.v
theories/PropArgCheck.v
theories/Capture.v
theories/PropCapture.v
theories/Mt.v
theories/PropMt.v
theories/Require.v
theories/PropRequire.v
