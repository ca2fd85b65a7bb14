-Q theories Verif
theories/M_Api.v
theories/M_Base.v
theories/M_Bitmap.v
theories/M_CfLog.v
theories/M_Conc.v
theories/M_ConcBitmap.v
theories/M_ConcLabels.v
theories/M_ConcSection.v
theories/M_ConcStream.v
theories/M_Dfsan.v
theories/M_DfsanAbi.v
theories/M_DfsanCache.v
theories/M_DfsanChain.v
theories/M_DfsanCombine.v
theories/M_DfsanCustom.v
theories/M_DfsanFormat.v
theories/M_DfsanLayout.v
theories/M_DfsanLoad.v
theories/M_DfsanMap.v
theories/M_DfsanOrigin.v
theories/M_DfsanPass.v
theories/M_DfsanRun.v
theories/M_DfsanSignal.v
theories/M_DfsanStore.v
theories/M_DfsanStr.v
theories/M_DfsanSys.v
theories/M_DfsanThread.v
theories/M_DfsanTrace.v
theories/M_Encoding.v
theories/M_Fork.v
theories/M_Functions.v
theories/M_Ir.v
theories/M_LabelDeq.v
theories/M_Labels.v
theories/M_Llvm.v
theories/M_LlvmPasses.v
theories/M_Memory.v
theories/M_OutputFile.v
theories/M_Passes.v
theories/M_PyAbiDiff.v
theories/M_PyAnalysis.v
theories/M_PyBuild.v
theories/M_PyCache.v
theories/M_PyCfDiff.v
theories/M_PyChunks.v
theories/M_PyCompare.v
theories/M_PyCompress.v
theories/M_PyDatalog.v
theories/M_PyDiGraph.v
theories/M_PyDiff.v
theories/M_PyDiffShow.v
theories/M_PyDocker.v
theories/M_PyDockerfile.v
theories/M_PyEarley.v
theories/M_PyFile.v
theories/M_PyGrammar.v
theories/M_PyGraph.v
theories/M_PyInfo.v
theories/M_PyMatch.v
theories/M_PyMutate.v
theories/M_PyNode.v
theories/M_PyParseTree.v
theories/M_PyPartial.v
theories/M_PyPlugins.v
theories/M_PyProgram.v
theories/M_PyRepl.v
theories/M_PySections.v
theories/M_PySession.v
theories/M_PyShowBytes.v
theories/M_PyStubList.v
theories/M_PyTaints.v
theories/M_PyTrace.v
theories/M_PyTraceGrammar.v
theories/M_PyTree.v
theories/M_PyVerify.v
theories/M_RemoveAttrs.v
theories/M_Runtime.v
theories/M_Section.v
theories/M_Settings.v
theories/M_Socket.v
theories/M_Sources.v
theories/M_StringTable.v
theories/M_Symver.v
theories/M_Threads.v
theories/M_Union.v
theories/M_UserLabels.v
theories/P_Api.v
theories/P_ApiDemo.v
theories/P_ApiFile.v
theories/P_ApiMem.v
theories/P_ApiRun.v
theories/P_Argv.v
theories/P_Base.v
theories/P_Bitmap.v
theories/P_Blocks.v
theories/P_Cavities.v
theories/P_CfLog.v
theories/P_Compressed.v
theories/P_Conc.v
theories/P_ConcBitmap.v
theories/P_ConcLabels.v
theories/P_ConcSection.v
theories/P_ControlFlow.v
theories/P_Cost.v
theories/P_Demo.v
theories/P_Dfsan.v
theories/P_DfsanAbi.v
theories/P_DfsanCache.v
theories/P_DfsanCode.v
theories/P_DfsanDemo.v
theories/P_DfsanFlow.v
theories/P_DfsanFormat.v
theories/P_DfsanOrigin.v
theories/P_DfsanSignal.v
theories/P_DfsanSim.v
theories/P_DfsanStr.v
theories/P_DfsanSys.v
theories/P_DfsanThread.v
theories/P_Dominators.v
theories/P_EarleyComplete.v
theories/P_Encoding.v
theories/P_Fixed.v
theories/P_Forest.v
theories/P_Fork.v
theories/P_Functions.v
theories/P_Grammar.v
theories/P_GrammarSimplify.v
theories/P_History.v
theories/P_Ir.v
theories/P_LabelDeq.v
theories/P_Labels.v
theories/P_Memory.v
theories/P_OutputFile.v
theories/P_Partial.v
theories/P_PassRun.v
theories/P_Passes.v
theories/P_ProcDemo.v
theories/P_ProcRun.v
theories/P_Progress.v
theories/P_ProgressRun.v
theories/P_PyAbiDiff.v
theories/P_PyAnalysis.v
theories/P_PyBase.v
theories/P_PyBuild.v
theories/P_PyCache.v
theories/P_PyChunks.v
theories/P_PyCompare.v
theories/P_PyCompareRun.v
theories/P_PyCompress.v
theories/P_PyDatalog.v
theories/P_PyDiGraph.v
theories/P_PyDiGraph2.v
theories/P_PyDiff.v
theories/P_PyDockerfile.v
theories/P_PyEarley.v
theories/P_PyGraph.v
theories/P_PyInfo.v
theories/P_PyMatch.v
theories/P_PyMutate.v
theories/P_PyNode.v
theories/P_PyParseTree.v
theories/P_PyPath.v
theories/P_PyPlugins.v
theories/P_PyProgram.v
theories/P_PyStubList.v
theories/P_PyTaints.v
theories/P_PyTrace.v
theories/P_PyTraceGrammar.v
theories/P_PyTree.v
theories/P_PyTreeOk.v
theories/P_PyTreeRun.v
theories/P_PyVerify.v
theories/P_Runtime.v
theories/P_Section.v
theories/P_Strings.v
theories/P_Threads.v
theories/P_UserLabels.v
theories/P_Utf8.v
theories/P_Watch.v
theories/P_WatchErase.v
theories/P_WatchRun.v
theories/P_WatchStep.v
theories/P_Weave.v
theories/S_AbiDiff.v
theories/S_Api.v
theories/S_Bitmap.v
theories/S_Build.v
theories/S_Cache.v
theories/S_CallStack.v
theories/S_Calls.v
theories/S_Cavities.v
theories/S_CfDiff.v
theories/S_Compare.v
theories/S_Compress.v
theories/S_ConcLabels.v
theories/S_ConcSection.v
theories/S_DataFlow.v
theories/S_Datalog.v
theories/S_Demand.v
theories/S_Dfsan.v
theories/S_DfsanAbi.v
theories/S_DfsanCustom.v
theories/S_DfsanLayout.v
theories/S_DfsanMap.v
theories/S_DfsanSys.v
theories/S_DfsanThread.v
theories/S_DiGraph.v
theories/S_Diff.v
theories/S_DiffShow.v
theories/S_Docker.v
theories/S_Dockerfile.v
theories/S_Dominators.v
theories/S_Earley.v
theories/S_Encoding.v
theories/S_Fifo.v
theories/S_Forest.v
theories/S_Fork.v
theories/S_Format.v
theories/S_Functions.v
theories/S_Grammar.v
theories/S_Graph.v
theories/S_History.v
theories/S_Info.v
theories/S_Labels.v
theories/S_Libc.v
theories/S_Mutate.v
theories/S_OutputFile.v
theories/S_ParseTree.v
theories/S_Partial.v
theories/S_Passes.v
theories/S_Plugins.v
theories/S_Provenance.v
theories/S_PyAnalysis.v
theories/S_PyPath.v
theories/S_PyTaints.v
theories/S_Reads.v
theories/S_RemoveAttrs.v
theories/S_Runtime.v
theories/S_Section.v
theories/S_Session.v
theories/S_Settings.v
theories/S_Shadow.v
theories/S_ShowBytes.v
theories/S_Signal.v
theories/S_Socket.v
theories/S_Strings.v
theories/S_StubList.v
theories/S_Threads.v
theories/S_TraceGrammar.v
theories/S_Tree.v
theories/S_UserLabels.v
theories/S_Verify.v
theories/S_Watch.v
theories/T_Api.v
theories/T_Bitmap.v
theories/T_Cavities.v
theories/T_CfLog.v
theories/T_ConcBitmap.v
theories/T_ConcLabels.v
theories/T_ConcSection.v
theories/T_ConcStream.v
theories/T_Cost.v
theories/T_Dfsan.v
theories/T_DfsanAbi.v
theories/T_DfsanCache.v
theories/T_DfsanChain.v
theories/T_DfsanCombine.v
theories/T_DfsanCustom.v
theories/T_DfsanFormat.v
theories/T_DfsanLayout.v
theories/T_DfsanLoad.v
theories/T_DfsanMap.v
theories/T_DfsanOrigin.v
theories/T_DfsanPass.v
theories/T_DfsanSignal.v
theories/T_DfsanStore.v
theories/T_DfsanStr.v
theories/T_DfsanSys.v
theories/T_DfsanThread.v
theories/T_DfsanTrace.v
theories/T_Dominators.v
theories/T_Earley.v
theories/T_Encoding.v
theories/T_Forest.v
theories/T_Fork.v
theories/T_Functions.v
theories/T_Grammar.v
theories/T_LabelDeq.v
theories/T_Labels.v
theories/T_OutputFile.v
theories/T_Passes.v
theories/T_ProcRun.v
theories/T_Progress.v
theories/T_PyAbiDiff.v
theories/T_PyBuild.v
theories/T_PyCache.v
theories/T_PyCfDiff.v
theories/T_PyChunks.v
theories/T_PyCompare.v
theories/T_PyCompress.v
theories/T_PyDatalog.v
theories/T_PyDiGraph.v
theories/T_PyDiff.v
theories/T_PyDiffShow.v
theories/T_PyDocker.v
theories/T_PyDockerfile.v
theories/T_PyGraph.v
theories/T_PyInfo.v
theories/T_PyMatch.v
theories/T_PyMutate.v
theories/T_PyParseTree.v
theories/T_PyPartial.v
theories/T_PyPlugins.v
theories/T_PyProgram.v
theories/T_PyRepl.v
theories/T_PySession.v
theories/T_PyShowBytes.v
theories/T_PyStubList.v
theories/T_PyTaints.v
theories/T_PyTrace.v
theories/T_PyTraceGrammar.v
theories/T_PyTree.v
theories/T_PyVerify.v
theories/T_RemoveAttrs.v
theories/T_Runtime.v
theories/T_Section.v
theories/T_Settings.v
theories/T_Socket.v
theories/T_Strings.v
theories/T_Symver.v
theories/T_Threads.v
theories/T_UserLabels.v
theories/T_Watch.v
