-Q theories Verif
theories/Base.v
theories/BaseFacts.v
theories/LpModel.v
theories/LpSpec.v
theories/SetSpec.v
theories/LpUtil.v
theories/LpFacts.v
theories/LpWf.v
theories/SetFacts.v
theories/SetFacts2.v
theories/MinkFacts.v
theories/OpsFacts.v
theories/OpsFacts2.v
theories/OpsFacts3.v
theories/OpsFacts4.v
theories/AggFacts.v
theories/Solver.v
theories/ApiSpec.v
theories/ApiFacts.v
theories/ChullFacts.v
theories/Automaton.v
theories/StateSet.v
theories/HybridSpec.v
theories/StateSpec.v
theories/FlowFacts.v
theories/StateFacts.v
theories/StateFacts2.v
theories/StateFacts3.v
theories/AutoFacts.v
theories/BuildFacts.v
theories/TimeElapse.v
theories/FlowSpec.v
theories/TimeElapseFacts.v
theories/Prop_Time.v
theories/Prop_Sets.v
theories/Prop_Sets2.v
theories/Prop_Automaton.v
theories/CoreModel.v
theories/HeapFacts.v
theories/CoreOps.v
theories/CoreGhost.v
theories/CoreHeap.v
theories/CoreInv.v
theories/CoreStep.v
theories/CoreCont.v
theories/CorePop.v
theories/CoreReplay.v
theories/CoreDeagg.v
theories/CoreSplit.v
theories/CoreMono.v
theories/CoreFinal.v
theories/CoreTT.v
theories/CoreSpec.v
theories/CoreSetup.v
theories/CoreExt.v
theories/SkipZero.v
theories/SetupHa.v
theories/Ex_Core.v
theories/Ex_Zero.v
theories/Ex_TT.v
theories/Prop_Core.v
theories/CoreSub.v
theories/SetupHaSub.v
theories/Ex_Late.v
theories/Prop_Core2.v
theories/PopFacts.v
theories/CoreDag.v
theories/CoreDag2.v
theories/CoreDag3.v
theories/CoreLive.v
theories/CoreLive2.v
theories/Prop_Core3.v
theories/CoreIvl.v
theories/CoreIvl2.v
theories/CoreIvl3.v
theories/CoreTerm.v
theories/Prop_Core4.v
theories/Timers.v
theories/TimerSpec.v
theories/TimerFacts.v
theories/Prop_Timers.v
theories/Minimize.v
theories/Util.v
theories/Prop_Util.v
theories/Symbolic.v
theories/Prop_Symbolic.v
theories/Names.v
theories/CexSpec.v
theories/NameFacts.v
theories/Layout.v
theories/Prop_Names.v
theories/TraceLp.v
theories/TraceState.v
theories/TraceReset.v
theories/CoreTrace.v
theories/CexSetup.v
theories/Ex_Cex.v
theories/Prop_Cex.v
theories/Sim.v
theories/SimSpec.v
theories/SimFacts.v
theories/SimTerm.v
theories/Prop_Sim.v
theories/Ex_Inv.v
theories/Prop_Inv.v
theories/Replay.v
theories/Prop_Replay.v
theories/Approx.v
theories/ApproxFacts.v
theories/FreshFacts.v
theories/Ex_Approx.v
theories/Prop_Approx.v
theories/Plot.v
theories/PlotFacts.v
theories/Ex_Plot.v
theories/Prop_Plot.v
theories/CoreFlag.v
theories/Prop_Flag.v
theories/Ex_Path.v
theories/Prop_Core5.v
theories/LexWf.v
theories/CoreDepth.v
theories/CoreDepth2.v
theories/CoreTermD.v
theories/Prop_Core6.v
theories/CheckTrace.v
theories/Prop_Check.v
theories/Lgg.v
theories/LggFacts.v
theories/Ex_Lgg.v
theories/Prop_Lgg.v
theories/PlotMan.v
theories/Prop_PlotMan.v
theories/Ex_TT2.v
theories/Prop_TT.v
theories/DirSpec.v
theories/DirMat.v
theories/DirFacts.v
theories/DirLoop.v
theories/DirLoop2.v
theories/Prop_Dir.v
theories/CoreSubD.v
theories/Ex_Deagg.v
theories/Prop_Core7.v
theories/Prop_Detect.v
theories/Prop_Deagg.v
theories/CoreApprox.v
theories/ApproxInv.v
theories/Prop_Dense.v
theories/Ex_Dense.v
theories/Prop_Dense2.v
theories/Ex_Rerun.v
theories/Prop_Rerun.v
theories/Prop_PlotMan2.v
theories/CoreConc.v
theories/Prop_Conc.v
theories/Click.v
theories/Prop_Click.v
theories/Glpk.v
theories/GlpkSpec.v
theories/GlpkFacts.v
theories/GlpkFacts2.v
theories/GlpkFacts3.v
theories/Prop_Glpk.v
theories/Prop_Guard.v
theories/Bounded.v
theories/Bounded2.v
theories/Bounded3.v
theories/Bounded4.v
theories/Bounded5.v
theories/Bounded6.v
theories/Bounded7.v
theories/ChullTotal.v
theories/CoreTotal.v
theories/CoreTotal2.v
theories/CoreTotal3.v
theories/CoreTotal4.v
theories/CoreTotal5.v
theories/CoreTotal6.v
theories/Prop_Total.v
theories/Prop_New.v
theories/CorePaint.v
theories/Animate.v
theories/AnimFacts.v
theories/Prop_Anim.v
theories/CoreShape.v
theories/CoreShape2.v
theories/CoreTotalD.v
theories/CoreTotalD2.v
theories/CoreTotalD3.v
theories/CoreTotalD4.v
theories/CoreTotalD5.v
theories/Prop_TotalD.v
theories/Prop_CexD.v
theories/PlotVecs.v
theories/Prop_PlotVecs.v
theories/Prop_Core8.v
theories/CexD.v
theories/CexD2.v
theories/CexD3.v
theories/CexD4.v
theories/CoreTotalA.v
theories/CoreTermA.v
theories/CoreNoCex.v
theories/CoreNoCex2.v
theories/ConcA.v
theories/Prop_TotalA.v
theories/Prop_LggRun.v
theories/LggTotal.v
theories/CoreTotalL.v
theories/Prop_LggTotal.v
theories/Prop_LggConc.v
theories/Prop_LggCurve.v
