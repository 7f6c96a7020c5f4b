-Q theories Verif
theories/Base.v
theories/KeyTable.v
theories/Types.v
theories/Keys.v
theories/MacroExec.v
theories/Kbd.v
theories/UnicodeTable.v
theories/Str.v
theories/MacroParse.v
theories/Ini.v
theories/Config.v
theories/Validation.v
theories/Lib.v
theories/Outside.v
theories/Steps.v
theories/Hist.v
theories/SpecTrace.v
theories/TraceProofs.v
theories/PropTrace.v
theories/SpecMods.v
theories/ModsProofs.v
theories/SpecLookup.v
theories/LookupProofs.v
theories/PropMods.v
theories/Engine.v
theories/SpecWf.v
theories/Wf.v
theories/WfEvents.v
theories/ParseWf.v
theories/SpecHist.v
theories/WfHist.v
theories/PropWf.v
theories/ActProofs.v
theories/SpecActions.v
theories/StepProofs.v
theories/OneProofs.v
theories/CacheProofs.v
theories/Inv.v
theories/ClassInv.v
theories/SpecKept.v
theories/KeptProofs.v
theories/PropKept.v
theories/CmdProofs.v
theories/TimerProofs.v
theories/ExTools.v
theories/PropSteps.v
theories/PropMacro.v
theories/LiftOk.v
theories/SpecAccount.v
theories/Account.v
theories/NoAbort.v
theories/PropAccount.v
theories/SpecNotation.v
theories/NotationProofs.v
theories/MacroProofs.v
theories/PropNotation.v
theories/SpecText.v
theories/TextProofs.v
theories/Match.v
theories/Device.v
theories/Gadget.v
theories/Daemon.v
theories/SpecGadget.v
theories/GadgetProofs.v
theories/PropGadget.v
theories/SpecDaemon.v
theories/DaemonProofs.v
theories/PropDaemon.v
theories/PropScroll.v
theories/EntryProofs.v
theories/ListenProofs.v
theories/ParseFrame.v
theories/ParseTotal.v
theories/SpecBind.v
theories/BindProofs.v
theories/MatchProofs.v
theories/PropText.v
theories/PropListen.v
theories/TermProofs.v
theories/SpecTerm.v
theories/PropTerm.v
theories/SpecPlain.v
theories/PlainProofs.v
theories/PropPlain.v
theories/SpecPass.v
theories/PassProofs.v
theories/PropPass.v
theories/Times.v
theories/Retime.v
theories/Shift.v
theories/SpecShift.v
theories/PropShift.v
theories/SpecDefer.v
theories/DeferProofs.v
theories/PropDefer.v
theories/SpecOverload.v
theories/OverloadProofs.v
theories/PropOverload.v
theories/SpecTimer.v
theories/TimelyProofs.v
theories/PropTimer.v
theories/SpecChord.v
theories/ChordBare.v
theories/ChordProofs.v
theories/ChordLife.v
theories/ChordTools.v
theories/PropChord.v
theories/SpecStuck.v
theories/StuckProofs.v
theories/StuckLife.v
theories/MacroLife.v
theories/PropStuck.v
theories/ReadFile.v
theories/SpecFile.v
theories/FileProofs.v
theories/PropFile.v
theories/SpecClient.v
theories/PropClient.v
theories/Client.v
theories/SpecCli.v
theories/PropCli.v
theories/SpecExpr.v
theories/ExprProofs.v
theories/ActionProofs.v
theories/PropExpr.v
theories/SpecConfig.v
theories/ConfProofs.v
theories/LayerProofs.v
theories/PropConfig.v
theories/SpecSwap.v
theories/SwapProofs.v
theories/PropSwap.v
theories/SpecLed.v
theories/LedProofs.v
theories/PropLed.v
theories/SpecSource.v
theories/SourceProofs.v
theories/SourceParse.v
theories/PropSource.v
theories/Uinput.v
theories/SpecCaps.v
theories/CapsProofs.v
theories/PropCaps.v
theories/Identify.v
theories/SpecIdentify.v
theories/IdentifyProofs.v
theories/BoundProofs.v
theories/PropIdentify.v
theories/PropBound.v
theories/MildProofs.v
theories/SpecSafe.v
theories/SafeProofs.v
theories/PropSafe.v
theories/SpecHalt.v
theories/HaltProofs.v
theories/PropHalt.v
theories/SpecRef.v
theories/RefProofs.v
theories/RefSteps.v
theories/RefRun.v
theories/PropRef.v
theories/SpecWait.v
theories/WaitProofs.v
theories/PropWait.v
theories/SpecFull.v
theories/FullProofs.v
theories/PropFull.v
theories/SpecSystem.v
theories/SystemProofs.v
theories/PropSystem.v
theories/SpecWhole.v
theories/WholeProofs.v
theories/PropWhole.v
theories/SpecEntire.v
theories/EntireProofs.v
theories/PropEntire.v
theories/Log.v
theories/SpecLog.v
theories/LogProofs.v
theories/PropLog.v
theories/DevMon.v
theories/SpecMon.v
theories/PropMon.v
theories/SpecServe.v
theories/ServeProofs.v
theories/PropServe.v
theories/Ipc.v
theories/SpecIpc.v
theories/IpcProofs.v
theories/PropIpc.v
theories/PropClass.v
theories/SpecLive.v
theories/LiveProofs.v
theories/PropLive.v
theories/SpecLiving.v
theories/LivingProofs.v
theories/PropLiving.v
theories/Answer.v
theories/SpecAnswer.v
theories/PropAnswer.v
theories/AwayProofs.v
theories/SpecAway.v
theories/PropAway.v
theories/SpecServed.v
theories/ServedProofs.v
theories/PropServed.v
theories/Mapper.v
theories/SpecMapper.v
theories/MapperProofs.v
theories/PropMapper.v
theories/Compose.v
theories/SpecCompose.v
theories/ComposeProofs.v
theories/PropCompose.v
theories/SpecRest.v
theories/PropRest.v
theories/SpecStart.v
theories/PropStart.v
