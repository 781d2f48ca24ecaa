-Q theories Verif
theories/Base.v
theories/ArcModel.v
theories/ArcSpec.v
theories/ArcInv.v
theories/ArcStep.v
theories/ArcSafe.v
theories/ArcReach.v
theories/ArcLen.v
theories/ArcLive.v
theories/ArcTame.v
theories/ArcProps.v
theories/ArcShrink.v
theories/ArcEx.v
theories/ArcWit.v
theories/ArcCtorModel.v
theories/ArcCtorSpec.v
theories/ArcFinal.v
theories/PropArc.v
theories/RegModel.v
theories/RegInv.v
theories/RegFinal.v
theories/PropReg.v
theories/InternModel.v
theories/InternSpec.v
theories/InternInv.v
theories/InternStep.v
theories/InternLaw.v
theories/InternFinal.v
theories/InternMore.v
theories/TidModel.v
theories/TidFinal.v
theories/InternLive.v
theories/InternWaste.v
theories/InternMemSpec.v
theories/InternMem.v
theories/InternEx.v
theories/PropTid.v
theories/PropIntern.v
theories/ArenaModel.v
theories/ArenaSpec.v
theories/ArenaInv.v
theories/ArenaStep.v
theories/ArenaLaw.v
theories/ArenaLawful.v
theories/ArenaFinal.v
theories/ArenaMore.v
theories/ArenaEx.v
theories/PropArena.v
theories/NewModel.v
theories/NewSpec.v
theories/NewSim.v
theories/NewStep.v
theories/NewFinal.v
theories/NewEx.v
theories/PropNew.v
theories/FitsModel.v
theories/FitsFinal.v
theories/PropFits.v
theories/DstModel.v
theories/DstFinal.v
theories/PropDst.v
theories/SerdeModel.v
theories/SerdeSpec.v
theories/SerdeFinal.v
theories/SerdeEx.v
theories/PropSerde.v
theories/DeepModel.v
theories/DeepSpec.v
theories/DeepFinal.v
theories/PropDeep.v
theories/HandleModel.v
theories/HandleSpec.v
theories/HandleFinal.v
theories/PropHandle.v
theories/TraitModel.v
theories/TraitSpec.v
theories/TraitArc.v
theories/TraitFinal.v
theories/PropTrait.v
theories/RaceModel.v
theories/RaceSpec.v
theories/RaceInv.v
theories/RaceStep.v
theories/RaceSafe.v
theories/RaceFinal.v
theories/RaceHb.v
theories/RaceThm.v
theories/RaceEx.v
theories/PropRace.v
theories/RaceAccSpec.v
theories/RaceAcc.v
theories/RaceAccEx.v
theories/PropRaceAcc.v
theories/AtomSpec.v
theories/AtomSim.v
theories/AtomFinal.v
theories/PropAtom.v
theories/NestModel.v
theories/NestSpec.v
theories/NestFinal.v
theories/NestSpin.v
theories/PropNest.v
theories/SpinSpec.v
theories/SpinFinal.v
theories/SpinWit.v
theories/PropSpin.v
theories/SetSpec.v
theories/InternLin.v
theories/NewLin.v
theories/PropSet.v
theories/ArenaAtom.v
theories/ArenaLin.v
theories/PropArenaLin.v
theories/ArenaWait.v
theories/ArenaLive.v
theories/PropArenaWait.v
theories/NewWait.v
theories/NewWaitEx.v
theories/NewLive.v
theories/NewMem.v
theories/InternMemEx.v
theories/PropInternMem.v
theories/PropNewWait.v
theories/ModelTests.v
theories/HbSpec.v
theories/HbLib.v
theories/HbModel.v
theories/HbThm.v
theories/HbIntern.v
theories/HbInternFinal.v
theories/HbNewModel.v
theories/HbNew.v
theories/HbNewFinal.v
theories/HbArenaModel.v
theories/HbArena.v
theories/HbArenaFinal.v
theories/PropHb.v
theories/HbStepSpec.v
theories/HbStep.v
theories/HbStepNew.v
theories/HbStepArena.v
theories/HbStepEx.v
theories/PropHbStep.v
theories/GrowModel.v
theories/GrowSpec.v
theories/GrowProof.v
theories/GrowEx.v
theories/PropGrow.v
theories/VarModel.v
theories/VarSpec.v
theories/VarProof.v
theories/VarEx.v
theories/PropVar.v
theories/MutModel.v
theories/MutSpec.v
theories/MutArc.v
theories/MutIntern.v
theories/MutNew.v
theories/MutRead.v
theories/MutReadArc.v
theories/MutArena.v
theories/MutEx.v
theories/PropMutArc.v
theories/PropMutIntern.v
theories/PropMutNew.v
theories/PropMutArena.v
theories/WeakModel.v
theories/WeakSpec.v
theories/WeakHb.v
theories/WeakInv.v
theories/WeakSafe.v
theories/WeakCoh.v
theories/WeakVal.v
theories/WeakLow.v
theories/WeakThm.v
theories/WeakEx.v
theories/PropWeak.v
theories/FreeSpec.v
theories/FreeProof.v
theories/FreeEx.v
theories/PropFree.v
theories/AliasModel.v
theories/AliasArenaModel.v
theories/AliasTree.v
theories/AliasStack.v
theories/AliasTrack.v
theories/AliasStackArena.v
theories/AliasStackBad.v
theories/AliasHands.v
theories/AliasFinal.v
theories/AliasSpec.v
theories/AliasSeen.v
theories/PropAlias.v
theories/ArcAliasModel.v
theories/ArcAliasSpec.v
theories/ArcAliasLoc.v
theories/ArcAliasTree.v
theories/ArcAliasOps.v
theories/ArcAliasSafe.v
theories/ArcAliasFinal.v
theories/ArcAliasBad.v
theories/ArcAliasTreeBad.v
theories/ArcAliasBadFinal.v
theories/ArcAliasSeen.v
theories/PropArcAlias.v
theories/InternAliasModel.v
theories/InternAliasSpec.v
theories/InternAliasSafe.v
theories/InternAliasHost.v
theories/InternAliasFinal.v
theories/InternAliasSeen.v
theories/PropInternAlias.v
theories/DynSpec.v
theories/DynIntern.v
theories/DynNew.v
theories/DynArena.v
theories/DynFinal.v
theories/PropDyn.v
theories/NewScanModel.v
theories/NewScan.v
theories/NewScanMore.v
theories/NewScanEx.v
theories/PropNewScan.v
theories/IsolSpec.v
theories/Isol.v
theories/AIsolSpec.v
theories/AIsol.v
theories/NIsolSpec.v
theories/NIsol.v
theories/PropIsol.v
theories/FairSpec.v
theories/Fair.v
theories/FairEx.v
theories/PropFair.v
theories/TermSpec.v
theories/Term.v
theories/TermIntern.v
theories/TermNew.v
theories/TermArena.v
theories/TermEx.v
theories/PropTerm.v
theories/WhimSpec.v
theories/Whim.v
theories/WhimArena.v
theories/WhimEx.v
theories/PropWhim.v
theories/FmtModel.v
theories/FmtSpec.v
theories/FmtFinal.v
theories/PropFmt.v
theories/ViewModel.v
theories/ViewSpec.v
theories/ViewFinal.v
theories/ViewEx.v
theories/PropView.v
theories/ViewArena.v
theories/PropViewArena.v
