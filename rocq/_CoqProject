-Q theories Verif
theories/Base.v
theories/MainTree.v
theories/Filters.v
theories/FTree.v
theories/Queue.v
theories/Callbacks.v
theories/ViewCount.v
theories/Api.v
theories/ViewApi.v
theories/Gtk.v
theories/Spec.v
theories/BaseFacts.v
theories/MainFacts.v
theories/MainInv.v
theories/MainOps.v
theories/MainDel.v
theories/MainRun.v
theories/MainAdd.v
theories/MainEff.v
theories/MainReg.v
theories/MainRegDel.v
theories/MainTight.v
theories/MainEvents.v
theories/MainLaws.v
theories/MainPaths.v
theories/MainPend.v
theories/MainThm.v
theories/Witness.v
theories/OddIds.v
theories/PropMain.v
theories/SpecQueue.v
theories/QueueFacts.v
theories/QueueWitness.v
theories/PropQueue.v
theories/SpecBatch.v
theories/BatchFacts.v
theories/PropBatch.v
theories/SpecApi.v
theories/ApiFacts.v
theories/DataFacts.v
theories/CountFacts.v
theories/NamedFacts.v
theories/ApiWitness.v
theories/PropApi.v
theories/SpecView.v
theories/FtBase.v
theories/FtWalk.v
theories/FtEdge.v
theories/FtUp.v
theories/FtFront.v
theories/FtDown.v
theories/FtNoop.v
theories/FtDel.v
theories/FtStep.v
theories/FtGhost.v
theories/FtSync.v
theories/FtGone.v
theories/FtTree.v
theories/FtSent.v
theories/FtMind.v
theories/FtOps.v
theories/SpecViewing.v
theories/FtKeep.v
theories/FtState.v
theories/FtView.v
theories/FtThm.v
theories/FtSignals.v
theories/FtHist.v
theories/FtQuiet.v
theories/FtRead.v
theories/ViewWitness.v
theories/ViewCases.v
theories/PropView.v
theories/SpecLoose.v
theories/FtFlat.v
theories/FtFlatThm.v
theories/FtForest.v
theories/FtForestThm.v
theories/LooseCases.v
theories/PropLoose.v
theories/FtTruth.v
theories/SpecKin.v
theories/KinFacts.v
theories/KinOps.v
theories/KinThm.v
theories/KinCases.v
theories/PropKin.v
theories/SpecGtk.v
theories/GtkFacts.v
theories/GtkView.v
theories/GtkWitness.v
theories/PropGtk.v
theories/SpecFrame.v
theories/FrameFacts.v
theories/AddFacts.v
theories/DisableFacts.v
theories/PrintFacts.v
theories/PropFrame.v
theories/SpecNav.v
theories/NavFacts.v
theories/FtAny.v
theories/SpecSys.v
theories/SysFacts.v
theories/SysRead.v
theories/SysClient.v
theories/SysCases.v
theories/SpecTold.v
theories/FtTold.v
theories/GtkRemove.v
theories/GtkData.v
theories/ToldCases.v
theories/PropTold.v
theories/PropNav.v
theories/PropSys.v
theories/SpecMove.v
theories/MoveFacts.v
theories/MoveWitness.v
theories/PropMove.v
theories/Columns.v
theories/SpecColumns.v
theories/ColumnFacts.v
theories/PropColumns.v
theories/Widget.v
theories/SpecWidget.v
theories/ClientFacts.v
theories/ConnectFacts.v
theories/WidgetFacts.v
theories/WidgetUse.v
theories/SpecStay.v
theories/StayFacts.v
theories/FtStill.v
theories/FtStay.v
theories/StayRows.v
theories/WidgetPlaces.v
theories/WidgetWitness.v
theories/PropWidget.v
theories/StayCases.v
theories/PropStay.v
theories/Sort.v
theories/SpecSort.v
theories/SortFacts.v
theories/SpecHealthy.v
theories/SortAny.v
theories/SortCases.v
theories/SortAnyCases.v
theories/PropSort.v
theories/Cells.v
theories/SpecPaint.v
theories/PaintFacts.v
theories/PaintCases.v
theories/PropPaint.v
theories/SortCol.v
theories/SpecSortCol.v
theories/SortColFacts.v
theories/PropSortCol.v
theories/SpecGroup.v
theories/GroupFacts.v
theories/PropGroup.v
theories/StorePrint.v
theories/SpecPrint.v
theories/PrintStore.v
theories/PrintCases.v
theories/PropPrint.v
theories/Twice.v
theories/SpecTwice.v
theories/TwiceFacts.v
theories/TwiceCases.v
theories/PropTwice.v
theories/Objects.v
theories/SpecObjects.v
theories/ObjFacts.v
theories/ObjAgain.v
theories/ObjTail.v
theories/ObjTree.v
theories/ObjCases.v
theories/PropObjects.v
theories/FRaise.v
theories/FrFlat.v
theories/FrSame.v
theories/SpecRaise.v
theories/FrThm.v
theories/RaiseCases.v
theories/PropRaise.v
theories/FEmit.v
theories/SpecEmit.v
theories/FeSame.v
theories/FeFlat.v
theories/FeThm.v
theories/EmitCases.v
theories/PropEmit.v
theories/LoneTree.v
theories/SpecLone.v
theories/LoneFacts.v
theories/LoneCases.v
theories/PropLone.v
theories/LoneWidget.v
theories/LoneWidgetCases.v
theories/PlacesAny.v
theories/PlacesCases.v
theories/PropLoneUse.v
theories/MainView.v
theories/SpecMainView.v
theories/MainViewFacts.v
theories/MainViewCases.v
theories/PropMainView.v
theories/SpecCount.v
theories/CountLate.v
theories/CountCases.v
theories/PropCount.v
theories/Stopped.v
theories/SpecStopped.v
theories/StoppedFacts.v
theories/StoppedCases.v
theories/PropStopped.v
theories/SpecExact.v
theories/ExactFacts.v
theories/PropExact.v
theories/Threads.v
theories/SpecThreads.v
theories/ThreadFacts.v
theories/ThreadCases.v
theories/ThreadAsk.v
theories/PropThreads.v
theories/NodeThreads.v
theories/SpecNodes.v
theories/NodeFacts.v
theories/NodeCut.v
theories/NodeMove.v
theories/NodeThm.v
theories/NodeLate.v
theories/NodeDone.v
theories/NodeTold.v
theories/NodeCases.v
theories/PropNodes.v
theories/SpecExpand.v
theories/WidgetExpand.v
theories/ExpandCases.v
theories/PropExpand.v
theories/WidgetClose.v
theories/WidgetStill.v
theories/CloseCases.v
theories/PropClose.v
theories/SpecExpandLone.v
theories/WidgetExpandLone.v
theories/ExpandLoneCases.v
theories/PropExpandLone.v
theories/WidgetLast.v
theories/WidgetFirst.v
theories/LastCases.v
theories/PropLast.v
theories/SpecSteady.v
theories/WidgetSteady.v
theories/SteadyCases.v
theories/PropSteady.v
theories/SpecAnswers.v
theories/AnswerFacts.v
theories/AnswerCases.v
theories/PropAnswers.v
