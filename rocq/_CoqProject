-Q theories Verif
theories/Tac.v
theories/Prelude.v
theories/Lemmas.v
theories/PortfolioModel.v
theories/PortfolioExit.v
theories/PortfolioCore.v
theories/PortfolioLedger.v
theories/PortfolioFill.v
theories/PortfolioOpen.v
theories/PortfolioOrders.v
theories/PortfolioReg.v
theories/PortfolioStops.v
theories/PortfolioFinish.v
theories/PortfolioCapture.v
theories/PortfolioKeep.v
theories/PortfolioSpec.v
theories/PortfolioRun.v
theories/PortfolioEvolve.v
theories/PortfolioFacts.v
theories/PortfolioSend.v
theories/PortfolioValue.v
theories/PortfolioPower.v
theories/PortfolioLevels.v
theories/PortfolioSeen.v
theories/PortfolioMark.v
theories/PortfolioRaise.v
theories/PortfolioDemo.v
theories/PortfolioStopProps.v
theories/CashSpec.v
theories/PortfolioCash.v
theories/PropPortfolio.v
theories/PendingModel.v
theories/PendingSpec.v
theories/PendingProofs.v
theories/PropPending.v
theories/ContextModel.v
theories/ContextSpec.v
theories/ContextProofs.v
theories/RankModel.v
theories/RankSpec.v
theories/RankProofs.v
theories/RotationModel.v
theories/RotationSpec.v
theories/RotationProofs.v
theories/LoopModel.v
theories/LoopSpec.v
theories/LoopCore.v
theories/LoopPres.v
theories/LoopRun.v
theories/LoopBars.v
theories/LoopLife.v
theories/LoopHist.v
theories/LoopSend.v
theories/LoopExit.v
theories/LoopDemo.v
theories/RotationRun.v
theories/TurnSpec.v
theories/RankRun.v
theories/BarRun.v
theories/ContextRun.v
theories/BarOrders.v
theories/RotationDemo.v
theories/PropLoop.v
theories/TermSpec.v
theories/TermProofs.v
theories/TermDemo.v
theories/PropRotation.v
theories/PropContext.v
theories/WalkModel.v
theories/WalkSpec.v
theories/WalkProofs.v
theories/WalkDemo.v
theories/PropWalk.v
theories/TextModel.v
theories/TextSpec.v
theories/TextProofs.v
theories/NameProofs.v
theories/PropText.v
theories/IntervalModel.v
theories/IntervalSpec.v
theories/IntervalCalendar.v
theories/IntervalProofs.v
theories/IntervalViews.v
theories/IntervalReads.v
theories/PropInterval.v
theories/EvalModel.v
theories/EvalSpec.v
theories/EvalDrawdown.v
theories/EvalTrades.v
theories/EvalBoot.v
theories/EvalUnrealized.v
theories/PropEval.v
theories/VectModel.v
theories/VectSpec.v
theories/VectLemmas.v
theories/VectCausal.v
theories/VectCausal2.v
theories/VectCausal3.v
theories/VectCausal4.v
theories/VectExact.v
theories/VectWindow.v
theories/VectSum.v
theories/VectBounds.v
theories/VectRanges.v
theories/VectRanges2.v
theories/VectRanges3.v
theories/VectRefute.v
theories/PropVect.v
theories/ScopeModel.v
theories/ScopeSpec.v
theories/ScopeProofs.v
theories/PriceProofs.v
theories/PropScope.v
theories/StoreModel.v
theories/StoreSpec.v
theories/StoreProofs.v
theories/PropStore.v
theories/SlippageModel.v
theories/SlippageSpec.v
theories/SlippageProofs.v
theories/PropSlippage.v
theories/CacheModel.v
theories/CacheSpec.v
theories/CacheProofs.v
theories/CacheThreads.v
theories/PropCache.v
theories/DataModel.v
theories/DataSpec.v
theories/DataProofs.v
theories/PropData.v
theories/LagModel.v
theories/LagSpec.v
theories/LagProofs.v
theories/PropLag.v
theories/FrameModel.v
theories/FrameSpec.v
theories/FrameProofs.v
theories/PropFrame.v
theories/HyperModel.v
theories/HyperSpec.v
theories/HyperProofs.v
theories/StudyProofs.v
theories/PropHyper.v
theories/IndicatorModel.v
theories/IndicatorSpec.v
theories/IndicatorProofs.v
theories/IndicatorRun.v
theories/IndicatorCaches.v
theories/PropIndicator.v
theories/IndSetModel.v
theories/IndSetSpec.v
theories/IndSetProofs.v
theories/PropIndSet.v
theories/TrainModel.v
theories/TrainSpec.v
theories/TrainProofs.v
theories/TrainWindow.v
theories/PropTrain.v
theories/MarketModel.v
theories/MarketSpec.v
theories/MarketSame.v
theories/MarketFacts.v
theories/MarketLogs.v
theories/PropMarket.v
theories/SelectModel.v
theories/SelectSpec.v
theories/SelectFacts.v
theories/SelectProofs.v
theories/SelectSame.v
theories/SelectLogs.v
theories/PropSelect.v
theories/OptWalkModel.v
theories/OptWalkSpec.v
theories/OptWalkProofs.v
theories/PropOptWalk.v
theories/WholeSpec.v
theories/WholeProofs.v
theories/WholeLoop.v
theories/PropWhole.v
theories/RecordModel.v
theories/RecordSpec.v
theories/RecordRows.v
theories/RecordStops.v
theories/RecordLog.v
theories/RecordTotals.v
theories/PropRecord.v
theories/ResultModel.v
theories/ResultSpec.v
theories/ResultTables.v
theories/ResultMetrics.v
theories/PropResult.v
theories/RequestModel.v
theories/RequestSpec.v
theories/RequestProofs.v
theories/PropRequest.v
theories/WindowModel.v
theories/WindowSpec.v
theories/WindowProofs.v
theories/PropWindow.v
theories/IPredModel.v
theories/IPredSpec.v
theories/IPredProofs.v
theories/PropIPred.v
theories/JsonModel.v
theories/JsonSpec.v
theories/JsonProofs.v
theories/JsonTables.v
theories/PropJson.v
theories/ITrainModel.v
theories/ITrainSpec.v
theories/ITrainProofs.v
theories/ITrainCausal.v
theories/PropITrain.v
theories/IPoolModel.v
theories/IPoolProofs.v
theories/IPoolAccept.v
theories/PropIPool.v
theories/DeclareModel.v
theories/DeclareSpec.v
theories/DeclareProofs.v
theories/DeclareRun.v
theories/PropDeclare.v
theories/SignalModel.v
theories/SignalSpec.v
theories/SignalProofs.v
theories/PropSignal.v
theories/RatioModel.v
theories/RatioSpec.v
theories/RatioProofs.v
theories/RatioCurve.v
theories/RatioLine.v
theories/PropRatio.v
theories/SettingsModel.v
theories/SettingsSpec.v
theories/SettingsProofs.v
theories/PropSettings.v
theories/ViewModel.v
theories/ViewSpec.v
theories/PropView.v
theories/BootModel.v
theories/BootSpec.v
theories/BootProofs.v
theories/PropBoot.v
theories/SwitchModel.v
theories/SwitchSpec.v
theories/SwitchProofs.v
theories/PropSwitch.v
theories/StepSpec.v
theories/LoopSteps.v
theories/StepDates.v
theories/StepRun.v
theories/StepDemo.v
theories/PropSteps.v
theories/BlankSpec.v
theories/CoverSpec.v
theories/CoverProofs.v
theories/CoverRun.v
theories/CoverDemo.v
theories/AttrModel.v
theories/AttrSpec.v
theories/AttrProofs.v
theories/PropCover.v
theories/ExitMarks.v
theories/EntropyModel.v
theories/EntropySpec.v
theories/EntropyProofs.v
theories/EntropyExact.v
theories/PropEntropy.v
theories/NormalModel.v
theories/NormalSpec.v
theories/NormalProofs.v
theories/NormalBounds.v
theories/NormalPoly.v
theories/NormalExact.v
theories/PropNormal.v
theories/BcaSpec.v
theories/BcaProofs.v
theories/BcaMany.v
theories/PropBca.v
theories/PoolModel.v
theories/PoolSpec.v
theories/PoolProofs.v
theories/PropPool.v
theories/LaunchModel.v
theories/LaunchSpec.v
theories/LaunchProofs.v
theories/LaunchStart.v
theories/PropLaunch.v
theories/ExportModel.v
theories/ExportSpec.v
theories/ExportProofs.v
theories/PropExport.v
theories/LogModel.v
theories/LogSpec.v
theories/LogProofs.v
theories/LogOrder.v
theories/PropLog.v
theories/VendorModel.v
theories/VendorSpec.v
theories/VendorProofs.v
theories/VendorRows.v
theories/PropVendor.v
theories/YfinModel.v
theories/YfinSpec.v
theories/YfinProofs.v
theories/PropYfin.v
theories/ColsModel.v
theories/ColsSpec.v
theories/ColsProofs.v
theories/PropCols.v
theories/ReadModel.v
theories/ReadSpec.v
theories/ReadProofs.v
theories/PropRead.v
theories/LevelSpec.v
theories/LevelProofs.v
theories/PropLevel.v
theories/FeatModel.v
theories/FeatSpec.v
theories/FeatProofs.v
theories/PropFeat.v
theories/FigureSpec.v
theories/FigureProofs.v
theories/FigureLoop.v
theories/FigureRun.v
theories/PropFigure.v
theories/PropRemove.v
theories/TotalSpec.v
theories/TotalProofs.v
theories/TotalLoopSpec.v
theories/TotalRotate.v
theories/TotalLoop.v
theories/PropTotal.v
