-Q theories Verif
theories/Base.v
theories/BaseFacts.v
theories/Writer.v
theories/NameModel.v
theories/NameSpec.v
theories/NameProofs.v
theories/P_Names.v
theories/LabelModel.v
theories/LabelSpec.v
theories/LabelProofs.v
theories/GroupProofs.v
theories/LawProofs.v
theories/VecModel.v
theories/VecSpec.v
theories/ShardProofs.v
theories/VecProofs.v
theories/VecTheorems.v
theories/DenseFacts.v
theories/P_Labels.v
theories/P_Vec.v
theories/FloatModel.v
theories/FloatFacts.v
theories/FloatOrder.v
theories/FloatArith.v
theories/EncoderModel.v
theories/FamilyModel.v
theories/TextModel.v
theories/TextSpec.v
theories/ProtoModel.v
theories/EncoderSpec.v
theories/TrimProofs.v
theories/EncoderProofs.v
theories/TextProofs.v
theories/TextParseProofs.v
theories/TextTheorems.v
theories/TextExact.v
theories/TextExamples.v
theories/TextExampleProofs.v
theories/P_Text.v
theories/ProtoSpec.v
theories/ProtoProofs.v
theories/ProtoSim.v
theories/ProtoTheorems.v
theories/ProtoErrors.v
theories/ProtoExamples.v
theories/ProtoExampleProofs.v
theories/P_Proto.v
theories/MetricModel.v
theories/MetricSpec.v
theories/MetricProofs.v
theories/MetricTheorems.v
theories/FloatAccuracy.v
theories/HistTheorems.v
theories/MetricExamples.v
theories/P_Metrics.v
theories/ConcModel.v
theories/ConcSpec.v
theories/ConcProofs.v
theories/ConcHist.v
theories/ConcTheorems.v
theories/ConcExamples.v
theories/P_Conc.v
theories/ConcVecModel.v
theories/ConcVecSpec.v
theories/ConcLock.v
theories/ConcVec.v
theories/ConcVecTheorems.v
theories/ConcVecExamples.v
theories/P_ConcVec.v
theories/ConcDenseModel.v
theories/ConcDenseSpec.v
theories/ConcDense.v
theories/ConcDenseTheorems.v
theories/ConcDenseExamples.v
theories/P_ConcDense.v
theories/ConcProgressSpec.v
theories/ConcProgress.v
theories/ConcProgressExamples.v
theories/P_ConcProgress.v
theories/ConcLabelModel.v
theories/ConcLabelSpec.v
theories/ConcLabelProofs.v
theories/ConcLabelTheorems.v
theories/ConcLabelExamples.v
theories/P_ConcLabel.v
theories/CollectorModel.v
theories/CollectorSpec.v
theories/CollectorProofs.v
theories/CollectorTheorems.v
theories/CollectorFormats.v
theories/CollectorFacts.v
theories/CollectorExamples.v
theories/CollectorFinal.v
theories/P_Collectors.v
theories/TokioSpec.v
theories/TokioProofs.v
theories/TokioExamples.v
theories/P_Tokio.v
theories/DeriveModel.v
theories/DeriveSpec.v
theories/DeriveProofs.v
theories/DeriveMetricProofs.v
theories/DeriveNewProofs.v
theories/DeriveGroupProofs.v
theories/DeriveStructProofs.v
theories/DeriveExamples.v
theories/P_Derive.v
theories/ScrapeSpec.v
theories/ScrapeProofs.v
theories/ScrapeTheorems.v
theories/ScrapeVec.v
theories/ScrapeExamples.v
theories/P_Scrape.v
theories/CallModel.v
theories/EndSpec.v
theories/EndProofs.v
theories/EndTheorems.v
theories/EndExamples.v
theories/P_End.v
theories/ProtoEndSpec.v
theories/ProtoEndTheorems.v
theories/ProtoEndExamples.v
theories/P_ProtoEnd.v
theories/ConcCallModel.v
theories/ConcCallSpec.v
theories/ConcBoth.v
theories/ConcHandles.v
theories/ConcScript.v
theories/ConcCallProofs.v
theories/ConcCallTheorems.v
theories/ConcCallOrder.v
theories/ConcWithin.v
theories/ConcCallExamples.v
theories/P_ConcCall.v
theories/ConcCountExamples.v
theories/P_ConcCount.v
theories/ConcWeakModel.v
theories/ConcWeakSpec.v
theories/ConcWeakProofs.v
theories/ConcWeakTheorems.v
theories/ConcWeakExamples.v
theories/P_ConcWeak.v
theories/AppModel.v
theories/AppSpec.v
theories/AppVec.v
theories/AppLives.v
theories/AppProofs.v
theories/AppTheorems.v
theories/AppExamples.v
theories/P_App.v
theories/ConcDenseCallModel.v
theories/ConcDenseCallSpec.v
theories/ConcDenseCallProofs.v
theories/ConcDenseCallTheorems.v
theories/ConcDenseCallExamples.v
theories/P_ConcDenseCall.v
theories/ProtoScrapeSpec.v
theories/ProtoScrapeProofs.v
theories/ProtoScrapeAgree.v
theories/ProtoScrapeExamples.v
theories/P_ProtoScrape.v
theories/ConcCallProgress.v
theories/ConcCallProgressExamples.v
theories/P_ConcCallProgress.v
theories/ForeignModel.v
theories/ForeignSpec.v
theories/ForeignProofs.v
theories/ForeignExamples.v
theories/P_Foreign.v
theories/Conformance.v
theories/ConcDenseOrder.v
theories/ConcWithinDense.v
theories/P_ConcOrder.v
theories/ConcScrapeModel.v
theories/ConcScrapeSpec.v
theories/ConcScrapeProofs.v
theories/ConcScrapeDense.v
theories/ConcScrapeExamples.v
theories/P_ConcScrape.v
theories/ConcProtoSpec.v
theories/ConcProto.v
theories/ConcProtoDense.v
theories/ConcProtoExamples.v
theories/P_ConcProto.v
theories/ConcMomentSpec.v
theories/ConcMoment.v
theories/ConcMomentDense.v
theories/ConcMomentOne.v
theories/ConcMomentExamples.v
theories/P_ConcMoment.v
theories/ConcWeakMomentSpec.v
theories/ConcWeakMoment.v
theories/P_ConcWeakMoment.v
theories/ConcWeakVecModel.v
theories/ConcWeakVecSpec.v
theories/ConcWeakVec.v
theories/P_ConcWeakVec.v
theories/ConcWeakHistVec.v
theories/P_ConcWeakHistVec.v
theories/ConcWeakScrape.v
theories/P_ConcWeakScrape.v
theories/ConcWeakProto.v
theories/P_ConcWeakProto.v
theories/ConcFinishSpec.v
theories/ConcFinish.v
theories/ConcFinishVec.v
theories/ConcFinishCalls.v
theories/ConcFinishDense.v
theories/ConcFinishExamples.v
theories/P_ConcFinish.v
