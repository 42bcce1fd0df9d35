-Q theories Verif
theories/Base.v
theories/BaseFacts.v
theories/ListUtils.v
theories/ListUtilsProofs.v
theories/FloatSplit.v
theories/ListUtilsProps.v
theories/Str.v
theories/StrFacts.v
theories/Scp.v
theories/ScpProofs.v
theories/ScpHist.v
theories/ScpSplit.v
theories/ScpRound.v
theories/ScpProps.v
theories/RWSpec.v
theories/RWSpecProofs.v
theories/RWSpecProps.v
theories/Bytes.v
theories/Kaldi.v
theories/KaldiProofs.v
theories/KaldiMatProofs.v
theories/KaldiCompProofs.v
theories/KaldiCodec.v
theories/KaldiCodecProofs.v
theories/KaldiProps.v
theories/KaldiKeeps.v
theories/Ark.v
theories/ArkProofs.v
theories/ArkScript.v
theories/ArkHist.v
theories/ArkProps.v
theories/ArkScriptProps.v
theories/H5.v
theories/H5Proofs.v
theories/H5Props.v
theories/Mat.v
theories/MatProofs.v
theories/Trials.v
theories/TrialsSpec.v
theories/TrialsProofs.v
theories/TrialsProps.v
theories/ScoresProofs.v
theories/ScoresProps.v
theories/TrialsTextProofs.v
theories/TrialsTextProps.v
theories/Folds.v
theories/FoldsProofs.v
theories/FoldsProps.v
theories/FoldsProps2.v
theories/FoldsProps3.v
theories/FoldsFloat.v
theories/Segments.v
theories/SegmentsProps.v
theories/RttmProps.v
theories/ExtSegProps.v
theories/Pav.v
theories/PavProofs.v
theories/PavProps.v
theories/Metrics.v
theories/SortFacts.v
theories/MetricsSpec.v
theories/RocProofs.v
theories/RocProps.v
theories/RocchProofs.v
theories/EerProofs.v
theories/HullProps.v
theories/DcfProps.v
theories/DcfReal.v
theories/OptLlr.v
theories/OptLlrProps.v
theories/MetricAcc.v
theories/MetricAccProps.v
theories/Plateau.v
theories/PlateauProps.v
theories/LrSched.v
theories/LrSchedProps.v
theories/Trainer.v
theories/TrainerProps.v
theories/Ahc.v
theories/AhcProps.v
theories/SymMat.v
theories/SymMatProps.v
theories/Tensors.v
theories/TensorsProps.v
theories/Threads.v
theories/ThreadsProps.v
theories/ScoreNorm.v
theories/ScoreNormProps.v
theories/Utt2Info.v
theories/Utt2InfoProps.v
theories/ClassReader.v
theories/ClassReaderProps.v
theories/ClassSplitProps.v
theories/ClassRandProps.v
theories/FeatNorm.v
theories/FeatNormProps.v
theories/SeqGen.v
theories/SeqGenProofs.v
theories/SeqGenRand.v
theories/SeqGenProps.v
theories/SeqGenSeq.v
theories/SeqGenSeqProps.v
theories/SeqGenCex.v
theories/BalanceProps.v
theories/KMeans.v
theories/KMeansProps.v
theories/MathFns.v
theories/MathFnsProps.v
theories/Confusion.v
theories/ConfusionProps.v
theories/RingF.v
theories/LinTrans.v
theories/LinTransProps.v
theories/ModelIO.v
theories/ModelIOProps.v
theories/Gaussianizer.v
theories/GaussianizerProps.v
theories/NormalDiag.v
theories/NormalDiagProps.v
theories/GmmDiag.v
theories/GmmDiagProps.v
theories/GmmSegs.v
theories/GmmSegsProps.v
theories/LinAlg.v
theories/LinAlgProps.v
theories/RInst.v
theories/GaussLa.v
theories/Frplda.v
theories/FrpldaProps.v
theories/FrpldaEm.v
theories/FrpldaCex.v
theories/Splda.v
theories/SpldaProps.v
theories/SpldaEm.v
theories/PldaProps.v
theories/FrpldaMore.v
theories/GmmFit.v
theories/Feats.v
theories/FeatsProps.v
theories/FeatsVad.v
theories/FilterBank.v
theories/FilterBankProps.v
theories/Mfcc.v
theories/MfccProps.v
theories/Gbe.v
theories/GbeProps.v
theories/GbeFit.v
theories/QScoring.v
theories/QScoringProps.v
theories/Calib.v
theories/CalibProps.v
theories/Logit.v
theories/LogitProps.v
theories/Pool.v
theories/PoolProps.v
theories/KLoss.v
theories/KLossProps.v
theories/Embed.v
theories/EmbedProps.v
theories/TrialEval.v
theories/TrialEvalProps.v
theories/LreProps.v
theories/Audio.v
theories/AudioProps.v
theories/NormalFull.v
theories/NormalFullProps.v
theories/GmmFullProps.v
theories/VadTools.v
theories/VadToolsProps.v
theories/SeqGen2.v
theories/SeqGen2Props.v
theories/TorchNets.v
theories/TorchNetsProps.v
theories/ClassEval.v
theories/ClassEvalProps.v
theories/SeqReader.v
theories/SeqReaderProps.v
theories/TrainLog.v
theories/TrainLogProps.v
theories/Options.v
theories/OptTables.v
theories/OptionsProps.v
theories/OptionsConv.v
theories/CopyFeats.v
theories/CopyFeatsProps.v
theories/Callbacks.v
theories/CallbacksProps.v
theories/ProdPool.v
theories/ProdPoolProps.v
theories/GaussSample.v
theories/GaussSampleProps.v
theories/GmmTied.v
theories/GmmTiedProps.v
theories/AudioOut.v
theories/AudioOutProps.v
theories/Vae.v
theories/VaeProps.v
theories/TransUP.v
theories/TransUPProps.v
theories/KaldiOld.v
theories/KaldiOldProps.v
theories/SparsePost.v
theories/SparsePostProps.v
theories/KLayers.v
theories/KLayersProps.v
theories/Svm.v
theories/SvmProps.v
theories/TrainChain.v
theories/TrainChainProps.v
theories/TiedVae.v
theories/TiedVaeProps.v
theories/PldaFit.v
theories/PldaFitProps.v
theories/PldaMdProps.v
