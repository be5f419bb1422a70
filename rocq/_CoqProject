-Q theories Verif

theories/AddedFindProofs.v
theories/AddedPatternModel.v
theories/AddedPatternProofs.v
theories/AddedPatternSpec.v
theories/AddedVocabModel.v
theories/AddedVocabProofs.v
theories/AddedVocabSpec.v
theories/ApiModel.v
theories/BareProofs.v
theories/Base.v
theories/BaseProofs.v
theories/BatchModel.v
theories/BatchProofs.v
theories/BatchSpec.v
theories/BertItemsProofs.v
theories/BertItemsSpec.v
theories/BertKeptProofs.v
theories/BertKeptSpec.v
theories/BertMaskedProofs.v
theories/BertNormModel.v
theories/BertNormProofs.v
theories/BertNormSpec.v
theories/BertWordsProofs.v
theories/BpeBuildModel.v
theories/BpeBuildProofs.v
theories/BpeBuildSpec.v
theories/BpeModel.v
theories/BpeProofs.v
theories/BpeRefProofs.v
theories/BpeSaveModel.v
theories/BpeSaveProofs.v
theories/BpeSaveSpec.v
theories/BpeSpec.v
theories/BpeTokProofs.v
theories/BpeTokSpec.v
theories/CacheModel.v
theories/CacheProofs.v
theories/ChunkProofs.v
theories/ConfigLoadProofs.v
theories/ConfigModel.v
theories/ConfigProofs.v
theories/ConfigSpec.v
theories/ConstructModel.v
theories/ConstructProofs.v
theories/ConstructSpec.v
theories/CutBytesProofs.v
theories/DecoderModel.v
theories/DecoderProofs.v
theories/DecoderSpec.v
theories/DroppedProofs.v
theories/EncodingModel.v
theories/EncodingProofs.v
theories/EncodingSpec.v
theories/ExpandedProofs.v
theories/FileCacheModel.v
theories/FileCacheProofs.v
theories/FileCacheSpec.v
theories/HeapModel.v
theories/HeapProofs.v
theories/ItemsProofs.v
theories/ItemsSpec.v
theories/LlamaPartsProofs.v
theories/LlamaProofs.v
theories/LlamaSpec.v
theories/LoadErrorProofs.v
theories/LoadErrorSpec.v
theories/LoadedAddedProofs.v
theories/LoadedModel.v
theories/LoadedPartsProofs.v
theories/LoadedProofs.v
theories/LoadedSpec.v
theories/LoadedUnigramProofs.v
theories/LoadedUnigramSpec.v
theories/LoadedWordsProofs.v
theories/LoadedWordsSpec.v
theories/MaskedProofs.v
theories/MaskedTextProofs.v
theories/MetaModelProofs.v
theories/MetaTextProofs.v
theories/MetaTripProofs.v
theories/MetaTripSpec.v
theories/MetaspaceProofs.v
theories/MetaspaceSpec.v
theories/NamesLoadedProofs.v
theories/NamesProofs.v
theories/NamesSpec.v
theories/NormalizedChecks.v
theories/NormalizedExactProofs.v
theories/NormalizedInvProofs.v
theories/NormalizedModel.v
theories/NormalizedOpProofs.v
theories/NormalizedProofs.v
theories/NormalizedSpec.v
theories/OrderProofs.v
theories/OrderSpec.v
theories/PairCountModel.v
theories/PairCountProofs.v
theories/ParamsModel.v
theories/ParamsProofs.v
theories/ParamsSpec.v
theories/PatternModel.v
theories/PatternProofs.v
theories/PatternSpec.v
theories/PipelineModel.v
theories/PipelineOffsetProofs.v
theories/PipelineProofs.v
theories/PipelineSpec.v
theories/PlacedNormProofs.v
theories/PlacedProofs.v
theories/PreTokenizedModel.v
theories/PreTokenizedProofs.v
theories/PreTokenizedSpec.v
theories/PreTokenizerModel.v
theories/PreTokenizerProofs.v
theories/PreTokenizerSpec.v
theories/PrecompiledProofs.v
theories/PretrainedModel.v
theories/PretrainedProofs.v
theories/PretrainedSpec.v
theories/ProcessorModel.v
theories/ProcessorProofs.v
theories/ProcessorSpec.v
theories/ProgressModel.v
theories/ProgressProofs.v
theories/ProgressSpec.v
theories/PropAdded.v
theories/PropAddedPattern.v
theories/PropBatch.v
theories/PropBertNorm.v
theories/PropBertSpecial.v
theories/PropBpe.v
theories/PropBpeBuild.v
theories/PropBpeSave.v
theories/PropByteLevel.v
theories/PropCache.v
theories/PropConfig.v
theories/PropConstruct.v
theories/PropDecoders.v
theories/PropDropped.v
theories/PropEncoding.v
theories/PropFileCache.v
theories/PropItems.v
theories/PropKept.v
theories/PropLlama.v
theories/PropLoadError.v
theories/PropLoaded.v
theories/PropLoadedSpecial.v
theories/PropLoadedUnigram.v
theories/PropLoadedWords.v
theories/PropMasked.v
theories/PropMetaTrip.v
theories/PropMetaspace.v
theories/PropModels.v
theories/PropNames.v
theories/PropNormalized.v
theories/PropParams.v
theories/PropPattern.v
theories/PropPipeline.v
theories/PropPreTokenized.v
theories/PropPreTokenizers.v
theories/PropPretrained.v
theories/PropProcessors.v
theories/PropProgress.v
theories/PropReturn.v
theories/PropRobertaSpecial.v
theories/PropRoundTrip.v
theories/PropRuneReader.v
theories/PropSequenceIds.v
theories/PropSettings.v
theories/PropSlice.v
theories/PropSliceOps.v
theories/PropSpm.v
theories/PropSymbols.v
theories/PropTemplateBuild.v
theories/PropTokens.v
theories/PropTrained.v
theories/PropTrainer.v
theories/PropUnicodeNorm.v
theories/PropUnigramSave.v
theories/PropUnigramSpecial.v
theories/PropWindowText.v
theories/PropWindows.v
theories/PropWordLevel.v
theories/PropWordLevelNorm.v
theories/PropWordLevelSpecial.v
theories/PropWordPieceTrain.v
theories/PropWords.v
theories/ReturnEndProofs.v
theories/ReturnModelProofs.v
theories/ReturnNormProofs.v
theories/ReturnProofs.v
theories/ReturnSpec.v
theories/RobertaPartsProofs.v
theories/RoundTripBpeProofs.v
theories/RoundTripEndProofs.v
theories/RoundTripProofs.v
theories/RoundTripSpec.v
theories/RuneReaderModel.v
theories/RuneReaderProofs.v
theories/RuneReaderSpec.v
theories/SequenceIdsModel.v
theories/SequenceIdsProofs.v
theories/SequenceIdsSpec.v
theories/SettingsModel.v
theories/SettingsProofs.v
theories/SettingsSpec.v
theories/SliceModel.v
theories/SliceOpsModel.v
theories/SliceOpsProofs.v
theories/SliceOpsSpec.v
theories/SliceProofs.v
theories/SpmModel.v
theories/SpmProofs.v
theories/SpmSpec.v
theories/SymbolsModel.v
theories/SymbolsProofs.v
theories/SymbolsSpec.v
theories/TemplateBuildModel.v
theories/TemplateBuildProofs.v
theories/TemplateBuildSpec.v
theories/TokensProofs.v
theories/TokensSpec.v
theories/TrainCountProofs.v
theories/TrainTextProofs.v
theories/TrainedModel.v
theories/TrainedProofs.v
theories/TrainedSpec.v
theories/TrainerCountProofs.v
theories/TrainerModel.v
theories/TrainerProofs.v
theories/TrainerSpec.v
theories/TurnedProofs.v
theories/UnicodeNormModel.v
theories/UnicodeNormProofs.v
theories/UnicodeNormSpec.v
theories/UnigramModel.v
theories/UnigramPartsProofs.v
theories/UnigramProofs.v
theories/UnigramSaveModel.v
theories/UnigramSaveProofs.v
theories/UnigramSaveSpec.v
theories/UnigramSpec.v
theories/Utf8Model.v
theories/Utf8Proofs.v
theories/WindowTextProofs.v
theories/WindowTextSpec.v
theories/WindowsProofs.v
theories/WindowsSpec.v
theories/WordLevelNormProofs.v
theories/WordLevelNormSpec.v
theories/WordLevelPartsProofs.v
theories/WordLevelProofs.v
theories/WordLevelSpec.v
theories/WordPartsProofs.v
theories/WordPieceModel.v
theories/WordPieceProofs.v
theories/WordPieceSpec.v
theories/WordPieceTrainModel.v
theories/WordPieceTrainProofs.v
theories/WordPieceTrainSpec.v
theories/WordsGlueProofs.v
theories/WordsProofs.v
theories/WordsSpec.v
theories/WrittenProofs.v
