-Q theories Verif

theories/Base.v
theories/Field.v
theories/LmModel.v
theories/LmProofs.v
theories/LmProps.v
theories/TextModel.v
theories/BigramModel.v
theories/BigramProofs.v
theories/BigramReadProofs.v
theories/BigramProps.v
theories/BigramFloatModel.v
theories/BigramFloatNum.v
theories/BigramFloatProofs.v
theories/BigramFloatProps.v
theories/HubModel.v
theories/HubSpec.v
theories/HubProofs.v
theories/HubTrie.v
theories/HubLearn.v
theories/HubMix.v
theories/BigramComp.v
theories/HubWrap.v
theories/HubProps.v
theories/HubProps2.v
theories/HubProps3.v
theories/HubProps4.v
theories/PpmModel.v
theories/PpmSpec.v
theories/PpmStruct.v
theories/PpmVals.v
theories/PpmCache.v
theories/PpmWf.v
theories/PpmUpdate.v
theories/PpmObserve.v
theories/PpmReadModel.v
theories/PpmApi.v
theories/PpmRead.v
theories/PpmTrainSpec.v
theories/PpmRef.v
theories/PpmRead2.v
theories/PpmTrain.v
theories/PpmRead3.v
theories/PpmRefine.v
theories/PpmCounter.v
theories/PpmProps.v
theories/PpmProps2.v
theories/PpmProps3.v
theories/NgramModel.v
theories/NgramSpec.v
theories/NgramProofs.v
theories/NgramProps.v
theories/NgramProps2.v
theories/WordModel.v
theories/WordSpec.v
theories/WordLex.v
theories/WordIndex.v
theories/WordRange.v
theories/WordState.v
theories/WordNext.v
theories/WordCache.v
theories/WordScores.v
theories/WordPredict.v
theories/WordInit.v
theories/WordProps.v
theories/WordProps2.v
theories/ServerModel.v
theories/ServerProofs.v
theories/ServerProps.v
theories/HubQuery.v
theories/ServerEvolve.v
theories/ServerQuery.v
theories/ServerUpdate.v
theories/ServerProps2.v
theories/ConfigModel.v
theories/ConfigProps.v
theories/ConfigProps2.v
theories/ClientModel.v
theories/ClientSpec.v
theories/ClientProofs.v
theories/ClientProps.v
theories/FieldR.v
theories/ClientBits.v
theories/ClientProps2.v
theories/RelabelModel.v
theories/RelabelProofs.v
theories/RelabelProps.v
theories/FactoryModel.v
theories/FactoryProps.v
theories/LogModel.v
theories/LogProps.v
theories/HubLive.v
theories/HubLiveInst.v
theories/HubLive2.v
theories/FactoryProps2.v
theories/PpmProps4.v
theories/HubSim.v
theories/HubCalm.v
theories/HubNoErr.v
theories/ServerSim.v
theories/FactoryProps3.v
theories/HubFresh.v
theories/ServerFresh.v
theories/FactoryProps4.v
theories/PpmString.v
theories/PpmProps5.v
theories/HubDist.v
theories/HubDistInst.v
theories/HubAccept.v
theories/HubAcceptInst.v
theories/HubNorm.v
theories/FactoryProps5.v
theories/FactoryProps6.v
theories/ClientServe.v
theories/ClientServeBits.v
theories/ConnectModel.v
theories/VocabKeep.v
theories/HubVocab.v
theories/FactoryVocabProps.v
theories/FactoryProps7.v
theories/FactoryProps8.v
theories/TextSpec.v
theories/TextProofs.v
theories/BigramFileProps.v
theories/ProgramModel.v
theories/ProgramProps.v
theories/Utf8Model.v
theories/Utf8Proofs.v
theories/Utf8Spec.v
theories/Utf8Props.v
theories/Utf8Props2.v
theories/ProgramUtf8Props.v
theories/SampleFloatModel.v
theories/SampleFloatProofs.v
theories/SampleFloatSpec.v
theories/SampleFloatProps.v
theories/SingleCountModel.v
theories/SingleCountProps.v
theories/RoundModel.v
theories/RoundSpec.v
theories/RoundProofs.v
theories/RoundProps.v
theories/RelabelMainModel.v
theories/RelabelMainProps.v
theories/WordRoundModel.v
theories/WordRoundSpec.v
theories/WordRoundProofs.v
theories/WordRoundProps.v
theories/PpmRoundModel.v
theories/PpmRoundSpec.v
theories/PpmRoundProofs.v
theories/PpmRoundProps.v
theories/PpmRoundSpec2.v
theories/PpmRoundProofs2.v
theories/PpmRoundProps2.v
theories/NgramRoundModel.v
theories/NgramRoundSpec.v
theories/NgramRoundProofs.v
theories/NgramRoundProps.v
theories/EndRoundSpec.v
theories/EndRoundProofs.v
theories/EndRoundProps.v
theories/EndRoundProps2.v
theories/WordRoundProps2.v
theories/ClientKraft.v
theories/ClientKraftProps.v
theories/ClientKraftProps2.v
theories/FactoryKraftProps.v
