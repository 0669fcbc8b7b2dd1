-Q theories Verif
theories/Bytes.v
theories/Errors.v
theories/Wire.v
theories/ProtoTable.v
theories/Utf8.v
theories/Proto.v
theories/ProtoFacts.v
theories/Crc.v
theories/SpecFrame.v
theories/CrcFacts.v
theories/Codec.v
theories/SpecCodec.v
theories/CodecFacts.v
theories/PropCodec.v
theories/PropCrc.v
theories/SpecProto.v
theories/SimFacts.v
theories/Address.v
theories/Message.v
theories/SpecMessage.v
theories/MessageFacts.v
theories/InboundFacts.v
theories/PropProto.v
theories/SpecKeys.v
theories/PropMessage.v
theories/PropAddress.v
theories/Auth.v
theories/PropAuth.v
theories/Channel.v
theories/PropChannel.v
theories/Client.v
theories/SpecClient.v
theories/PropClient.v
theories/Consumer.v
theories/SpecConsumer.v
theories/ConsumerFacts.v
theories/ConsumerRuns.v
theories/PropConsumer.v
theories/FlowFacts.v
theories/PropFlow.v
theories/Producer.v
theories/PropProducer.v
theories/Plugin.v
theories/PropPlugin.v
theories/Engine.v
theories/SpecEngine.v
theories/SpecEngine2.v
theories/EngineFacts.v
theories/EngineInv.v
theories/EngineReq.v
theories/EngineEv.v
theories/EngineConn.v
theories/EngineLog.v
theories/EngineView.v
theories/EngineRoute.v
theories/EngineQueue.v
theories/EngineGate.v
theories/EngineEx.v
theories/SpecTurn.v
theories/TurnFacts.v
theories/PropEngine.v
theories/PropEngine2.v
theories/EngineLife.v
theories/EngineHang.v
theories/EngineOrigin.v
theories/PropEngine3.v
theories/PropEngine4.v
theories/PropEngine5.v
theories/PropEngine6.v
theories/PropEngine7.v
theories/Sink.v
theories/SpecStack.v
theories/SinkFacts.v
theories/EngineNet.v
theories/PropStack.v
theories/PropAck.v
theories/PropLookup.v
theories/PropClose.v
theories/Dial.v
theories/PropDial.v
theories/Token.v
theories/SpecToken.v
theories/PropToken.v
theories/PropReceipt.v
theories/PropRoute.v
theories/PropDeliver.v
theories/PropSends.v
theories/PropSink.v
theories/SpecOwed.v
theories/EngineOwed.v
theories/PropOwed.v
theories/SpecEnd.v
theories/EngineEnd.v
theories/PropEnd.v
theories/SpecGrammar.v
theories/GrammarUtf8.v
theories/GrammarFacts.v
theories/PropGrammar.v
theories/Builder.v
theories/PropBuilder.v
theories/PropReads.v
theories/PropTurn.v
theories/SpecAnswered.v
theories/PropAnswered.v
theories/SpecLoop.v
theories/PropLoop.v
theories/SpecAll.v
theories/PropAll.v
theories/SpecPermits.v
theories/PropBatchFlow.v
theories/PropPermits.v
theories/PropStart.v
theories/SpecRest.v
theories/PropRest.v
theories/PropAsked.v
theories/SpecBuild.v
theories/PropBuild.v
theories/SpecFinish.v
theories/PropFinish.v
theories/SpecServe.v
theories/PropServe.v
theories/SpecGroup.v
theories/PropGroup.v
theories/PropReceive.v
theories/SpecJobs.v
theories/PropJobs.v
theories/PropPing.v
