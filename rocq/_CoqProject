-Q theories Verif

theories/Base.v
theories/CInt.v
theories/Spec.v
theories/IntModel.v
theories/Conditions.v
theories/MemFacts.v
theories/IntProofs.v
theories/SignedProofs.v
theories/TypeLevel.v
theories/Serial.v
theories/TypeLevelProofs.v
theories/SerialProofs.v
theories/CodecFacts.v
theories/Hosts.v
theories/PropertiesInt.v
theories/Bounds.v
theories/PropertiesTypes.v
theories/TupleModel.v
theories/TupleProofs.v
theories/Closed.v
theories/PropertiesTuple.v
theories/Rpc.v
theories/SpecRpc.v
theories/RpcProofs.v
theories/PropertiesRpc.v
theories/Buffered.v
theories/SpecBuffered.v
theories/BufferedProofs.v
theories/PropertiesBuffered.v
theories/PropertiesBuffers.v
theories/PropertiesPackets.v
theories/PropertiesDuplex.v
theories/PropertiesStreams.v
theories/PropertiesReply.v
theories/Python.v
theories/PropertiesPython.v
theories/FloatModel.v
theories/PropertiesFloat.v
theories/Exceptions.v
theories/PropertiesExceptions.v
theories/Convert.v
theories/PropertiesConvert.v
theories/PyRaise.v
theories/PropertiesPyRaise.v
theories/ReEntrant.v
theories/PropertiesReEntrant.v
theories/Interrupts.v
theories/PropertiesInterrupts.v
theories/Firmware.v
theories/PropertiesFirmware.v
theories/PropertiesCallee.v
theories/Extension.v
theories/PropertiesExtension.v
theories/Framed.v
theories/PropertiesFramed.v
theories/Functors.v
theories/PropertiesFunctors.v
theories/Sending.v
theories/PropertiesSending.v
theories/Network.v
theories/PropertiesNetwork.v
theories/Pipeline.v
theories/PropertiesPipeline.v
theories/Callable.v
theories/PropertiesCallable.v
theories/Multimaster.v
theories/PropertiesMultimaster.v
theories/PyNames.v
theories/PropertiesPyNames.v
theories/PyImport.v
theories/PropertiesPyImport.v
theories/Elements.v
theories/PropertiesElements.v
theories/Layout.v
theories/PropertiesLayout.v
theories/PropertiesObjects.v
theories/Relay.v
theories/PropertiesRelay.v
theories/Alloc.v
theories/PropertiesAlloc.v
theories/Tests.v
theories/Iterators.v
theories/Lifetimes.v
theories/PropertiesLifetimes.v
theories/PropertiesIterators.v
theories/Views.v
theories/PropertiesViews.v
theories/PropertiesRecovery.v
theories/PropertiesTransmissions.v
theories/PropertiesFormats.v
theories/PropertiesEvolution.v
theories/PropertiesRegroup.v
theories/PropertiesHostile.v
theories/PropertiesShared.v
theories/PropertiesNoise.v
theories/PropertiesCompatible.v
theories/Linkage.v
theories/PropertiesLinkage.v
theories/Threads.v
theories/ThreadFacts.v
theories/ThreadProofs.v
theories/PropertiesThreads.v
theories/Configure.v
theories/PropertiesConfigure.v
theories/Cpp.v
theories/Source.v
theories/SourceProofs.v
theories/PropertiesSource.v
theories/Counters.v
theories/PropertiesCounters.v
theories/Duplex.v
theories/PropertiesRoutines.v
theories/Classes.v
theories/Methods.v
theories/PropertiesMethods.v
theories/PropertiesCost.v
theories/Templates.v
theories/Library.v
theories/LibraryProofs.v
theories/PropertiesLibrary.v
theories/Program.v
theories/ProgramProofs.v
theories/PropertiesProgram.v
theories/PropertiesInterchange.v
theories/FloatCalls.v
theories/PropertiesFloatCalls.v
theories/TuplePrograms.v
theories/PropertiesTuplePrograms.v
theories/Replies.v
theories/PropertiesReplies.v
theories/Masters.v
theories/PropertiesMasters.v
theories/FloatBuffered.v
theories/PropertiesFloatBuffered.v
theories/Throwing.v
theories/PropertiesThrowing.v
theories/ThrowingCalls.v
theories/PropertiesThrowingCalls.v
theories/Exchanges.v
theories/PropertiesExchanges.v
theories/Pipelines.v
theories/PropertiesPipelines.v
theories/Clients.v
theories/PropertiesClients.v
