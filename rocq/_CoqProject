-Q theories Verif
theories/Datatypes.v
theories/SpecValues.v
theories/DatatypesProofs.v
theories/PropLemmasValues.v
theories/PropertiesValues.v
theories/BTree.v
theories/SpecBTree.v
theories/BTreeProofs.v
theories/BTreeFind.v
theories/SpecFind.v
theories/BTreeFindProofs.v
theories/BTreeLockProofs.v
theories/PropLemmasTree.v
theories/PropLemmasFind.v
theories/BTreeCreateFind.v
theories/PropLemmasTree2.v
theories/PropLemmasTree3.v
theories/PropertiesTree.v
theories/BTreeDestroy.v
theories/SpecDestroy.v
theories/BTreeDestroyProofs.v
theories/PropLemmasDestroy.v
theories/PropertiesDestroy.v
theories/Collections.v
theories/SpecCollections.v
theories/CollectionsProofs.v
theories/PropertiesCollections.v
theories/Query.v
theories/SpecQuery.v
theories/QueryProofs.v
theories/PropertiesQuery.v
theories/Assoc.v
theories/SpecAssoc.v
theories/AssocMaps.v
theories/AssocProofs.v
theories/AssocQueryProofs.v
theories/AssocOps.v
theories/AssocMatchProofs.v
theories/AssocBridge.v
theories/PropLemmasAssoc.v
theories/PropertiesAssoc.v
theories/DestroySync.v
theories/SpecDestroySync.v
theories/DestroySyncProofs.v
theories/PropertiesSync.v
theories/Heartbeater.v
theories/SpecHeartbeater.v
theories/HeartbeaterProofs.v
theories/PropertiesHeartbeater.v
theories/Locker.v
theories/SpecLocker.v
theories/LockerProofs.v
theories/LockerTrace.v
theories/LockerLive.v
theories/LockerWitness.v
theories/PropertiesLocker.v
theories/OneToMany.v
theories/SpecOneToMany.v
theories/OneToManyProofs.v
theories/PropertiesOneToMany.v
theories/Limiter.v
theories/SpecLimiter.v
theories/LimiterProofs.v
theories/LimiterCounts.v
theories/LimiterLimits.v
theories/LimiterSums.v
theories/PropLemmasLimiter.v
theories/PropLemmasRules.v
theories/PropLemmasUnit.v
theories/LimiterLocks.v
theories/SpecLocks.v
theories/LocksProofs.v
theories/LocksLimit.v
theories/LimiterExamples.v
theories/PropertiesLimiter.v
theories/Channel.v
theories/SpecChannel.v
theories/ChannelProofs.v
theories/ChannelContents.v
theories/ChannelOrder.v
theories/ChannelCounts.v
theories/ChannelBlock.v
theories/ChannelCases.v
theories/PropertiesChannel.v
theories/Willow.v
theories/SpecWillow.v
theories/WillowMaps.v
theories/WillowCounts.v
theories/WillowPerform.v
theories/WillowQueues.v
theories/WillowInv.v
theories/WillowSteps.v
theories/WillowDir.v
theories/WillowApart.v
theories/WillowTotals.v
theories/PropLemmasWillow.v
theories/WillowExamples.v
theories/WillowRoom.v
theories/WillowCases.v
theories/PropertiesWillow.v
theories/QueueLocks.v
theories/QueueLocksProofs.v
theories/PropertiesQueueLocks.v
theories/AssocSync.v
theories/SpecAssocSync.v
theories/AssocSyncBase.v
theories/AssocSyncInv.v
theories/AssocSyncFrame.v
theories/AssocSyncStep.v
theories/AssocSyncGlobal.v
theories/AssocSyncAnswers.v
theories/AssocSyncMarks.v
theories/AssocSyncLive.v
theories/AssocSyncChanges.v
theories/AssocSyncExamples.v
theories/PropertiesAssocSync.v
theories/LockClient.v
theories/SpecLockClient.v
theories/LockClientInv.v
theories/LockClientHist.v
theories/LockClientValid.v
theories/LockClientDone.v
theories/LockClientJam.v
theories/LockClientWitness.v
theories/LockClientExamples.v
theories/PropertiesLockClient.v
theories/Timeouts.v
theories/TimeoutsProofs.v
theories/PropertiesTimeouts.v
theories/BTreeSync.v
theories/SpecBTreeSync.v
theories/BTreeSyncSeq.v
theories/BTreeSyncSeq2.v
theories/BTreeSyncInv.v
theories/BTreeSyncStep.v
theories/BTreeSyncStep2.v
theories/BTreeSyncStep3.v
theories/BTreeSyncSem.v
theories/BTreeSyncCount.v
theories/BTreeSyncCount2.v
theories/BTreeSyncTop.v
theories/BTreeSyncTop2.v
theories/BTreeSyncLin.v
theories/BTreeSyncLive.v
theories/BTreeSyncEnd.v
theories/BTreeSyncExamples.v
theories/PropertiesBTreeSync.v
theories/QuerySync.v
theories/SpecQuerySync.v
theories/QuerySyncProofs.v
theories/QuerySyncTheorems.v
theories/QuerySyncAlone.v
theories/QuerySyncExamples.v
theories/PropertiesQuerySync.v
theories/Dequeue.v
theories/SpecDequeue.v
theories/DequeueProofs.v
theories/DequeueExamples.v
theories/DequeueCrash.v
theories/DequeueCrashProofs.v
theories/PropertiesDequeue.v
theories/Recheck.v
theories/RecheckProofs.v
theories/PropertiesRecheck.v
theories/EnqueueSync.v
theories/EnqueueSyncProofs.v
theories/PropertiesEnqueueSync.v
theories/ItemClient.v
theories/SpecItemClient.v
theories/ItemClientProofs.v
theories/ItemClientExamples.v
theories/PropertiesItemClient.v
theories/BTreeIter.v
theories/SpecBTreeIter.v
theories/BTreeIterEr.v
theories/BTreeIterTk.v
theories/BTreeIterVisit.v
theories/BTreeIterSees.v
theories/BTreeIterInv.v
theories/BTreeIterStep.v
theories/BTreeIterLocks.v
theories/BTreeIterEnd.v
theories/BTreeIterLeak.v
theories/BTreeIterExamples.v
theories/PropertiesBTreeIter.v
theories/Json.v
theories/Models.v
theories/SpecModels.v
theories/TextProofs.v
theories/JsonProofs.v
theories/ModelsProofs.v
theories/ModelsExamples.v
theories/PropertiesModels.v
theories/Http.v
theories/ApiLimiter.v
theories/SpecApiLimiter.v
theories/ApiLimiterProofs.v
theories/ApiLimiterExamples.v
theories/PropertiesApi.v
theories/ApiWillow.v
theories/SpecApiWillow.v
theories/ApiWillowProofs.v
theories/ApiWillowExamples.v
theories/MapsProofs.v
theories/PropertiesApiWillow.v
theories/SpecApiSent.v
theories/ApiSent.v
theories/PropertiesApiSent.v
theories/ApiLocker.v
theories/SpecApiLocker.v
theories/ApiLockerProofs.v
theories/ApiLockerExamples.v
theories/PropertiesApiLocker.v
theories/Config.v
theories/SpecConfig.v
theories/ConfigProofs.v
theories/PropertiesConfig.v
theories/LockerTree.v
theories/LockerTreeProofs.v
theories/LockerStop.v
theories/SpecLockerStop.v
theories/LockerStopProofs.v
theories/LockerStopClaims.v
theories/LockerStopLive.v
theories/LockerStopWitness.v
theories/PropertiesLockerStop.v
theories/ApiChannelsProofs.v
theories/PropertiesApiChannels.v
theories/CounterSync.v
theories/SpecCounterSync.v
theories/CounterSyncProofs.v
theories/CounterSyncMore.v
theories/CounterSyncExamples.v
theories/PropertiesCounterSync.v
theories/RuleSync.v
theories/SpecRuleSync.v
theories/RuleSyncLocks.v
theories/RuleSyncOvers.v
theories/RuleSyncProofs.v
theories/RuleSyncExamples.v
theories/PropertiesRuleSync.v
theories/MatchSync.v
theories/SpecMatchSync.v
theories/MatchSyncProofs.v
theories/MatchSyncAlone.v
theories/PropertiesMatchSync.v
theories/LabelSync.v
theories/LabelSyncProofs.v
theories/LabelSyncExamples.v
theories/PropertiesLabelSync.v
theories/SpecRuleSyncLive.v
theories/RuleSyncLive.v
theories/RuleSyncHang.v
theories/RuleSyncLiveExamples.v
theories/PropertiesRuleSyncLive.v
theories/ServerStop.v
theories/SpecServerStop.v
theories/ServerStopProps.v
theories/ServerStopExamples.v
theories/PropertiesServerStop.v
