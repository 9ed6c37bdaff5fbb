-Q theories Verif
theories/Entities.v
theories/Search.v
theories/SpecSearch.v
theories/ProofSearch.v
theories/ProofEngines.v
theories/ProofHits.v
theories/Properties_Search.v
theories/Utf8.v
theories/SpecUtf8.v
theories/ProofUtf8.v
theories/StopWords.v
theories/Analyze.v
theories/ProofAnalyze.v
theories/Properties_Analyze.v
theories/Stemmer.v
theories/SpecStemmer.v
theories/ProofStemmer.v
theories/Properties_Stemmer.v
theories/Repo.v
theories/Sem.v
theories/RepoWp.v
theories/SpecRepo.v
theories/ProofRepo.v
theories/ProofTotal.v
theories/SpecConc.v
theories/Locks.v
theories/Race.v
theories/ProofRace.v
theories/Reduce.v
theories/ProofConc.v
theories/ProofSim.v
theories/ProofMachine.v
theories/ProofReach.v
theories/ProofExact.v
theories/ProofRows.v
theories/Properties_Repo.v
theories/Run.v
theories/Properties_Conc.v
theories/SpecLin.v
theories/ProofLin.v
theories/Properties_Lin.v
theories/Serial.v
theories/Properties_Clash.v
theories/SpecHelp.v
theories/ProofHelp.v
theories/Properties_Help.v
theories/SpecClient.v
theories/ProofClient.v
theories/Properties_Client.v
theories/Properties_Finish.v
theories/SpecOwn.v
theories/ProofLink.v
theories/ProofOwn.v
theories/Properties_Own.v
theories/ProofFence.v
theories/Properties_Fence.v
theories/Fault.v
theories/SpecFault.v
theories/ProofFault.v
theories/Properties_Fault.v
theories/ProofStall.v
theories/Properties_Stall.v
theories/AnyIndex.v
theories/SpecAny.v
theories/ProofAny.v
theories/ProofAnySpec.v
theories/Properties_Any.v
theories/Reenter.v
theories/SpecReenter.v
theories/ProofReenter.v
theories/Properties_Reenter.v
theories/Properties_Puts.v
theories/Properties_Phase.v
theories/Properties_Rows.v
theories/Json.v
theories/SpecJson.v
theories/SpecAccept.v
theories/ProofJson.v
theories/Properties_Json.v
theories/ProofAccept.v
theories/Properties_Accept.v
theories/Print.v
theories/ProofPrint.v
theories/Properties_Print.v
theories/Heap.v
theories/ProofHeap.v
theories/Properties_Heap.v
theories/Properties_Indexer.v
theories/Trace.v
theories/Properties_Trace.v
theories/Properties_Cost.v
theories/Properties_Readme.v
theories/Properties_Filters.v
theories/Properties_Tests.v
theories/SpecLook.v
theories/ProofLook.v
theories/Properties_Look.v
theories/SpecExact.v
theories/ProofAlone.v
theories/ProofNames.v
theories/ProofWhole.v
theories/Properties_Exact.v
theories/SpecPair.v
theories/ProofPair.v
theories/Properties_Pair.v
theories/Bare.v
theories/SpecBare.v
theories/ProofBare.v
theories/Properties_Bare.v
theories/SpecHb.v
theories/ProofHb.v
theories/Properties_Hb.v
theories/Ints.v
theories/SpecInts.v
theories/Properties_Ints.v
theories/Iter.v
theories/ProofIter.v
theories/Properties_Iter.v
theories/Shared.v
theories/SpecShared.v
theories/ProofShared.v
theories/Properties_Shared.v
theories/Properties_Results.v
