-Q theories Verif

theories/Base.v
theories/Sha256.v
theories/TrieModel.v
theories/TrieSpec.v
theories/BaseLemmas.v
theories/TrieMaps.v
theories/TrieHash.v
theories/TrieStore.v
theories/TrieBatch.v
theories/TrieUpdate.v
theories/TrieCodec.v
theories/TrieRead.v
theories/TrieSound.v
theories/TrieHistory.v
theories/TrieCompress.v
theories/ClientModel.v
theories/TrieRefute.v
theories/PropertiesTrieRefuted.v
theories/TrieTop.v
theories/TrieExample.v
theories/PropertiesTrie.v
theories/UtilModel.v
theories/UtilSort.v
theories/UtilSlices.v
theories/UtilMisc.v
theories/UtilDuration.v
theories/UtilIds.v
theories/PropertiesUtil.v
theories/JournalModel.v
theories/JournalIntervals.v
theories/JournalProofs.v
theories/JournalRun.v
theories/FsModel.v
theories/FsProofs.v
theories/ListModel.v
theories/ListProofs.v
theories/PropertiesJournal.v
theories/JournalFlags.v
theories/PropertiesFlags.v
theories/PolicyModel.v
theories/PolicyProofs.v
theories/PropertiesPolicy.v
theories/DbModel.v
theories/DbTables.v
theories/DbIngest.v
theories/DbPrune.v
theories/DbCoalesce.v
theories/PropertiesDb.v
theories/BundleModel.v
theories/BundleProofs.v
theories/SmtModel.v
theories/SmtProofs.v
theories/PropertiesSmt.v
theories/BatchModel.v
theories/BatchProofs.v
theories/PropertiesBatch.v
theories/SysModel.v
theories/SysProofs.v
theories/SyncModel.v
theories/SpinProofs.v
theories/CacheSpec.v
theories/CacheProofs.v
theories/CacheTop.v
theories/LoopProofs.v
theories/StallProofs.v
theories/PropertiesSync.v
theories/LexProofs.v
theories/PipeModel.v
theories/PipeSpec.v
theories/PipeProofs.v
theories/PipeData.v
theories/PipeQuiet.v
theories/PipeErrors.v
theories/PipeChain.v
theories/PropertiesPipe.v
theories/CrissModel.v
theories/CrissProofs.v
theories/PropertiesCriss.v
theories/DomainModel.v
theories/DomainSpec.v
theories/DomainProofs.v
theories/DomainTop.v
theories/DomainRules.v
theories/PropertiesDomain.v
theories/FetchModel.v
theories/FetchSeqProofs.v
theories/FetchProofs.v
theories/PropertiesFetch.v
theories/CsvModel.v
theories/CsvProofs.v
theories/CsvWorkerProofs.v
theories/CsvWritten.v
theories/PropertiesCsv.v
theories/TrieParModel.v
theories/TrieParSpec.v
theories/TrieParGeneric.v
theories/TrieParSeq.v
theories/TrieParProofs.v
theories/TrieParFoot.v
theories/TrieParTop.v
theories/PropertiesPar.v
theories/RoundModel.v
theories/RoundProofs.v
theories/PropertiesRound.v
theories/LoadModel.v
theories/LoadProofs.v
theories/LoadBase64.v
theories/PropertiesLoad.v
theories/NamesModel.v
theories/NamesProofs.v
theories/PropertiesNames.v
theories/JsonText.v
theories/JsonTextProofs.v
theories/JsonParse.v
theories/JsonModel.v
theories/JsonProofs.v
theories/JsonRead.v
theories/JsonEvery.v
theories/JsonGrammar.v
theories/JsonStable.v
theories/JsonUse.v
theories/PropertiesJson.v
theories/JoinModel.v
theories/JoinProofs.v
theories/PropertiesJoin.v
theories/LogPoolModel.v
theories/LogPoolProofs.v
theories/PropertiesLogPool.v
theories/LogTreeModel.v
theories/LogTreeSpec.v
theories/LogTreeProofs.v
theories/LogTreeResults.v
theories/Sha256Length.v
theories/LogTreeCases.v
theories/PropertiesLogTree.v
theories/ApiText.v
theories/ApiModel.v
theories/ApiTextProofs.v
theories/ApiProofs.v
theories/PropertiesApi.v
theories/PemModel.v
theories/PemProofs.v
theories/PemReader.v
theories/PropertiesPem.v
theories/LocalModel.v
theories/LocalProofs.v
theories/PropertiesLocal.v
theories/SchedModel.v
theories/SchedProofs.v
theories/PropertiesSched.v
theories/ConfModel.v
theories/ConfProofs.v
theories/PropertiesConf.v
theories/Utf8Proofs.v
theories/PropertiesUtf8.v
theories/DsnModel.v
theories/DsnProofs.v
theories/PropertiesDsn.v
theories/IssueModel.v
theories/IssueProofs.v
theories/PropertiesIssue.v
theories/InsertModel.v
theories/InsertProofs.v
theories/PropertiesInsert.v
theories/WireModel.v
theories/WireProofs.v
theories/WireTop.v
theories/WireSpec.v
theories/WireEnds.v
theories/PropertiesWire.v
theories/MeshModel.v
theories/MeshProofs.v
theories/MeshEnds.v
theories/PropertiesMesh.v
theories/JournalText.v
theories/JournalTextProofs.v
theories/PropertiesJournalText.v
theories/SignalModel.v
theories/SignalProofs.v
theories/PropertiesSignal.v
theories/TempModel.v
theories/TempBuf.v
theories/TempProofs.v
theories/TempSteps.v
theories/TempInv.v
theories/TempTop.v
theories/PropertiesTemp.v
theories/ServeModel.v
theories/ServeProofs.v
theories/ServeRuns.v
theories/ServeEnds.v
theories/PropertiesServe.v
theories/DirModel.v
theories/DirProofs.v
theories/PropertiesDir.v
theories/CmdModel.v
theories/CmdProofs.v
theories/PropertiesCmd.v
theories/GrpcModel.v
theories/GrpcProofs.v
theories/PropertiesGrpc.v
theories/StatsModel.v
theories/StatsProofs.v
theories/PropertiesStats.v
theories/HelperModel.v
theories/HelperProofs.v
theories/PropertiesHelper.v
theories/WholeModel.v
theories/PropertiesWhole.v
theories/KeyModel.v
theories/KeyProofs.v
theories/PropertiesKey.v
