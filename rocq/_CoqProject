-Q theories Verif
theories/Base.v
theories/Nodes.v
theories/CodecProofs.v
theories/Page.v
theories/PageProofs.v
theories/DecodeTotal.v
theories/PropsPage.v
theories/Writer.v
theories/CowTree.v
theories/Store.v
theories/TreeProofs.v
theories/BSearch.v
theories/TreeLaws.v
theories/EventsTree.v
theories/EventsProofs.v
theories/SearchTree.v
theories/TagsTree.v
theories/TagsProofs.v
theories/TrackingTree.v
theories/TrackingProofs.v
theories/Query.v
theories/Spec.v
theories/Iter.v
theories/LookupProofs.v
theories/IterProofs.v
theories/IterEvents.v
theories/IterTags.v
theories/MergeProofs.v
theories/ReadProofs.v
theories/Append.v
theories/AppendProofs.v
theories/FreeList.v
theories/TsnProofs.v
theories/TreeRemove.v
theories/FreeListProofs.v
theories/FreeRemove.v
theories/FreeProcess.v
theories/FreeFind.v
theories/SpecSys.v
theories/Mvcc.v
theories/Fits.v
theories/FitsSim.v
theories/Txn.v
theories/MvccProofs.v
theories/SpecProofs.v
theories/StoreProofs.v
theories/Exec.v
theories/PropsStore.v
theories/Walk.v
theories/WalkProofs.v
theories/PropsPages.v
theories/PropsFindings.v
theories/PropsCrash.v
theories/Check.v
theories/PropsCheck.v
theories/Server.v
theories/ServerReads.v
theories/TaskProofs.v
theories/ServerProofs.v
theories/ServerQueue.v
theories/ServerLive.v
theories/ServerExec.v
theories/Auth.v
theories/PropsServer.v
theories/Pipeline.v
theories/PipelineTxn.v
theories/PipelineProofs.v
theories/PipelineSteps.v
theories/PipelineSys.v
theories/PipelineRefine.v
theories/PropsPipeline.v
theories/PropsPipelined.v
theories/PipelineServer.v
theories/PipelineQueue.v
theories/PropsPipelinedServer.v
theories/Wire.v
theories/WireProofs.v
theories/Proto.v
theories/ProtoProofs.v
theories/Client.v
theories/ClientProofs.v
theories/PropsWire.v
theories/PropsClient.v
theories/PropsDecode.v
theories/Pager.v
theories/PagerProofs.v
theories/PropsPager.v
theories/Options.v
theories/PropsOptions.v
theories/TagHash.v
theories/Twin.v
theories/PropsLegacy.v
theories/Python.v
theories/PropsPython.v
theories/Registry.v
theories/PropsRegistry.v
theories/Permits.v
theories/PropsPermits.v
theories/Locking.v
theories/PropsLocking.v
theories/PageReads.v
theories/PageReadsProofs.v
theories/PageReadsRefine.v
theories/PropsPageReads.v
theories/PropsPageReadsPipelined.v
theories/PropsFits.v
theories/SpecPatchy.v
theories/Patchy.v
theories/PatchyReads.v
theories/PatchyRefine.v
theories/PropsPatchy.v
theories/Entry.v
theories/PropsEntry.v
theories/Reopen.v
theories/PropsReopen.v
theories/PropsFormat.v
theories/Protocol.v
theories/PropsProtocol.v
theories/Thrift.v
theories/PropsSpace.v
theories/PropsRemote.v
theories/PipelineRemote.v
theories/PipelineTasks.v
theories/PropsPipelinedRemote.v
theories/PropsPipelinedLive.v
theories/PropsPipelinedEase.v
theories/PropsRounds.v
theories/PropsPipelinedPermits.v
theories/Dcb.v
theories/PropsDcb.v
theories/Connect.v
theories/PropsConnect.v
theories/Forensic.v
theories/PropsForensic.v
theories/PropsIndex.v
theories/PropsPipelinedIndex.v
theories/PropsShutdown.v
theories/PropsHolds.v
theories/Lookups.v
theories/PropsLookups.v
theories/PropsCheckExact.v
theories/PropsOldHash.v
theories/Probe.v
theories/PropsProbe.v
theories/Census.v
theories/PropsCensus.v
theories/Examine.v
theories/PropsExamine.v
theories/PropsReuse.v
