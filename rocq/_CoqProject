-Q theories Verif
theories/Lib/Bytes.v
theories/Lib/ListAux.v
theories/Lib/ListLemmas.v
theories/Lib/Perm.v
theories/Lib/Prelude.v
theories/Lib/SortLemmas.v
theories/Model/Access.v
theories/Model/Alias.v
theories/Model/Api.v
theories/Model/Asking.v
theories/Model/Backup.v
theories/Model/Badger.v
theories/Model/Codec.v
theories/Model/Copy.v
theories/Model/Decoder.v
theories/Model/Drain.v
theories/Model/Element.v
theories/Model/Elements.v
theories/Model/Encoder.v
theories/Model/Fails.v
theories/Model/Fanout.v
theories/Model/FileDest.v
theories/Model/Hosts.v
theories/Model/Job.v
theories/Model/KV.v
theories/Model/Keys.v
theories/Model/Lazy.v
theories/Model/LazyBuf.v
theories/Model/LazyStop.v
theories/Model/List.v
theories/Model/ListFile.v
theories/Model/Lists.v
theories/Model/Loader.v
theories/Model/Locks.v
theories/Model/MakeDrop.v
theories/Model/Manager.v
theories/Model/MaxSize.v
theories/Model/Msgp.v
theories/Model/PassFail.v
theories/Model/PlainStore.v
theories/Model/Prune.v
theories/Model/ReadFail.v
theories/Model/Release.v
theories/Model/Segment.v
theories/Model/Server.v
theories/Model/Ship.v
theories/Model/Small.v
theories/Model/SortFloat.v
theories/Model/Splitter.v
theories/Model/Storage.v
theories/Model/Tokens.v
theories/Model/Unlock.v
theories/Model/Wiring.v
theories/Proof/AccessP.v
theories/Proof/AliasP.v
theories/Proof/AliasP2.v
theories/Proof/AliasP3.v
theories/Proof/AliasP4.v
theories/Proof/AliasP5.v
theories/Proof/AliasP6.v
theories/Proof/AnswerP.v
theories/Proof/ApiP.v
theories/Proof/AskingP.v
theories/Proof/BackupP.v
theories/Proof/BadgerP.v
theories/Proof/BadgerRun.v
theories/Proof/BufInv.v
theories/Proof/BufP.v
theories/Proof/BuildInv.v
theories/Proof/BuildP.v
theories/Proof/ChangeP.v
theories/Proof/CodecP.v
theories/Proof/CodecR.v
theories/Proof/CopyP.v
theories/Proof/CrashP.v
theories/Proof/CrashSplitP.v
theories/Proof/DeadlockP.v
theories/Proof/DecoderP.v
theories/Proof/DelInsThm.v
theories/Proof/DeleteP.v
theories/Proof/DeleteReadP.v
theories/Proof/DrainP.v
theories/Proof/DropP.v
theories/Proof/ElementP.v
theories/Proof/ElementsP.v
theories/Proof/ElementsThm.v
theories/Proof/EncoderP.v
theories/Proof/EncoderP2.v
theories/Proof/FailsP.v
theories/Proof/FanoutP.v
theories/Proof/FanoutSeq.v
theories/Proof/FileDestP.v
theories/Proof/FileDestP2.v
theories/Proof/HistoryP.v
theories/Proof/HostP.v
theories/Proof/IdxUpdP.v
theories/Proof/InsertP.v
theories/Proof/InsertReadP.v
theories/Proof/InvDef.v
theories/Proof/JobP.v
theories/Proof/KVP.v
theories/Proof/KeysP.v
theories/Proof/LazyAny.v
theories/Proof/LazyOne.v
theories/Proof/LazyP.v
theories/Proof/LazyStopP.v
theories/Proof/LazyStopRun.v
theories/Proof/LeftOutP.v
theories/Proof/ListFileCore.v
theories/Proof/ListFileP.v
theories/Proof/ListFileThm.v
theories/Proof/ListThm.v
theories/Proof/ListsBack.v
theories/Proof/ListsP.v
theories/Proof/LoaderP.v
theories/Proof/LocksP.v
theories/Proof/LocksThm.v
theories/Proof/LookupP.v
theories/Proof/MakeDropP.v
theories/Proof/MakeDropWhole.v
theories/Proof/ManagerP.v
theories/Proof/MaxSizeP.v
theories/Proof/MaxSizeRun.v
theories/Proof/MaxSizeTidy.v
theories/Proof/MsgpP.v
theories/Proof/NewP.v
theories/Proof/PassFailP.v
theories/Proof/PassThm.v
theories/Proof/PctP.v
theories/Proof/PlainP.v
theories/Proof/ProgressP.v
theories/Proof/PruneP.v
theories/Proof/QueryP.v
theories/Proof/ReadFailP.v
theories/Proof/ReadFailThm.v
theories/Proof/ReleaseP.v
theories/Proof/ReleaseP2.v
theories/Proof/RepairP.v
theories/Proof/RepairReq.v
theories/Proof/ResultP.v
theories/Proof/SegP.v
theories/Proof/SerialP.v
theories/Proof/ServerOps.v
theories/Proof/ServerP.v
theories/Proof/ServerReq.v
theories/Proof/ServerStep.v
theories/Proof/SettleP.v
theories/Proof/ShipP.v
theories/Proof/SkewP.v
theories/Proof/SmallP.v
theories/Proof/SortFloatP.v
theories/Proof/SplitInv.v
theories/Proof/SplitP.v
theories/Proof/SplitReadP.v
theories/Proof/SplitterP.v
theories/Proof/StoreBuild.v
theories/Proof/StoreFinal.v
theories/Proof/StoreOps.v
theories/Proof/StoreP.v
theories/Proof/StoreThm.v
theories/Proof/StoreWorld.v
theories/Proof/TidyP.v
theories/Proof/TidyP2.v
theories/Proof/TidyP3.v
theories/Proof/TokenP.v
theories/Proof/TourP.v
theories/Proof/UnlockP.v
theories/Proof/UnlockP2.v
theories/Proof/UnlockP3.v
theories/Proof/UnlockP4.v
theories/Proof/UnlockP5.v
theories/Proof/UnlockP6.v
theories/Proof/UnlockP7.v
theories/Proof/UnlockP8.v
theories/Proof/UpdateInv.v
theories/Proof/UpdateP.v
theories/Proof/UpdateReadP.v
theories/Proof/UpdateReadThm.v
theories/Proof/VerifyP.v
theories/Proof/WiringP.v
theories/Spec/AccessSpec.v
theories/Spec/AliasSpec.v
theories/Spec/AnswerSpec.v
theories/Spec/AskingSpec.v
theories/Spec/BackupSpec.v
theories/Spec/BadgerSpec.v
theories/Spec/BufSpec.v
theories/Spec/CodecSpec.v
theories/Spec/CopySpec.v
theories/Spec/DecoderSpec.v
theories/Spec/DrainSpec.v
theories/Spec/EncoderSpec.v
theories/Spec/FailsSpec.v
theories/Spec/FanoutSpec.v
theories/Spec/FileDestSpec.v
theories/Spec/HistorySpec.v
theories/Spec/HostSpec.v
theories/Spec/JobSpec.v
theories/Spec/KeySpec.v
theories/Spec/LazySpec.v
theories/Spec/LazyStopSpec.v
theories/Spec/ListFileSpec.v
theories/Spec/ListsSpec.v
theories/Spec/LoaderSpec.v
theories/Spec/LockSpec.v
theories/Spec/MakeDropSpec.v
theories/Spec/ManagerSpec.v
theories/Spec/MaxSizeSpec.v
theories/Spec/PassSpec.v
theories/Spec/PlainSpec.v
theories/Spec/PruneSpec.v
theories/Spec/QuerySpec.v
theories/Spec/RankSpec.v
theories/Spec/ReadFailSpec.v
theories/Spec/ReleaseSpec.v
theories/Spec/RepairSpec.v
theories/Spec/ServerSpec.v
theories/Spec/ShipSpec.v
theories/Spec/ShownSpec.v
theories/Spec/SplitterSpec.v
theories/Spec/StorageSpec.v
theories/Spec/TidySpec.v
theories/Spec/TokenSpec.v
theories/Spec/TourSpec.v
theories/Spec/UnlockSpec.v
theories/Spec/WiringSpec.v
theories/Thm/C01.v
theories/Thm/C02.v
theories/Thm/C03.v
theories/Thm/C04.v
theories/Thm/C05.v
theories/Thm/C06.v
theories/Thm/C07.v
theories/Thm/C08.v
theories/Thm/C09.v
theories/Thm/C10.v
theories/Thm/C11.v
theories/Thm/C12.v
theories/Thm/C13.v
theories/Thm/C14.v
theories/Thm/C15.v
theories/Thm/C16.v
theories/Thm/C17.v
theories/Thm/C18.v
theories/Thm/C19.v
theories/Thm/C20.v
theories/Thm/C21.v
theories/Thm/C22.v
theories/Thm/C23.v
theories/Thm/C24.v
theories/Thm/C25.v
theories/Thm/C26.v
theories/Thm/C27.v
theories/Thm/C28.v
theories/Thm/C29.v
theories/Thm/C30.v
theories/Thm/C31.v
theories/Thm/C32.v
theories/Thm/C33.v
theories/Thm/C34.v
theories/Thm/C35.v
theories/Thm/C36.v
theories/Thm/C37.v
theories/Thm/C38.v
theories/Thm/C39.v
theories/Thm/C40.v
theories/Thm/C41.v
theories/Thm/C42.v
theories/Thm/C43.v
theories/Thm/C44.v
theories/Thm/C45.v
theories/Thm/C46.v
theories/Thm/C47.v
theories/Thm/C48.v
theories/Thm/C49.v
theories/Thm/C50.v
theories/Thm/C51.v
theories/Thm/C52.v
theories/Thm/C53.v
theories/Thm/C54.v
theories/Thm/C55.v
theories/Thm/C56.v
theories/Thm/C57.v
theories/Thm/C58.v
theories/Thm/C59.v
theories/Thm/C60.v
theories/Thm/C61.v
theories/Thm/C62.v
theories/Thm/C63.v
theories/Thm/C64.v
theories/Thm/C65.v
theories/Thm/C66.v
theories/Thm/C67.v
theories/Thm/C68.v
theories/Thm/C69.v
theories/Thm/C70.v
theories/Thm/C71.v
theories/Thm/C72.v
theories/Thm/C73.v
theories/Thm/C74.v
theories/Thm/C75.v
theories/Thm/C76.v
theories/Thm/C77.v
theories/Thm/C78.v
theories/Thm/C79.v
theories/Thm/C80.v
theories/Thm/C81.v
theories/Thm/C82.v
theories/Thm/C83.v
theories/Thm/C84.v
theories/Thm/C85.v
theories/Thm/C86.v
theories/Thm/C87.v
theories/Thm/C88.v
theories/Thm/Sample.v
theories/Thm/SampleLocks.v
theories/Thm/SampleServer.v
theories/Thm/SampleStore.v
