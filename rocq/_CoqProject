-Q theories Verif
theories/Base.v
theories/BaseP.v
theories/XmlM.v
theories/CalcM.v
theories/NetconfM.v
theories/ConfigM.v
theories/DataSpec.v
theories/ExampleM.v
theories/CalcP.v
theories/DataP.v
theories/CompareSpec.v
theories/CompareP.v
theories/PropsCompare.v
theories/ListP.v
theories/DeltaSpec.v
theories/MoveSpec.v
theories/MoveP.v
theories/DeltaR.v
theories/NameP.v
theories/AddP.v
theories/AddStepP.v
theories/PlainP.v
theories/WorkP.v
theories/SubP.v
theories/RoundP.v
theories/TrimSpec.v
theories/TrimP.v
theories/ConfigP.v
theories/CompatP.v
theories/ConfigSpec.v
theories/ExampleDelta.v
theories/DeltaPropsP.v
theories/PropsDelta.v
theories/TrimPropsP.v
theories/TrimTreeSpec.v
theories/TrimTreeP.v
theories/PropsTrim.v
theories/EditSpec.v
theories/EditP.v
theories/EditSemP.v
theories/EditValP.v
theories/OrderEditP.v
theories/MergeP.v
theories/MergeCfgP.v
theories/EditErrP.v
theories/EditPropsP.v
theories/PropsEdit.v
theories/OpsP.v
theories/PropsOps.v
theories/RunningM.v
theories/RunSpec.v
theories/RunDiffP.v
theories/RunCliP.v
theories/RunTextP.v
theories/RunSibP.v
theories/RunOrderP.v
theories/RunAllP.v
theories/RunShowP.v
theories/RegexP.v
theories/PropsRun.v
theories/FilterM.v
theories/PruneSpec.v
theories/ReorderM.v
theories/PruneP.v
theories/FilterP.v
theories/ReorderSpec.v
theories/ReorderP.v
theories/PrunePropsP.v
theories/PropsPrune.v
theories/HeapM.v
theories/HeapSpec.v
theories/HeapP.v
theories/LiveP.v
theories/HistP.v
theories/ValueSpec.v
theories/ValueP.v
theories/HeapPropsP.v
theories/PropsHeap.v
theories/TagM.v
theories/TagSpec.v
theories/TagSplitSpec.v
theories/TagP.v
theories/TagSplitP.v
theories/RefM.v
theories/RefSpec.v
theories/RefP.v
theories/RefPropsP.v
theories/PropsTag.v
theories/ReplyM.v
theories/ReplySpec.v
theories/ReplyP.v
theories/PropsReply.v
theories/PropsRef.v
theories/DeviceM.v
theories/DeviceSpec.v
theories/DeviceP.v
theories/DevicePropsP.v
theories/PropsDevice.v
theories/MDiffM.v
theories/MDiffSpec.v
theories/MDiffP.v
theories/MDiffPropsP.v
theories/PropsMDiff.v
theories/DownloadM.v
theories/DownloadSpec.v
theories/DownloadP.v
theories/ReaderP.v
theories/DownloadOnlyP.v
theories/FolderM.v
theories/FolderSpec.v
theories/FolderP.v
theories/DownloadPropsP.v
theories/PropsDownload.v
theories/CompileM.v
theories/CompileSpec.v
theories/CompileP.v
theories/CompilePropsP.v
theories/PropsCompile.v
theories/IidSpec.v
theories/IidP.v
theories/IidPropsP.v
theories/PropsIid.v
theories/ServerSpec.v
theories/ServerP.v
theories/ServerPropsP.v
theories/PropsServer.v
theories/XPathM.v
theories/XPathSpec.v
theories/XPathP.v
theories/XPathPropsP.v
theories/PropsXPath.v
theories/DepictM.v
theories/DepictSpec.v
theories/DepictP.v
theories/DepictAttrSpec.v
theories/DepictAttrP.v
theories/DepictPropsP.v
theories/PropsDepict.v
theories/PrintM.v
theories/PrintSpec.v
theories/PrintP.v
theories/PrintTailP.v
theories/PrintReadP.v
theories/PrintTotP.v
theories/PrintPropsP.v
theories/PropsPrint.v
theories/WidthM.v
theories/WidthSpec.v
theories/WidthP.v
theories/WidthPropsP.v
theories/PropsWidth.v
theories/CompatM.v
theories/CompatSpec.v
theories/CompatDevP.v
theories/CompatCmpP.v
theories/CompatPropsP.v
theories/PropsCompat.v
theories/ExecM.v
theories/ExecSpec.v
theories/ExecP.v
theories/ExecArgsP.v
theories/ExecPropsP.v
theories/PropsExec.v
theories/LoadableM.v
theories/LoadableSpec.v
theories/LoadableP.v
theories/LoadablePropsP.v
theories/PropsLoadable.v
theories/DepsM.v
theories/DepsSpec.v
theories/DepsNodeSpec.v
theories/DepsP.v
theories/DepsNodeP.v
theories/DepsRaceP.v
theories/DepsPropsP.v
theories/PropsDeps.v
theories/KeyNsM.v
theories/KeyNsSpec.v
theories/KeyNsP.v
theories/KeyNsPropsP.v
theories/PropsKeyNs.v
theories/MarkM.v
theories/MarkSpec.v
theories/MarkP.v
theories/PropsMark.v
theories/RunExactP.v
theories/RunNestSpec.v
theories/RunNestP.v
theories/RunFairP.v
theories/RunDelM.v
theories/RunDelP.v
theories/OperM.v
theories/OperSpec.v
theories/OperP.v
theories/OperPropsP.v
theories/PropsOper.v
theories/TypeM.v
theories/TypeSpec.v
theories/TypeP.v
theories/TypePropsP.v
theories/PropsType.v
theories/BuildM.v
theories/BuildSpec.v
theories/BuildP.v
theories/BuildPropsP.v
theories/PropsBuild.v
theories/SumSpec.v
theories/SumP.v
theories/SumPropsP.v
theories/PropsSum.v
theories/ParseM.v
theories/ParseSpec.v
theories/ParseP.v
theories/ParsePlaceP.v
theories/ParsePropsP.v
theories/PropsParse.v
theories/ContextM.v
theories/ContextSpec.v
theories/ContextP.v
theories/PropsContext.v
theories/AlikeSpec.v
theories/AlikeP.v
theories/AlikeAddP.v
theories/AlikeStepP.v
theories/AlikeSumP.v
theories/AlikeDataP.v
theories/AlikeCheckP.v
theories/AlikeMarkP.v
theories/AlikeOpsP.v
theories/AlikeSeqP.v
theories/AlikeSubP.v
theories/AlikeDeltaP.v
theories/AlikePropsP.v
theories/AlikeSubPropsP.v
theories/PropsAlike.v
theories/KnownP.v
theories/ShuffleSpec.v
theories/ShuffleP.v
theories/PropsShuffle.v
theories/RunDevSpec.v
theories/RunDevP.v
theories/RunScriptP.v
theories/RunLevelP.v
theories/RunTreesP.v
theories/RunApplyP.v
theories/RunReachP.v
theories/RunDevPropsP.v
theories/PropsRunDev.v
theories/RunEqM.v
theories/RunEqSpec.v
theories/RunEqP.v
theories/RunEqPropsP.v
theories/PropsRunEq.v
theories/CacheM.v
theories/CacheSpec.v
theories/CacheP.v
theories/CachePropsP.v
theories/PropsCache.v
theories/RefsM.v
theories/RefsSpec.v
theories/RefsP.v
theories/RefsPropsP.v
theories/PropsRefs.v
theories/DefNsM.v
theories/DefNsSpec.v
theories/DefNsP.v
theories/PropsDefNs.v
theories/PidM.v
theories/PidSpec.v
theories/PidP.v
theories/PropsPid.v
theories/FindM.v
theories/FindSpec.v
theories/FindP.v
theories/PropsFind.v
theories/JoinSpec.v
theories/ForeignP.v
theories/MergeOrderP.v
theories/RootP.v
theories/RootPropsP.v
theories/PropsJoin.v
theories/TightSpec.v
theories/TightP.v
theories/PropsTight.v
theories/DefaultSpec.v
theories/DefaultP.v
theories/CreateP.v
theories/DefaultPropsP.v
theories/PropsDefault.v
theories/VocabSpec.v
theories/VocabP.v
theories/PropsVocab.v
theories/MentionSpec.v
theories/MentionP.v
theories/PropsMention.v
theories/OpaqueSpec.v
theories/OpaqueP.v
theories/PropsOpaque.v
theories/LayoutSpec.v
theories/LayoutP.v
theories/LayoutSubP.v
theories/LayoutPropsP.v
theories/PropsLayout.v
theories/AgainSpec.v
theories/AgainP.v
theories/PropsAgain.v
theories/BlankSpec.v
theories/BlankP.v
theories/BlankLateP.v
theories/PropsBlank.v
theories/OwnerM.v
theories/OwnerSpec.v
theories/OwnerP.v
theories/PropsOwner.v
