-Q theories Verif
theories/Base.v
theories/Bitmap.v
theories/Endian.v
theories/CrcTables.v
theories/Crc.v
theories/Mem.v
theories/PropUtil.v
theories/Count.v
theories/FsState.v
theories/FsImap.v
theories/FsInode.v
theories/FsData.v
theories/FsTree.v
theories/FsImapProof.v
theories/FsWp.v
theories/FsInv.v
theories/FsStep.v
theories/FsSeek.v
theories/FsBranch.v
theories/FsRead.v
theories/FsWrite.v
theories/FsWrite2.v
theories/FsTrunc.v
theories/FsTrunc2.v
theories/FsTrunc3.v
theories/FsTrunc4.v
theories/FsTrunc5.v
theories/FsVol.v
theories/FsVol2.v
theories/FsVol3.v
theories/FsVol4.v
theories/FsDir.v
theories/FsDirP.v
theories/FsDirP2.v
theories/FsDirP3.v
theories/FsCore.v
theories/FsWr.v
theories/FsRo.v
theories/FsSpec.v
theories/FsSpecP.v
theories/FsSpecN.v
theories/FsCoreP.v
theories/FsCoreP2.v
theories/FsCoreP3.v
theories/FsCoreP4.v
theories/FsCoreP5.v
theories/FsMach.v
theories/FsVolume.v
theories/FsVolumeG.v
theories/FsFormat.v
theories/FsVolumeP.v
theories/FsReach.v
theories/FsKeep.v
theories/Posix.v
theories/PropFs.v
theories/PropVol.v
theories/PropNs.v
theories/PropSpace.v
theories/PropFull.v
theories/Scenario.v
theories/ScenarioNs.v
theories/ScenarioFull.v
theories/PropImap.v
theories/PosixSpec.v
theories/PosixWp.v
theories/PosixPath.v
theories/PosixPath2.v
theories/PosixInv.v
theories/PosixStart.v
theories/PosixCalls.v
theories/PosixCalls2.v
theories/PosixCalls3.v
theories/PosixCalls4.v
theories/PosixCalls5.v
theories/PosixCalls6.v
theories/PosixCalls7.v
theories/PosixReach.v
theories/PosixSame.v
theories/PropPosix.v
theories/PropPosix2.v
theories/PropPosix3.v
theories/ScenarioPosix.v
theories/PosixKeep.v
theories/PosixConc.v
theories/PosixConcP.v
theories/PropConc.v
theories/ScenarioConc.v
theories/Geometry.v
theories/PropGeom.v
theories/Bdev.v
theories/PropBdev.v
theories/ImapBytes.v
theories/PropImapE.v
theories/Cache.v
theories/CacheSpec.v
theories/CacheP.v
theories/PropCache.v
theories/ScenarioCache.v
theories/Metaroot.v
theories/MetaSpec.v
theories/MetarootP.v
theories/PropMeta.v
theories/PropMetaM.v
theories/ScenarioMeta.v
theories/Node.v
theories/NodeP.v
theories/NodeSpec.v
theories/PropNode.v
theories/ScenarioNode.v
theories/PropRw.v
theories/ScenarioRw.v
theories/FseSpec.v
theories/FseVol.v
theories/FseReach.v
theories/PropFse.v
theories/FseApi.v
theories/PropFseApi.v
theories/ScenarioFse.v
theories/FseConc.v
theories/PropFseConc.v
theories/ScenarioFseConc.v
theories/FltMonad.v
theories/FltImap.v
theories/FltInode.v
theories/FltData.v
theories/FltDir.v
theories/FltCore.v
theories/FltP.v
theories/FltCoreP.v
theories/FltVolume.v
theories/FltVolumeP.v
theories/FltSpec.v
theories/FltReach.v
theories/PropFlt.v
theories/ScenarioFlt.v
theories/FseFltSpec.v
theories/FltFse.v
theories/FltFseReach.v
theories/PropFltFse.v
theories/ScenarioFltFse.v
theories/Math.v
theories/MathP.v
theories/PropMath.v
theories/AtoiSpec.v
theories/Atoi.v
theories/AtoiP.v
theories/PropAtoi.v
theories/Rand.v
theories/RandP.v
theories/PropRand.v
theories/PropClose.v
theories/Printf.v
theories/PrintfSpec.v
theories/PrintfP.v
theories/PrintfP2.v
theories/PropPrintf.v
theories/GetoptSpec.v
theories/Getopt.v
theories/GetoptP.v
theories/PropGetopt.v
theories/ToolSpec.v
theories/Tool.v
theories/PropTool.v
theories/OsDiskSpec.v
theories/OsDisk.v
theories/PropOsDisk.v
theories/PropOsDiskBdev.v
