-Q theories Verif
theories/Base.v
theories/Lists.v
theories/Util.v
theories/UtilProofs.v
theories/PropUtil.v
theories/Amap.v
theories/FileCache.v
theories/FileCacheProofs.v
theories/PropFileCache.v
theories/Maps.v
theories/MapsProofs.v
theories/PropMaps.v
theories/Text.v
theories/Sym.v
theories/Total.v
theories/Frames.v
theories/Normalize.v
theories/NormalizeProofs.v
theories/PropNormalize.v
theories/ByName.v
theories/Gsym.v
theories/GsymProofs.v
theories/GsymSpec.v
theories/GsymFormat.v
theories/PropGsym.v
theories/Nom.v
theories/Breakpad.v
theories/BreakpadSpec.v
theories/BreakpadProofs.v
theories/BreakpadFormat.v
theories/PropBreakpad.v
theories/Bytes.v
theories/Mmap.v
theories/Zip.v
theories/ZipSpec.v
theories/ZipProofs.v
theories/PropZip.v
theories/Inspect.v
theories/Elf.v
theories/ElfSpec.v
theories/ElfFormat.v
theories/ElfProofs.v
theories/ElfTotal.v
theories/ElfExample.v
theories/PropElf.v
theories/BuildId.v
theories/BuildIdSpec.v
theories/PropBuildId.v
theories/RelocSpec.v
theories/PropReloc.v
theories/Num.v
theories/PerfMap.v
theories/PerfSpec.v
theories/PropPerf.v
theories/ModMap.v
theories/ModSpec.v
theories/PropMod.v
theories/PropKsym.v
theories/Depmod.v
theories/DepmodSpec.v
theories/PropDepmod.v
theories/Kaslr.v
theories/KaslrSpec.v
theories/PropKaslr.v
theories/Kernel.v
theories/PropKernel.v
theories/Ksym.v
theories/Search.v
theories/Dwarf.v
theories/DwarfSpec.v
theories/PropDwLines.v
theories/PropDwUnits.v
theories/PropDwNames.v
theories/PropDwFns.v
theories/PropDwInl.v
theories/PropDwSym.v
theories/DebugLink.v
theories/DebugLinkSpec.v
theories/PropDebugLink.v
theories/Symbolizer.v
theories/CacheViews.v
theories/SymbolizerSpec.v
theories/SymbolizerElf.v
theories/SymbolizerApk.v
theories/SymbolizerState.v
theories/SymbolizerProcess.v
theories/SymbolizerDemo.v
theories/PropSymBatch.v
theories/PropSymKinds.v
theories/PropSymCache.v
theories/CapiIn.v
theories/CapiSpec.v
theories/PropCapiIn.v
theories/CapiOut.v
theories/CapiProofs.v
theories/CapiWrite.v
theories/PropCapiOut.v
theories/Bpf.v
theories/BpfSpec.v
theories/PropBpf.v
theories/Demangle.v
theories/PropSymNames.v
theories/PropSymReg.v
theories/PropSymApk.v
theories/DwarfSymSpec.v
theories/PropDwInsp.v
theories/NormCache.v
theories/NormCacheSpec.v
theories/NormCacheProofs.v
theories/PropNormState.v
theories/Inspector.v
theories/InspectorSpec.v
theories/HistorySpec.v
theories/HistoryProofs.v
theories/PropInspector.v
theories/SymHistorySpec.v
theories/SymHistory.v
theories/PropSymHistory.v
theories/KernelCache.v
theories/KernelCacheSpec.v
theories/KernelHistory.v
theories/PropKernelCache.v
theories/CapiHeap.v
theories/CapiHeapSpec.v
theories/PropCapiHeap.v
theories/CapiCalls.v
theories/CapiCallsSpec.v
theories/PropCapiCalls.v
theories/CapiTrace.v
theories/CapiTraceSpec.v
theories/PropCapiTrace.v
theories/Errors.v
theories/ErrorsSpec.v
theories/PropErrors.v
theories/RemoteSpec.v
theories/PropRemote.v
theories/Host.v
theories/HostSpec.v
theories/PropHost.v
theories/HostNorm.v
theories/HostNormSpec.v
theories/PropHostNorm.v
theories/Cli.v
theories/CliSpec.v
theories/CliProofs.v
theories/PropCli.v
theories/PropCliNorm.v
theories/HostInspSpec.v
theories/PropHostInsp.v
theories/HostKernel.v
theories/HostKernelSpec.v
theories/PropHostKernel.v
theories/HostUserSpec.v
theories/PropHostUser.v
theories/CapiEnd.v
theories/CapiEndSpec.v
theories/PropCapiEnd.v
theories/DwarfReadSpec.v
theories/PropDwRead.v
theories/HostDebug.v
theories/DwarfAnswerSpec.v
theories/DwarfAnswer.v
theories/HostDebugSpec.v
theories/PropHostDebug.v
theories/HostDebugInspSpec.v
theories/PropHostDebugInsp.v
theories/CapiNorm.v
theories/CapiNormSpec.v
theories/CapiNormProofs.v
theories/PropCapiNorm.v
theories/CapiInsp.v
theories/CapiInspSpec.v
theories/CapiInspProofs.v
theories/PropCapiInsp.v
theories/CapiDisp.v
theories/CapiDispSpec.v
theories/PropCapiDisp.v
theories/ElfBareSpec.v
theories/PropElfBare.v
theories/ElfBigSpec.v
theories/PropElfBig.v
theories/PropHostBare.v
theories/PropExamples.v
theories/CapiCache.v
theories/CapiCacheSpec.v
theories/PropCapiCache.v
theories/PropElfUnread.v
theories/PropHostUnread.v
