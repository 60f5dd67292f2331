-Q theories Verif
theories/Base.v
theories/PathModel.v
theories/PathSpec.v
theories/PathProof.v
theories/PathProps.v
theories/FileTreeModel.v
theories/FileTreeSpec.v
theories/FileTreeProof.v
theories/FileTreeProps.v
theories/RegionModel.v
theories/RegionSpec.v
theories/RegionProof.v
theories/RegionProps.v
theories/BuddyModel.v
theories/BuddyProof.v
theories/MemSvcModel.v
theories/MemSvcSpec.v
theories/MemSvcProof.v
theories/MemSvcProps.v
theories/MapModel.v
theories/MapProof.v
theories/MapProps.v
theories/DispatchModel.v
theories/DispatchProps.v
theories/HostCallsModel.v
theories/HostCallsSpec.v
theories/HostCallsProof.v
theories/HostCallsProps.v
theories/NetProof.v
theories/NetProps.v
theories/ChildCallsModel.v
theories/ChildCallsSpec.v
theories/ChildCallsProof.v
theories/ChildCallsProps.v
theories/EndToEndProps.v
theories/SeccompModel.v
theories/SeccompSpec.v
theories/SeccompProps.v
theories/SemModel.v
theories/SemSpec.v
theories/SemProof.v
theories/SemProps.v
theories/ProtoModel.v
theories/ProtoSpec.v
theories/ProtoProof.v
theories/ProtoLoad.v
theories/ProtoProgress.v
theories/ProtoProps.v
theories/ProtoDeath.v
theories/ProcModel.v
theories/ProcSpec.v
theories/ProcProof.v
theories/ProcProps.v
theories/HandleModel.v
theories/HandleSpec.v
theories/HandleProof.v
theories/HandleProps.v
theories/FdModel.v
theories/FdSpec.v
theories/FdProof.v
theories/FdProps.v
theories/SockModel.v
theories/SockSpec.v
theories/SockProps.v
theories/VtableModel.v
theories/VtableProps.v
theories/PollModel.v
theories/PollSpec.v
theories/PollProps.v
theories/SvcModel.v
theories/SvcSpec.v
theories/SvcProof.v
theories/SvcProps.v
theories/InitModel.v
theories/InitProps.v
theories/HostileModel.v
theories/HostileSpec.v
theories/HostileProps.v
theories/CtorModel.v
theories/CtorProps.v
theories/ChildHeapModel.v
theories/ChildHeapSpec.v
theories/ChildHeapProof.v
theories/ChildHeapProps.v
theories/UmtxModel.v
theories/UmtxProof.v
theories/UmtxProps.v
theories/PdModel.v
theories/PdSpec.v
theories/PdProps.v
theories/CapModel.v
theories/CapSpec.v
theories/CapProps.v
theories/FbCallsModel.v
theories/FbCallsSpec.v
theories/FbCallsProps.v
theories/EffectsModel.v
theories/EffectsSpec.v
theories/EffectsProof.v
theories/EffectsProps.v
theories/MtModel.v
theories/MtSpec.v
theories/MtProof.v
theories/MtProps.v
theories/PivotModel.v
theories/PivotSpec.v
theories/PivotProps.v
theories/FrameModel.v
theories/FrameSpec.v
theories/FrameProps.v
theories/MemConcModel.v
theories/MemConcSpec.v
theories/MemConcProof.v
theories/MemConcProps.v
theories/CheckModel.v
theories/CheckSpec.v
theories/CheckProps.v
theories/BootModel.v
theories/BootSpec.v
theories/BootProps.v
theories/ShmModel.v
theories/ShmSpec.v
theories/ShmProps.v
theories/MainModel.v
theories/MainSpec.v
theories/MainProps.v
theories/MemSvcNISpec.v
theories/MemSvcNI.v
theories/SlabModel.v
theories/SlabSpec.v
theories/SlabProof.v
theories/SlabProps.v
theories/FbChildProps.v
theories/ThrowModel.v
theories/ThrowSpec.v
theories/ThrowProof.v
theories/ThrowProps.v
theories/ProtoLoadProgress.v
theories/LinkModel.v
theories/LinkSpec.v
theories/LinkProof.v
theories/LinkProps.v
theories/OwnModel.v
theories/OwnSpec.v
theories/OwnProof.v
theories/OwnProps.v
theories/OpenProps.v
theories/XLinkModel.v
theories/XLinkSpec.v
theories/XLinkProof.v
theories/XLinkProps.v
theories/KillModel.v
theories/KillSpec.v
theories/KillProps.v
theories/CrashModel.v
theories/CrashSpec.v
theories/CrashProps.v
theories/RaceModel.v
theories/RaceSpec.v
theories/RaceProof.v
theories/RaceProps.v
theories/MultiModel.v
theories/MultiSpec.v
theories/MultiProof.v
theories/MultiProps.v
theories/GateModel.v
theories/GateSpec.v
theories/GateProof.v
theories/GateProps.v
theories/LeakProps.v
theories/LibsModel.v
theories/LibsSpec.v
theories/LibsProof.v
theories/LibsProps.v
theories/ParModel.v
theories/ParSpec.v
theories/ParProof.v
theories/ParProps.v
theories/MapSpec.v
theories/UserModel.v
theories/UserSpec.v
theories/UserProof.v
theories/UserProps.v
theories/LifeModel.v
theories/LifeSpec.v
theories/LifeProof.v
theories/LifeProps.v
theories/WorkSpec.v
theories/WorkModel.v
theories/WorkProps.v
theories/FairModel.v
theories/FairSpec.v
theories/FairProps.v
