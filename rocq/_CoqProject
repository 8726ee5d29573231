-Q theories Verif
theories/Base.v
theories/AddrModel.v
theories/AddrProofs.v
theories/MapModel.v
theories/MapProofs.v
theories/AddrProps.v
theories/Base64Model.v
theories/Base64Proofs.v
theories/AsciiModel.v
theories/AsciiProofs.v
theories/TextProps.v
theories/IdsmapModel.v
theories/IdsmapProofs.v
theories/IdsmapProps.v
theories/SymlinkModel.v
theories/SymlinkProofs.v
theories/SymlinkProps.v
theories/XattrModel.v
theories/XattrProofs.v
theories/XattrProps.v
theories/DirNodeModel.v
theories/DirNodeProofs.v
theories/DirNodeProps.v
theories/DirModel.v
theories/DirProofs.v
theories/ReaddirProofs.v
theories/DirProps.v
theories/ReaddirProps.v
theories/AvlModel.v
theories/AvlProofs.v
theories/AvlProps.v
theories/SpaModel.v
theories/SpaProofs.v
theories/SpaProps.v
theories/SpaceModel.v
theories/SpaceBits.v
theories/SpaceLeaf.v
theories/SpaceProofs.v
theories/SpaceOps.v
theories/SpaceHist.v
theories/SpaceProps.v
theories/SpmapModel.v
theories/SpmapProofs.v
theories/SpmapProps.v
theories/NameModel.v
theories/NameSpec.v
theories/NameProofs.v
theories/NameOps.v
theories/NameRename.v
theories/NameGrow.v
theories/NameProps.v
theories/AttrModel.v
theories/AttrProps.v
theories/AttrSetProps.v
theories/HdrModel.v
theories/HdrProps.v
theories/VerifyModel.v
theories/VerifyProps.v
theories/DirtyModel.v
theories/DirtyProps.v
theories/FlushModel.v
theories/TaskProps.v
theories/FlushProofs.v
theories/FlushProps.v
theories/FileModel.v
theories/FileTree.v
theories/FileInv.v
theories/FileSpec.v
theories/FileLeaf.v
theories/FileRead.v
theories/FileGrow.v
theories/FileLoops.v
theories/FileOps.v
theories/FileSeek.v
theories/FileDrop.v
theories/FileLseek.v
theories/FileCopy.v
theories/FileHist.v
theories/FileProps.v
theories/FileFaults.v
theories/FileCopyProps.v
theories/QallocModel.v
theories/QallocProofs.v
theories/QallocSlab.v
theories/QallocFree.v
theories/QallocProps.v
theories/CacheModel.v
theories/CacheProofs.v
theories/CacheOps.v
theories/CacheLoops.v
theories/CacheProps.v
theories/CowModel.v
theories/CowSpec.v
theories/CowProofs.v
theories/CowWalk.v
theories/CowObj.v
theories/CowCopy.v
theories/CowOps.v
theories/CowChange.v
theories/CowFlush.v
theories/CowFrame.v
theories/CowLive.v
theories/CowAlive.v
theories/CowAlive2.v
theories/CowSys.v
theories/CowProps.v
theories/WalkModel.v
theories/PackModel.v
theories/PackSpec.v
theories/PackProofs.v
theories/PackSafe.v
theories/PackToy.v
theories/PackProps.v
theories/DelfsModel.v
theories/DelfsSpec.v
theories/DelfsProofs.v
theories/DelfsToy.v
theories/DelfsProps.v
theories/BootModel.v
theories/BootSpec.v
theories/BootProofs.v
theories/BootToy.v
theories/BootProps.v
theories/MntModel.v
theories/MntSpec.v
theories/MntProofs.v
theories/MntToy.v
theories/MntProps.v
theories/MntUmount.v
theories/RulesModel.v
theories/RulesSpec.v
theories/RulesProofs.v
theories/RulesProps.v
theories/CaddrModel.v
theories/CaddrSpec.v
theories/CaddrProofs.v
theories/CaddrProps.v
theories/BrefModel.v
theories/BrefSpec.v
theories/BrefProofs.v
theories/BrefProps.v
theories/IdconfModel.v
theories/IdconfSpec.v
theories/IdconfProofs.v
theories/IdconfProps.v
theories/LockModel.v
theories/LockSpec.v
theories/LockProofs.v
theories/LockProps.v
theories/PipeModel.v
theories/PipeSpec.v
theories/PipeProofs.v
theories/PipeProps.v
theories/OperModel.v
theories/OperSpec.v
theories/OperProofs.v
theories/OperProps.v
theories/PassModel.v
theories/PassSpec.v
theories/PassProofs.v
theories/PassProps.v
theories/LtextModel.v
theories/LtextSpec.v
theories/LtextProofs.v
theories/LtextProps.v
