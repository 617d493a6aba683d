-Q theories Verif
theories/Base.v
theories/HeapModel.v
theories/HeapSpec.v
theories/HeapProofs.v
theories/HeapProps.v
theories/MaskModel.v
theories/MaskSpec.v
theories/MaskProofs.v
theories/MaskRun.v
theories/MaskProps.v
theories/HashModel.v
theories/HashSpec.v
theories/HashProofs.v
theories/GhashModel.v
theories/GhashProofs.v
theories/HashProps.v
theories/WaveModel.v
theories/WaveSpec.v
theories/WaveProofs.v
theories/WaveProps.v
theories/SenseModel.v
theories/SenseSpec.v
theories/SenseProofs.v
theories/SenseProps.v
theories/DeferqModel.v
theories/DeferqProps.v
theories/ResolveModel.v
theories/ResolveSpec.v
theories/ResolveProofs.v
theories/ResolveProps.v
theories/NexusModel.v
theories/NexusSpec.v
theories/NexusProofs.v
theories/NexusProps.v
theories/AdlerModel.v
theories/AdlerSpec.v
theories/AdlerProofs.v
theories/AdlerProps.v
theories/FbufModel.v
theories/FbufSpec.v
theories/FbufProofs.v
theories/FbufProps.v
theories/InternModel.v
theories/InternSpec.v
theories/InternProofs.v
theories/InternProps.v
theories/IdentModel.v
theories/IdentSpec.v
theories/IdentProofs.v
theories/IdentProps.v
theories/LockModel.v
theories/LockSpec.v
theories/LockProofs.v
theories/LockProps.v
theories/DequeModel.v
theories/DequeSpec.v
theories/DequeProofs.v
theories/DequeProps.v
theories/BarrierModel.v
theories/BarrierProofs.v
theories/BarrierProps.v
theories/WorkqModel.v
theories/WorkqProofs.v
theories/WorkqProps.v
theories/GcModel.v
theories/GcSpec.v
theories/GcProofs.v
theories/GcRefine.v
theories/GcProps.v
theories/PackModel.v
theories/PackSpec.v
theories/PackProofs.v
theories/PackFile.v
theories/PackProps.v
theories/JitModel.v
theories/JitPassModel.v
theories/JitSpec.v
theories/JitPassProofs.v
theories/JitDceProofs.v
theories/JitNopProofs.v
theories/JitPassProps.v
theories/CfgModel.v
theories/CfgSpec.v
theories/CfgProofs.v
theories/CfgLive.v
theories/CfgFlow.v
theories/CfgProps.v
theories/LscanModel.v
theories/LscanSpec.v
theories/LscanProofs.v
theories/LscanFlow.v
theories/LscanProps.v
theories/JitPipeProps.v
theories/KernelModel.v
theories/KernelSpec.v
theories/KernelProofs.v
theories/KernelWake.v
theories/KernelProps.v
theories/DomModel.v
theories/DomSpec.v
theories/DomProofs.v
theories/DomProps.v
theories/LayoutModel.v
theories/LayoutSpec.v
theories/LayoutProofs.v
theories/LayoutAgree.v
theories/LayoutProps.v
theories/NumberModel.v
theories/NumberSpec.v
theories/NumberProofs.v
theories/NumberProps.v
theories/UdpModel.v
theories/UdpSpec.v
theories/UdpProofs.v
theories/UdpProps.v
theories/PslSpec.v
theories/PslModel.v
theories/PslGraph.v
theories/PslProofs.v
theories/PslSimp.v
theories/PslRun.v
theories/PslProps.v
theories/LvnModel.v
theories/LvnProofs.v
theories/LvnOps.v
theories/LvnSpec.v
theories/LvnRun.v
theories/LvnSim.v
theories/LvnProps.v
theories/Mem2regModel.v
theories/Mem2regSpec.v
theories/Mem2regProofs.v
theories/Mem2regProps.v
theories/IntrinModel.v
theories/IntrinSpec.v
theories/IntrinAddProofs.v
theories/IntrinProofs.v
theories/IntrinOpProofs.v
theories/IntrinMulProofs.v
theories/IntrinConvProofs.v
theories/IntrinProps.v
theories/IntrinLogicModel.v
theories/IntrinLogicSpec.v
theories/IntrinLogicProofs.v
theories/SynopsysModel.v
theories/SynopsysProofs.v
theories/SynopsysSpec.v
theories/SynopsysOpProofs.v
theories/IntrinLogicProps.v
theories/SynopsysProps.v
theories/CoverModel.v
theories/CoverSpec.v
theories/CoverProofs.v
theories/CoverMergeProofs.v
theories/CoverProps.v
theories/CoverRunModel.v
theories/CoverRunSpec.v
theories/CoverRunProofs.v
theories/CoverRunProps.v
theories/CoverNameModel.v
theories/CoverNameProofs.v
theories/CoverNameProps.v
theories/CoverReportModel.v
theories/CoverReportSpec.v
theories/CoverReportProofs.v
theories/CoverReportProps.v
theories/CoverFileModel.v
theories/CoverFileSpec.v
theories/CoverFileProofs.v
theories/CoverFileProps.v
theories/FileRefModel.v
theories/FileRefSpec.v
theories/FileRefProofs.v
theories/FileRefProps.v
theories/ObjMarkModel.v
theories/ObjMarkSpec.v
theories/ObjMarkProofs.v
theories/ObjMarkProps.v
theories/ObjModel.v
theories/ObjKindSpec.v
theories/ObjKindProofs.v
theories/ObjKindProps.v
theories/ObjGraphModel.v
theories/ObjGraphSpec.v
theories/ObjGraphProofs.v
theories/ObjGraphProps.v
theories/ObjFileModel.v
theories/ObjFileSpec.v
theories/ObjFileProofs.v
theories/ObjFileProps.v
theories/CaseModel.v
theories/CaseSpec.v
theories/CaseProofs.v
theories/CaseArrayProofs.v
theories/CaseProps.v
theories/ArithSpec.v
theories/ArithModel.v
theories/ArithProofs.v
theories/ArithEmit.v
theories/ArithRun.v
theories/ArithProps.v
theories/LoadSpec.v
theories/LoadModel.v
theories/LoadProofs.v
theories/LoadProps.v
theories/MirModel.v
theories/MirProofs.v
theories/MirProps.v
theories/PredefSpec.v
theories/PredefModel.v
theories/PredefProofs.v
theories/PredefProps.v
theories/TextSpec.v
theories/TextModel.v
theories/TextProofs.v
theories/TextProps.v
theories/FileHandleSpec.v
theories/FileHandleModel.v
theories/FileHandleProofs.v
theories/FileHandleProps.v
theories/RandomSpec.v
theories/RandomModel.v
theories/RandomProofs.v
theories/RandomProps.v
theories/SigAttrSpec.v
theories/SigAttrModel.v
theories/SigAttrProofs.v
theories/SigAttrProps.v
theories/ActiveSpec.v
theories/ActiveModel.v
theories/ActiveProofs.v
theories/ActiveProps.v
theories/WsSpec.v
theories/WsModel.v
theories/WsProofs.v
theories/WsProps.v
theories/VlogSpec.v
theories/VlogModel.v
theories/VlogProofs.v
theories/VlogProps.v
theories/RangeSpec.v
theories/RangeModel.v
theories/RangeProofs.v
theories/RangeProps.v
theories/CalSpec.v
theories/CalModel.v
theories/CalProofs.v
theories/CalProps.v
theories/ImplSpec.v
theories/ImplModel.v
theories/ImplProofs.v
theories/ImplProps.v
theories/PvalSpec.v
theories/PvalModel.v
theories/PvalProofs.v
theories/PvalProps.v
theories/CompSpec.v
theories/CompModel.v
theories/CompProofs.v
theories/CompProps.v
theories/CompOnly.v
theories/LibSpec.v
theories/LibModel.v
theories/LibProofs.v
theories/LibWorld.v
theories/LibProps.v
theories/PutSpec.v
theories/PutModel.v
theories/PutProofs.v
theories/PutProps.v
theories/OnehotSpec.v
theories/OnehotModel.v
theories/OnehotProps.v
