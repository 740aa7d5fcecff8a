-Q theories Verif
theories/AliasModel.v
theories/AliasProofs.v
theories/AliasProps.v
theories/AlignModel.v
theories/AlignProofs.v
theories/AlignProps.v
theories/AlignSpec.v
theories/ArithModel.v
theories/ArithProofs.v
theories/ArithProps.v
theories/ArithSpec.v
theories/AtomicModel.v
theories/AtomicProofs.v
theories/AtomicProps.v
theories/AtomicSpec.v
theories/Base.v
theories/BitModel.v
theories/BitProofs.v
theories/BitProps.v
theories/BitRefine.v
theories/BitShift.v
theories/BitSpec.v
theories/BiterModel.v
theories/BiterProofs.v
theories/BiterProps.v
theories/BiterSpec.v
theories/BufModel.v
theories/BufProofs.v
theories/BufProps.v
theories/BufSpec.v
theories/Bytes.v
theories/ConvModel.v
theories/ConvProofs.v
theories/ConvProps.v
theories/ConvSafe.v
theories/ConvSpec.v
theories/ConvTop.v
theories/CrashModel.v
theories/CrashProofs.v
theories/CrashProps.v
theories/CrashSpec.v
theories/CstrProofs.v
theories/DeepAccept.v
theories/DeepModel.v
theories/DeepProofs.v
theories/DeepProps.v
theories/DeepSer.v
theories/DeepSpec.v
theories/DeepTop.v
theories/DmemModel.v
theories/DmemOps.v
theories/DmemPath.v
theories/DmemProofs.v
theories/DmemProps.v
theories/DmemSpec.v
theories/DmemSplit.v
theories/DmemTop.v
theories/EntryModel.v
theories/EntryProofs.v
theories/EntryProps.v
theories/ExcModel.v
theories/ExcProofs.v
theories/ExcProps.v
theories/ExcSpec.v
theories/FileModel.v
theories/FileProofs.v
theories/FileProps.v
theories/FileSpec.v
theories/FlatModel.v
theories/FlatProofs.v
theories/FlatProps.v
theories/FlatSpec.v
theories/FlatwProofs.v
theories/FlatwProps.v
theories/FlatwSpec.v
theories/FnvModel.v
theories/FnvProofs.v
theories/HashBits.v
theories/HashInv.v
theories/HashModel.v
theories/HashProbe.v
theories/HashProofs.v
theories/HashProps.v
theories/HashRefine.v
theories/HashSpec.v
theories/HeaderModel.v
theories/HeaderProofs.v
theories/HeaderProps.v
theories/HeaderSpec.v
theories/HexModel.v
theories/HexProofs.v
theories/HexProps.v
theories/HexSpec.v
theories/HiterModel.v
theories/HiterProofs.v
theories/HiterProps.v
theories/HiterSpec.v
theories/HmemModel.v
theories/HmemProofs.v
theories/HmemProps.v
theories/HmemSpec.v
theories/HoldModel.v
theories/HoldProofs.v
theories/HoldProps.v
theories/HoldSpec.v
theories/HownModel.v
theories/HownProofs.v
theories/HownProps.v
theories/HownSpec.v
theories/IdemProofs.v
theories/IdemProps.v
theories/IdemSer.v
theories/IdemSpec.v
theories/IdemTop.v
theories/KeyModel.v
theories/KeyProofs.v
theories/KeyProps.v
theories/KeySpec.v
theories/KiterModel.v
theories/KiterProofs.v
theories/KiterProps.v
theories/KiterSpec.v
theories/MmModel.v
theories/MmProofs.v
theories/MmProps.v
theories/MmSpec.v
theories/MutModel.v
theories/MutProofs.v
theories/MutProps.v
theories/MutSpec.v
theories/MutTop.v
theories/MvecModel.v
theories/MvecProofs.v
theories/MvecProps.v
theories/MvecSpec.v
theories/NarrowModel.v
theories/NarrowProofs.v
theories/NarrowProps.v
theories/NarrowSpec.v
theories/NvModel.v
theories/NvProofs.v
theories/NvProps.v
theories/NvSpec.v
theories/OffsetPtrModel.v
theories/OffsetPtrProofs.v
theories/OffsetPtrProps.v
theories/OffsetPtrSpec.v
theories/OomModel.v
theories/OomProofs.v
theories/OomProps.v
theories/OomSpec.v
theories/OrdModel.v
theories/OrdProofs.v
theories/OrdProps.v
theories/OrdSpec.v
theories/PagedModel.v
theories/PagedProofs.v
theories/PagedProps.v
theories/PagedSpec.v
theories/ReflModel.v
theories/ReflProofs.v
theories/ReflProps.v
theories/ReflSpec.v
theories/RtModel.v
theories/RtProofs.v
theories/RtProps.v
theories/RtSpec.v
theories/RtTree.v
theories/RtpModel.v
theories/RtpProofs.v
theories/RtpProps.v
theories/RtpSpec.v
theories/SaveModel.v
theories/SaveProofs.v
theories/SaveProps.v
theories/SaveSpec.v
theories/SerialDeser.v
theories/SerialFinal.v
theories/SerialFlush.v
theories/SerialLimits.v
theories/SerialMem.v
theories/SerialModel.v
theories/SerialPost.v
theories/SerialProps.v
theories/SerialRead.v
theories/SerialSer.v
theories/SerialSpec.v
theories/SerialTop.v
theories/StrModel.v
theories/StrProofs.v
theories/StrProps.v
theories/StrSpec.v
theories/StrongModel.v
theories/StrongProofs.v
theories/StrongProps.v
theories/StrongSpec.v
theories/SumModel.v
theories/SumProofs.v
theories/SumProps.v
theories/SumSpec.v
theories/TupleModel.v
theories/TupleProofs.v
theories/TupleProps.v
theories/TwinProofs.v
theories/TwinProps.v
theories/TwinSpec.v
theories/TypeModel.v
theories/TypeProofs.v
theories/TypeProps.v
theories/TypeSpec.v
theories/VecModel.v
theories/VecProofs.v
theories/VecProps.v
theories/VecSpec.v
theories/VmemModel.v
theories/VmemProofs.v
theories/VmemProps.v
theories/VmemSpec.v
theories/VownModel.v
theories/VownProofs.v
theories/VownProps.v
theories/VownSpec.v
