-Q theories Verif
theories/Base/Res.v
theories/Base/Order.v
theories/Base/OrderLemmas.v
theories/Base/Arr.v
theories/Alg/HeapModel.v
theories/Alg/HeapSpec.v
theories/Alg/HeapProofs.v
theories/Base/Stable.v
theories/Alg/SortModel.v
theories/Alg/SortProofs.v
theories/Alg/NthProofs.v
theories/Props/SortProps.v
theories/Alg/SearchModel.v
theories/Alg/SearchSpec.v
theories/Alg/SearchProofs.v
theories/Props/SearchProps.v
theories/Base/Cells.v
theories/Alg/RotateModel.v
theories/Alg/RotateProofs.v
theories/Alg/MergeModel.v
theories/Props/RotateProps.v
theories/Alg/MergeSpec.v
theories/Alg/MergeProofs.v
theories/Alg/StableSortProofs.v
theories/Props/MergeProps.v
theories/Alg/PartitionModel.v
theories/Alg/PartitionProofs.v
theories/Props/PartitionProps.v
theories/Alg/PermSpec.v
theories/Alg/PermModel.v
theories/Alg/PermProofs.v
theories/Props/PermProps.v
theories/Alg/SetOpModel.v
theories/Alg/SetOpProofs.v
theories/Props/SetOpProps.v
theories/Alg/SubseqModel.v
theories/Alg/SubseqSpec.v
theories/Alg/SubseqProofs.v
theories/Alg/BoyerMooreProofs.v
theories/Props/SubseqProps.v
theories/Base/Int.v
theories/Num/BitModel.v
theories/Num/BitSpec.v
theories/Num/BitProofs.v
theories/Num/BitProofs2.v
theories/Num/ByteswapProofs.v
theories/Props/BitProps.v
theories/Num/GcdModel.v
theories/Num/GcdProofs.v
theories/Props/NumericProps.v
theories/Num/RatioModel.v
theories/Num/RatioProofs.v
theories/Props/RatioProps.v
theories/Chrono/DurationModel.v
theories/Chrono/DurationSpec.v
theories/Chrono/DurationProofs.v
theories/Props/DurationProps.v
theories/Chrono/CalendarModel.v
theories/Chrono/CalendarSpec.v
theories/Chrono/CalendarProofs.v
theories/Chrono/CalendarProofs2.v
theories/Props/CalendarProps.v
theories/Text/CharconvModel.v
theories/Text/CharconvSpec.v
theories/Text/CharconvProofs.v
theories/Text/CharconvProofs2.v
theories/Props/CharconvProps.v
theories/Cont/ObjMem.v
theories/Cont/ObjMemProofs.v
theories/Cont/VectorModel.v
theories/Cont/VectorSpec.v
theories/Cont/VectorProofs.v
theories/Cont/VectorProofs2.v
theories/Cont/VectorProofs3.v
theories/Cont/VectorProofs4.v
theories/Cont/VectorProofs5.v
theories/Cont/VectorProofs6.v
theories/Props/VectorProps.v
theories/Cont/BitsetModel.v
theories/Cont/BitsetSpec.v
theories/Cont/BitsetProofs.v
theories/Cont/BitsetProofs2.v
theories/Props/BitsetProps.v
theories/Text/StringSearchModel.v
theories/Text/StringSearchSpec.v
theories/Text/StringSearchProofs.v
theories/Props/StringSearchProps.v
theories/Cont/MdspanModel.v
theories/Cont/MdspanSpec.v
theories/Cont/MdspanProofs.v
theories/Cont/MdspanProofs2.v
theories/Cont/MdspanProofs3.v
theories/Props/MdspanProps.v
theories/Conc/BarrierModel.v
theories/Conc/BarrierProofs.v
theories/Conc/BinSemaphoreProofs.v
theories/Conc/LatchModel.v
theories/Conc/LatchProofs.v
theories/Conc/Sched.v
theories/Conc/SemaphoreModel.v
theories/Conc/SemaphoreProofs.v
theories/Conc/SemaphoreSpec.v
theories/Props/SyncProps.v
theories/Conc/SharedPtrModel.v
theories/Conc/SharedPtrProofs.v
theories/Props/SharedPtrProps.v
theories/Conc/MutexModel.v
theories/Conc/MutexProofs.v
theories/Conc/TimedMutexModel.v
theories/Conc/TimedMutexProofs.v
theories/Conc/SharedTimedMutexModel.v
theories/Conc/SharedTimedMutexProofs.v
theories/Props/MutexProps.v
theories/Conc/LockedPointerModel.v
theories/Conc/LockedPointerProofs.v
theories/Conc/StopTokenModel.v
theories/Conc/StopTokenProofs.v
theories/Conc/StopTokenProofs2.v
theories/Props/StopTokenProps.v
theories/Mem/MonoModel.v
theories/Mem/MonoSpec.v
theories/Mem/MonoProofs.v
theories/Mem/MonoProofs2.v
theories/Props/MonoProps.v
theories/Cont/TreeModel.v
theories/Cont/TreeSpec.v
theories/Cont/TreeProofs.v
theories/Cont/TreeProofs2.v
theories/Cont/TreeProofs3.v
theories/Cont/TreeProofs4.v
theories/Cont/TreeProofs5.v
theories/Cont/TreeProofs6.v
theories/Cont/TreeProofs7.v
theories/Cont/TreeProofs8.v
theories/Cont/TreeProofs9.v
theories/Props/TreeProps.v
theories/Cont/ListModel.v
theories/Cont/ListSpec.v
theories/Cont/ListProofs.v
theories/Cont/ListProofs2.v
theories/Cont/ListProofs3.v
theories/Cont/ListProofs4.v
theories/Cont/ListProofs5.v
theories/Cont/ListProofs6.v
theories/Cont/ListProofs7.v
theories/Props/ListProps.v
theories/Cont/HashModel.v
theories/Cont/HashSpec.v
theories/Cont/HashProofs.v
theories/Cont/HashProofs2.v
theories/Cont/HashProofs3.v
theories/Cont/HashProofs4.v
theories/Cont/HashProofs5.v
theories/Cont/HashProofs6.v
theories/Cont/HashProofs7.v
theories/Cont/HashProofs8.v
theories/Cont/HashLoad.v
theories/Props/HashProps.v
theories/Props/HashLoadProps.v
theories/Num/Int128Model.v
theories/Num/Int128Spec.v
theories/Num/Int128Proofs.v
theories/Num/Int128Proofs2.v
theories/Num/Int128Proofs3.v
theories/Num/Int128Proofs4.v
theories/Num/Int128Proofs5.v
theories/Num/Int128Proofs6.v
theories/Cont/DequeModel.v
theories/Cont/DequeSpec.v
theories/Cont/DequeProofs.v
theories/Cont/DequeProofs2.v
theories/Cont/DequeProofs3.v
theories/Cont/DequeProofs4.v
theories/Num/Int128Proofs7.v
theories/Num/Int128Proofs8.v
theories/Num/Int128Proofs9.v
theories/Props/Int128Props.v
theories/Cont/DequeProofs5.v
theories/Cont/DequeProofs6.v
theories/Cont/DequeProofs7.v
theories/Cont/DequeProofs8.v
theories/Cont/DequeOps.v
theories/Props/DequeProps.v
theories/Path/PathModel.v
theories/Path/PathSpec.v
theories/Path/PathProofs.v
theories/Path/PathProofs2.v
theories/Path/PathProofs3.v
theories/Path/PathProofs4.v
theories/Path/PathProofs5.v
theories/Path/PathProofs6.v
theories/Path/PathProofs7.v
theories/Path/PathProofs8.v
theories/Path/PathProofs9.v
theories/Path/PathProofs10.v
theories/Props/PathProps.v
theories/Rand/LcgModel.v
theories/Rand/LcgSpec.v
theories/Rand/LcgProofs.v
theories/Rand/EngineModel.v
theories/Rand/EngineSpec.v
theories/Rand/EngineProofs.v
theories/Rand/EngineProofs2.v
theories/Rand/EngineProofs3.v
theories/Rand/EngineProofs4.v
theories/Rand/EngineHist.v
theories/Props/RandProps.v
theories/Rand/UniformModel.v
theories/Rand/UniformSpec.v
theories/Rand/UniformCount.v
theories/Rand/UniformProofs.v
theories/Rand/UniformProofs2.v
theories/Rand/UniformProofs3.v
theories/Props/UniformProps.v
theories/Cont/FlatModel.v
theories/Cont/FlatSpec.v
theories/Cont/FlatProofs.v
theories/Cont/FlatProofs2.v
theories/Cont/FlatProofs3.v
theories/Cont/FlatProofs4.v
theories/Cont/FlatProofs5.v
theories/Cont/FlatProofs6.v
theories/Props/FlatProps.v
theories/Text/StringModel.v
theories/Text/StringSpec.v
theories/Text/StringProofs.v
theories/Text/StringProofs2.v
theories/Text/StringProofs3.v
theories/Text/StringProofs4.v
theories/Text/StringProofs5.v
theories/Text/StringProofs6.v
theories/Text/StringProofs7.v
theories/Text/StringHistory.v
theories/Props/StringProps.v
theories/Unicode/UtfModel.v
theories/Unicode/UtfSpec.v
theories/Unicode/UtfProofs.v
theories/Unicode/UtfProofs2.v
theories/Unicode/GraphemeModel.v
theories/Unicode/GraphemeSpec.v
theories/Unicode/GraphemeProofs.v
theories/Unicode/GraphemeProofs2.v
theories/Unicode/UcdTables.v
theories/Unicode/GraphemeProofs3.v
theories/Props/UnicodeProps.v
theories/Mem/PoolModel.v
theories/Mem/PoolSpec.v
theories/Mem/PoolProofs.v
theories/Mem/PoolProofs2.v
theories/Mem/PoolProofs3.v
theories/Mem/PoolProofs4.v
theories/Mem/PoolProofs5.v
theories/Mem/PoolProofs6.v
theories/Mem/PoolProofs7.v
theories/Mem/PoolProofs8.v
theories/Props/PoolProps.v
theories/Conc/FutureModel.v
theories/Conc/FutureSpec.v
theories/Conc/FutureProofs.v
theories/Conc/FutureProofs2.v
theories/Props/FutureProps.v
theories/Alg/StrideModel.v
theories/Alg/StrideSpec.v
theories/Alg/StrideProofs.v
theories/Props/StrideProps.v
theories/Alg/CartesianModel.v
theories/Alg/CartesianSpec.v
theories/Alg/CartesianProofs.v
theories/Props/CartesianProps.v
