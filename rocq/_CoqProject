-Q theories Verif
theories/Base.v
theories/ArrayModel.v
theories/ArraySpec.v
theories/ArrayProofs.v
theories/ArrayProps.v
theories/Word.v
theories/BitTricksModel.v
theories/BitTricksSpec.v
theories/BitTricksProofs.v
theories/BitTricksProps.v
theories/LinkedListModel.v
theories/LinkedListSpec.v
theories/LinkedListProofs.v
theories/LinkedListProps.v
theories/QueueModel.v
theories/QueueSpec.v
theories/QueueProofs.v
theories/QueueProps.v
theories/SwapBufferModel.v
theories/SwapBufferSpec.v
theories/SwapBufferProofs.v
theories/SwapBufferProps.v
theories/CircularBufferModel.v
theories/CircularBufferSpec.v
theories/CircularBufferProofs.v
theories/CircularBufferProps.v
theories/IDGeneratorModel.v
theories/IDGeneratorSpec.v
theories/IDGeneratorProofs.v
theories/IDGeneratorProps.v
theories/ConcurrentBufferModel.v
theories/ConcurrentBufferSpec.v
theories/ConcurrentBufferProofs.v
theories/ConcurrentBufferProps.v
theories/IndexBufferModel.v
theories/IndexBufferSpec.v
theories/IndexBufferProofs.v
theories/IndexBufferProps.v
theories/ConcurrentPoolModel.v
theories/ConcurrentPoolSpec.v
theories/ConcurrentPoolProofs.v
theories/ConcurrentPoolProps.v
theories/SharedResourceModel.v
theories/SharedResourceSpec.v
theories/SharedResourceProofs.v
theories/SharedResourceProps.v
theories/TaskModel.v
theories/TaskSpec.v
theories/TaskProofs.v
theories/TaskProps.v
theories/LazyGCModel.v
theories/LazyGCSpec.v
theories/LazyGCProofs.v
theories/LazyGCProps.v
theories/EpochGCModel.v
theories/EpochGCSpec.v
theories/EpochGCProofs.v
theories/EpochGCProps.v
theories/RefCountModel.v
theories/RefCountSpec.v
theories/RefCountProofs.v
theories/RefCountProps.v
theories/ConcurrentQueueModel.v
theories/ConcurrentQueueSpec.v
theories/ConcurrentQueueProofs.v
theories/ConcurrentQueueProps.v
theories/TaskQueueModel.v
theories/TaskQueueSpec.v
theories/TaskQueueProofs.v
theories/TaskQueueProps.v
theories/AlignedModel.v
theories/AlignedSpec.v
theories/AlignedProofs.v
theories/AlignedProps.v
theories/PoolAllocModel.v
theories/PoolAllocSpec.v
theories/PoolAllocProofs.v
theories/PoolAllocProps.v
theories/ZoneModel.v
theories/ZoneSpec.v
theories/ZoneProofs.v
theories/ZoneProps.v
theories/RandomModel.v
theories/RandomSpec.v
theories/RandomProofs.v
theories/RandomProps.v
theories/RangeModel.v
theories/RangeSpec.v
theories/RangeProps.v
theories/MemoryModel.v
theories/MemorySpec.v
theories/MemoryProofs.v
theories/MemoryProps.v
theories/HashModel.v
theories/HashSpec.v
theories/HashProofs.v
theories/HashProps.v
theories/DataModel.v
theories/DataSpec.v
theories/DataProofs.v
theories/DataProps.v
theories/ValidateModel.v
theories/ValidateSpec.v
theories/ValidateProofs.v
theories/ValidateProps.v
theories/DecimalModel.v
theories/DecimalSpec.v
theories/DecimalProofs.v
theories/DecimalProps.v
theories/ListModel.v
theories/ListSpec.v
theories/ListProofs.v
theories/ListProps.v
theories/EnumerableModel.v
theories/EnumerableSpec.v
theories/EnumerableProofs.v
theories/EnumerableProps.v
theories/HashMapModel.v
theories/HashMapSpec.v
theories/HashMapEntryProofs.v
theories/HashMapProofs.v
theories/HashMapStepProofs.v
theories/HashMapProps.v
theories/BigIntModel.v
theories/BigIntSpec.v
theories/BigIntProofs.v
theories/BigIntSubProofs.v
theories/BigIntTextProofs.v
theories/BigIntProps.v
theories/BigIntFastModel.v
theories/BigIntFastSpec.v
theories/BigIntFastProofs.v
theories/BigIntFastProps.v
theories/BitsModel.v
theories/BitsSpec.v
theories/BitsProofs.v
theories/BitsReadProofs.v
theories/BitsScanProofs.v
theories/BitsProps.v
theories/StringModel.v
theories/StringSpec.v
theories/StringPackProofs.v
theories/StringUtf8Proofs.v
theories/StringReadProofs.v
theories/StringCompareProofs.v
theories/StringMakeProofs.v
theories/StringBuildProofs.v
theories/StringFindProofs.v
theories/StringSearchProofs.v
theories/StringProps.v
theories/PathModel.v
theories/PathSpec.v
theories/PathParseProofs.v
theories/PathRoundProofs.v
theories/PathLossProofs.v
theories/PathStringProofs.v
theories/PathMatchProofs.v
theories/PathProps.v
theories/CollectionModel.v
theories/CollectionSpec.v
theories/CollectionLedgerProofs.v
theories/CollectionGenericProofs.v
theories/CollectionFastProofs.v
theories/CollectionArrayProofs.v
theories/CollectionListProofs.v
theories/CollectionHistoryProofs.v
theories/CollectionProps.v
theories/CollectionCreateModel.v
theories/CollectionCreateSpec.v
theories/CollectionCreateProofs.v
theories/CollectionCreateProps.v
theories/IndexMapModel.v
theories/IndexMapSpec.v
theories/IndexMapProofs.v
theories/IndexMapRunProofs.v
theories/IndexMapProps.v
theories/HashMapSplitModel.v
theories/HashMapSplitSpec.v
theories/HashMapSplitProofs.v
theories/HashMapSplitProps.v
theories/DictionaryModel.v
theories/DictionarySpec.v
theories/DictionaryProofs.v
theories/DictionaryProps.v
theories/ReflectStreamModel.v
theories/ReflectStreamSpec.v
theories/ReflectStreamProofs.v
theories/ReflectStreamProps.v
theories/ReflectIntegerModel.v
theories/ReflectIntegerSpec.v
theories/ReflectIntegerDecode.v
theories/ReflectIntegerProofs.v
theories/ReflectIntegerProps.v
theories/ReflectValueModel.v
theories/ReflectValueSpec.v
theories/ReflectValueProofs.v
theories/ReflectValueProps.v
theories/ReflectTypeModel.v
theories/ReflectTypeSpec.v
theories/ReflectTypeProofs.v
theories/ReflectTypeProps.v
theories/ReflectCopyModel.v
theories/ReflectCopySpec.v
theories/ReflectCopyProofs.v
theories/ReflectCopyProps.v
theories/FileModel.v
theories/FileSpec.v
theories/FileProofs.v
theories/FileProps.v
theories/LockModel.v
theories/LockSpec.v
theories/LockProofs.v
theories/LockProps.v
theories/VolumeModel.v
theories/VolumeSpec.v
theories/VolumeProofs.v
theories/VolumeProps.v
theories/VolumeListProofs.v
theories/VolumeCopyProofs.v
theories/VolumeCopyProps.v
theories/KeysModel.v
theories/KeysSpec.v
theories/KeysProofs.v
theories/KeysProps.v
theories/BoundsModel.v
theories/BoundsSpec.v
theories/BoundsProofs.v
theories/BoundsProps.v
theories/ZoneAllocModel.v
theories/ZoneAllocSpec.v
theories/ZoneAllocProofs.v
theories/ZoneAllocProps.v
theories/DebugModel.v
theories/DebugSpec.v
theories/DebugProofs.v
theories/DebugProps.v
theories/DispatchModel.v
theories/DispatchSpec.v
theories/DispatchProofs.v
theories/DispatchProps.v
theories/FormatModel.v
theories/FormatSpec.v
theories/FormatProofs.v
theories/FormatProps.v
theories/LogModel.v
theories/LogSpec.v
theories/LogProofs.v
theories/LogProps.v
theories/InputModel.v
theories/InputSpec.v
theories/InputProofs.v
theories/InputProps.v
theories/MapperModel.v
theories/MapperSpec.v
theories/MapperProofs.v
theories/MapperProps.v
theories/FloatModel.v
theories/FloatSpec.v
theories/FloatProofs.v
theories/FloatProps.v
theories/ContainerModel.v
theories/ContainerSpec.v
theories/ContainerProofs.v
theories/ContainerMapProofs.v
theories/ContainerProps.v
theories/FnAllocModel.v
theories/FnAllocSpec.v
theories/FnAllocProofs.v
theories/FnAllocProps.v
theories/ContainerDictSpec.v
theories/ContainerDictProofs.v
theories/ContainerDictProps.v
theories/TaskOwnerModel.v
theories/TaskOwnerSpec.v
theories/TaskOwnerProofs.v
theories/TaskOwnerStepProofs.v
theories/TaskOwnerProps.v
theories/GeomModel.v
theories/GeomSpec.v
theories/GeomProofs.v
theories/GeomProps.v
theories/MatrixProofs.v
theories/MatrixProps.v
theories/SimdModel.v
theories/SimdSpec.v
theories/SimdProofs.v
theories/SimdProps.v
theories/VecUlpsModel.v
theories/VecUlpsSpec.v
theories/VecUlpsProofs.v
theories/VecUlpsProps.v
theories/SimdLaneModel.v
theories/SimdLaneSpec.v
theories/SimdLaneProofs.v
theories/SimdLaneProps.v
theories/RenameModel.v
theories/RenameProofs.v
theories/RenameProps.v
theories/LastComponentModel.v
theories/LastComponentSpec.v
theories/LastComponentProofs.v
theories/LastComponentProps.v
theories/HashMapDefaultModel.v
theories/HashMapDefaultSpec.v
theories/HashMapDefaultProofs.v
theories/HashMapDefaultProps.v
theories/TerminatedModel.v
theories/TerminatedProofs.v
theories/TerminatedProps.v
theories/ZoneEnumModel.v
theories/ZoneEnumSpec.v
theories/ZoneEnumProofs.v
theories/ZoneEnumProps.v
theories/SystemModel.v
theories/SystemSpec.v
theories/SystemProofs.v
theories/SystemProps.v
theories/DebugReportModel.v
theories/DebugReportSpec.v
theories/DebugReportProps.v
theories/TypeSizeModel.v
theories/TypeSizeSpec.v
theories/TypeSizeProps.v
