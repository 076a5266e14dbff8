-Q theories Verif

theories/ValueSpec.v
theories/ValueModel.v
theories/ValueProofs.v
theories/ValueProps.v
theories/IntSpec.v
theories/IntModel.v
theories/IntProofs.v
theories/FixAsmModel.v
theories/FixAsmProofs.v
theories/CmpSpec.v
theories/CmpModel.v
theories/CmpProofs.v
theories/IntProps.v
theories/FixAsmProps.v
theories/MapSpec.v
theories/MapModel.v
theories/MapProofs.v
theories/MapProps.v
theories/HashSpec.v
theories/HashModel.v
theories/HashProofs.v
theories/HashProps.v
theories/SortSpec.v
theories/SortModel.v
theories/SortProofs.v
theories/SortProps.v
theories/KeySpec.v
theories/KeyModel.v
theories/KeyProofs.v
theories/KeyProps.v
theories/FnSpec.v
theories/FnModel.v
theories/FnProofs.v
theories/FnProps.v
theories/RngSpec.v
theories/RngModel.v
theories/RngProofs.v
theories/RngProps.v
theories/RatModel.v
theories/RatSpec.v
theories/RatProofs.v
theories/RatProps.v
theories/Utf8Spec.v
theories/Utf8Model.v
theories/Utf8Proofs.v
theories/IdModel.v
theories/IdSpec.v
theories/IdProofs.v
theories/IdProps.v
theories/GcModel.v
theories/GcSpec.v
theories/GcProofs.v
theories/GcProps.v
theories/SchedModel.v
theories/SchedSpec.v
theories/SchedProofs.v
theories/SchedProps.v
theories/MutexModel.v
theories/MutexSpec.v
theories/MutexProofs.v
theories/MutexProps.v
theories/QueueModel.v
theories/QueueSpec.v
theories/QueueProofs.v
theories/QueueProps.v
theories/PollModel.v
theories/PollSpec.v
theories/PollProofs.v
theories/PollProps.v
theories/TimerModel.v
theories/TimerSpec.v
theories/TimerProofs.v
theories/TimerProps.v
theories/PoolModel.v
theories/PoolSpec.v
theories/PoolProofs.v
theories/PoolProps.v
theories/WbufModel.v
theories/WbufSpec.v
theories/WbufProofs.v
theories/WbufProps.v
theories/RbufModel.v
theories/RbufSpec.v
theories/RbufProofs.v
theories/RbufSigProofs.v
theories/RbufProps.v
theories/PackModel.v
theories/PackSpec.v
theories/PackProofs.v
theories/PackFmtProofs.v
theories/PackProps.v
theories/EncModel.v
theories/MarshalModel.v
theories/MarshalSpec.v
theories/MarshalProofs.v
theories/MarshalWProofs.v
theories/MarshalRProofs.v
theories/MarshalLoadProofs.v
theories/MarshalIntProofs.v
theories/MarshalBadProofs.v
theories/FtextModel.v
theories/FtextSpec.v
theories/FtextProofs.v
theories/MarshalProps.v
theories/ClassModel.v
theories/ClassSpec.v
theories/ClassProofs.v
theories/ClassLoopProofs.v
theories/ClassWeaveProofs.v
theories/ClassStepProofs.v
theories/ClassIncludeProofs.v
theories/ClassFrontProofs.v
theories/ClassPrependProofs.v
theories/ClassBadProofs.v
theories/ClassProps.v
theories/LookupModel.v
theories/LookupSpec.v
theories/LookupWalkProofs.v
theories/LookupCacheProofs.v
theories/LookupProofs.v
theories/LookupSiteProofs.v
theories/LookupSuperProofs.v
theories/LookupBadProofs.v
theories/LookupProps.v
theories/GpModel.v
theories/GpSpec.v
theories/GpFileProofs.v
theories/GpRefProofs.v
theories/GpOpProofs.v
theories/GpInvProofs.v
theories/GpProofs.v
theories/GpStepProofs.v
theories/GpMainProofs.v
theories/GpBadProofs.v
theories/GpProps.v
theories/ImModel.v
theories/ImSpec.v
theories/ImBitProofs.v
theories/ImArithProofs.v
theories/ImBadProofs.v
theories/ImProps.v
theories/IstrModel.v
theories/IstrSpec.v
theories/IstrProofs.v
theories/IstrBadProofs.v
theories/IstrProps.v
theories/AseqModel.v
theories/AseqSpec.v
theories/AseqProofs.v
theories/AseqSliceProofs.v
theories/AseqBadProofs.v
theories/AseqProps.v
theories/FlProofs.v
theories/FintModel.v
theories/FintSpec.v
theories/FintProofs.v
theories/FintBadProofs.v
theories/FintProps.v
theories/ArgModel.v
theories/ArgSpec.v
theories/ArgProofs.v
theories/ArgKwProofs.v
theories/ArgCallProofs.v
theories/ArgJitProofs.v
theories/ArgFwdProofs.v
theories/ArgBadProofs.v
theories/ArgProps.v
theories/SendModel.v
theories/SendSpec.v
theories/SendProofs.v
theories/SendArgProofs.v
theories/SendBadProofs.v
theories/SendProps.v
theories/JsonModel.v
theories/JsonSpec.v
theories/JsonProofs.v
theories/JsonTotalProofs.v
theories/JsonSoundProofs.v
theories/JsonGenProofs.v
theories/JsonRubyProofs.v
theories/JsonRoundProofs.v
theories/JsonBadProofs.v
theories/JsonProps.v
theories/IvarModel.v
theories/IvarSpec.v
theories/IvarProofs.v
theories/IvarBadProofs.v
theories/IvarProps.v
theories/DispModel.v
theories/DispSpec.v
theories/DispProofs.v
theories/DispRunProofs.v
theories/DispBackProofs.v
theories/DispUnitProofs.v
theories/DispBadProofs.v
theories/DispProps.v
theories/EnsModel.v
theories/EnsSpec.v
theories/EnsTidySpec.v
theories/EnsProofs.v
theories/EnsSimProofs.v
theories/EnsBadProofs.v
theories/EnsTidyProofs.v
theories/EnsProps.v
theories/ArrModel.v
theories/ArrSpec.v
theories/ArrProofs.v
theories/ArrProofs2.v
theories/ArrIterModel.v
theories/ArrIterProofs.v
theories/ArrJitModel.v
theories/ArrJitProofs.v
theories/ArrBadProofs.v
theories/ArrProps.v
theories/StrModel.v
theories/StrSpec.v
theories/StrProofs.v
theories/StrSafeProofs.v
theories/StrRightProofs.v
theories/StrCharModel.v
theories/StrCharSpec.v
theories/StrCharProofs.v
theories/StrPartProofs.v
theories/StrSplitProofs.v
theories/StrPartSpec.v
theories/StrReadProofs.v
theories/StrCatModel.v
theories/StrCatSpec.v
theories/StrCatProofs.v
theories/StrBadProofs.v
theories/StrProps.v
theories/StrShareModel.v
theories/StrShareSpec.v
theories/StrShareProofs.v
theories/StrShareLeakProofs.v
theories/StrShareBadProofs.v
theories/StrShareProps.v
theories/ConstModel.v
theories/ConstSpec.v
theories/ConstProofs.v
theories/ConstCacheProofs.v
theories/ConstGuardProofs.v
theories/ConstDefProofs.v
theories/ConstLookProofs.v
theories/ConstBadProofs.v
theories/ConstProps.v
theories/GenModel.v
theories/GenSpec.v
theories/GenFrameProofs.v
theories/GenStepProofs.v
theories/GenLabelProofs.v
theories/GenSimProofs.v
theories/GenProofs.v
theories/GenBadProofs.v
theories/GenProps.v
theories/ClosModel.v
theories/ClosSpec.v
theories/ClosProofs.v
theories/ClosStepProofs.v
theories/ClosRunProofs.v
theories/ClosBadProofs.v
theories/ClosProps.v
theories/FiberModel.v
theories/FiberSpec.v
theories/FiberProofs.v
theories/FiberStepProofs.v
theories/FiberSwitchProofs.v
theories/FiberRunProofs.v
theories/FiberBadProofs.v
theories/FiberProps.v
theories/FormatModel.v
theories/FormatSpec.v
theories/FormatProofs.v
theories/FormatIntProofs.v
theories/FormatReadProofs.v
theories/FormatDirProofs.v
theories/FormatBadProofs.v
theories/FormatProps.v
theories/FormatHexModel.v
theories/FormatHexSpec.v
theories/FormatHexProofs.v
theories/FormatHexProps.v
theories/TrModel.v
theories/TrSpec.v
theories/TrProofs.v
theories/TrBadProofs.v
theories/TrProps.v
theories/SuccModel.v
theories/SuccSpec.v
theories/SuccProofs.v
theories/SuccProps.v
theories/EnumModel.v
theories/EnumSpec.v
theories/EnumProofs.v
theories/EnumProps.v
theories/TimeModel.v
theories/TimeSpec.v
theories/TimeCalProofs.v
theories/TimeProofs.v
theories/TimeMarshalProofs.v
theories/TimeTextProofs.v
theories/TimeScanProofs.v
theories/TimeBadProofs.v
theories/TimeProps.v
theories/BufModel.v
theories/BufSpec.v
theories/BufProofs.v
theories/BufHist.v
theories/BufTyped.v
theories/BufBadProofs.v
theories/BufProps.v
theories/RangeModel.v
theories/RangeSpec.v
theories/RangeProofs.v
theories/RangeIter.v
theories/RangeSearch.v
theories/RangeBadProofs.v
theories/RangeProps.v
theories/CombModel.v
theories/CombSpec.v
theories/CombProofs.v
theories/CombPerm.v
theories/CombSearch.v
theories/CombBadProofs.v
theories/CombProps.v
theories/EnblModel.v
theories/EnblSpec.v
theories/EnblProofs.v
theories/EnblBadProofs.v
theories/EnblProps.v
theories/SetModel.v
theories/SetSpec.v
theories/SetProofs.v
theories/SetCmp.v
theories/SetBadProofs.v
theories/SetProps.v
theories/LazyModel.v
theories/LazySpec.v
theories/LazyProofs.v
theories/LazyProps.v
theories/MonModel.v
theories/MonSpec.v
theories/MonProofs.v
theories/MonProps.v
theories/StructModel.v
theories/StructSpec.v
theories/StructProofs.v
theories/StructBadProofs.v
theories/StructProps.v
theories/DataModel.v
theories/DataSpec.v
theories/DataProofs.v
theories/DataProps.v
theories/HrbModel.v
theories/HrbSpec.v
theories/HrbProofs.v
theories/HrbProps.v
theories/HitModel.v
theories/HitSpec.v
theories/HitProofs.v
theories/HitProps.v
theories/AmutModel.v
theories/AmutSpec.v
theories/AmutProofs.v
theories/AmutProps.v
theories/AvalModel.v
theories/AvalSpec.v
theories/AvalProofs.v
theories/AvalProps.v
theories/PathnModel.v
theories/PathnSpec.v
theories/PathnProofs.v
theories/PathnProps.v
theories/NumrModel.v
theories/NumrSpec.v
theories/NumrProofs.v
theories/NumrProps.v
theories/StrbModel.v
theories/StrbSpec.v
theories/StrbProofs.v
theories/StrbProps.v
theories/RndfModel.v
theories/RndfSpec.v
theories/RndfProofs.v
theories/RndfProps.v
theories/FdirModel.v
theories/FdirSpec.v
theories/FdirProofs.v
theories/FdirProps.v
