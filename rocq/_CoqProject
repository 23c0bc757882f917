-Q theories Verif

theories/GoBase.v
theories/HeapModel.v
theories/HeapSpec.v
theories/HeapProofs.v
theories/HeapMethods.v
theories/HeapHist.v
theories/HeapNProofs.v
theories/HeapProps.v
theories/SiftSim.v
theories/MeapModel.v
theories/MeapSpec.v
theories/MeapProofs.v
theories/MeapProps.v
theories/ReapModel.v
theories/ReapSpec.v
theories/ReapProofs.v
theories/ReapProps.v
theories/GoState.v
theories/ListModel.v
theories/ListSpec.v
theories/ListRing.v
theories/ListProofs.v
theories/ListSteps.v
theories/ListRefine.v
theories/DequeSpec.v
theories/DequeProofs.v
theories/ListProps.v
theories/MathModel.v
theories/MathSpec.v
theories/MathProofs.v
theories/MathProps.v
theories/RingModel.v
theories/RingSpec.v
theories/RingProofs.v
theories/RingProps.v
theories/SpscModel.v
theories/SpscProofs.v
theories/SpscProps.v
theories/SpscSolo.v
theories/BloomModel.v
theories/BloomSpec.v
theories/BloomProofs.v
theories/BloomProps.v
theories/LimiterModel.v
theories/LimiterSpec.v
theories/LimiterProofs.v
theories/LimiterProps.v
theories/LockModel.v
theories/LockSpec.v
theories/LockProofs.v
theories/LockProps.v
theories/LimiterLockModel.v
theories/LimiterLockProofs.v
theories/LimiterLockProps.v
theories/MapsModel.v
theories/MapsSpec.v
theories/MapsProps.v
theories/DelayQueueModel.v
theories/DelayQueueSpec.v
theories/DelayQueueProofs.v
theories/DelayQueueSolo.v
theories/DelayQueueLive.v
theories/DelayQueueExec.v
theories/DelayQueueProps.v
theories/WheelModel.v
theories/WheelSpec.v
theories/WheelProofs.v
theories/WheelLevels.v
theories/WheelTime.v
theories/WheelLive.v
theories/WheelExec.v
theories/WheelFacts.v
theories/WheelProps.v
theories/WheelFineModel.v
theories/WheelFineSpec.v
theories/WheelFineProofs.v
theories/WheelFineCover.v
theories/WheelFineProps.v
theories/GoStr.v
theories/AesModel.v
theories/AesBlockSpec.v
theories/AesSpec.v
theories/AesBlockModel.v
theories/AesBlockProps.v
theories/AesProps.v
theories/Md5Model.v
theories/Md5Spec.v
theories/Md5Props.v
theories/Base64Model.v
theories/Base64Props.v
theories/ConvModel.v
theories/ConvSpec.v
theories/ConvProps.v
theories/MaskModel.v
theories/MaskSpec.v
theories/MaskProps.v
theories/TextModel.v
theories/TextSpec.v
theories/TextProps.v
theories/CsvModel.v
theories/CsvSpec.v
theories/CsvProps.v
theories/PathModel.v
theories/PathSpec.v
theories/PathProps.v
theories/FilesModel.v
theories/FilesSpec.v
theories/FilesProps.v
theories/GormModel.v
theories/GormSpec.v
theories/GormProps.v
theories/GormUpdProps.v
theories/GwrapModel.v
theories/GwrapSpec.v
theories/GwrapProps.v
theories/RoundModel.v
theories/RoundSpec.v
theories/RoundProps.v
theories/FsModel.v
theories/FsSpec.v
theories/FsProofs.v
theories/FsProps.v
theories/JsonModel.v
theories/JsonSpec.v
theories/JsonProofs.v
theories/JsonDec.v
theories/JsonEnc.v
theories/JsonProps.v
theories/SniffModel.v
theories/SniffSpec.v
theories/SniffProofs.v
theories/SniffProps.v
theories/DateModel.v
theories/DateSpec.v
theories/DateProps.v
theories/UpfsModel.v
theories/UpfsSpec.v
theories/UpfsProofs.v
theories/UpfsProps.v
theories/ZipfsModel.v
theories/ZipfsSpec.v
theories/ZipfsProofs.v
theories/ZipfsProps.v
theories/Log2Model.v
theories/Log2Spec.v
theories/Log2Props.v
theories/RangeModel.v
theories/RangeSpec.v
theories/RangeProofs.v
theories/RangeProps.v
theories/BnewModel.v
theories/BnewSpec.v
theories/BnewReal.v
theories/BnewProps.v
theories/FsizeModel.v
theories/FsizeSpec.v
theories/FsizeReal.v
theories/FsizeProps.v
theories/ProcModel.v
theories/ProcSpec.v
theories/ProcProps.v
theories/InsModel.v
theories/InsSpec.v
theories/InsProps.v
theories/ZfmtModel.v
theories/ZfmtSpec.v
theories/ZfmtProofs.v
theories/ZfmtSafe.v
theories/ZfmtCrc.v
theories/ZfmtBomb.v
theories/ZfmtProps.v
theories/ZlaySpec.v
theories/ZlayProps.v
theories/InflModel.v
theories/InflSpec.v
theories/InflHuff.v
theories/InflProofs.v
theories/InflMain.v
theories/InflProps.v
theories/InflZip.v
theories/ZanySpec.v
theories/ZanyCrc.v
theories/ZanyProofs.v
theories/ZanyProps.v
theories/StruModel.v
theories/StruSpec.v
theories/StruProps.v
theories/LzModel.v
theories/LzSpec.v
theories/LzProofs.v
theories/LzProps.v
theories/HufModel.v
theories/HufSpec.v
theories/HufProofs.v
theories/HcModel.v
theories/HcProofs.v
theories/HcCodes.v
theories/HufProps.v
theories/HufZip.v
