-Q theories Verif
theories/MtModel.v
theories/MtSpec.v
theories/MtHist.v
theories/MtLemmas.v
theories/MtInner.v
theories/MtInv.v
theories/MtBatch.v
theories/MtFull.v
theories/MtSingle.v
theories/MtSettled.v
theories/MtTest.v
theories/MtProps.v
theories/CodecModel.v
theories/CodecLemmas.v
theories/CodecProps.v
theories/AssetModel.v
theories/AssetSpec.v
theories/AssetLemmas.v
theories/AssetSelect.v
theories/AssetNorm.v
theories/AssetMap.v
theories/AssetProps.v
theories/CerModel.v
theories/CerSpec.v
theories/CerQueue.v
theories/CerInv.v
theories/CerDisk.v
theories/CerProps.v
theories/CkModel.v
theories/CkSpec.v
theories/CkLemmas.v
theories/CkProps.v
theories/PtModel.v
theories/PtSpec.v
theories/PtLeaf.v
theories/PtAgree.v
theories/PtSim.v
theories/PtPrune.v
theories/PtProps.v
theories/FkSpec.v
theories/FkVirt.v
theories/FkCurrent.v
theories/FkInv.v
theories/FkProps.v
theories/ExModel.v
theories/ExProps.v
theories/TkModel.v
theories/TkSpec.v
theories/TkInv.v
theories/TkProps.v
theories/FoSpec.v
theories/FoInv.v
theories/FoProps.v
theories/SgModel.v
theories/SgSpec.v
theories/SgAcc.v
theories/SgSync.v
theories/SgInv.v
theories/SgProps.v
theories/SnModel.v
theories/SnSpec.v
theories/SnJoin.v
theories/SnAcc.v
theories/SnGood.v
theories/SnProps.v
theories/TdModel.v
theories/TdProps.v
theories/WaModel.v
theories/WaLemmas.v
theories/WaProps.v
theories/LgModel.v
theories/LgSpec.v
theories/LgLemmas.v
theories/LgInv.v
theories/LgBal.v
theories/LgHist.v
theories/LgRead.v
theories/LgPost.v
theories/LgProps.v
theories/IsModel.v
theories/IsLemmas.v
theories/IsProps.v
theories/DxModel.v
theories/DxSpec.v
theories/DxLemmas.v
theories/DxInst.v
theories/DxProps.v
theories/CoModel.v
theories/CoSpec.v
theories/CoLemmas.v
theories/CoInst.v
theories/CoProps.v
theories/FsModel.v
theories/FsSpec.v
theories/FsLemmas.v
theories/FsTotal.v
theories/FsProps.v
theories/EeModel.v
theories/EeKeys.v
theories/EePush.v
theories/EeFlow.v
theories/EeSign.v
theories/EeProps.v
theories/CiModel.v
theories/CiSpec.v
theories/CiLemmas.v
theories/CiSound.v
theories/CiPool.v
theories/CiProps.v
theories/IdModel.v
theories/IdLemmas.v
theories/IdProps.v
theories/AlgBase.v
theories/MpModel.v
theories/MpSpec.v
theories/MpLemmas.v
theories/MpProps.v
theories/KzModel.v
theories/KzSpec.v
theories/KzLemmas.v
theories/KzProps.v
theories/PxModel.v
theories/PxSpec.v
theories/PxInv.v
theories/PxLin.v
theories/PxMds.v
theories/PxCauchy.v
theories/PxOpt.v
theories/PxProps.v
theories/LfModel.v
theories/LfSpec.v
theories/LfLemmas.v
theories/LfProps.v
theories/PrCert.v
theories/PrBn.v
theories/PrField.v
theories/PrProps.v
theories/AuModel.v
theories/AuProps.v
theories/PsPrime.v
theories/PsModel.v
theories/PsSpec.v
theories/PsLemmas.v
theories/PsFile.v
theories/PsProps.v
theories/PsFileProps.v
theories/KyModel.v
theories/KyProps.v
theories/WmModel.v
theories/WmProps.v
theories/GdModel.v
theories/GdProps.v
theories/ItModel.v
theories/ItSpec.v
theories/ItLemmas.v
theories/ItRows.v
theories/ItProps.v
theories/PcModel.v
theories/PcSpec.v
theories/PcLemmas.v
theories/PcProps.v
theories/SaModel.v
theories/SaSpec.v
theories/SaLemmas.v
theories/SaInv.v
theories/SaProps.v
theories/FzModel.v
theories/FzProps.v
theories/AkModel.v
theories/AkProps.v
theories/DlModel.v
theories/DlProps.v
theories/CfModel.v
theories/CfProps.v
