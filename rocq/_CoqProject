-Q theories Verif
theories/Bytes.v
theories/F64.v
theories/GoLib.v
theories/HbookModel.v
theories/HbookSpec.v
theories/HbookProofs.v
theories/HbookProofs2.v
theories/HbookProofs3.v
theories/HbookProps.v
theories/GoSlice.v
theories/SliceopModel.v
theories/SliceopProps.v
theories/Bits.v
theories/RbytesModel.v
theories/RbytesProofs.v
theories/RbytesProps.v
theories/TruncModel.v
theories/TruncProps.v
theories/RdMonad.v
theories/FreelistModel.v
theories/FreelistProofs.v
theories/FreelistProps.v
theories/GoStrings.v
theories/KeyModel.v
theories/KeyProofs.v
theories/KeyProps.v
theories/DirModel.v
theories/DirProps.v
theories/CompressModel.v
theories/CompressProps.v
theories/TreeModel.v
theories/TreeProofs.v
theories/TreeProofs2.v
theories/TreeProofs3.v
theories/TreeProofs4.v
theories/TreeProps.v
theories/HttpModel.v
theories/HttpProofs.v
theories/HttpProps.v
theories/Parse.v
theories/RioModel.v
theories/RioProofs.v
theories/RioProofs2.v
theories/RioProps.v
theories/SioModel.v
theories/SioProofs.v
theories/SioProofs2.v
theories/SioProps.v
theories/LcioModel.v
theories/LcioProps.v
theories/HeapModel.v
theories/HeapProps.v
theories/FastjetModel.v
theories/FastjetProofs.v
theories/FastjetProofs2.v
theories/FastjetProps.v
theories/XrdModel.v
theories/XrdProofs.v
theories/XrdProps.v
theories/XrdCliModel.v
theories/XrdCliProps.v
theories/XrdMuxModel.v
theories/XrdMuxProps.v
theories/TarjanModel.v
theories/TarjanProofs.v
theories/TarjanProps.v
theories/DflowModel.v
theories/DflowProps.v
theories/StoreModel.v
theories/StoreProps.v
theories/ParModel.v
theories/ParProps.v
theories/HepmcModel.v
theories/HepmcProps.v
theories/PidModel.v
theories/PidProps.v
theories/XrdSrvModel.v
theories/XrdPathProps.v
theories/XrdSrvProps.v
theories/XrdReachProps.v
theories/XrdWireProps.v
theories/XrdHandleModel.v
theories/XrdHandleProps.v
theories/RobjModel.v
theories/RobjProofs.v
theories/RobjProps.v
theories/RfileModel.v
theories/RfileSpec.v
theories/RfileProofs.v
theories/RfileInv.v
theories/RfileClose.v
theories/RfileOpen.v
theories/RfileLive.v
theories/RfileProps.v
theories/RfileLarge.v
theories/RecdirModel.v
theories/RecdirProofs.v
theories/RecdirProps.v
theories/RwalkModel.v
theories/RwalkProps.v
theories/FmomModel.v
theories/FmomProofs.v
theories/FmomProps.v
theories/FmomBoost.v
theories/FloatText.v
theories/GoQuote.v
theories/HepmcTextModel.v
theories/HepmcTextProofs.v
theories/HepmcTextProofs2.v
theories/HepmcTextSpec.v
theories/HepmcTextProofs3.v
theories/HepmcTextProofs4.v
theories/HepmcTextProofs5.v
theories/HepmcTextProofs6.v
theories/HepmcTextProps.v
theories/F64Arith.v
theories/HistModel.v
theories/HistProofs.v
theories/HistErr.v
theories/HistP1D.v
theories/HistProps.v
theories/BrioModel.v
theories/BrioProofs.v
theories/BrioProofs2.v
theories/BrioProps.v
theories/BrioGenModel.v
theories/BrioGenProps.v
theories/F64Near.v
theories/HopsModel.v
theories/HopsProofs.v
theories/HopsProofs2.v
theories/HopsProofs3.v
theories/HopsProofs4.v
theories/HopsProps.v
theories/LcioDataModel.v
theories/LcioDataSpec.v
theories/LcioDataProofs.v
theories/LcioDataProofs2.v
theories/LcioDataProofs3.v
theories/LcioDataProps.v
theories/LcioFileModel.v
theories/LcioFileProps.v
theories/PredModel.v
theories/PredProofs.v
theories/PredProps.v
theories/FloatDigits.v
theories/SlhaModel.v
theories/SlhaProofs.v
theories/SlhaProps.v
theories/ScanfModel.v
theories/ScanfProofs.v
theories/HepevtModel.v
theories/HepevtProofs.v
theories/HepevtProps.v
theories/LhefModel.v
theories/LhefFloat.v
theories/LhefProofs.v
theories/LhefProps.v
theories/CsvModel.v
theories/CsvProofs.v
theories/CsvProps.v
theories/YodaModel.v
theories/YodaProofs.v
theories/YodaProps.v
theories/YodaCnvModel.v
theories/YodaCnvProofs.v
theories/YodaCnvProps.v
theories/YodaH2Model.v
theories/YodaH2Proofs.v
theories/YodaH2Props.v
theories/PdtModel.v
theories/PdtProofs.v
theories/PdtProps.v
theories/SqlModel.v
theories/SqlProofs.v
theories/SqlProps.v
theories/SqlArgsModel.v
theories/SqlArgsProps.v
theories/SqlSelectModel.v
theories/SqlSelectProps.v
theories/SqlQueryProps.v
theories/SqlTypesModel.v
theories/SqlTypesProps.v
