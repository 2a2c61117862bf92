-Q theories Verif
theories/Base.v
theories/Spec.v
theories/NameSpec.v
theories/NewSpec.v
theories/GenModel.v
theories/ShuffleModel.v
theories/AddModel.v
theories/KernelModel.v
theories/DivModel.v
theories/MetricModel.v
theories/UtilsModel.v
theories/LinearModel.v
theories/HubModel.v
theories/ConvModel.v
theories/BinConvModel.v
theories/NewModel.v
theories/Float32Model.v
theories/RnnModel.v
theories/MguModel.v
theories/RtlModel.v
theories/RtlMoreModel.v
theories/RtlMoreSpec.v
theories/TensorModel.v
theories/TMetricModel.v
theories/TDivModel.v
theories/TensorSpec.v
theories/TMetricSpec.v
theories/TDivSpec.v
theories/ReportModel.v
theories/ReportSpec.v
theories/BinConvSpec.v
theories/ChainSpec.v
theories/HubErrSpec.v
theories/ConvErrSpec.v
theories/BaseLemmas.v
theories/SobolProof.v
theories/GenProof.v
theories/ShuffleProof.v
theories/AddProof.v
theories/KernelProof.v
theories/PropsStream.v
theories/PropsKernel.v
theories/DivProof.v
theories/MetricProof.v
theories/UtilsProof.v
theories/LinearProof.v
theories/ChainProof.v
theories/HubProof.v
theories/TlutProof.v
theories/ConvProof.v
theories/BinConvProof.v
theories/NameProof.v
theories/NewProof.v
theories/HubErrProof.v
theories/ConvErrProof.v
theories/Float32Proof.v
theories/RnnProof.v
theories/MguProof.v
theories/RtlProof.v
theories/RtlCountProof.v
theories/RtlMulProof.v
theories/RtlAddProof.v
theories/RtlOddProof.v
theories/RtlRootModel.v
theories/RtlRootSpec.v
theories/RtlRootProof.v
theories/RtlMacModel.v
theories/RtlMacSpec.v
theories/RtlMacProof.v
theories/RtlTmacModel.v
theories/RtlTmacSpec.v
theories/RtlTmacProof.v
theories/PropsRtlTmac.v
theories/RtlAddsModel.v
theories/RtlAddsSpec.v
theories/RtlAddsProof.v
theories/PropsRtlAdds.v
theories/RtlSobolTwoModel.v
theories/RtlSobolTwoSpec.v
theories/RtlSobolTwoProof.v
theories/PropsRtlSobolTwo.v
theories/RtlDmacProof.v
theories/RtlUmacProof.v
theories/SqrtEmitSpec.v
theories/SqrtEmitProof.v
theories/PropsSqrtEmit.v
theories/DivZeroProof.v
theories/PropsDivZero.v
theories/MonoSpec.v
theories/MonoProof.v
theories/MonoUnitsProof.v
theories/PropsMono.v
theories/FaultSpec.v
theories/FaultProof.v
theories/PropsFault.v
theories/SymSpec.v
theories/SymProof.v
theories/PropsSym.v
theories/ShiftSpec.v
theories/ShiftProof.v
theories/PropsShift.v
theories/WeightSpec.v
theories/WeightProof.v
theories/PropsWeight.v
theories/PeriodSpec.v
theories/PeriodProof.v
theories/PeriodConvProof.v
theories/PeriodReluProof.v
theories/PropsPeriod.v
theories/StallSpec.v
theories/StallProof.v
theories/PropsStall.v
theories/TempoSpec.v
theories/TempoProof.v
theories/PropsTempo.v
theories/RtlHaltonProof.v
theories/PropsRtlOdd.v
theories/PropsRtlRoot.v
theories/PropsRtlMac.v
theories/PropsRtlMore.v
theories/RtlRngProof.v
theories/TensorProof.v
theories/TMetricProof.v
theories/TDivProof.v
theories/ReportProof.v
theories/PropsDiv.v
theories/PropsMetric.v
theories/PropsUtils.v
theories/PropsLinear.v
theories/PropsHub.v
theories/PropsConv.v
theories/PropsBinConv.v
theories/PropsChain.v
theories/PropsName.v
theories/PropsNew.v
theories/PropsHubErr.v
theories/PropsConvErr.v
theories/ProgSpec.v
theories/ProgProof.v
theories/PropsProg.v
theories/NetSpec.v
theories/NetProof.v
theories/PropsNet.v
theories/F32LayerModel.v
theories/F32LayerProof.v
theories/PropsF32Layer.v
theories/CnnModel.v
theories/CnnSpec.v
theories/CnnProof.v
theories/PropsCnn.v
theories/DtypeModel.v
theories/DtypeSpec.v
theories/DtypeProof.v
theories/DtypeCountProof.v
theories/DtypeSyncProof.v
theories/DtypeLayerProof.v
theories/PropsDtype.v
theories/SatSpec.v
theories/SatProof.v
theories/SatLinProof.v
theories/SatConvProof.v
theories/SatMulProof.v
theories/SatMguProof.v
theories/PropsSat.v
theories/CellSpec.v
theories/CellProof.v
theories/AliasModel.v
theories/AliasSpec.v
theories/AliasProof.v
theories/AliasModProof.v
theories/AliasMod2Proof.v
theories/AliasLayerProof.v
theories/PropsAlias.v
theories/PropsCell.v
theories/PropsFloat.v
theories/PropsRnn.v
theories/PropsMgu.v
theories/PropsRtl.v
theories/PropsTensor.v
theories/PropsTMetric.v
theories/PropsTDiv.v
theories/PropsReport.v
