-Q theories Verif
theories/Base.v
theories/BaseLemmas.v
theories/DisjointSetModel.v
theories/DisjointSetSpec.v
theories/DisjointSetProofs.v
theories/DisjointSetProps.v
theories/LabelSetModel.v
theories/LabelSetSpec.v
theories/LabelSetProofs.v
theories/LabelSetProps.v
theories/MinMaxHeapModel.v
theories/MinMaxHeapSpec.v
theories/MinMaxHeapTree.v
theories/MinMaxHeapProofs.v
theories/MinMaxHeapOps.v
theories/MinMaxHeapRun.v
theories/MinMaxHeapWitness.v
theories/MinMaxHeapProps.v
theories/IntervalModel.v
theories/IntervalSpec.v
theories/GridSpec.v
theories/IntervalProofs.v
theories/IntervalProps.v
theories/BitsModel.v
theories/BitsSpec.v
theories/BitsProofs.v
theories/BitsProps.v
theories/MortonModel.v
theories/MortonSpec.v
theories/MortonProofs.v
theories/MortonProps.v
theories/MortonFloatModel.v
theories/MortonFloatSpec.v
theories/MortonFloatProofs.v
theories/MortonFloatProps.v
theories/MortonTreeModel.v
theories/MortonTreeSpec.v
theories/MortonTreeProofs.v
theories/MortonTreeProps.v
theories/ParamModel.v
theories/ParamSpec.v
theories/ParamProofs.v
theories/ParamProps.v
theories/ProfilerModel.v
theories/ProfilerSpec.v
theories/ProfilerProofs.v
theories/ProfilerProps.v
theories/PeakModel.v
theories/PeakSpec.v
theories/PeakProofs.v
theories/PeakLine.v
theories/PeakBest.v
theories/PeakProps.v
theories/TlsModel.v
theories/TlsSpec.v
theories/TlsProofs.v
theories/TlsProps.v
theories/FunctionsModel.v
theories/FunctionsSpec.v
theories/FunctionsProofs.v
theories/PolyBound.v
theories/PiBounds.v
theories/FastTrigProofs.v
theories/FastSinProofs.v
theories/FunctionsProps.v
theories/PnebiModel.v
theories/PnebiSpec.v
theories/PnebiProofs.v
theories/BesselProofs.v
theories/BesselOde.v
theories/BesselLarge.v
theories/BesselOrders.v
theories/PnebiShape.v
theories/PnebiTable.v
theories/PnebiProps2.v
theories/PnebiProps.v
theories/Geometry2Model.v
theories/Geometry2Spec.v
theories/Geometry2Proofs.v
theories/Geometry2Props.v
theories/GisModel.v
theories/GisSpec.v
theories/GisProofs.v
theories/GisArc.v
theories/GisProps.v
theories/AlignerModel.v
theories/AlignerSpec.v
theories/AlignerProofs.v
theories/AlignerProps.v
theories/IoModel.v
theories/IoSpec.v
theories/IoProofs.v
theories/IoProps.v
theories/BoxModel.v
theories/BoxSpec.v
theories/BoxProofs.v
theories/BoxFit.v
theories/BoxFit3.v
theories/BoxWitness.v
theories/BoxSvd.v
theories/BoxInit.v
theories/BoxProps.v
theories/HoughModel.v
theories/HoughSpec.v
theories/HoughProofs.v
theories/HoughFacts.v
theories/HoughFind.v
theories/HoughWitness.v
theories/HoughBest.v
theories/HoughProps.v
theories/AssocModel.v
theories/AssocSpec.v
theories/AssocProofs.v
theories/AssocFacts.v
theories/AssocProps.v
theories/DoubleModel.v
theories/DoubleSpec.v
theories/DoubleProofs.v
theories/DoubleTrig.v
theories/DoubleProps.v
theories/SingleModel.v
theories/SingleProofs.v
theories/SingleProps.v
theories/GeoFloatModel.v
theories/GeoFloatSpec.v
theories/GeoFloatProofs.v
theories/GeoFloatProps.v
theories/VectorModel.v
theories/VectorSpec.v
theories/VectorProofs.v
theories/VectorProps.v
theories/GisFloatModel.v
theories/GisFloatSpec.v
theories/GisFloatProofs.v
theories/GisFloatProps.v
theories/HoughFloatModel.v
theories/HoughFloatSpec.v
theories/HoughFloatProofs.v
theories/HoughFloatProps.v
theories/TlsFloatModel.v
theories/TlsFloatSpec.v
theories/TlsFloatProofs.v
theories/IeeeProofs.v
theories/TlsGridProofs.v
theories/TlsOneProofs.v
theories/TlsCounterProofs.v
theories/TlsFloatProps.v
theories/IntervalChkModel.v
theories/IntervalChkSpec.v
theories/IntervalChkProofs.v
theories/PeakChkSpec.v
theories/PeakChkProofs.v
theories/IntervalChkProps.v
theories/HoughChkModel.v
theories/HoughChkSpec.v
theories/HoughChkProofs.v
theories/HoughChkProps.v
theories/DisjointIntModel.v
theories/DisjointIntProofs.v
theories/DisjointIntProps.v
theories/LabelPrintModel.v
theories/LabelPrintSpec.v
theories/LabelPrintProofs.v
theories/LabelPrintProps.v
theories/MortonNanModel.v
theories/MortonNanSpec.v
theories/MortonNanProofs.v
theories/MortonNanProps.v
theories/ProfilerFloatModel.v
theories/ProfilerFloatSpec.v
theories/ProfilerFloatProofs.v
theories/ProfilerFloatProps.v
theories/AssocFloatModel.v
theories/AssocFloatSpec.v
theories/AssocFloatProofs.v
theories/AssocFloatProps.v
theories/FourierFloatModel.v
theories/FourierFloatSpec.v
theories/FourierFloatProofs.v
theories/FourierFloatProps.v
theories/ParamIntModel.v
theories/ParamIntSpec.v
theories/ParamIntProofs.v
theories/ParamIntProps.v
theories/ParamListModel.v
theories/ParamListSpec.v
theories/ParamListProofs.v
theories/ParamListProps.v
theories/LutFloatModel.v
theories/LutFloatSpec.v
theories/LutFloatProofs.v
theories/LutFloatProps.v
theories/ParamBoolModel.v
theories/ParamBoolSpec.v
theories/ParamBoolProofs.v
theories/ParamBoolProps.v
theories/BoxMomentModel.v
theories/BoxMomentSpec.v
theories/BoxMomentProofs.v
theories/BoxMomentProps.v
theories/BoxFloatModel.v
theories/BoxFloatProofs.v
theories/BoxFloatProps.v
theories/HoughWinModel.v
theories/HoughWinSpec.v
theories/HoughWinProofs.v
theories/HoughWinProps.v
theories/ScopeModel.v
theories/ScopeSpec.v
theories/ScopeProofs.v
theories/ScopeProps.v
theories/MacroModel.v
theories/MacroSpec.v
theories/MacroProofs.v
theories/MacroProps.v
theories/StampModel.v
theories/StampSpec.v
theories/StampProofs.v
theories/StampProps.v
