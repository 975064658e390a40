-Q theories Verif
theories/Base.v
theories/RealFacts.v
theories/Gauss.v
theories/ConvertModel.v
theories/ConvertSpec.v
theories/ConvertProofs.v
theories/ConvertProps.v
theories/ConvertProps2.v
theories/Ext.v
theories/NonparModel.v
theories/NonparSpec.v
theories/NonparProofs.v
theories/NonparProofs2.v
theories/NonparProofs3.v
theories/NonparProofs4.v
theories/NonparSpec2.v
theories/NonparProofs5.v
theories/NonparProps.v
theories/NonparProps2.v
theories/RList.v
theories/RepairModel.v
theories/RepairSpec.v
theories/RepairProofs.v
theories/RepairProofs2.v
theories/RepairProofs3.v
theories/RepairProps.v
theories/Binom.v
theories/TestingModel.v
theories/TestingSpec.v
theories/TestingProofs.v
theories/TestingProofs2.v
theories/TestingProofs3.v
theories/TestingProofs4.v
theories/TestingProps.v
theories/Linear.v
theories/PoFModel.v
theories/PoFSpec.v
theories/PoFProofs.v
theories/PoFProofs2.v
theories/PoFProofs3.v
theories/PoFProps.v
theories/Improper.v
theories/DistModel.v
theories/DistSpec.v
theories/DistIntegrals.v
theories/DistProofs.v
theories/DistProofs2.v
theories/DistProofs3.v
theories/DistProofs4.v
theories/DistProps.v
theories/CombModel.v
theories/CombSpec.v
theories/CombProofs.v
theories/CombProofs2.v
theories/CombProps.v
theories/FitModel.v
theories/FitSpec.v
theories/FitProofs.v
theories/FitProps.v
theories/FitSpec2.v
theories/FitProofs2.v
theories/LocScale.v
theories/FitProofs3.v
theories/FitProps2.v
theories/DistProofs5.v
theories/DistProps2.v
theories/CombProofs3.v
theories/CombProps2.v
theories/CombProps3.v
theories/RegModel.v
theories/RegSpec.v
theories/RegProofs.v
theories/RegProps.v
theories/SelModel.v
theories/SelSpec.v
theories/SelProofs.v
theories/SelProps.v
theories/CIModel.v
theories/CISpec.v
theories/CIProofs.v
theories/CIProofs2.v
theories/CIProps.v
theories/PlotModel.v
theories/PlotSpec.v
theories/PlotProofs.v
theories/PlotProofs2.v
theories/PlotProps.v
theories/OtherModel.v
theories/GaussConv.v
theories/OtherSpec.v
theories/OtherProofs.v
theories/OtherProofs2.v
theories/OtherProofs3.v
theories/OtherProps.v
theories/ALTModel.v
theories/ALTSpec.v
theories/ALTProofs.v
theories/ALTProofs2.v
theories/ALTProofs3.v
theories/ALTProps.v
theories/ALTProps2.v
theories/ShapeModel.v
theories/ShapeSpec.v
theories/ShapeProps.v
theories/TickModel.v
theories/TickSpec.v
theories/TickProps.v
theories/TickProps2.v
theories/TickProps3.v
theories/TermModel.v
theories/TermSpec.v
theories/TermProps.v
theories/MixFloatModel.v
theories/MixFloatProps.v
theories/ExpectSpec.v
theories/Expect.v
theories/MomentModel.v
theories/MomentSpec.v
theories/MomentProofs.v
theories/MomentProofs2.v
theories/MomentProofs3.v
theories/MomentProofs4.v
theories/GumbelMean.v
theories/Zeta.v
theories/GumbelMoments.v
theories/MRLProofs.v
theories/MRLProofs2.v
theories/MRLProofs3.v
theories/MRLProps.v
theories/MomentProps.v
theories/QQModel.v
theories/QQSpec.v
theories/QQProofs.v
theories/QQProps.v
theories/InputModel.v
theories/InputSpec.v
theories/InputProofs.v
theories/InputProps.v
theories/MCFModel.v
theories/MCFSpec.v
theories/MCFProofs.v
theories/MCFProps.v
theories/LPlotModel.v
theories/LPlotSpec.v
theories/LPlotProofs.v
theories/LPlotProps.v
theories/FArgModel.v
theories/FArgSpec.v
theories/FArgProofs.v
theories/FArgProps.v
theories/PPlotModel.v
theories/PPlotSpec.v
theories/PPlotProofs.v
theories/PPlotProps.v
theories/CStatModel.v
theories/CStatProofs.v
theories/CStatSpec.v
theories/CStatProofs2.v
theories/CStatProofs3.v
theories/CStatProps.v
theories/RandModel.v
theories/RandSpec.v
theories/RandProofs.v
theories/RandProps.v
theories/GroupModel.v
theories/GroupSpec.v
theories/GroupProofs.v
theories/GroupProps.v
theories/AxesModel.v
theories/AxesSpec.v
theories/AxesProofs.v
theories/AxesProps.v
theories/ALTPlotModel.v
theories/ALTPlotSpec.v
theories/ALTPlotProofs.v
theories/ALTPlotProps.v
theories/ALTPlotProps2.v
theories/RoundModel.v
theories/RoundSpec.v
theories/RoundProofs.v
theories/RoundProps.v
theories/ExploreModel.v
theories/ExploreSpec.v
theories/ExploreProofs.v
theories/ExploreProps.v
theories/CrossModel.v
theories/CrossProps.v
theories/FullFitModel.v
theories/FullFitSpec.v
theories/FullFitProofs.v
theories/FullFitProps.v
theories/FullFitProps2.v
theories/FullFitProps3.v
theories/FullFitProps4.v
theories/FullFitProps5.v
theories/GrowthModel.v
theories/GrowthSpec.v
theories/GrowthProofs.v
theories/GrowthProps.v
theories/GrowthProps2.v
theories/SpecialModel.v
theories/SpecialSpec.v
theories/SpecialProofs.v
theories/SpecialProps.v
theories/SpecialProps2.v
theories/SpecialProps3.v
theories/WriteModel.v
theories/WriteSpec.v
theories/WriteProofs.v
theories/WriteProps.v
theories/SheetModel.v
theories/SheetSpec.v
theories/SheetProofs.v
theories/SheetProps.v
theories/NPlotModel.v
theories/NPlotSpec.v
theories/NPlotProofs.v
theories/NPlotProofs2.v
theories/NPlotProofs3.v
theories/NPlotProps.v
theories/RPlotModel.v
theories/RPlotSpec.v
theories/RPlotProofs.v
theories/RPlotProofs2.v
theories/RPlotProps.v
theories/MPlotModel.v
theories/MPlotSpec.v
theories/MPlotProofs.v
theories/MPlotProps.v
theories/RocofPlotModel.v
theories/RocofPlotSpec.v
theories/RocofPlotProofs.v
theories/RocofPlotProps.v
theories/FloatModel.v
theories/FloatSpec.v
theories/FloatProofs.v
theories/FloatProofs2.v
theories/FloatProofs3.v
theories/FloatProps.v
theories/FloatProofs4.v
theories/FloatProps2.v
theories/PanelModel.v
theories/PanelSpec.v
theories/PanelProps.v
theories/BandModel.v
theories/BandSpec.v
theories/BandProps.v
theories/BandProps2.v
theories/HistModel.v
theories/HistSpec.v
theories/HistProps.v
theories/HistProps2.v
theories/SeedModel.v
theories/SeedSpec.v
theories/SeedProofs.v
theories/SeedProps.v
theories/FitBandModel.v
theories/FitBandSpec.v
theories/FitBandProofs.v
theories/FitBandProps.v
theories/FitBandProps2.v
theories/EvPlotModel.v
theories/EvPlotSpec.v
theories/EvPlotProofs.v
theories/EvPlotProps.v
theories/EvPlotProps2.v
theories/NTableModel.v
theories/NTableSpec.v
theories/NTableProps.v
