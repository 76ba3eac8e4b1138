-Q theories Verif
theories/Np.v
theories/NpFacts.v
theories/Fl.v
theories/FlFacts.v
theories/TSModel.v
theories/TSSpec.v
theories/TSProofs.v
theories/TSThms.v
theories/DiagTypes.v
theories/DiagModel.v
theories/DiagSpec.v
theories/DiagProofs.v
theories/DiagProofs2.v
theories/DiagProofs3.v
theories/DiagThms.v
theories/VecModel.v
theories/VecSpec.v
theories/SliceFacts.v
theories/VecProofs.v
theories/VecProofs2.v
theories/VecProofs3.v
theories/VecProofs4.v
theories/VecThms.v
theories/RNp.v
theories/RNormFacts.v
theories/MetricModel.v
theories/MetricSpec.v
theories/MetricProofs.v
theories/MetricProofs2.v
theories/MetricProofs3.v
theories/MetricProofs4.v
theories/MetricProofs5.v
theories/MetricThms.v
theories/StabSpec.v
theories/StabThms.v
theories/EquivSpec.v
theories/EquivThms.v
theories/ScalerSpec.v
theories/ScalerModel.v
theories/ScalerThms.v
theories/ExtTypes.v
theories/ExtModel.v
theories/ExtSpec.v
theories/ExtThms.v
theories/MatchThms.v
theories/CacheModel.v
theories/CacheSpec.v
theories/CacheThms.v
theories/FeatModel.v
theories/FeatSpec.v
theories/FeatProofs.v
theories/FeatProofs2.v
theories/FeatThms.v
theories/Nd.v
theories/NdFacts.v
theories/ImgModel.v
theories/ImgSpec.v
theories/ImgProofs.v
theories/ImgProofs2.v
theories/ImgProofs3.v
theories/ImgThms.v
theories/ImgModel2.v
theories/ImgSpec2.v
theories/ImgProofs4.v
theories/ImgProofs5.v
theories/ImgProofs6.v
theories/ImgThms2.v
theories/CoverModel.v
theories/CoverSpec.v
theories/CoverProofs.v
theories/CoverProofs2.v
theories/CoverProofs3.v
theories/CoverProofs4.v
theories/CoverThms.v
theories/MapperModel.v
theories/MapperSpec.v
theories/MapperProofs.v
theories/MapperProofs2.v
theories/MapperProofs3.v
theories/MapperThms.v
theories/MapInvSpec.v
theories/MapInvThms.v
theories/FitTypes.v
theories/FitModel.v
theories/FitSpec.v
theories/FitAna.v
theories/FitThms.v
theories/FitThms2.v
theories/BatchSpec.v
theories/BatchThms.v
theories/BatchThms2.v
theories/ImgSymSpec.v
theories/ImgSymThms.v
theories/ImgSymThms2.v
theories/ImgSymThms3.v
theories/ImgSymThms4.v
theories/AmpLipThms.v
theories/CtorTypes.v
theories/CtorModel.v
theories/CtorSpec.v
theories/CtorThms.v
theories/CtorThms2.v
theories/CtorThms3.v
theories/ErrThms.v
theories/ErrThms2.v
theories/ImgFlowSpec.v
theories/ImgFlowThms.v
theories/ImgFlowThms2.v
theories/ImgFlowThms3.v
theories/ImgFlowModel.v
theories/ImgFlowThms4.v
theories/ImgFlowThms5.v
theories/ImgFlowSpec2.v
theories/ImgFlowThms6.v
theories/ImgFlowThms7.v
theories/FitExtSpec.v
theories/FitExtThms.v
theories/LogModel.v
theories/LogSpec.v
theories/LogThms.v
theories/IvTextModel.v
theories/IvTextThms.v
theories/StreamThms.v
theories/WrapModel.v
theories/WrapSpec.v
theories/WrapThms.v
theories/PicModel.v
theories/PicSpec.v
theories/PicThms.v
theories/PadThms.v
theories/GapModel.v
theories/GapThms.v
theories/IntervalModel.v
theories/IntervalThms.v
theories/ValidModel.v
theories/ValidSpec.v
theories/ValidThms.v
theories/HomModel.v
theories/HomSpec.v
theories/HomProofs.v
theories/HomThms.v
theories/MParModel.v
theories/MParProofs.v
theories/MParSpec.v
theories/MParThms.v
theories/MParThms2.v
theories/PipeModel.v
theories/PipeSpec.v
theories/PipeProofs.v
theories/PipeThms.v
theories/GraphModel.v
theories/GraphSpec.v
theories/GraphProofs.v
theories/GraphThms.v
theories/GraphThms2.v
theories/RescaleModel.v
theories/RescaleSpec.v
theories/RescaleProofs.v
theories/RescaleThms.v
theories/RescaleThms2.v
theories/CurveModel.v
theories/CurveSpec.v
theories/CurveThms.v
theories/CurveThms2.v
theories/CurveThms3.v
theories/LocalModel.v
theories/LocalSpec.v
theories/LocalThms.v
theories/LocalThms2.v
theories/HistThms.v
theories/MetaModel.v
theories/MetaThms.v
theories/StatModel.v
theories/StatSpec.v
theories/StatThms.v
theories/StatThms2.v
theories/FilterModel.v
theories/FilterSpec.v
theories/FilterThms.v
theories/FilterThms2.v
theories/FilterThms3.v
theories/TakensModel.v
theories/TakensSpec.v
theories/TakensThms.v
theories/TakensThms2.v
theories/TakensThms3.v
theories/TakensThms4.v
theories/TakensThms5.v
theories/TakensThms6.v
theories/PlotTypes.v
theories/PlotModel.v
theories/PlotSpec.v
theories/PlotThms.v
theories/PlotThms2.v
theories/PlotThms3.v
theories/PlotThms4.v
theories/PlotThms5.v
theories/PlotExamples.v
theories/ColorTypes.v
theories/ColorModel.v
theories/ColorSpec.v
theories/ColorThms.v
theories/ColorThms2.v
theories/ColorThms3.v
theories/MplotTypes.v
theories/MplotModel.v
theories/MplotSpec.v
theories/MplotThms.v
theories/MplotThms2.v
theories/MplotThms3.v
theories/MplotThms4.v
theories/MplotThms5.v
theories/MplotThms6.v
theories/IplotTypes.v
theories/IplotModel.v
theories/IplotSpec.v
theories/IplotThms.v
theories/IplotThms2.v
theories/IplotThms3.v
theories/IplotThms4.v
theories/FlowModel.v
theories/FlowSpec.v
theories/FlowThms.v
theories/FlowThms2.v
theories/KnnModel.v
theories/KnnSpec.v
theories/KnnThms.v
theories/KnnThms2.v
theories/KnnThms3.v
theories/CutModel.v
theories/CutSpec.v
theories/CutThms.v
theories/CutThms2.v
theories/CutThms3.v
theories/CutThms4.v
theories/RndModel.v
theories/RndSpec.v
theories/RndThms.v
