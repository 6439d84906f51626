-Q theories Verif
theories/AirVacModel.v
theories/AirVacProofs.v
theories/AirVacProps.v
theories/AirVacSpec.v
theories/AmpModel.v
theories/AmpProofs.v
theories/AmpProofs2.v
theories/AmpProofs3.v
theories/AmpProofs4.v
theories/AmpProps.v
theories/AmpSpec.v
theories/AxisFlagModel.v
theories/AxisFlagProofs.v
theories/AxisFlagProps.v
theories/AxisFlagSpec.v
theories/AxisModel.v
theories/AxisProofs.v
theories/AxisProps.v
theories/AxisSpec.v
theories/Base.v
theories/CalzModel.v
theories/CalzProofs.v
theories/CalzProps.v
theories/CalzSpec.v
theories/CandModel.v
theories/CandProofs.v
theories/CandProps.v
theories/CandSpec.v
theories/CatalogModel.v
theories/CatalogProofs.v
theories/CatalogProps.v
theories/CatalogSpec.v
theories/ChiArrModel.v
theories/ChiArrProofs.v
theories/ChiArrProofs2.v
theories/ChiArrProofs3.v
theories/ChiArrProofs4.v
theories/ChiArrProps.v
theories/ChiArrSpec.v
theories/ClasModel.v
theories/ClasProofs.v
theories/ClasProofs2.v
theories/ClasProps.v
theories/ClasSpec.v
theories/ContModel.v
theories/ContProofs.v
theories/ContProps.v
theories/ContSpec.v
theories/CrulModel.v
theories/CrulProofs.v
theories/CrulProps.v
theories/CrulSpec.v
theories/CvtModel.v
theories/CvtNames.v
theories/CvtProofs.v
theories/CvtProofs2.v
theories/CvtProofs3.v
theories/CvtProofs4.v
theories/CvtProofs5.v
theories/CvtProps.v
theories/CvtSpec.v
theories/DeltazModel.v
theories/DeltazProofs.v
theories/DeltazProps.v
theories/DeltazSpec.v
theories/DetModel.v
theories/DetProofs.v
theories/DetProofs2.v
theories/DetProofs3.v
theories/DetProofs4.v
theories/DetProps.v
theories/DetSpec.v
theories/EfitModel.v
theories/EfitProofs.v
theories/EfitProofs2.v
theories/EfitProofs3.v
theories/EfitProofs4.v
theories/EfitProps.v
theories/EfitSpec.v
theories/ElemModel.v
theories/ElemProofs.v
theories/ElemProofs2.v
theories/ElemProofs3.v
theories/ElemProofs4.v
theories/ElemProofs5.v
theories/ElemProps.v
theories/ElemSpec.v
theories/ElistModel.v
theories/ElistProofs.v
theories/ElistProofs2.v
theories/ElistProofs3.v
theories/ElistProps.v
theories/ElistSpec.v
theories/ExtremumFind.v
theories/ExtremumModel.v
theories/ExtremumProofs.v
theories/ExtremumProps.v
theories/ExtremumSelect.v
theories/ExtremumSpec.v
theories/F64.v
theories/FftModel.v
theories/FftProofs.v
theories/FftProofs2.v
theories/FftProofs3.v
theories/FftProps.v
theories/FftSpec.v
theories/FitStoreModel.v
theories/FitStoreProofs.v
theories/FitStoreProps.v
theories/FitStoreSpec.v
theories/FluxModel.v
theories/FluxProofs.v
theories/FluxProps.v
theories/FluxSpec.v
theories/FpcLogModel.v
theories/FpcLogProofs.v
theories/FpcModel.v
theories/FpcProofs.v
theories/FpcProofs2.v
theories/FpcProofs3.v
theories/FpcProofs4.v
theories/FpcProps.v
theories/FpcSpec.v
theories/GaussInt.v
theories/IntegModel.v
theories/IntegProofs.v
theories/IntegProofs2.v
theories/IntegProps.v
theories/IntegSpec.v
theories/LProfAsym.v
theories/LProfModel.v
theories/LProfProofs.v
theories/LProfProps.v
theories/LProfSpec.v
theories/LbfModel.v
theories/LbfProofs.v
theories/LbfProofs10.v
theories/LbfProofs2.v
theories/LbfProofs3.v
theories/LbfProofs4.v
theories/LbfProofs5.v
theories/LbfProofs6.v
theories/LbfProofs7.v
theories/LbfProofs8.v
theories/LbfProofs9.v
theories/LbfProps.v
theories/LbfSpec.v
theories/LbfWit.v
theories/LfitModel.v
theories/LfitProofs.v
theories/LfitProofs2.v
theories/LfitProofs3.v
theories/LfitProofs4.v
theories/LfitProps.v
theories/LfitSpec.v
theories/LmrModel.v
theories/LmrProofs.v
theories/LmrProofs2.v
theories/LmrProofs3.v
theories/LmrProofs4.v
theories/LmrProps.v
theories/LmrSpec.v
theories/LogModel.v
theories/LogProofs.v
theories/LogProps.v
theories/LogSpec.v
theories/LogZModel.v
theories/LogZProofs.v
theories/LogZProofs2.v
theories/LogZProofs4.v
theories/LogZProps.v
theories/LogZSpec.v
theories/LsfModel.v
theories/LsfProofs.v
theories/LsfProps.v
theories/LsfSpec.v
theories/LyaModel.v
theories/LyaProofs.v
theories/LyaProofs2.v
theories/LyaProofs3.v
theories/LyaProofs4.v
theories/LyaProofs5.v
theories/LyaProofs6.v
theories/LyaProps.v
theories/LyaSpec.v
theories/MaskModel.v
theories/MaskProofs.v
theories/MaskProps.v
theories/MaskSpec.v
theories/MatchModel.v
theories/MatchProofs.v
theories/MatchProofs2.v
theories/MatchProps.v
theories/MatchSpec.v
theories/MedianModel.v
theories/MedianProofs.v
theories/MedianProps.v
theories/MedianSpec.v
theories/MeikModel.v
theories/MeikProofs.v
theories/MeikProps.v
theories/MeikSpec.v
theories/MspModel.v
theories/MspProofs.v
theories/MspProofs2.v
theories/MspProps.v
theories/MspSpec.v
theories/OrthoModel.v
theories/OrthoProofs.v
theories/OrthoProps.v
theories/OrthoSpec.v
theories/PdfModel.v
theories/PdfProofs.v
theories/PdfProofs2.v
theories/PdfProps.v
theories/PdfSpec.v
theories/PeakModel.v
theories/PeakProofs.v
theories/PeakProps.v
theories/PeakSpec.v
theories/PextModel.v
theories/PextProofs.v
theories/PextProofs2.v
theories/PextProofs3.v
theories/PextProps.v
theories/PextSpec.v
theories/PflowModel.v
theories/PflowProofs.v
theories/PflowProofs2.v
theories/PflowProofs3.v
theories/PflowProofs4.v
theories/PflowProofs5.v
theories/PflowProofs6.v
theories/PflowProofs7.v
theories/PflowProofs8.v
theories/PflowProps.v
theories/PflowSpec.v
theories/PflowWit.v
theories/PhotModel.v
theories/PhotProofs.v
theories/PhotProofs2.v
theories/PhotProofs3.v
theories/PhotProofs4.v
theories/PhotProps.v
theories/PhotSpec.v
theories/PolyModel.v
theories/PolyProps.v
theories/PreModel.v
theories/PreProofs.v
theories/PreProofs2.v
theories/PreProofs3.v
theories/PreProofs4.v
theories/PreProps.v
theories/PreSpec.v
theories/PrihModel.v
theories/PrihProofs.v
theories/PrihProps.v
theories/PrihSpec.v
theories/RBase.v
theories/RX.v
theories/RangeGridProofs.v
theories/RangeLogModel.v
theories/RangeLogProofs.v
theories/RangeLogProps.v
theories/RangeLogSpec.v
theories/RangeModel.v
theories/RangeProofs.v
theories/RangeProps.v
theories/RangeSpec.v
theories/RatModel.v
theories/RatProofs.v
theories/RatProofs2.v
theories/RatProofs3.v
theories/RatProofs4.v
theories/RatProofs5.v
theories/RatProofs6.v
theories/RatProofs7.v
theories/RatProps.v
theories/RatSpec.v
theories/RdrModel.v
theories/RdrProofs.v
theories/RdrProofs2.v
theories/RdrProofs3.v
theories/RdrProofs4.v
theories/RdrProofs5.v
theories/RdrProps.v
theories/RdrSpec.v
theories/RdrWit.v
theories/RebinModel.v
theories/RebinProofs.v
theories/RebinProps.v
theories/RebinSpec.v
theories/RelyModel.v
theories/RelyProofs.v
theories/RelyProofs2.v
theories/RelyProps.v
theories/RelySpec.v
theories/RulesModel.v
theories/RulesProofs.v
theories/RulesProps.v
theories/RulesSpec.v
theories/ScopeModel.v
theories/ScopeProofs.v
theories/ScopeProps.v
theories/ScopeSpec.v
theories/SgridModel.v
theories/SgridProofs.v
theories/SgridProofs2.v
theories/SgridProofs3.v
theories/SgridProofs4.v
theories/SgridProps.v
theories/SgridSpec.v
theories/SolModel.v
theories/SolProofs.v
theories/SolProofs2.v
theories/SolProofs3.v
theories/SolProofs4.v
theories/SolProofs5.v
theories/SolProofs6.v
theories/SolProofs7.v
theories/SolProps.v
theories/SolSpec.v
theories/SolvModel.v
theories/SolvProofs.v
theories/SolvProps.v
theories/SolvSpec.v
theories/SortLib.v
theories/SpcFacts.v
theories/SpcModel.v
theories/SpcProofs.v
theories/SpcProps.v
theories/SpcSpec.v
theories/StatModel.v
theories/StatProofs.v
theories/StatProofs2.v
theories/StatProofs3.v
theories/StatProofs4.v
theories/StatProps.v
theories/StatSpec.v
theories/StoreModel.v
theories/StoreProofs.v
theories/StoreProps.v
theories/StoreSpec.v
theories/SvdModel.v
theories/SvdProofs.v
theories/SvdProofs2.v
theories/SvdProofs3.v
theories/SvdProps.v
theories/SvdSpec.v
theories/SymIgmModel.v
theories/SymIgmProofs.v
theories/SymIgmProps.v
theories/TFitModel.v
theories/TFitProofs.v
theories/TFitProofs2.v
theories/TFitProofs3.v
theories/TFitProofs4.v
theories/TFitProofs5.v
theories/TFitProofs6.v
theories/TFitProofs7.v
theories/TFitProps.v
theories/TFitSpec.v
theories/TcatModel.v
theories/TcatProofs.v
theories/TcatProps.v
theories/TcatSpec.v
theories/TcmbModel.v
theories/TcmbProofs.v
theories/TcmbProofs2.v
theories/TcmbProofs3.v
theories/TcmbProofs4.v
theories/TcmbProofs5.v
theories/TcmbProofs6.v
theories/TcmbProofs7.v
theories/TcmbProofs8.v
theories/TcmbProofs9.v
theories/TcmbProps.v
theories/TcmbSpec.v
theories/TfsvModel.v
theories/TfsvProofs.v
theories/TfsvProofs2.v
theories/TfsvProofs3.v
theories/TfsvProps.v
theories/TfsvSpec.v
theories/TplModel.v
theories/TplProofs.v
theories/TplProofs2.v
theories/TplProps.v
theories/TplRatioModel.v
theories/TplRatioProofs.v
theories/TplRatioProps.v
theories/TplRatioSpec.v
theories/TplSpec.v
theories/ValModel.v
theories/ValProofs.v
theories/ValProps.v
theories/ValSpec.v
theories/VfitModel.v
theories/VfitProofs.v
theories/VfitProofs2.v
theories/VfitProofs3.v
theories/VfitProofs4.v
theories/VfitProofs5.v
theories/VfitProps.v
theories/VfitSpec.v
theories/ZGridModel.v
theories/ZGridProofs.v
theories/ZGridProps.v
theories/ZGridSpec.v
theories/ZrngModel.v
theories/ZrngProofs.v
theories/ZrngProofs2.v
theories/ZrngProofs3.v
theories/ZrngProps.v
theories/ZrngSpec.v
