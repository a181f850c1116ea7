-Q theories Verif

theories/AccProofs.v
theories/AccSpec.v
theories/AirModel.v
theories/AnalysisModel.v
theories/AnalysisProofs.v
theories/AnalysisSpec.v
theories/Arith.v
theories/ArithLemmas.v
theories/AtmoModel.v
theories/AtmoProofs.v
theories/AtmoSpec.v
theories/BuildModel.v
theories/BuildProofs.v
theories/BuildProofs2.v
theories/BuildSpec.v
theories/CalFileModel.v
theories/CalFileProofs.v
theories/CalibModel.v
theories/CalibProofs.v
theories/CalibSpec.v
theories/ChromaModel.v
theories/CiaoModel.v
theories/ConnModel.v
theories/ConnProofs.v
theories/ConnSpec.v
theories/CoroProofs.v
theories/CubeModel.v
theories/CubeProofs.v
theories/CubeSpec.v
theories/CurvModel.v
theories/CutModel.v
theories/CutProofs.v
theories/CutSpec.v
theories/DarkModel.v
theories/DarkProofs.v
theories/DemodModel.v
theories/DemodProofs.v
theories/DemodSpec.v
theories/DerivModel.v
theories/DerivProofs.v
theories/DerivSpec.v
theories/DistConf.v
theories/DistExample.v
theories/DistModel.v
theories/DistRec.v
theories/DistSim.v
theories/DistSpec.v
theories/DmModel.v
theories/DmProofs.v
theories/DmSpec.v
theories/DynModel.v
theories/DynProofs.v
theories/DynSpec.v
theories/ElongModel.v
theories/ExtModel.v
theories/ExtSrcModel.v
theories/ExtrapEdge.v
theories/ExtrapModel.v
theories/ExtrapProofs.v
theories/ExtrapSpec.v
theories/FieldAnModel.v
theories/FieldAnProofs.v
theories/FieldModel.v
theories/FieldProofs.v
theories/FieldSpec.v
theories/FilterFacts.v
theories/FilterFacts2.v
theories/FilterModel.v
theories/FilterProofs.v
theories/FilterSpec.v
theories/FitsModel.v
theories/FitsProofs.v
theories/FitsSpec.v
theories/FocalModel.v
theories/FocalProofs.v
theories/Fourier.v
theories/FreqModel.v
theories/FsocModel.v
theories/GenModel.v
theories/GenProofs.v
theories/GeomModel.v
theories/GeomProofs.v
theories/GridSpec.v
theories/IirProofs.v
theories/InfModel.v
theories/InfProofs.v
theories/InfProofs2.v
theories/InfProofs3.v
theories/InfProofs4.v
theories/InfSpec.v
theories/InfStencil.v
theories/InterpModel.v
theories/InterpProofs.v
theories/InterpSpec.v
theories/KlBaseModel.v
theories/ListProofs.v
theories/ListSpec.v
theories/LoopExample.v
theories/LoopLink.v
theories/LoopModel.v
theories/LoopProofs.v
theories/LoopSpec.v
theories/LpfModel.v
theories/MaskModel.v
theories/MaskProofs.v
theories/MmseModel.v
theories/MmseProofs.v
theories/MmseSpec.v
theories/MultirateModel.v
theories/MultirateProofs.v
theories/NamesModel.v
theories/NamesProofs.v
theories/NamesSpec.v
theories/NpModel.v
theories/NpProofs.v
theories/NpSegments.v
theories/NpSpec.v
theories/OptModel.v
theories/OptProofs.v
theories/OptSpec.v
theories/OpticalModel.v
theories/OpticalSpec.v
theories/ParamsModel.v
theories/ParamsProofs.v
theories/ParamsProofs2.v
theories/ParamsProofs3.v
theories/ParamsProofs4.v
theories/ParamsSpec.v
theories/PetalModel.v
theories/PetalProofs.v
theories/PetalSpec.v
theories/PhotModel.v
theories/PhotProofs.v
theories/PhotSpec.v
theories/PlotModel.v
theories/PlotProofs.v
theories/PlotSpec.v
theories/PolyModel.v
theories/PolyProofs.v
theories/PolySpec.v
theories/PostSpec.v
theories/PropModel.v
theories/PropProofs.v
theories/PropSpec.v
theories/Properties_Acc.v
theories/Properties_Air.v
theories/Properties_Analysis.v
theories/Properties_Atmo.v
theories/Properties_Build.v
theories/Properties_CalFile.v
theories/Properties_Calib.v
theories/Properties_Chroma.v
theories/Properties_Ciao.v
theories/Properties_Combine.v
theories/Properties_Conn.v
theories/Properties_Coro.v
theories/Properties_Cube.v
theories/Properties_Curv.v
theories/Properties_Cut.v
theories/Properties_Dark.v
theories/Properties_Demod.v
theories/Properties_Deriv.v
theories/Properties_Dist.v
theories/Properties_Dm.v
theories/Properties_Dyn.v
theories/Properties_Elong.v
theories/Properties_Exact.v
theories/Properties_Exact2.v
theories/Properties_Exact3.v
theories/Properties_Ext.v
theories/Properties_ExtSrc.v
theories/Properties_ExtSrc2.v
theories/Properties_Extrap.v
theories/Properties_Field.v
theories/Properties_FieldAn.v
theories/Properties_Filter.v
theories/Properties_Fits.v
theories/Properties_Focal.v
theories/Properties_Freq.v
theories/Properties_Fsoc.v
theories/Properties_Gen.v
theories/Properties_Geom.v
theories/Properties_Grid.v
theories/Properties_Inf.v
theories/Properties_Interp.v
theories/Properties_KlBase.v
theories/Properties_List.v
theories/Properties_Loop.v
theories/Properties_Lpf.v
theories/Properties_Mask.v
theories/Properties_Mmse.v
theories/Properties_Names.v
theories/Properties_Opt.v
theories/Properties_Optical.v
theories/Properties_Params.v
theories/Properties_Petal.v
theories/Properties_Phot.v
theories/Properties_Plot.v
theories/Properties_Poly.v
theories/Properties_Post.v
theories/Properties_Prop.v
theories/Properties_Psf.v
theories/Properties_PupCal.v
theories/Properties_Pyr.v
theories/Properties_PyrSize.v
theories/Properties_Pyramid.v
theories/Properties_Radial.v
theories/Properties_RandPhase.v
theories/Properties_Rebin.v
theories/Properties_Rec.v
theories/Properties_Screen.v
theories/Properties_Seconds.v
theories/Properties_Sh.v
theories/Properties_ShGeom.v
theories/Properties_ShImage.v
theories/Properties_Slopes.v
theories/Properties_Spot.v
theories/Properties_Sprint.v
theories/Properties_Store.v
theories/Properties_SubapCal.v
theories/Properties_TrigOrder.v
theories/Properties_Vec.v
theories/Properties_Wave.v
theories/Properties_Window.v
theories/Properties_Wire.v
theories/Properties_Zern.v
theories/Properties_ZernSens.v
theories/Properties_Zwfs.v
theories/PsfModel.v
theories/PsfProofs.v
theories/PsfProofs2.v
theories/PsfSize.v
theories/PsfSpec.v
theories/PupCalModel.v
theories/PupCalProofs.v
theories/PupCalSpec.v
theories/PyBase.v
theories/PyLemmas.v
theories/PyrModel.v
theories/PyrProofs.v
theories/PyrSpec.v
theories/QcTac.v
theories/RadialModel.v
theories/RadialProofs.v
theories/RadialSpec.v
theories/RandPhaseModel.v
theories/RandPhaseProofs.v
theories/RandPhaseSpec.v
theories/RebinModel.v
theories/RebinProofs.v
theories/RebinSpec.v
theories/RecModel.v
theories/RecProofs.v
theories/RecSpec.v
theories/ScaoExample.v
theories/ScreenModel.v
theories/ScreenProofs.v
theories/ScreenSpec.v
theories/SecondsModel.v
theories/SecondsProofs.v
theories/SecondsSpec.v
theories/ShGeomModel.v
theories/ShGeomProofs.v
theories/ShGeomSpec.v
theories/ShImageModel.v
theories/ShImageProofs.v
theories/ShImageSpec.v
theories/ShProofs.v
theories/ShSpec.v
theories/ShWeights.v
theories/SlopecModel.v
theories/SlopecProofs.v
theories/SlopecSpec.v
theories/SlopesModel.v
theories/SlopesProofs.v
theories/SlopesSpec.v
theories/SpotModel.v
theories/SprintModel.v
theories/SprintSpec.v
theories/SsrDataModel.v
theories/SsrDataProofs.v
theories/StoreModel.v
theories/StoreProofs.v
theories/StoreProofs2.v
theories/StoreSpec.v
theories/SubapCalModel.v
theories/SubapCalProofs.v
theories/SubapCalSpec.v
theories/SumLemmas.v
theories/TagModel.v
theories/TagProofs.v
theories/TrigOrderModel.v
theories/TrigOrderProofs.v
theories/TrigOrderSpec.v
theories/VecModel.v
theories/VecProofs.v
theories/VecProofs2.v
theories/VecSpec.v
theories/WaveModel.v
theories/WaveProofs.v
theories/WaveSpec.v
theories/WindowModel.v
theories/WindowProofs.v
theories/WindowSpec.v
theories/WireModel.v
theories/WireProofs.v
theories/WireProofs2.v
theories/WireSpec.v
theories/ZernModel.v
theories/ZernProofs.v
theories/ZernSensModel.v
theories/ZernSpec.v
