-Q theories Verif
theories/CInt.v
theories/GeomModel.v
theories/GeomSpec.v
theories/GeomProofs.v
theories/GeomProofs2.v
theories/DraughtModel.v
theories/DraughtProofs.v
theories/DraughtProofs2.v
theories/Properties_Geom.v
theories/Lib.v
theories/ByteModel.v
theories/ByteSpec.v
theories/ByteProofs.v
theories/CrcModel.v
theories/CrcSpec.v
theories/CrcProofs.v
theories/OmpModel.v
theories/OmpProofs.v
theories/IOModel.v
theories/IOSpec.v
theories/IOProofs.v
theories/IOProofs2.v
theories/Properties_IO.v
theories/Cplx.v
theories/CMat.v
theories/Arr.v
theories/Det.v
theories/MatSpec.v
theories/MmulModel.v
theories/MmulProofs.v
theories/MatModel.v
theories/MatProofs.v
theories/MatProofs2.v
theories/InvModel.v
theories/InvProofs.v
theories/InvProofs2.v
theories/MatEx.v
theories/GramModel.v
theories/GramProofs.v
theories/Su2Model.v
theories/Su2Proofs.v
theories/ProjModel.v
theories/ProjProofs.v
theories/ExpModel.v
theories/ExpSpec.v
theories/SpecCalc.v
theories/ExpProofs.v
theories/ExpProofs2.v
theories/Properties_Exp.v
theories/FieldModel.v
theories/FieldProofs.v
theories/FieldProofs2.v
theories/FieldProofs3.v
theories/Properties_Field.v
theories/Properties_Group.v
theories/Properties_Proj.v
theories/Properties_Mat.v
theories/Properties_Inv.v
theories/SmearModel.v
theories/SmearProofs.v
theories/SmearProofs2.v
theories/Properties_Smear.v
theories/TextModel.v
theories/HdrModel.v
theories/RngModel.v
theories/TextProofs.v
theories/RngProofs.v
theories/RngProofs2.v
theories/RngProofs3.v
theories/RngProofs4.v
theories/RngProofs5.v
theories/RngSpec.v
theories/Properties_Rng.v
theories/NerscModel.v
theories/NerscProofs.v
theories/Properties_Hdr.v
theories/CernModel.v
theories/CernProofs.v
theories/HirepModel.v
theories/HirepProofs.v
theories/LimeModel.v
theories/LimeSpec.v
theories/LimeProofs.v
theories/Properties_Fmt.v
theories/NumModel.v
theories/NumProofs.v
theories/NumProofs2.v
theories/NumProofs3.v
theories/ScaleModel.v
theories/ScaleProofs.v
theories/ScaleProofs2.v
theories/ScaleProofs3.v
theories/Properties_Num.v
theories/CutsModel.v
theories/CutsSpec.v
theories/CutsProofs.v
theories/CutsProofs2.v
theories/CutsRModel.v
theories/CutsRSpec.v
theories/CutsRProofs.v
theories/TripModel.v
theories/TripProofs.v
theories/Properties_Cuts.v
theories/RunModel.v
theories/RunProofs.v
theories/Properties_Run.v
theories/LieModel.v
theories/LieProofs.v
theories/LieProofs2.v
theories/LieProofs3.v
theories/Properties_Lie.v
theories/InputModel.v
theories/InputProofs.v
theories/InputProofs2.v
theories/InputProofs3.v
theories/Properties_Input.v
theories/XmlModel.v
theories/XmlProofs.v
theories/XmlProofs2.v
theories/XmlProofs3.v
theories/XmlProofs4.v
theories/XmlProofs5.v
theories/Properties_Xml.v
theories/AxialModel.v
theories/AxialProofs.v
theories/AxialProofs2.v
theories/AxialProofs3.v
theories/GivensProofs.v
theories/GivensProofs2.v
theories/GivensProofs3.v
theories/ResidualProofs.v
theories/ResidualProofs2.v
theories/Properties_Axial.v
theories/CloverModel.v
theories/CloverProofs.v
theories/CloverProofs2.v
theories/CloverProofs3.v
theories/CloverProofs4.v
theories/CloverProofs5.v
theories/CloverProofs6.v
theories/CloverProofs7.v
theories/CloverProofs8.v
theories/CloverProofs9.v
theories/CloverProofs10.v
theories/Properties_Clover.v
theories/RebuildModel.v
theories/RebuildProofs.v
theories/Properties_Rebuild.v
theories/ApeModel.v
theories/ApeProofs.v
theories/Properties_Ape.v
theories/FftModel.v
theories/FftProofs.v
theories/QtopModel.v
theories/QtopSpec.v
theories/QtopProofs.v
theories/QtopProofs2.v
theories/QtopProofs3.v
theories/QtopProofs4.v
theories/QtopProofs5.v
theories/Properties_Qtop.v
theories/StaticModel.v
theories/StaticSpec.v
theories/StaticProofs.v
theories/StaticProofs2.v
theories/StaticProofs3.v
theories/Properties_Static.v
theories/HypModel.v
theories/HypSpec.v
theories/HypProofs.v
theories/HypProofs2.v
theories/HypProofs3.v
theories/HypProofs4.v
theories/HypProofs5.v
theories/HypProofs6.v
theories/HypProofs7.v
theories/Properties_Hyp.v
theories/GluonModel.v
theories/GluonSpec.v
theories/GluonProofs.v
theories/GluonProofs2.v
theories/GluonProofs3.v
theories/GluonProofs4.v
theories/GluonProofs5.v
theories/Properties_Gluon.v
theories/Properties_Gluon2.v
theories/InstModel.v
theories/InstSpec.v
theories/InstProofs.v
theories/InstProofs2.v
theories/Properties_Inst.v
theories/CfgModel.v
theories/CfgSpec.v
theories/CfgProofs.v
theories/CfgProofs2.v
theories/Properties_Cfg.v
theories/U1Model.v
theories/U1Spec.v
theories/U1Proofs.v
theories/U1Proofs2.v
theories/U1Proofs3.v
theories/U1Proofs4.v
theories/U1Proofs5.v
theories/U1Proofs6.v
theories/Properties_U1.v
theories/LandauModel.v
theories/LandauSpec.v
theories/LandauProofs.v
theories/LandauProofs2.v
theories/LandauProofs3.v
theories/LandauProofs4.v
theories/LandauProofs5.v
theories/LandauProofs6.v
theories/Properties_Landau.v
theories/LandauSpec2.v
theories/LandauProofs7.v
theories/LandauProofs8.v
theories/Properties_Landau2.v
theories/ReportModel.v
theories/ReportSpec.v
theories/ReportProofs.v
theories/ReportProofs2.v
theories/Properties_Report.v
theories/AdaptModel.v
theories/AdaptSpec.v
theories/AdaptProofs.v
theories/Properties_Adapt.v
theories/CopiesModel.v
theories/CopiesProofs.v
theories/Properties_Copies.v
theories/CheckModel.v
theories/Properties_Check.v
theories/BallsModel.v
theories/BallsProofs.v
theories/BallsProofs2.v
theories/Properties_Balls.v
theories/BpstModel.v
theories/BpstProofs.v
theories/BpstProofs2.v
theories/Properties_Bpst.v
theories/StepsModel.v
theories/Properties_Steps.v
theories/LogModel.v
theories/Properties_Log.v
