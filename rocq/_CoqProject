-Q theories Verif
theories/Fld.v
theories/Py.v
theories/LinSpec.v
theories/GraphModel.v
theories/LinAlg.v
theories/LinReduce.v
theories/GraphSpec.v
theories/GraphProofs.v
theories/GraphPurge.v
theories/GraphSolve.v
theories/GraphMain.v
theories/GraphFinal.v
theories/DagModel.v
theories/SparseModel.v
theories/LinIo.v
theories/Herm.v
theories/DagSpec.v
theories/DagElim.v
theories/DagPivot.v
theories/DagHouse.v
theories/DagLoops.v
theories/DagPurge.v
theories/DagSolve.v
theories/DagFinal.v
theories/DagExamples.v
theories/SparseSpec.v
theories/SparseFinal.v
theories/SolverAgree.v
theories/GraphProps.v
theories/DagProps.v
theories/SreModel.v
theories/SreSpec.v
theories/SreProofs.v
theories/SreProps.v
theories/HeapModel.v
theories/HeapSpec.v
theories/HeapProofs.v
theories/HeapProps.v
theories/BitsModel.v
theories/BitsProofs.v
theories/BitsProps.v
theories/TopoModel.v
theories/TopoSpec.v
theories/TopoProofs.v
theories/TopoProps.v
theories/KeysModel.v
theories/KeysSpec.v
theories/KeysProofs.v
theories/KeysProps.v
theories/CplxModel.v
theories/CplxSpec.v
theories/CplxProofs.v
theories/CplxProps.v
theories/KmatModel.v
theories/KmatSpec.v
theories/KmatProofs.v
theories/KmatProps.v
theories/PortModel.v
theories/PortSpec.v
theories/PortProofs.v
theories/PortProofs2.v
theories/PortProps.v
theories/CohModel.v
theories/CohSpec.v
theories/CohProofs.v
theories/CohFinal.v
theories/CohProps.v
theories/InjModel.v
theories/InjSpec.v
theories/InjProofs.v
theories/InjProps.v
theories/SolModel.v
theories/SolSpec.v
theories/SolProofs.v
theories/SolFinal.v
theories/SolProps.v
theories/ElecModel.v
theories/ElecSpec.v
theories/ElecProofs.v
theories/ElecFinal.v
theories/ElecProps.v
theories/OptModel.v
theories/OptSpec.v
theories/OptProofs.v
theories/OptRot.v
theories/OptFinal.v
theories/OptProps.v
theories/SigModel.v
theories/SigSpec.v
theories/SigProofs.v
theories/SigFinal.v
theories/SigProps.v
theories/AlmModel.v
theories/AlmSpec.v
theories/AlmProofs.v
theories/AlmProofs2.v
theories/AlmProofs3.v
theories/AlmProofs4.v
theories/AlmFinal.v
theories/AlmProps.v
theories/SecModel.v
theories/SecSpec.v
theories/SecProofs.v
theories/SecFinal.v
theories/SecProps.v
theories/UnitModel.v
theories/UnitSpec.v
theories/UnitProofs.v
theories/UnitFinal.v
theories/UnitProps.v
theories/NoiModel.v
theories/NoiSpec.v
theories/NoiProofs.v
theories/NoiProofs2.v
theories/NoiProofs3.v
theories/NoiProofs4.v
theories/NoiFinal.v
theories/NoiProps.v
theories/GraftModel.v
theories/GraftSpec.v
theories/GraftProofs.v
theories/GraftProofs2.v
theories/GraftProofs3.v
theories/GraftFinal.v
theories/GraftProps.v
theories/PdModel.v
theories/PdSpec.v
theories/PdProofs.v
theories/PdProofs2.v
theories/PdProofs3.v
theories/PdFinal.v
theories/PdProps.v
theories/FillModel.v
theories/FillSpec.v
theories/FillProofs.v
theories/FillProofs2.v
theories/FillProofs3.v
theories/FillProofs4.v
theories/FillProofs5.v
theories/FillExamples.v
theories/FillFinal.v
theories/FillProps.v
theories/LevModel.v
theories/LevSpec.v
theories/LevProofs.v
theories/LevProofs2.v
theories/LevFinal.v
theories/LevProps.v
theories/LoopModel.v
theories/LoopSpec.v
theories/LoopProofs.v
theories/LoopFinal.v
theories/LoopProps.v
theories/PztModel.v
theories/PztSpec.v
theories/PztProofs.v
theories/PztProps.v
theories/OdeModel.v
theories/OdeSpec.v
theories/OdeProofs.v
theories/OdeProofs2.v
theories/OdeProofs3.v
theories/OdeFinal.v
theories/OdeExamples.v
theories/OdeProps.v
theories/NlcModel.v
theories/NlcSpec.v
theories/NlcProofs.v
theories/NlcProofs2.v
theories/NlcProofs3.v
theories/NlcProofs4.v
theories/NlcProps.v
theories/AomModel.v
theories/AomSpec.v
theories/AomProofs.v
theories/AomProofs2.v
theories/AomProps.v
theories/SqzModel.v
theories/SqzSpec.v
theories/SqzProofs.v
theories/SqzProofs2.v
theories/SqzProofs3.v
theories/SqzFinal.v
theories/SqzProps.v
theories/SrcModel.v
theories/SrcSpec.v
theories/SrcProofs.v
theories/SrcProofs2.v
theories/SrcProofs3.v
theories/SrcFinal.v
theories/SrcProps.v
theories/HomModel.v
theories/HomSpec.v
theories/HomProofs.v
theories/HomProofs2.v
theories/HomProofs3.v
theories/HomFinal.v
theories/HomProps.v
theories/SelModel.v
theories/SelSpec.v
theories/SelProofs.v
theories/SelFinal.v
theories/SelFinal2.v
theories/SelProps.v
theories/ZpkModel.v
theories/ZpkSpec.v
theories/ZpkProofs.v
theories/ZpkFinal.v
theories/ZpkProps.v
theories/GsModel.v
theories/GsSpec.v
theories/GsProofs.v
theories/GsProofs2.v
theories/GsFinal.v
theories/GsFinal2.v
theories/GsProps.v
theories/PbsModel.v
theories/PbsSpec.v
theories/PbsProofs.v
theories/PbsFinal.v
theories/PbsProps.v
theories/LegModel.v
theories/LegSpec.v
theories/LegProofs.v
theories/LegProofs2.v
theories/LegProofs3.v
theories/LegProofs4.v
theories/LegFinal.v
theories/LegProps.v
theories/CutModel.v
theories/CutSpec.v
theories/CutProofs.v
theories/CutFinal.v
theories/CutProps.v
theories/MeaModel.v
theories/MeaSpec.v
theories/MeaProofs.v
theories/MeaFinal.v
theories/MeaProps.v
theories/MeaProofs2.v
theories/MeaFinal2.v
theories/WaistProps.v
theories/MetModel.v
theories/MetSpec.v
theories/MetProofs.v
theories/MetFinal.v
theories/MetProps.v
theories/LblModel.v
theories/LblSpec.v
theories/LblProofs.v
theories/LblFinal.v
theories/LblProps.v
theories/PhaModel.v
theories/PhaSpec.v
theories/PhaProofs.v
theories/PhaProps.v
theories/NanModel.v
theories/NanSpec.v
theories/NanProofs.v
theories/NanProps.v
