-Q theories Verif
theories/Prelude.v
theories/DofModel.v
theories/DofSpec.v
theories/DofProofs.v
theories/DofProofs2.v
theories/DofProps.v
theories/SparsityModel.v
theories/SparsitySpec.v
theories/SparsityProofs.v
theories/IterProofs.v
theories/IterProofs2.v
theories/SparsityProps.v
theories/SymModel.v
theories/SymSpec.v
theories/SymProofs.v
theories/SymProofs2.v
theories/SymProofs3.v
theories/SymProps.v
theories/MemModel.v
theories/MemSpec.v
theories/MemProofs.v
theories/MemProofs2.v
theories/MemProofs3.v
theories/MemProps.v
theories/RSum.v
theories/DirModel.v
theories/DirSpec.v
theories/DirProofs.v
theories/DirProofs2.v
theories/DirProps.v
theories/EnumModel.v
theories/EnumSpec.v
theories/EnumProofs.v
theories/EnumProofs2.v
theories/EnumProps.v
theories/OrdModel.v
theories/OrdSpec.v
theories/OrdProofs.v
theories/OrdProofs2.v
theories/OrdProps.v
theories/GeoModel.v
theories/GeoSpec.v
theories/GeoProofs.v
theories/GeoProofs2.v
theories/GeoProps.v
theories/DenseModel.v
theories/DenseSpec.v
theories/DenseProofs.v
theories/DenseProofs2.v
theories/DenseProofs3.v
theories/DenseProps.v
theories/QrModel.v
theories/QrSpec.v
theories/QrProofs.v
theories/QrProofs2.v
theories/QrProps.v
theories/CoreModel.v
theories/CoreSpec.v
theories/CoreProofs.v
theories/CoreProofs2.v
theories/CoreProofs3.v
theories/CoreProofs4.v
theories/CoreProofs5.v
theories/CoreProofs6.v
theories/CoreProofs7.v
theories/CoreProps.v
theories/SpModel.v
theories/SpSpec.v
theories/SpProofs.v
theories/SpProofs2.v
theories/SpProofs3.v
theories/SpProofs4.v
theories/SpProofs5.v
theories/SpProofs6.v
theories/SpProofs7.v
theories/SpProofs8.v
theories/SpProps.v
theories/BasModel.v
theories/BasSpec.v
theories/BasProofs.v
theories/BasProofs2.v
theories/BasProofs3.v
theories/BasProofs4.v
theories/BasProofs5.v
theories/BasProofs6.v
theories/BasProofs7.v
theories/BasProofs8.v
theories/BasProofs9.v
theories/BasProps.v
theories/BasProps2.v
theories/IntModel.v
theories/IntSpec.v
theories/IntProofs.v
theories/IntProofs2.v
theories/IntProofs3.v
theories/IntProofs4.v
theories/IntProofs5.v
theories/IntProofs6.v
theories/IntProps.v
theories/QuadModel.v
theories/QuadTables.v
theories/QuadRules.v
theories/QuadSpec.v
theories/QuadProofs.v
theories/QuadCheck.v
theories/QuadPoly.v
theories/QuadSym.v
theories/QuadProofs2.v
theories/QuadProofs3.v
theories/QuadCheck1.v
theories/QuadProofs4.v
theories/QuadProps.v
theories/IvlModel.v
theories/IvlSpec.v
theories/IvlProofs.v
theories/IvlProofs2.v
theories/IvlProofs3.v
theories/IvlProps.v
theories/IenModel.v
theories/IenSpec.v
theories/IenProofs.v
theories/IenProps.v
theories/ExtModel.v
theories/ExtSpec.v
theories/ExtProofs.v
theories/ExtProofs2.v
theories/ExtProofs3.v
theories/ExtProofs4.v
theories/ExtProofs5.v
theories/ExtProofs6.v
theories/ExtProofs7.v
theories/ExtProofs8.v
theories/ExtProps.v
theories/ExtModel2.v
theories/ExtSpec2.v
theories/ExtProofs9.v
theories/ExtProps2.v
theories/ExtModel3.v
theories/ExtProofs10.v
theories/ExtProps3.v
theories/OeModel.v
theories/OeSpec.v
theories/OeProofs.v
theories/OeProps.v
theories/FiModel.v
theories/FiSpec.v
theories/FiProofs.v
theories/FiProofs2.v
theories/FiProofs3.v
theories/FiProofs4.v
theories/FiProofs5.v
theories/FiProps.v
theories/AdModel.v
theories/AdSpec.v
theories/AdProofs.v
theories/AdProofs2.v
theories/AdProofs3.v
theories/AdProofs4.v
theories/AdProofs5.v
theories/AdProofs6.v
theories/AdProofs7.v
theories/AdProofs8.v
theories/AdProps.v
theories/TnModel.v
theories/TnSpec.v
theories/TnProofs.v
theories/TnProofs2.v
theories/TnProofs3.v
theories/TnProps.v
theories/MechModel.v
theories/MechSpec.v
theories/MechProofs.v
theories/MechProofs2.v
theories/MechProofs3.v
theories/MechProofs4.v
theories/MechProps.v
theories/AsmModel.v
theories/AsmSpec.v
theories/AsmProofs.v
theories/AsmProofs2.v
theories/AsmProofs3.v
theories/AsmProofs4.v
theories/AsmProofs5.v
theories/AsmProofs6.v
theories/AsmProps.v
theories/FwModel.v
theories/FwSpec.v
theories/FwProofs.v
theories/FwProofs2.v
theories/FwProofs3.v
theories/FwProofs4.v
theories/FwProps.v
theories/MeshModel.v
theories/MeshSpec.v
theories/MeshProofs.v
theories/MeshProofs2.v
theories/MeshProofs3.v
theories/MeshProofs4.v
theories/MeshProps.v
theories/KinModel.v
theories/KinSpec.v
theories/KinProofs.v
theories/KinProofs2.v
theories/KinProofs3.v
theories/KinProps.v
theories/UtModel.v
theories/UtSpec.v
theories/UtProofs.v
theories/UtProofs2.v
theories/UtProps.v
theories/DifModel.v
theories/DifSpec.v
theories/DifProofs.v
theories/DifProofs2.v
theories/DifProofs3.v
theories/DifProofs4.v
theories/DifProps.v
theories/SvdModel.v
theories/SvdSpec.v
theories/SvdProofs.v
theories/SvdProofs2.v
theories/SvdProofs3.v
theories/SvdProofs4.v
theories/SvdProofs5.v
theories/SvdProps.v
theories/AmModel.v
theories/AmSpec.v
theories/AmSpec2.v
theories/AmProofs.v
theories/AmProofs2.v
theories/AmProofs3.v
theories/AmProofs4.v
theories/AmProofs5.v
theories/AmProofs6.v
theories/AmProofs7.v
theories/AmSpec3.v
theories/AmProofs8.v
theories/AmProps.v
theories/AmProps2.v
theories/EvModel.v
theories/EvSpec.v
theories/EvProofs.v
theories/EvProofs2.v
theories/EvProps.v
theories/GwModel.v
theories/GwSpec.v
theories/GwProofs.v
theories/GwProofs2.v
theories/GwProofs3.v
theories/GwProps.v
theories/CpModel.v
theories/CpSpec.v
theories/CpProofs.v
theories/CpProofs2.v
theories/CpProps.v
theories/MpModel.v
theories/MpSpec.v
theories/MpProofs.v
theories/MpProofs2.v
theories/MpProps.v
theories/LcModel.v
theories/LcSpec.v
theories/LcProofs.v
theories/LcProofs2.v
theories/LcProps.v
theories/GeomIterSpec.v
theories/GeomIterProofs.v
theories/GeomIterProps.v
theories/GdModel.v
theories/GdSpec.v
theories/GdProofs.v
theories/GdProps.v
theories/TsModel.v
theories/TsSpec.v
theories/TsProofs.v
theories/TsProps.v
theories/RmModel.v
theories/RmSpec.v
theories/RmProofs.v
theories/RmProps.v
theories/ValModel.v
theories/ValSpec.v
theories/ValProps.v
theories/VwModel.v
theories/VwProps.v
theories/ViterModel.v
theories/ViterProps.v
theories/DitModel.v
theories/DitSpec.v
theories/DitProps.v
