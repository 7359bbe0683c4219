-Q theories Verif
theories/Base.v
theories/BaseProofs.v
theories/ListSpec.v
theories/ListModel.v
theories/ListHist.v
theories/ListProofs.v
theories/ListProofs2.v
theories/ListProofs3.v
theories/ListProofs4.v
theories/ListProps.v
theories/HashModel.v
theories/HashSpec.v
theories/HashProofs.v
theories/HashProofs2.v
theories/HashProofs3.v
theories/HashProps.v
theories/SortModel.v
theories/SortProofs.v
theories/SortProps.v
theories/CompareModel.v
theories/CompareProps.v
theories/MarkModel.v
theories/MarkProps.v
theories/EntModel.v
theories/EntProps.v
theories/AttModel.v
theories/AttProps.v
theories/MSetModel.v
theories/MSetProps.v
theories/MeshModel.v
theories/MeshSpec.v
theories/MeshProofs.v
theories/MeshProofs2.v
theories/MeshProofs3.v
theories/MeshProofs4.v
theories/MeshProps.v
theories/ParModel.v
theories/ParProps.v
theories/TopoModel.v
theories/TopoSpec.v
theories/TopoProofs.v
theories/TopoProofs2.v
theories/TopoProofs3.v
theories/TopoProofs4.v
theories/TopoProofs5.v
theories/TopoProofs6.v
theories/TopoProofs7.v
theories/TopoProps.v
theories/TopoProps2.v
theories/TopoProps3.v
theories/ModModel.v
theories/ModProofs.v
theories/ModProofs2.v
theories/ModProofs3.v
theories/ModProps.v
theories/ModProps2.v
theories/ModProps3.v
theories/CommModel.v
theories/CommProofs.v
theories/CommProofs2.v
theories/ExchModel.v
theories/ExchProofs.v
theories/ExchProofs2.v
theories/ExchProofs3.v
theories/ExchProofs4.v
theories/ExchProofs5.v
theories/ExchProofs6.v
theories/ExchProofs7.v
theories/ExchProps.v
theories/GraphModel.v
theories/GraphProofs.v
theories/GraphProofs2.v
theories/GraphProps.v
theories/GraphProofs3.v
theories/GraphProofs4.v
theories/GraphProofs5.v
theories/GraphProps2.v
theories/ElGraphModel.v
theories/ElGraphProps.v
theories/CellModel.v
theories/CellSpec.v
theories/CellProofs.v
theories/CellProofs2.v
theories/CellProofs3.v
theories/CellProofs4.v
theories/CellProofs5.v
theories/CellProofs6.v
theories/CellProps.v
theories/BuildModel.v
theories/BuildProofs.v
theories/BuildProofs2.v
theories/BuildProofs3.v
theories/BuildProofs4.v
theories/BuildProofs5.v
theories/BuildProps.v
theories/LabelModel.v
theories/LabelProofs.v
theories/LabelProps.v
theories/GidModel.v
theories/GidProofs.v
theories/GidProofs2.v
theories/CoorProofs.v
theories/GidProofs3.v
theories/GidProofs4.v
theories/GidProofs5.v
theories/GidProofs6.v
theories/GidProofs7.v
theories/GidProps.v
theories/GidProps2.v
theories/RenumProofs.v
theories/RenumProps.v
theories/GenModel.v
theories/GenSpec.v
theories/GenProofs.v
theories/GenProofs2.v
theories/GenProofs3.v
theories/GenProofs4.v
theories/GenProofs5.v
theories/GenProofs6.v
theories/GenProps.v
theories/CheckModel.v
theories/CheckSpec.v
theories/CheckProofs.v
theories/CheckProofs2.v
theories/CheckProps.v
theories/FileModel.v
theories/FileSpec.v
theories/FileProofs.v
theories/FileProofs2.v
theories/FileProofs3.v
theories/FileProofs4.v
theories/FileProofs5.v
theories/FileProps.v
theories/FilePrec.v
theories/FileProps2.v
theories/SendModel.v
theories/SendSpec.v
theories/SendProofs.v
theories/SendProofs2.v
theories/SendProofs3.v
theories/SendProofs4.v
theories/SendProps.v
theories/SendProps2.v
theories/JoinModel.v
theories/JoinProofs.v
theories/JoinProps.v
theories/RefineModel.v
theories/RefineProofs.v
theories/RefineProps.v
theories/CollapseModel.v
theories/CollapseProofs.v
theories/CollapseProps.v
theories/PartModel.v
theories/PartSpec.v
theories/PartProofs.v
theories/PartProofs2.v
theories/PartProps.v
theories/PartProofs3.v
theories/PartProps2.v
theories/CopyModel.v
theories/CopySpec.v
theories/CopyProofs.v
theories/CopyProofs2.v
theories/CopyProofs3.v
theories/CopyProps.v
theories/GhostModel.v
theories/GhostSpec.v
theories/GhostProofs.v
theories/GhostProofs2.v
theories/GhostProofs3.v
theories/GhostProofs4.v
theories/GhostProofs5.v
theories/GhostProps.v
theories/CloneModel.v
theories/CloneSpec.v
theories/CloneProofs.v
theories/CloneProofs2.v
theories/CloneProps.v
theories/DistModel.v
theories/DistSpec.v
theories/DistProofs.v
theories/DistProofs2.v
theories/DistAdj.v
theories/DistProofs3.v
theories/DistProps.v
theories/DistProps2.v
theories/ColModel.v
theories/ColSpec.v
theories/ColProofs.v
theories/ColProps.v
theories/InteriorModel.v
theories/InteriorSpec.v
theories/InteriorProofs.v
theories/InteriorProps.v
theories/ExportModel.v
theories/ExportSpec.v
theories/ExportProofs.v
theories/ExportProps.v
theories/ConnModel.v
theories/ConnProofs.v
theories/ConnProps.v
theories/WeaveProps.v
theories/MetisModel.v
theories/MetisProofs.v
theories/MetisProps.v
theories/FormatModel.v
theories/FormatProps.v
theories/QuadModel.v
theories/QuadProps.v
theories/HexModel.v
theories/HexProps.v
