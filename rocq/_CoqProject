-Q theories Verif
theories/Prelude.v
theories/UtilModel.v
theories/UtilProofs.v
theories/UtilProps.v
theories/TreeModel.v
theories/TreeSpec.v
theories/TreeProofs.v
theories/TreeProofs2.v
theories/TreeProps.v
theories/GraphModel.v
theories/GraphSpec.v
theories/GraphProofs.v
theories/GraphProofs2.v
theories/GraphProps.v
theories/MeshModel.v
theories/MeshSpec.v
theories/MeshProofs.v
theories/MeshProps.v
theories/IoModel.v
theories/IoSpec.v
theories/IoProofs.v
theories/IoProofs2.v
theories/IoProofs3.v
theories/IoProps.v
theories/StlModel.v
theories/StlSpec.v
theories/StlProofs.v
theories/StlProofs2.v
theories/StlProps.v
theories/WildModel.v
theories/WildSpec.v
theories/WildProofs.v
theories/WildProofs2.v
theories/WildProofs3.v
theories/WildProofs4.v
theories/WildProofs5.v
theories/WildProps.v
theories/CfgModel.v
theories/CfgSpec.v
theories/CfgProofs.v
theories/CfgProofs2.v
theories/CfgProofs3.v
theories/CfgProps.v
theories/BufModel.v
theories/BufSpec.v
theories/BufProofs.v
theories/BufProofs2.v
theories/BufProofs3.v
theories/BufProps.v
theories/VecModel.v
theories/VecProofs.v
theories/SimModel.v
theories/SimSpec.v
theories/SimProofs.v
theories/SimProofs2.v
theories/SimProofs3.v
theories/SimProofs4.v
theories/SimDemo.v
theories/SimProps.v
theories/VoxModel.v
theories/VoxSpec.v
theories/VoxProofs.v
theories/VoxProps.v
theories/OutModel.v
theories/OutSpec.v
theories/OutProofs.v
theories/OutProps.v
theories/GeomModel.v
theories/GeomSpec.v
theories/GeomProofs1.v
theories/GeomProofs2.v
theories/GeomProofs3.v
theories/GeomProofs4.v
theories/GeomProofs5.v
theories/GeomProps.v
theories/TriModel.v
theories/TriSpec.v
theories/TriProofs.v
theories/TriProofs2.v
theories/TriProofs3.v
theories/TriProps.v
theories/PolyModel.v
theories/PolySpec.v
theories/PolyProofs1.v
theories/PolyProofs2.v
theories/PolyProofs3.v
theories/PolyProps.v
theories/SolidModel.v
theories/SolidSpec.v
theories/SolidProofs1.v
theories/SolidProofs2.v
theories/SolidProofs3.v
theories/SolidProps.v
theories/VisModel.v
theories/VisSpec.v
theories/VisProofs.v
theories/VisProps.v
theories/PlanSpec.v
theories/PlanProofs1.v
theories/PlanProofs2.v
theories/PlanProofs3.v
theories/PlanProofs4.v
theories/PlanProofs5.v
theories/PlanProps.v
theories/SliceModel.v
theories/SliceSpec.v
theories/SliceProofs1.v
theories/SliceProofs2.v
theories/SliceProofs3.v
theories/SliceProofs4.v
theories/SliceProofs5.v
theories/SliceProofs6.v
theories/SliceProofs7.v
theories/SliceProofs8.v
theories/SliceProofs9.v
theories/SliceProofs10.v
theories/SliceProps.v
theories/StitchModel.v
theories/StitchSpec.v
theories/StitchProofs1.v
theories/StitchProofs2.v
theories/StitchProofs3.v
theories/StitchProofs4.v
theories/StitchProofs5.v
theories/StitchProps.v
theories/CrossSpec.v
theories/CrossProofs1.v
theories/CrossProofs2.v
theories/CrossProps.v
theories/InsideSpec.v
theories/InsideProofs1.v
theories/InsideProofs2.v
theories/InsideProofs3.v
theories/InsideProps.v
theories/AdjSpec.v
theories/AdjProofs1.v
theories/AdjProofs2.v
theories/AdjProps.v
theories/RoomSpec.v
theories/RoomProofs1.v
theories/RoomProofs2.v
theories/RoomProofs3.v
theories/RoomProofs4.v
theories/RoomProofs5.v
theories/RoomProps.v
theories/BoxSpec.v
theories/BoxProofs1.v
theories/BoxProofs2.v
theories/BoxProofs3.v
theories/BoxProofs4.v
theories/BoxProofs5.v
theories/BoxProofs6.v
theories/BoxProps.v
theories/CubeSpec.v
theories/CubeProofs.v
theories/CubeProps.v
theories/AimSpec.v
theories/AimProofs.v
theories/AimProofs2.v
theories/AimProps.v
theories/EqModel.v
theories/EqSpec.v
theories/EqProofs.v
theories/EqProps.v
theories/DirModel.v
theories/DirSpec.v
theories/DirProofs.v
theories/DirProofs2.v
theories/DirProofs3.v
theories/DirProofs4.v
theories/DirProps.v
theories/FlModel.v
theories/FlSpec.v
theories/FlProofs.v
theories/FlProofs2.v
theories/FlProofs3.v
theories/FlProofs4.v
theories/FlProofs5.v
theories/FlProps.v
theories/FvModel.v
theories/FvSpec.v
theories/FvProofs.v
theories/FvProofs2.v
theories/FvProofs3.v
theories/FvProofs4.v
theories/FvProps.v
theories/SaveModel.v
theories/SaveSpec.v
theories/SaveProofs.v
theories/SaveProps.v
theories/RunModel.v
theories/RunSpec.v
theories/RunProofs.v
theories/RunProofs2.v
theories/RunProofs3.v
theories/RunProps.v
theories/MshModel.v
theories/MshSpec.v
theories/MshProofs.v
theories/MshProofs2.v
theories/MshProofs3.v
theories/MshProofs4.v
theories/MshProofs5.v
theories/MshProofs6.v
theories/MshProofs7.v
theories/MshProofs8.v
theories/MshProps.v
theories/ContModel.v
theories/ContSpec.v
theories/ContProofs.v
theories/ContProofs2.v
theories/ContProofs3.v
theories/ContProofs4.v
theories/ContProofs5.v
theories/ContProofs6.v
theories/ContProps.v
theories/CutModel.v
theories/CutSpec.v
theories/CutProofs.v
theories/CutProps.v
theories/PartModel.v
theories/PartSpec.v
theories/PartProofs.v
theories/PartProofs2.v
theories/PartProps.v
theories/StatModel.v
theories/StatSpec.v
theories/StatProofs.v
theories/StatProps.v
theories/TriaModel.v
theories/TriaSpec.v
theories/TriaProofs.v
theories/TriaProofs2.v
theories/TriaProofs3.v
theories/TriaProofs4.v
theories/TriaProofs5.v
theories/TriaProps.v
theories/LoadModel.v
theories/LoadSpec.v
theories/LoadProofs.v
theories/LoadProofs2.v
theories/LoadProps.v
theories/JoinModel.v
theories/JoinSpec.v
theories/JoinProofs.v
theories/JoinProofs2.v
theories/JoinProps.v
theories/WindSpec.v
theories/WindProofs1.v
theories/WindProofs2.v
theories/WindProofs3.v
theories/WindProofs4.v
theories/WindProofs5.v
theories/WindProofs6.v
theories/WindProps.v
theories/LoopSpec.v
theories/LoopProofs1.v
theories/LoopProofs2.v
theories/LoopProofs3.v
theories/LoopProofs4.v
theories/LoopProofs5.v
theories/LoopProofs6.v
theories/LoopProofs7.v
theories/LoopProps.v
theories/ShellSpec.v
theories/ShellProofs1.v
theories/ShellProofs2.v
theories/ShellProofs3.v
theories/ShellProofs4.v
theories/ShellProofs5.v
theories/ShellProofs6.v
theories/ShellProofs7.v
theories/ShellProofs8.v
theories/ShellProps.v
theories/ShellProofs9.v
theories/HallSpec.v
theories/HallProofs1.v
theories/HallProofs2.v
theories/HallProofs3.v
theories/HallProps.v
theories/LocSpec.v
theories/LocProofs1.v
theories/LocProofs2.v
theories/LocProps.v
theories/StaySpec.v
theories/StayProofs1.v
theories/StayProofs2.v
theories/StayProofs3.v
theories/StayProofs4.v
theories/StayProofs5.v
theories/StayProps.v
theories/PolyProofs4.v
theories/DoorSpec.v
theories/DoorProofs1.v
theories/DoorProofs2.v
theories/DoorProofs3.v
theories/DoorProps.v
theories/TransModel.v
theories/TransSpec.v
theories/TransProofs1.v
theories/TransProofs2.v
theories/TransProofs3.v
theories/TransProps.v
theories/ArrModel.v
theories/ArrProofs.v
theories/ArrProps.v
theories/PlotModel.v
theories/PlotSpec.v
theories/PlotProofs.v
theories/PlotProps.v
theories/RayPlotModel.v
theories/RayPlotProps.v
theories/LogModel.v
theories/LogProps.v
