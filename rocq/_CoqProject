-Q theories Verif
theories/Air/AirModel.v
theories/Calendar/DateModel.v
theories/Calendar/DateProofs.v
theories/Calendar/DateSpec.v
theories/Calendar/PeriodProofs.v
theories/Common/Base.v
theories/Common/Flt.v
theories/Common/REval.v
theories/Common/Text.v
theories/Geometry/BBoxModel.v
theories/Geometry/GeomProofs.v
theories/Geometry/LoopModel.v
theories/Geometry/LoopProofs.v
theories/Geometry/MachineModel.v
theories/Geometry/TransformMachineModel.v
theories/Geometry/TransformMachineProofs.v
theories/Properties/TransformMachineProps.v
theories/Geometry/MachineProofs.v
theories/Geometry/MergeProofs.v
theories/Geometry/SplitModel.v
theories/Geometry/SplitProofs.v
theories/Geometry/ConvexProofs.v
theories/Geometry/InsideProofs.v
theories/Geometry/ClipModel.v
theories/Geometry/LoopFileModel.v
theories/Geometry/MeshModel.v
theories/Geometry/MeshProofs.v
theories/Geometry/OrientationModel.v
theories/Geometry/QuickInvSqrtModel.v
theories/Geometry/QuickInvSqrtProofs.v
theories/Geometry/RoundErrorModel.v
theories/Geometry/RoundErrorProofs.v
theories/Geometry/ShapesModel.v
theories/Geometry/ShapesProofs.v
theories/Geometry/TransformModel.v
theories/Geometry/TriangleModel.v
theories/Geometry/TriangleProofs.v
theories/Geometry/Vec.v
theories/Heat/ConvectionModel.v
theories/Heat/DiscretizationModel.v
theories/Heat/DiscretizationProofs.v
theories/Heat/GasModel.v
theories/Heat/GlazingModel.v
theories/Heat/MarchModel.v
theories/Heat/TridiagProofs.v
theories/Heat/WallModel.v
theories/Heat/WallProofs.v
theories/Heat/ZoneModel.v
theories/Heat/DevicesModel.v
theories/Heat/WindModel.v
theories/Heat/BuildingHeatModel.v
theories/Light/LightModel.v
theories/Matrix/GaussProofs.v
theories/Matrix/GaussSeidel.v
theories/Matrix/MatrixModel.v
theories/Matrix/MatrixProofs.v
theories/Matrix/MatrixSpec.v
theories/Matrix/NDiagProofs.v
theories/Polynomial/PolynomialModel.v
theories/Properties/AirProps.v
theories/Properties/BvhProps.v
theories/Properties/CalendarProps.v
theories/Properties/CameraProps.v
theories/Properties/CavityProps.v
theories/Properties/ConvectionProps.v
theories/Properties/CylinderProps.v
theories/Properties/DaylightProps.v
theories/Properties/DiscretizationProps.v
theories/Properties/DiskProps.v
theories/Properties/GeometryProps.v
theories/Properties/GlazingProps.v
theories/Properties/ImageProps.v
theories/Properties/LampProps.v
theories/Properties/LightProps.v
theories/Properties/LoopProps.v
theories/Properties/SplitProps.v
theories/Properties/InsideProps.v
theories/Properties/ClipProps.v
theories/Properties/LoopFileProps.v
theories/Properties/SizesProps.v
theories/Properties/SolarStateProps.v
theories/Properties/MachineProps.v
theories/Properties/MarchProps.v
theories/Properties/MaterialProps.v
theories/Properties/MatrixFileProps.v
theories/Properties/MatrixProps.v
theories/Properties/MeshProps.v
theories/Properties/ObjProps.v
theories/Properties/OrientationProps.v
theories/Properties/PerezProps.v
theories/Properties/PolynomialProps.v
theories/Properties/RadianceProps.v
theories/Properties/RadiationProps.v
theories/Properties/RayTracerProps.v
theories/Properties/RoundErrorProps.v
theories/Properties/SamplersProps.v
theories/Properties/ScannerProps.v
theories/Properties/SceneProps.v
theories/Properties/SceneSkyProps.v
theories/Properties/ShapesProps.v
theories/Properties/SkyProps.v
theories/Properties/SphereMeshProps.v
theories/Properties/StateProps.v
theories/Properties/SunProps.v
theories/Properties/TriangleProps.v
theories/Properties/WallProps.v
theories/Properties/WeatherProps.v
theories/Properties/ZoneProps.v
theories/Properties/DevicesProps.v
theories/Properties/WindProps.v
theories/Properties/BuildingHeatProps.v
theories/Rendering/BvhModel.v
theories/Rendering/BvhProofs.v
theories/Rendering/DaylightModel.v
theories/Rendering/ImageModel.v
theories/Rendering/ImageProofs.v
theories/Rendering/MaterialModel.v
theories/Rendering/MatrixFile.v
theories/Rendering/MatrixFileProofs.v
theories/Rendering/ObjModel.v
theories/Rendering/RadianceModel.v
theories/Rendering/RadianceProofs.v
theories/Rendering/RayTracerModel.v
theories/Rendering/SamplersModel.v
theories/Rendering/SceneModel.v
theories/Rendering/SceneSkyModel.v
theories/Rendering/SphereMeshModel.v
theories/Rendering/SphereMeshProofs.v
theories/Rendering/SphereMeshStart.v
theories/Scanner/ScannerModel.v
theories/Scanner/ScannerProofs.v
theories/State/BuildingModel.v
theories/State/BuildingProofs.v
theories/State/ControlModel.v
theories/State/RunModel.v
theories/State/RunProofs.v
theories/State/SizesModel.v
theories/State/SolarStateModel.v
theories/State/StateModel.v
theories/State/StateProofs.v
theories/Weather/EpwModel.v
theories/Weather/EpwProofs.v
theories/Weather/PerezModel.v
theories/Weather/PerezProofs.v
theories/Weather/SkyModel.v
theories/Weather/SkyProofs.v
theories/Weather/SunModel.v
theories/Weather/WeatherModel.v
theories/Weather/WeatherProofs.v
