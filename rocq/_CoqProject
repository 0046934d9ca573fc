-Q theories Verif
theories/Num.v
theories/NumR.v
theories/XNum.v
theories/F32.v
theories/F32Laws.v
theories/F32Lemmas.v
theories/LcgModel.v
theories/LcgIntProofs.v
theories/LcgFloatProofs.v
theories/LcgProps.v
theories/BitModel.v
theories/BitSpec.v
theories/BitProofs.v
theories/BitProps.v
theories/MiniFloatModel.v
theories/MiniFloatSpec.v
theories/MiniFloatProofs.v
theories/MiniFloatProps.v
theories/IntFuncModel.v
theories/IntFuncProofs.v
theories/IntFuncProps.v
theories/ScalarModel.v
theories/DerivLemmas.v
theories/ScalarProofs.v
theories/ScalarProps.v
theories/InterpProps.v
theories/Vec3Model.v
theories/GeoSpec.v
theories/GeoLemmas.v
theories/Vec3Props.v
theories/GeoTypes.v
theories/AabbModel.v
theories/AabbSpec.v
theories/AabbProofs.v
theories/AabbProps.v
theories/AabbProps2.v
theories/KdTreeModel.v
theories/KdTreeSpec.v
theories/KdTreeProofs.v
theories/KdRayProofs.v
theories/KdRayExact.v
theories/KdTreeProps.v
theories/KdTreeProps2.v
theories/Vec2Model.v
theories/QuadTreeModel.v
theories/QuadTreeSpec.v
theories/QuadTreeProofs.v
theories/QuadTreeGrow.v
theories/QuadTreeHist.v
theories/QuadTreeQuery.v
theories/QuadTreeGeo.v
theories/QuadTreeReal.v
theories/QuadTreeF32.v
theories/QuadTreeStats.v
theories/QuadTreeProps.v
theories/GMatModel.v
theories/GMatSpec.v
theories/GMatProofs.v
theories/MatModel.v
theories/MatSpec.v
theories/MatProofs.v
theories/MatProofs2.v
theories/MatProps.v
theories/MatF32.v
theories/Vec3Misc.v
theories/Vec2Spec.v
theories/Vec2Props.v
theories/RotModel.v
theories/RotSpec.v
theories/RotProofs.v
theories/RotProofs2.v
theories/RotProofs3.v
theories/RotProofs4.v
theories/RotProofs5.v
theories/RotProps.v
theories/LineModel.v
theories/LineSpec.v
theories/LineProofs.v
theories/LineProofs2.v
theories/LineProps.v
theories/PlaneModel.v
theories/PlaneSpec.v
theories/PlaneProps.v
theories/PlaneProps2.v
theories/PlaneProps3.v
theories/PlaneProps4.v
theories/SphereModel.v
theories/SphereSpec.v
theories/SphereProps.v
theories/SphereProps2.v
theories/SphereProps3.v
theories/SphereF32.v
theories/SphereProps4.v
theories/SphereProps5.v
theories/SphereProps6.v
theories/TriangleModel.v
theories/TriangleSpec.v
theories/TriangleProps.v
theories/TriangleProps2.v
theories/SatTheory.v
theories/SatModel.v
theories/SatProps.v
theories/TriangleProps3.v
theories/TriangleProps4.v
theories/TriangleProps5.v
theories/TriangleProps6.v
theories/TriangleProps7.v
theories/CircleModel.v
theories/CircleProps.v
theories/CapsuleModel.v
theories/CapsuleProps.v
theories/CapsuleProps2.v
theories/CapsuleProps3.v
theories/ObbModel.v
theories/ObbProps.v
theories/ObbProps2.v
theories/ObbProps3.v
theories/ObbProps4.v
theories/ObbProps5.v
theories/ObbProps6.v
theories/ObbProps7.v
theories/HullModel.v
theories/HullSpec.v
theories/HullProofs.v
theories/HullProofs2.v
theories/HullProps.v
theories/HullProps2.v
theories/FrustumModel.v
theories/FrustumSpec.v
theories/FrustumProps.v
theories/FrustumProps2.v
theories/FrustumProps3.v
theories/FrustumProps4.v
theories/FrustumProps5.v
theories/FrustumProps6.v
theories/FrustumProps7.v
theories/PbvProps.v
theories/GjkModel.v
theories/GjkSpec.v
theories/GjkProofs.v
theories/GjkProps.v
theories/PlaneTestModel.v
theories/PlaneTestSpec.v
theories/PlaneTestProofs.v
theories/PlaneTestProps.v
theories/PlaneTestProps2.v
theories/PlaneTestProps3.v
theories/PolygonModel.v
theories/PolygonSpec.v
theories/PolygonProofs.v
theories/PolygonProps.v
theories/PolygonProps2.v
theories/PolygonProps3.v
theories/PolygonProps4.v
theories/PolygonProps5.v
theories/PolyTopoModel.v
theories/PolyTopoSpec.v
theories/PolyTopoProofs.v
theories/PolyTopoProps.v
theories/PolyTopoProps2.v
theories/PolyTopoProps3.v
theories/PolyhedronModel.v
theories/PolyhedronSpec.v
theories/PolyhedronProofs.v
theories/PolyhedronProps.v
theories/PolyhedronProps2.v
theories/PolyhedronProps3.v
theories/PolyhedronProps4.v
theories/PolyhedronProps5.v
theories/PivotProps.v
theories/TightProps.v
theories/Flat2Model.v
theories/Flat2Spec.v
theories/Flat2Props.v
theories/Flat2Props2.v
theories/Flat2Props3.v
theories/Circle2Proofs.v
theories/Circle2Proofs2.v
theories/Circle2Props.v
theories/TriMeshModel.v
theories/TriMeshSpec.v
theories/TriMeshProofs.v
theories/TriMeshProps.v
theories/TriMeshProps2.v
theories/TriMeshProps3.v
theories/TriMeshF32.v
theories/Vec4Model.v
theories/Vec4Spec.v
theories/Vec4Proofs.v
theories/Vec4Props.v
theories/Vec4Props2.v
theories/MinRectModel.v
theories/MinRectSpec.v
theories/MinRectProofs.v
theories/MinRectProofs2.v
theories/MinRectProofs3.v
theories/MinRectProps.v
theories/PlanarObbModel.v
theories/PlanarObbProofs.v
theories/PlanarObbProps.v
theories/PlanarObbProps2.v
theories/PolyhedronProps6.v
theories/PolygonProps6.v
theories/SphereProps7.v
theories/TriMeshProps4.v
theories/RandomModel.v
theories/RandomProps.v
theories/RandomProps2.v
theories/ClockModel.v
theories/ClockProps.v
theories/PolyhedronProps7.v
theories/ToHedModel.v
theories/ToHedProofs.v
theories/ToHedProps.v
theories/ToHedProps2.v
theories/ShapeSetModel.v
theories/ShapeSetProps.v
theories/ShapeSetProps2.v
theories/PolyMeetModel.v
theories/PolyMeetProps.v
theories/PolyBoxModel.v
theories/PolyBoxProps.v
theories/PolyBoxProps2.v
theories/PolyPolyModel.v
theories/PolyPolyProps.v
