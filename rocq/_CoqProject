-Q theories Verif
theories/Util.v
theories/Grid.v
theories/Prog.v
theories/Schedule.v
theories/EdtModel.v
theories/ExactModel.v
theories/FloatModel.v
theories/EdtSpec.v
theories/EdtLineProofs.v
theories/EdtProofs.v
theories/EdtExact.v
theories/EdtFloat.v
theories/Occ.v
theories/SdfModel.v
theories/SdfSpec.v
theories/SdfProofs.v
theories/OccProofs.v
theories/SdfLaws.v
theories/SdfMapProofs.v
theories/SdfFloatSpec.v
theories/SdfFloatProofs.v
theories/EdtTop.v
theories/SdfTop.v
theories/PropsEdt.v
theories/PropsSdf.v
theories/FloatOrder.v
theories/SdfStateModel.v
theories/SdfStateSpec.v
theories/SdfStateProofs.v
theories/PropsSdfState.v
theories/TopologyModel.v
theories/ComponentSpec.v
theories/TopologyProofs.v
theories/LabelProofs.v
theories/ComponentMapModel.v
theories/ComponentMapSpec.v
theories/ComponentMapProofs.v
theories/TaggedMapProofs.v
theories/PropsComponents.v
theories/SurfaceModel.v
theories/SurfaceSpec.v
theories/SurfaceProofs.v
theories/HolesProofs.v
theories/PlaneProofs.v
theories/LayerProofs.v
theories/BoundaryProofs.v
theories/PropsSurface.v
theories/PropsLayer.v
theories/PropsTopology.v
theories/ManifoldSpec.v
theories/GraphProofs.v
theories/ManifoldChecks.v
theories/ManifoldProofs.v
theories/PropsManifold.v
theories/SdfSingleModel.v
theories/SdfSingleProofs.v
theories/PropsSingle.v
theories/SerialModel.v
theories/SerialSpec.v
theories/SerialProofs.v
theories/SerialDeps.v
theories/ConversionModel.v
theories/ConversionProofs.v
theories/PropsSerial.v
theories/RaycastModel.v
theories/RaycastSpec.v
theories/RaycastProofs.v
theories/RealRayModel.v
theories/RayGeoSpec.v
theories/RayGeoProofs.v
theories/PropsRaycast.v
theories/FilterModel.v
theories/FilterSpec.v
theories/FilterFloatProofs.v
theories/FilterProofs.v
theories/DeviceProofs.v
theories/PropsFilter.v
theories/RayEntryProofs.v
theories/SfRayModel.v
theories/PropsRayEntry.v
theories/SdfQueryModel.v
theories/SdfQueryArith.v
theories/SdfQuerySpec.v
theories/SdfQueryProofs.v
theories/SdfEstimateProofs.v
theories/PropsSdfQuery.v
theories/PointCloudModel.v
theories/PointCloudSpec.v
theories/PointCloudProofs.v
theories/PropsPointCloud.v
theories/BackendModel.v
theories/BackendSpec.v
theories/BackendProofs.v
theories/PropsBackend.v
theories/ResourceModel.v
theories/ResourceSpec.v
theories/ResourceProofs.v
theories/PropsResource.v
theories/MeshModel.v
theories/MeshSpec.v
theories/MeshProofs.v
theories/MeshGeoProofs.v
theories/PropsMesh.v
theories/DisplayModel.v
theories/DisplaySpec.v
theories/DisplayProofs.v
theories/DisplayFloatProofs.v
theories/PropsDisplay.v
theories/ClearanceSpec.v
theories/ClearanceProofs.v
theories/PropsClearance.v
theories/PropsCubic.v
theories/SdfDoubleModel.v
theories/SdfDoubleSpec.v
theories/SdfDoubleProofs.v
theories/SdfDoubleEstimate.v
theories/SdfDoubleLerp.v
theories/SdfDoubleClearance.v
theories/PropsDouble.v
theories/SdfDoubleGradient.v
theories/SdfDoubleFine.v
theories/PropsDoubleGradient.v
theories/RayRoundSpec.v
theories/RayRoundProofs.v
theories/RayFloatModel.v
theories/RayFloatProofs.v
theories/RayFloatTop.v
theories/PropsRayRound.v
theories/PoseModel.v
theories/VoxelRoundSpec.v
theories/VoxelShowProofs.v
theories/PoseProofs.v
theories/VoxelRoundProofs.v
theories/PropsVoxelRound.v
theories/SceneSpec.v
theories/SceneProofs.v
theories/PropsScene.v
theories/AgreeSpec.v
theories/AgreeProofs.v
theories/PropsAgree.v
theories/RayFarSpec.v
theories/RayFarProofs.v
theories/RayFarTop.v
theories/PropsFar.v
theories/SceneFarSpec.v
theories/SceneFarProofs.v
theories/PropsSceneFar.v
theories/MeshDoubleModel.v
theories/MeshDoubleProofs.v
theories/PropsMeshDouble.v
theories/MeshNearSpec.v
theories/MeshNearProofs.v
theories/MeshNearTop.v
theories/PropsMeshNear.v
theories/MeshSmallProofs.v
theories/PropsMeshSmall.v
theories/MeshEdgeProofs.v
theories/PropsMeshEdge.v
