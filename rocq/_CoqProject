-Q theories Verif
theories/Base.v
theories/Base64Model.v
theories/Base64Spec.v
theories/Base64Proof.v
theories/Prop_Base64.v
theories/SerializationModel.v
theories/SerializationSpec.v
theories/SerializationProof.v
theories/SerializationShapes.v
theories/SerializationProof2.v
theories/Prop_Serialization.v
theories/ParallelismModel.v
theories/ParallelismSpec.v
theories/ParallelismProof.v
theories/ParallelismProof2.v
theories/Prop_Parallelism.v
theories/GraphModel.v
theories/GraphSpec.v
theories/GraphProof.v
theories/GraphProof2.v
theories/Prop_Graph.v
theories/Double.v
theories/SearchModel.v
theories/SearchSpec.v
theories/SearchProof.v
theories/SearchProof2.v
theories/SearchProof3.v
theories/SearchDouble.v
theories/SearchProof4.v
theories/Prop_Search.v
theories/ParallelismCalls.v
theories/KnnModel.v
theories/KnnSpec.v
theories/KnnProof.v
theories/Prop_Knn.v
theories/DoubleFacts.v
theories/DoubleBits.v
theories/VoxelModel.v
theories/VoxelSpec.v
theories/VoxelProof.v
theories/VoxelFloat.v
theories/VoxelSerial.v
theories/VoxelSamples.v
theories/Prop_Voxel.v
theories/HashedModel.v
theories/HashedSpec.v
theories/HashedProof.v
theories/HashedFloat.v
theories/HashedSamples.v
theories/Prop_Hashed.v
theories/PrngModel.v
theories/PrngSpec.v
theories/PrngProof.v
theories/Prop_Prng.v
theories/MaybeModel.v
theories/MaybeSpec.v
theories/MaybeProof.v
theories/Prop_Maybe.v
theories/UtilityModel.v
theories/UtilitySpec.v
theories/UtilityProof.v
theories/Prop_Utility.v
theories/Effect.v
theories/RrtModel.v
theories/RrtSpec.v
theories/RrtProof.v
theories/RrtPlan.v
theories/RrtPlan2.v
theories/BiRrtProof.v
theories/RrtCheck.v
theories/RrtSerial.v
theories/RrtHelperModel.v
theories/RrtHelperSpec.v
theories/RrtHelperProof.v
theories/RrtSingle.v
theories/RrtSamples.v
theories/Prop_Rrt.v
theories/DtwModel.v
theories/DtwSpec.v
theories/DtwProof.v
theories/DtwCost.v
theories/Prop_Dtw.v
theories/DistModel.v
theories/DistSpec.v
theories/DistProof.v
theories/DistProof2.v
theories/Prop_Distance.v
theories/PrmModel.v
theories/PrmSpec.v
theories/PrmProof.v
theories/KnnSort.v
theories/PrmGrow.v
theories/PrmUpdate.v
theories/PrmQuery.v
theories/PrmBuild.v
theories/PrmPath.v
theories/Prop_Prm.v
theories/PathModel.v
theories/PathSpec.v
theories/PathProof.v
theories/PathProof2.v
theories/Prop_Path.v
theories/ClusterModel.v
theories/ClusterSpec.v
theories/ClusterProof.v
theories/ClusterProof2.v
theories/ClusterProof3.v
theories/ClusterProof4.v
theories/Prop_Cluster.v
theories/KMeansModel.v
theories/KMeansSpec.v
theories/KMeansProof.v
theories/KMeansProof2.v
theories/KMeansProof3.v
theories/KMeansProof4.v
theories/Prop_KMeans.v
theories/TaskModel.v
theories/TaskSpec.v
theories/TaskProof.v
theories/TaskProof2.v
theories/TaskDouble.v
theories/Prop_Task.v
theories/MathModel.v
theories/MathReal.v
theories/MathSpec.v
theories/MathProof.v
theories/MathVec.v
theories/MathProof2.v
theories/MathDouble.v
theories/MathDouble2.v
theories/MathDouble3.v
theories/Prop_Math.v
theories/ColorModel.v
theories/ColorSpec.v
theories/ColorProof.v
theories/ColorProof2.v
theories/Prop_Color.v
theories/HashedSerialModel.v
theories/HashedSerialSpec.v
theories/HashedSerial.v
theories/HashedSerialSamples.v
theories/Prop_HashedSerial.v
theories/MathLinModel.v
theories/MathLinSpec.v
theories/MathLinProof.v
theories/MathLinProof2.v
theories/MathLinProof3.v
theories/MathLinProof4.v
theories/MathLinProof5.v
theories/MathLinProof6.v
theories/Prop_MathLin.v
theories/GaussianModel.v
theories/GaussianErf.v
theories/GaussianSpec.v
theories/GaussianProof.v
theories/GaussianProof2.v
theories/GaussianProof3.v
theories/Prop_Gaussian.v
theories/TotpModel.v
theories/TotpScalar.v
theories/TotpSpec.v
theories/TotpProof.v
theories/TotpQuery.v
theories/TotpDouble.v
theories/TotpRealSpec.v
theories/TotpReal.v
theories/TotpLimits.v
theories/TotpArc.v
theories/TotpPathSpec.v
theories/TotpPath.v
theories/TotpBlend.v
theories/TotpChain.v
theories/TotpPoly.v
theories/TotpGeometry.v
theories/TotpMotionSpec.v
theories/TotpSample.v
theories/TotpDerive.v
theories/TotpStraight.v
theories/TotpLine.v
theories/TotpExample.v
theories/TotpRefute.v
theories/TotpFinal.v
theories/TotpStuck.v
theories/TotpSmooth.v
theories/Prop_Totp.v
theories/RotationModel.v
theories/RotationSpec.v
theories/RotationProof.v
theories/RotationEuler.v
theories/RotationAngle.v
theories/RotationAverage.v
theories/RotationMisc.v
theories/RotationDouble.v
theories/Prop_Rotation.v
theories/UtilityModel2.v
theories/UtilitySpec2.v
theories/UtilityProof2.v
theories/Prop_Utility2.v
theories/ZlibModel.v
theories/ZlibSpec.v
theories/ZlibProof.v
theories/ZlibExample.v
theories/Prop_Zlib.v
theories/OpenMPModel.v
theories/Prop_OpenMP.v
theories/PlaneModel.v
theories/PlaneSpec.v
theories/PlaneProof.v
theories/Prop_Plane.v
theories/CompareModel.v
theories/CompareProof.v
theories/Prop_Compare.v
theories/Prop_VecArith.v
theories/RosModel.v
theories/RosProof.v
theories/Prop_Ros.v
theories/PrintModel.v
theories/PrintSpec.v
theories/PrintProof.v
theories/Prop_Print.v
theories/TwistModel.v
theories/TwistSpec.v
theories/TwistProof.v
theories/TwistProof2.v
theories/Prop_Twist.v
theories/RefMaybeModel.v
theories/RefMaybeSpec.v
theories/Prop_RefMaybe.v
theories/RobotModel.v
theories/Prop_Robot.v
theories/SearchPairSpec.v
theories/SearchPair.v
theories/Prop_SearchPair.v
theories/RrtNodeSpec.v
theories/Prop_RrtNode.v
theories/HashModel.v
theories/Prop_Hash.v
theories/LogModel.v
theories/Prop_Log.v
theories/KMeansSpec2.v
theories/KMeansProof5.v
theories/Prop_KMeans2.v
theories/RrtStopSpec.v
theories/RrtStopProof.v
theories/Prop_RrtStop.v
theories/AliasModel.v
theories/AliasProof.v
theories/AliasSpec.v
theories/Prop_Alias.v
theories/ChunkModel.v
theories/ChunkSpec.v
theories/ChunkProof.v
theories/CoverSpec.v
theories/CoverProof.v
theories/Prop_Chunk.v
theories/PrmTriesSpec.v
theories/PrmTriesProof.v
theories/Prop_PrmTries.v
theories/Prop_Cover.v
theories/ClusterSameSpec.v
theories/ClusterSameProof.v
theories/Prop_ClusterSame.v
theories/KMeansSameProof.v
theories/Prop_KMeansSame.v
theories/PrmSameSpec.v
theories/PrmSameProof.v
theories/Prop_PrmSame.v
theories/ColorChannelSpec.v
theories/ColorChannelProof.v
theories/Prop_ColorChannel.v
theories/PlacedModel.v
theories/PlacedSpec.v
theories/PlacedProof.v
theories/PlacedProof2.v
theories/Prop_Placed.v
theories/PlacedHashSpec.v
theories/PlacedHashProof.v
theories/Prop_PlacedHash.v
theories/KnnSame.v
theories/Prop_KnnSame.v
theories/SizesModel.v
theories/Prop_Sizes.v
theories/SamplerSpec.v
theories/SamplerProof.v
theories/Prop_Sampler.v
theories/Prop_RandomIndex.v
theories/MultivariateModel.v
theories/MultivariateSpec.v
theories/Prop_Multivariate.v
theories/TotpSwitchSpec.v
theories/TotpSwitch.v
theories/Prop_Switching.v
theories/RrtTellSpec.v
theories/RrtTellProof.v
theories/Prop_RrtTell.v
theories/TotpNextSpec.v
theories/TotpNext.v
theories/Prop_TotpNext.v
theories/RrtSame.v
theories/RandomRotSpec.v
theories/RandomRot.v
theories/Prop_RandomRot.v
theories/GraphPrintModel.v
theories/GraphPrintSpec.v
theories/GraphPrint.v
theories/Prop_GraphPrint.v
