-Q theories Verif
theories/Base.v
theories/Spec.v
theories/Sums.v
theories/Model_Numbering.v
theories/Proof_Numbering.v
theories/Prop_Numbering.v
theories/Spec2d.v
theories/Model_Regular2d.v
theories/Proof_Regular2d.v
theories/Prop_Regular2d.v
theories/Spec3d.v
theories/Model_Hex8Regular.v
theories/Proof_Hex8Regular.v
theories/Prop_Hex8Regular.v
theories/Spec_Topology.v
theories/Model_Topology.v
theories/Proof_Topology.v
theories/Prop_Topology.v
theories/Spec_Stitch.v
theories/Model_Stitch.v
theories/Proof_Stitch.v
theories/Proof_Stitch2.v
theories/Spec_Vstack.v
theories/Proof_Vstack.v
theories/Prop_Stitch.v
theories/Spec_Vector.v
theories/Model_Vector.v
theories/Proof_Vector.v
theories/Proof_Vector2.v
theories/Model_VectorPartitioned.v
theories/Proof_VectorPartitioned.v
theories/Prop_Vector.v
theories/Spec_Misc.v
theories/Model_Misc.v
theories/Proof_Misc.v
theories/Prop_Misc.v
theories/Model_Sparse.v
theories/Spec_Tyings.v
theories/Model_Tyings.v
theories/Proof_Tyings.v
theories/Proof_Tyings2.v
theories/Prop_Tyings.v
theories/Spec_Matrix.v
theories/Model_Matrix.v
theories/Model_MatrixPartitioned.v
theories/Spec_MatrixOps.v
theories/Proof_Matrix.v
theories/Prop_Matrix.v
theories/Proof_MatrixPartitioned.v
theories/Prop_MatrixPartitioned.v
theories/Model_MatrixTyings.v
theories/Spec_MatrixTyings.v
theories/Proof_MatrixTyings.v
theories/Prop_MatrixTyings.v
theories/Model_MatrixDiagonal.v
theories/Spec_MatrixDiagonal.v
theories/Proof_MatrixDiagonal.v
theories/Proof_MatrixDiagonalPartitioned.v
theories/Prop_MatrixDiagonal.v
theories/Model_Element.v
theories/Spec_Element.v
theories/Proof_Element.v
theories/Proof_ElementQuad4.v
theories/Proof_ElementMath.v
theories/Proof_ElementThm.v
theories/Proof_ElementThm2.v
theories/Proof_ElementAxisym.v
theories/Proof_ElementThm3.v
theories/Proof_ElementHex8.v
theories/Prop_ElementQuad4.v
theories/Prop_ElementPlanar.v
theories/Prop_ElementHex8.v
theories/Model_MeshGeometry.v
theories/Spec_MeshGeometry.v
theories/Proof_MeshGeometry.v
theories/Prop_MeshGeometry.v
theories/Model_FineLayer.v
theories/Proof_FineLayer.v
theories/Proof_FineLayerMesh.v
theories/Spec_Tiling.v
theories/Proof_RegularTiling.v
theories/Prop_RegularTiling.v
theories/Proof_FineLayerTiling.v
theories/Proof_FineLayerArea.v
theories/Proof_FineLayerBoundary.v
theories/Proof_FineLayerRoll.v
theories/Spec_FineLayer.v
theories/Proof_FineLayerThm.v
theories/Prop_FineLayer.v
theories/Proof_FineLayerGrid.v
theories/Prop_FineLayerGrid.v
theories/Proof_FineLayerAround.v
theories/Prop_FineLayerAround.v
theories/Model_Map.v
theories/Spec_Map.v
theories/Proof_Refine.v
theories/Prop_Refine.v
theories/Proof_F2RLocal.v
theories/Proof_F2RBlock.v
theories/Proof_F2R.v
theories/Proof_F2RThm.v
theories/Prop_F2R.v
theories/Model_FineLayerMapping.v
theories/Proof_FineLayerMapping.v
theories/Prop_FineLayerMapping.v
theories/Model_Hex8FineLayer.v
theories/Proof_Hex8FineLayer.v
theories/Proof_Hex8FineLayerMesh.v
theories/Proof_Hex8FineLayerElem.v
theories/Spec_Tiling3.v
theories/Proof_Tiling3.v
theories/Proof_Hex8FineLayerTiling.v
theories/Proof_Hex8FineLayerSides.v
theories/Proof_Hex8FineLayerFaces.v
theories/Proof_Hex8FineLayerBoundary.v
theories/Proof_Hex8FineLayerLists.v
theories/Proof_Periodic3.v
theories/Proof_Hex8FineLayerPeriodic.v
theories/Spec_FineLayer3.v
theories/Proof_Hex8FineLayerThm.v
theories/Proof_Hex8FineLayerWitness.v
theories/Prop_Hex8FineLayer.v
theories/Proof_Hex8RegularTiling.v
theories/Spec_Sides.v
theories/Model_Aliases.v
theories/Proof_Aliases.v
theories/Prop_Aliases.v
theories/Model_Pipeline.v
theories/Spec_Pipeline.v
theories/Proof_PipelineElem.v
theories/Proof_Pipeline.v
theories/Proof_PipelineBalance.v
theories/Proof_PipelineDynamics.v
theories/Proof_PipelineEx.v
theories/Prop_Pipeline.v
theories/Spec_Patch.v
theories/Proof_Patch.v
theories/Proof_PatchRegular.v
theories/Proof_PatchRigid.v
theories/Prop_Patch.v
theories/Prop_PatchEx.v
theories/Model_PeriodicProgram.v
theories/Spec_Periodic.v
theories/Proof_Periodic.v
theories/Proof_PeriodicNodes.v
theories/Prop_Periodic.v
theories/Prop_PeriodicMesh.v
theories/Spec_Macro.v
theories/Proof_Macro.v
theories/Prop_Macro.v
theories/Spec_Spd.v
theories/Model_Ldlt.v
theories/Proof_Ldlt.v
theories/Proof_Spd.v
theories/Proof_SpdPeriodic.v
theories/Proof_Linked.v
theories/Prop_Spd.v
theories/Prop_SpdEx.v
theories/Spec_Conform.v
theories/Proof_Conform.v
theories/Proof_ConformTiles.v
theories/Proof_ConformMesh.v
theories/Proof_ConformClosed.v
theories/Spec_Divergence.v
theories/Proof_Divergence.v
theories/Spec_QuadMesh.v
theories/Proof_QuadMesh.v
theories/Proof_QuadMeshObj.v
theories/Proof_Connected.v
theories/Proof_Joined.v
theories/Proof_QuadLinked.v
theories/Prop_Conform.v
theories/Prop_Divergence.v
theories/Prop_QuadMesh.v
theories/Prop_QuadMeshEx.v
theories/Model_Checked.v
theories/Spec_Checked.v
theories/Proof_Checked.v
theories/Prop_Checked.v
theories/Model_Verlet.v
theories/Spec_Verlet.v
theories/Proof_Verlet.v
theories/Prop_Verlet.v
theories/Proof_VerletMesh.v
theories/Prop_VerletMesh.v
theories/Model_CheckedMatrix.v
theories/Spec_CheckedMatrix.v
theories/Proof_CheckedMatrix.v
theories/Prop_CheckedMatrix.v
theories/Model_ElementMemory.v
theories/Spec_ElementMemory.v
theories/Proof_ElementMemory.v
theories/Proof_ElementKernels.v
theories/Proof_ElementObjects.v
theories/Prop_ElementMemory.v
theories/Model_PartialPeriodic.v
theories/Spec_PartialPeriodic.v
theories/Proof_PartialPeriodic.v
theories/Proof_PartialPeriodicForce.v
theories/Prop_PartialPeriodic.v
theories/Prop_PartialPeriodicEx.v
theories/Model_ManualPartition.v
theories/Prop_ManualPartition.v
theories/Spec_HexMesh.v
theories/Proof_HexBox.v
theories/Proof_HexGrid.v
theories/Proof_HexBody.v
theories/Proof_HexLine.v
theories/Proof_HexPatch.v
theories/Prop_HexMesh.v
theories/Prop_HexMeshEx.v
theories/Spec_Deform.v
theories/Proof_Deform.v
theories/Prop_Deform.v
theories/Model_FiniteStrain.v
theories/Spec_FiniteStrain.v
theories/Proof_FiniteStrain.v
theories/Prop_FiniteStrain.v
theories/Prop_FiniteStrainEx.v
theories/Model_NewtonLoop.v
theories/Spec_NewtonLoop.v
theories/Proof_NewtonLoop.v
theories/Proof_NewtonLinear.v
theories/Prop_NewtonLoop.v
theories/Prop_NewtonLoopEx.v
theories/Prop_RollNodes.v
theories/Model_CheckedDiagonal.v
theories/Spec_CheckedDiagonal.v
theories/Proof_CheckedDiagonal.v
theories/Prop_CheckedDiagonal.v
theories/Model_StitchChecked.v
theories/Spec_StitchChecked.v
theories/Proof_StitchChecked.v
theories/Prop_StitchChecked.v
theories/Prop_BodyForce.v
theories/Model_PartitionReport.v
theories/Spec_PartitionReport.v
theories/Prop_PartitionReport.v
theories/Model_CheckedTyings.v
theories/Spec_CheckedTyings.v
theories/Proof_CheckedTyings.v
theories/Proof_CheckedTyings2.v
theories/Proof_CheckedTyings3.v
theories/Prop_CheckedTyings.v
theories/Model_CheckedMatrixTyings.v
theories/Spec_CheckedMatrixTyings.v
theories/Proof_CheckedMatrixTyings.v
theories/Proof_CheckedMatrixTyings2.v
theories/Proof_CheckedMatrixTyings3.v
theories/Prop_CheckedMatrixTyings.v
theories/Model_CheckedMesh.v
theories/Spec_CheckedMesh.v
theories/Proof_CheckedMesh.v
theories/Prop_CheckedMesh.v
theories/Spec_CheckedMaps.v
theories/Model_CheckedMaps.v
theories/Proof_CheckedMaps.v
theories/Prop_CheckedMaps.v
theories/Spec_AxisymBody.v
theories/Proof_AxisymBody.v
theories/Proof_AxisymPatch.v
theories/Proof_AxisymMesh.v
theories/Prop_AxisymBody.v
theories/Prop_AxisymCylinder.v
theories/Model_CheckedMore.v
theories/Spec_CheckedMore.v
theories/Proof_CheckedMore.v
theories/Proof_CheckedMore2.v
theories/Prop_CheckedMore.v
theories/Proof_NewtonRaise.v
theories/Prop_NewtonRaise.v
theories/Spec_ConformHex.v
theories/Proof_ConformHex.v
theories/Prop_ConformHex.v
theories/Proof_HexFineVolume.v
theories/Prop_HexFineVolume.v
theories/Proof_HexFineGrad.v
theories/Prop_HexFineGrad.v
theories/Spec_LumpedMass.v
theories/Proof_HexMass.v
theories/Prop_HexMass.v
theories/Prop_HexDynamics.v
theories/Prop_Moments.v
theories/Prop_AngularMomentum.v
theories/Prop_Reactions.v
