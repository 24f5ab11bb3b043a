-Q theories Verif
theories/Base.v
theories/Num.v
theories/SpecIndex.v
theories/SpecMath.v
theories/ModelSequence.v
theories/ModelIndex.v
theories/ModelAssert.v
theories/ModelCArray.v
theories/ModelMath.v
theories/ModelSpacing.v
theories/ModelQuadrature.v
theories/ModelLagrange.v
theories/ModelBasisProduct.v
theories/ModelShapes.v
theories/ModelTransforms.v
theories/SpecCArray.v
theories/SpecNumeric.v
theories/ProofBase.v
theories/ProofBox.v
theories/ProofIndex.v
theories/ProofCArray.v
theories/ProofRep.v
theories/ProofCount.v
theories/ProofMath.v
theories/ProofShapes.v
theories/ProofHom.v
theories/ProofSpacing.v
theories/ProofQuadrature.v
theories/SpecBasis.v
theories/ProofPoly.v
theories/ProofLagrange.v
theories/ProofTensor.v
theories/ProofTransform.v
theories/ModelPmpl.v
theories/SpecPmpl.v
theories/ProofPmpl.v
theories/ModelB64.v
theories/SpecB64.v
theories/ProofB64.v
theories/ProofCheck64.v
theories/ProofSpacing64.v
theories/ProofLagrange64.v
theories/ProofNodes64.v
theories/ProofQuad64.v
theories/ModelPython.v
theories/ModelAggregate.v
theories/ModelUncrustify.v
theories/SpecAggregate.v
theories/SpecUncrustify.v
theories/ProofPython.v
theories/ProofPath.v
theories/ProofAggregate.v
theories/ProofGraph.v
theories/ProofSplit.v
theories/ProofUncrustify.v
theories/ProofScripts.v
theories/SpecIntegral.v
theories/ProofIntegral.v
theories/ProofVolume.v
theories/ProofMatrix.v
theories/ModelConfigBuild.v
theories/SpecConfigBuild.v
theories/ProofConfigBuild.v
theories/ModelCi.v
theories/SpecCi.v
theories/ProofCi.v
theories/ProofGeneric.v
theories/SpecAccuracy.v
theories/ProofErr64.v
theories/ProofInverse64.v
theories/ProofFix64.v
theories/ProofScaling64.v
theories/SpecElement64.v
theories/ProofSum64.v
theories/ProofGrad64.v
theories/ProofElement64.v
theories/ProofConst.v
theories/ProofContext.v
theories/ProofCell64.v
theories/ModelFma.v
theories/SpecFma.v
theories/ProofErrFma.v
theories/ProofSumFma.v
theories/ProofInverseFma.v
theories/ProofGradFma.v
theories/ProofElementFma.v
theories/ProofCellFma.v
theories/ProofFma.v
theories/ModelWorkflow.v
theories/SpecWorkflow.v
theories/ProofWorkflow.v
theories/ProofConform.v
theories/ProofPatch.v
theories/ModelArgparse.v
theories/SpecArgparse.v
theories/ProofArgparse.v
theories/ModelCheckTest.v
theories/SpecCheckTest.v
theories/ProofCheckTest.v
theories/ModelInclude.v
theories/SpecInclude.v
theories/ProofInclude.v
theories/ModelThreads.v
theories/SpecThreads.v
theories/ProofThreads.v
theories/SpecEnergy.v
theories/ProofEnergy.v
theories/SpecGeometry.v
theories/ProofGeometry.v
theories/ModelAggregateCli.v
theories/SpecAggregateCli.v
theories/ProofAggregateCli.v
theories/ModelPackage.v
theories/SpecPackage.v
theories/ProofPackage.v
theories/ProofAccess.v
theories/ModelF32.v
theories/SpecF32.v
theories/ProofF32.v
theories/ProofCheck32.v
theories/ProofLagrange32.v
theories/ProofSpacing32.v
theories/ProofNodes32.v
theories/ProofQuad32.v
theories/SpecWords.v
theories/ProofWords.v
theories/ModelTransforms32.v
theories/SpecAccuracy32.v
theories/ProofDiv32.v
theories/ProofErr32.v
theories/ProofInverse32.v
theories/ProofFix32.v
theories/ProofScaling32.v
theories/SpecElement32.v
theories/ProofSum32.v
theories/ProofGrad32.v
theories/ProofElement32.v
theories/ProofCell32.v
theories/ProofSupport.v
theories/SpecFace.v
theories/ProofFace.v
theories/ProofFaceIEEE.v
theories/ProofFace64.v
theories/ProofFace32.v
theories/SpecVolume.v
theories/ProofVolumeGen.v
theories/ProofVolume64.v
theories/ProofVolume32.v
theories/ModelInteger.v
theories/SpecInteger.v
theories/ProofInteger.v
theories/SpecShape.v
theories/ProofShape64.v
theories/ProofShape32.v
theories/ProofLinear64.v
theories/ProofLinear32.v
theories/ProofPositive64.v
theories/ProofPositive32.v
theories/SpecScale.v
theories/ProofScale64.v
theories/ProofScale32.v
theories/ProofScaleCell64.v
theories/ProofScaleCell32.v
theories/ProofScaleRefute.v
theories/SpecMesh.v
theories/ProofMesh.v
theories/SpecForce.v
theories/ProofForce.v
theories/ProofForceMesh.v
theories/SpecTables.v
theories/ProofTables.v
theories/SpecNearest.v
theories/ProofTables64.v
theories/ProofNearest.v
theories/SpecStability.v
theories/ProofStability.v
theories/ProofStability64.v
theories/ProofGradStability.v
theories/ProofGradStability64.v
theories/SpecGradError.v
theories/ProofGradError.v
theories/SpecConvergence.v
theories/ProofConvergence.v
theories/SpecQuadError.v
theories/ProofQuadError.v
theories/SpecCellError.v
theories/ProofCellError.v
theories/ProofTotalError.v
theories/SpecQuadTotal.v
theories/ProofQuadTotal.v
theories/ProofFieldIntegral.v
theories/ModelFma32.v
theories/SpecFma32.v
theories/ProofErrFma32.v
theories/ProofSumFma32.v
theories/ProofGradFma32.v
theories/ProofInverseFma32.v
theories/ProofElementFma32.v
theories/ProofCellFma32.v
theories/ProofFma32.v
theories/ModelDevice.v
theories/SpecDevice.v
theories/ProofDevice.v
theories/SpecApprox.v
theories/ProofRemainder.v
theories/ProofApprox.v
theories/PropIndex.v
theories/PropCArray.v
theories/PropMath.v
theories/PropShapes.v
theories/PropSpacing.v
theories/PropLagrange.v
theories/PropTensor.v
theories/PropTransform.v
theories/PropPmpl.v
theories/PropB64.v
theories/PropScripts.v
theories/PropIntegral.v
theories/PropConfigBuild.v
theories/PropGeometry64.v
theories/PropElement64.v
theories/PropCi.v
theories/PropConst.v
theories/PropContext.v
theories/PropCell64.v
theories/PropFma.v
theories/PropWorkflow.v
theories/PropConform.v
theories/PropPatch.v
theories/PropApprox.v
theories/PropArgparse.v
theories/PropCheckTest.v
theories/PropInclude.v
theories/RepoTests.v
theories/PropThreads.v
theories/PropDevice.v
theories/PropEnergy.v
theories/PropGeometry.v
theories/PropAggregateCli.v
theories/PropPackage.v
theories/PropAccess.v
theories/PropF32.v
theories/PropWords.v
theories/PropGeometry32.v
theories/PropElement32.v
theories/PropFace.v
theories/PropVolume.v
theories/PropInteger.v
theories/PropShape.v
theories/PropLinear.v
theories/PropScale.v
theories/PropMesh.v
theories/PropForce.v
theories/PropTables.v
theories/PropNearest.v
theories/PropStability.v
theories/PropGradStability.v
theories/PropGradError.v
theories/PropConvergence.v
theories/PropQuadError.v
theories/PropCellError.v
theories/PropTotalError.v
theories/PropQuadTotal.v
theories/PropFieldIntegral.v
theories/PropFma32.v
