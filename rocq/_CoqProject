-Q theories Verif
theories/Base.v
theories/BaseProofs.v
theories/Utils1d.v
theories/Utils1dProofs.v
theories/NdArray.v
theories/Backend.v
theories/Core1d.v
theories/Frontend1d.v
theories/Spec1d.v
theories/Core1dProofs.v
theories/Frontend1dProofs.v
theories/Example1d.v
theories/PropConfig1d.v
theories/PropPaths1d.v
theories/NdProofs.v
theories/Rows1d.v
theories/FrontRows.v
theories/Factory1d.v
theories/FactoryProofs.v
theories/ComplexOps.v
theories/FilterBank1d.v
theories/FilterBank1dProofs.v
theories/Construct1d.v
theories/Shape1d.v
theories/PropFilters1d.v
theories/PropShapes1d.v
theories/Dft.v
theories/Conv1d.v
theories/Value1d.v
theories/Tabulated1d.v
theories/PropNumerics1d.v
theories/Invariance1d.v
theories/Norm1d.v
theories/Normal1d.v
theories/PropNormal1d.v
theories/PropInvariance1d.v
theories/Jtfs.v
theories/JtfsFront.v
theories/JtfsProofs.v
theories/SpecJtfs.v
theories/JtfsKeys.v
theories/JtfsDry.v
theories/ExampleJtfs.v
theories/JtfsConstruct.v
theories/JtfsTotal.v
theories/JtfsMeta.v
theories/PropJtfs.v
theories/Mats.v
theories/JtfsRows.v
theories/JtfsFmt.v
theories/JtfsFull.v
theories/JtfsReady.v
theories/SpecJtfsValue.v
theories/JtfsValue.v
theories/JtfsRun.v
theories/JtfsCoef.v
theories/PropJtfsValues.v
theories/StackProofs.v
theories/PropJtfsRuns.v
theories/PropJtfsSamples.v
theories/JtfsParts.v
theories/PropJtfsBatch.v
theories/Backend2d.v
theories/Core2d.v
theories/FilterBank2d.v
theories/Frontend2d.v
theories/Images.v
theories/Rows2d.v
theories/Pad2d.v
theories/Eval2d.v
theories/Dft2.v
theories/Value2d.v
theories/Conv2d.v
theories/Keys2d.v
theories/PropShapes2d.v
theories/Path2d.v
theories/PropValues2d.v
theories/Transpose2d.v
theories/PropTranspose2d.v
theories/Turn2d.v
theories/PropTurn2d.v
theories/Backend3d.v
theories/Core3d.v
theories/FilterBank3d.v
theories/Frontend3d.v
theories/Dft3.v
theories/Rows3d.v
theories/Eval3d.v
theories/Path3d.v
theories/PropScat3d.v
theories/PropValues3d.v
theories/Torch1d.v
theories/TorchRel.v
theories/TorchSim.v
theories/TorchStack.v
theories/TorchCore.v
theories/TorchJtfs.v
theories/TorchModule.v
theories/TorchModuleProofs.v
theories/TorchGrad.v
theories/TorchFront.v
theories/PropTorchModule.v
theories/PropModulus.v
theories/TorchConstructed.v
theories/TorchJtfsGlobal.v
theories/PropTorch.v
theories/Cuda.v
theories/CudaProofs.v
theories/CudaProofs2.v
theories/PropCuda.v
theories/PropSubsample.v
theories/CudaBlas.v
theories/PropCudaBlas.v
theories/PropFilterShape1d.v
theories/Caching.v
theories/CachingProofs.v
theories/PropCaching.v
theories/Frontends.v
theories/PropFrontends.v
theories/Sklearn.v
theories/PropSklearn.v
theories/Tf1d.v
theories/TfRel.v
theories/TfJtfs.v
theories/TfInst.v
theories/TfFront.v
theories/PropTf.v
theories/PropMeta1d.v
theories/Keras1d.v
theories/PropKeras1d.v
theories/Torch2d.v
theories/Torch2dRel.v
theories/PropTorch2d.v
theories/Torch3d.v
theories/Torch3dRel.v
theories/PropTorch3d.v
theories/Stability1d.v
theories/PropStability1d.v
theories/JtfsStability.v
theories/PropJtfsStability.v
theories/JtfsShift.v
theories/PropJtfsShift.v
theories/PropJtfsConstants.v
theories/PropJtfsErrors.v
theories/PropAveraging.v
theories/Support1d.v
theories/PropSupport1d.v
theories/PropStability2d.v
theories/PropStability3d.v
theories/GaussIntegral.v
theories/PropNorm3d.v
theories/Axes3d.v
theories/PropAxes3d.v
theories/Mirror3d.v
theories/PropMirror3d.v
theories/PropErrors2d.v
theories/Energy1d.v
theories/PropEnergy1d.v
theories/Float1d.v
theories/PropFloat1d.v
theories/PropEnergy2d.v
theories/JtfsEnergy.v
theories/PropJtfsEnergy.v
theories/Shift1d.v
theories/PropShift1d.v
theories/GaussSum.v
theories/Shift2d.v
theories/PropShift2d.v
theories/JaxUpto.v
theories/Jax2d3d.v
theories/PropJax.v
theories/NormalFr.v
theories/PropNormalFr.v
theories/PropFloatQ.v
theories/TfBack.v
theories/PropTfBack.v
theories/PropNoRoom.v
theories/Factorial64.v
theories/PropFactorial64.v
theories/JtfsReverse.v
theories/PropJtfsReverse.v
theories/SpaceBank3d.v
theories/PropCentre3d.v
theories/Energy3d.v
theories/PropEnergy3d.v
theories/PropContract3d.v
theories/JtfsShort.v
theories/PropJtfsShort.v
theories/PropMean3d.v
theories/PropPadRange2d.v
theories/PropBound3d.v
theories/PropPadRange1d.v
theories/PropPadFreq.v
theories/PropSwap.v
theories/PropUnpadFreq.v
theories/PropReshape.v
theories/PropCdgmm.v
theories/PropStack.v
theories/PropGlobal.v
theories/PropGlobalZeroth.v
