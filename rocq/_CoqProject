-Q theories Verif
theories/Outcome.v
theories/Num.v
theories/Fed.v
theories/FedFacts.v
theories/FedSpec.v
theories/FedSum.v
theories/PropsFed.v
theories/OutcomeFacts.v
theories/Matching.v
theories/MatchingSpec.v
theories/MatchingFacts.v
theories/PropsMatching.v
theories/Sfm.v
theories/SfmSpec.v
theories/SfmUse.v
theories/SfmEffects.v
theories/SfmRec.v
theories/SfmTrack.v
theories/SfmData.v
theories/SfmPrim.v
theories/SfmCons.v
theories/SfmApply.v
theories/SfmOps.v
theories/SfmReg.v
theories/SfmInc.v
theories/SfmFind.v
theories/SfmInit.v
theories/SfmLoc.v
theories/SfmHist.v
theories/SfmDemo.v
theories/SfmThms.v
theories/SfmStart.v
theories/SfmTracks.v
theories/SfmReject.v
theories/SfmDedup.v
theories/SfmRounds.v
theories/SfmProps.v
theories/SfmExamples.v
theories/PropsSfm.v
theories/PropsTracks.v
theories/Lin.v
theories/Core.v
theories/LinSpec.v
theories/LinFacts.v
theories/CoreSpec.v
theories/CoreFacts.v
theories/So3Facts.v
theories/So3Log.v
theories/DesignFacts.v
theories/So3JacobianSpec.v
theories/So3Jacobian.v
theories/CoreProps.v
theories/PropsCore.v
theories/SfmPose.v
theories/SfmGeom.v
theories/SfmGeomSpec.v
theories/SfmTruthSpec.v
theories/SfmGeomFacts.v
theories/SfmGeomThms.v
theories/SfmGeomDemo.v
theories/SfmPoses.v
theories/SfmGeomRigid.v
theories/SfmGeomReg.v
theories/SfmGeomExact.v
theories/SfmSceneDemo.v
theories/PropsSfmReg.v
theories/SfmGeomStart.v
theories/SfmGeomStartExact.v
theories/SfmDemand.v
theories/SfmTruth.v
theories/SfmTruthRun.v
theories/SfmTruthDemo.v
theories/SfmMergeTruth.v
theories/PropsSfmTruth.v
theories/SfmStartDemo.v
theories/PropsSfmStart.v
theories/SfmGeomRate.v
theories/PropsSfmGeom.v
theories/SfmFix.v
theories/SfmPoseSpec.v
theories/SfmPoseFacts.v
theories/SfmPoseDemo.v
theories/PropsPose.v
theories/Pinhole.v
theories/PinholeSpec.v
theories/PinholeFacts.v
theories/EssentialFacts.v
theories/PinholeProps.v
theories/FloatPinholeSpec.v
theories/FloatPinhole.v
theories/PropsPinhole.v
theories/Geom.v
theories/GeomSpec.v
theories/GeomFacts.v
theories/GeomEpi.v
theories/GeomTri.v
theories/GeomNan.v
theories/GeomProps.v
theories/GeomAngle.v
theories/GeomAngleInf.v
theories/PropsGeom.v
theories/Optimize.v
theories/OptimizeSpec.v
theories/OptimizeFacts.v
theories/OptimizeProps.v
theories/PropsOptimize.v
theories/Bicubic.v
theories/BicubicSpec.v
theories/BicubicFacts.v
theories/BicubicProps.v
theories/FloatFacts.v
theories/BicubicFloat.v
theories/PropsBicubic.v
theories/Estimate.v
theories/EstimateSpec.v
theories/EstimateFacts.v
theories/EstimateFive.v
theories/EstimateAction.v
theories/EstimateBasis.v
theories/EstimateDemo.v
theories/EstimateProps.v
theories/PropsEstimate.v
theories/P3p.v
theories/P3pSpec.v
theories/P3pFacts.v
theories/P3pSolve.v
theories/P3pDepths.v
theories/P3pPose.v
theories/P3pCubic.v
theories/P3pProps.v
theories/PropsP3p.v
theories/Gray.v
theories/GraySpec.v
theories/GrayFacts.v
theories/GrayReal.v
theories/GrayProps.v
theories/Diffuse.v
theories/DiffuseSpec.v
theories/DiffuseFacts.v
theories/DiffuseProps.v
theories/PropsGray.v
theories/FloatGraySpec.v
theories/FloatError32.v
theories/FloatGray.v
theories/FloatBlur.v
theories/FloatBlurCase.v
theories/FloatStep.v
theories/FloatStepProps.v
theories/FloatHalf.v
theories/PropsGrayFloat.v
theories/FloatUp.v
theories/FloatError.v
theories/PropsDiffuse.v
theories/Akaze.v
theories/AkazeSpec.v
theories/AkazeSchedule.v
theories/FedOperator.v
theories/FedDiffuse.v
theories/AkazeSpace.v
theories/AkazeDetect.v
theories/AkazeRefine.v
theories/AkazeBits.v
theories/AkazeDescribe.v
theories/AkazeWhole.v
theories/AkazeDemo.v
theories/AkazeEvolve.v
theories/AkazeWindow.v
theories/AkazeInside.v
theories/PropsAkaze.v
theories/AkazeToneSpec.v
theories/AkazeTone.v
theories/AkazeToneSpace.v
theories/AkazeToneFeat.v
theories/PropsAkazeTone.v
theories/AkazeTurnSpec.v
theories/AkazeTurn.v
theories/AkazeTurnSpace.v
theories/AkazeTurnProps.v
theories/AkazeTurnTie.v
theories/AkazeTurnKept.v
theories/PropsAkazeTurn.v
theories/Frame.v
theories/FrameSpec.v
theories/FrameFacts.v
theories/PropsFrame.v
theories/SfmSelectSpec.v
theories/SfmSelect.v
theories/SfmSelectDemo.v
theories/PropsSfmSelect.v
theories/SfmExport.v
theories/SfmExportSpec.v
theories/SfmExportFacts.v
theories/SfmExportDemo.v
theories/PropsSfmExport.v
theories/Sandbox.v
theories/SandboxSpec.v
theories/SandboxFacts.v
theories/SandboxDemo.v
theories/PropsSandbox.v
theories/Tutorial.v
theories/TutorialSpec.v
theories/TutorialFacts.v
theories/TutorialWhole.v
theories/TutorialDemo.v
theories/PropsTutorial.v
theories/VSlam.v
theories/VSlamSpec.v
theories/VSlamFacts.v
theories/VSlamDemo.v
theories/PropsVSlam.v
theories/SettingsFile.v
theories/SettingsFileSpec.v
theories/SettingsFileFacts.v
theories/PropsSettings.v
theories/Parallel.v
theories/ParallelSpec.v
theories/ParallelFacts.v
theories/AkazeParallel.v
theories/AkazeParallelFacts.v
theories/PropsParallel.v
theories/DataFile.v
theories/DataFileSpec.v
theories/DataFileFacts.v
theories/DataFileDemo.v
theories/PropsDataFile.v
theories/SfmWithout.v
theories/SfmWithoutSpec.v
theories/SfmWithoutProps.v
theories/SfmWithoutTruth.v
theories/PropsSfmWithout.v
