-Q theories Verif
theories/Num.v
theories/Vec.v
theories/Orientation.v
theories/OrientationFacts.v
theories/PropOrientation.v
theories/Projection.v
theories/Trig.v
theories/ProjectionFacts.v
theories/PropProjection.v
theories/Ray.v
theories/CameraTransform.v
theories/CameraFacts.v
theories/PropCamera.v
theories/RayFacts.v
theories/PropRay.v
theories/Lens.v
theories/PropLens.v
theories/Param.v
theories/ParamFacts.v
theories/ParamOps.v
theories/ParamSteps.v
theories/ParamReach.v
theories/ParamCam.v
theories/ParamLaws.v
theories/PropParam.v
theories/PropFit.v
theories/ParamMap.v
theories/ParamCheck.v
theories/ParamExamples.v
theories/ParamTotal.v
theories/PropTotal.v
theories/ParamSave.v
theories/PropSave.v
theories/ParamGroup.v
theories/PropGroup.v
theories/Stereo.v
theories/PropStereo.v
theories/Space.v
theories/PropSpace.v
theories/Horizon.v
theories/PropHorizon.v
theories/Gps.v
theories/PropGps.v
theories/GpsString.v
theories/GpsStringFacts.v
theories/GpsRegex.v
theories/PropGpsString.v
theories/ProjInit.v
theories/PropProjInit.v
theories/Shape.v
theories/PropShape.v
theories/Metropolis.v
theories/PropMetropolis.v
theories/LogProb.v
theories/PropLogProb.v
theories/Fit.v
theories/PropFitRun.v
theories/Scene.v
theories/PropScene.v
theories/SetGps.v
theories/PropSetGps.v
theories/Border.v
theories/PropBorder.v
theories/Lut.v
theories/PropLut.v
theories/MapCache.v
theories/PropMapCache.v
theories/MapRound.v
theories/PropMapRound.v
theories/SensorDb.v
theories/PropSensorDb.v
theories/NdArray.v
theories/NdCamera.v
theories/PropBatch.v
theories/NdGps.v
theories/PropBatchGps.v
theories/NdRay.v
theories/PropBatchRay.v
theories/FitTerms.v
theories/PropFitTerms.v
theories/FitPlot.v
theories/PropFitPlot.v
theories/FitArgs.v
theories/PropFitArgs.v
theories/PropFitCounts.v
theories/GpsImage.v
theories/PropGpsImage.v
theories/GpsArgs.v
theories/PropGpsArgs.v
theories/TwoView.v
theories/PropTwoView.v
theories/Fridge.v
theories/PropFridge.v
theories/Epilines.v
theories/PropEpilines.v
theories/Additional.v
theories/PropAdditional.v
theories/Rounding.v
theories/RoundingFacts.v
theories/PropRounding.v
theories/PropBalance.v
theories/Trace.v
theories/PropTrace.v
theories/TraceSummary.v
theories/PropTraceSummary.v
theories/GpsInput.v
theories/PropGpsInput.v
theories/SceneView.v
theories/PropSceneView.v
theories/Calibration.v
theories/PropCalibration.v
theories/CalibWindow.v
theories/PropCalibWindow.v
theories/GraphicsView.v
theories/PropGraphicsView.v
theories/Demo.v
theories/PropDemo.v
theories/RoundingGps.v
theories/PropRoundingGps.v
theories/DemoQt.v
theories/PropDemoQt.v
theories/Describe.v
theories/PropDescribe.v
theories/PropDetermine.v
theories/PropPerspective.v
theories/RoundingPan.v
theories/PropRoundingPan.v
theories/PropSensitivity.v
theories/PropAngles.v
theories/PropResect.v
theories/PropGpsFlat.v
theories/PropTurn.v
theories/NdLine.v
theories/PropLine.v
theories/ParamParts.v
theories/PropParts.v
theories/PropLensCam.v
theories/RoundingLens.v
theories/PropRoundingLens.v
theories/PropLensPicture.v
theories/StatSteps.v
theories/PropStatSteps.v
theories/RoundingLines.v
theories/PropRoundingLines.v
theories/PropFitTypes.v
theories/RoundingMesh.v
theories/DoubleFacts.v
theories/PropRoundingMesh.v
theories/RoundingObjects.v
theories/PropRoundingObjects.v
theories/PropFrozen.v
theories/PropGpsTyped.v
theories/MapPlot.v
theories/PropMapPlot.v
theories/ExtentKind.v
theories/PropExtentKind.v
theories/PropCompass.v
theories/RoundingMove.v
theories/PropRoundingMove.v
theories/PropLensPose.v
theories/PropFieldOfView.v
theories/PropLutArea.v
theories/PropHorizonRow.v
theories/PropOutline.v
