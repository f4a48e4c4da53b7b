-Q theories Verif
theories/Base.v
theories/MultiRange.v
theories/MultiRangeSpec.v
theories/MultiRangeProofs.v
theories/PropsMultiRange.v
theories/MotionSpec.v
theories/AccVector.v
theories/AccVectorProofs.v
theories/PropsAccVector.v
theories/Solve.v
theories/SolveProofs.v
theories/PropsSolve.v
theories/IntegerCurve.v
theories/CurveArith.v
theories/AccSeqProofs.v
theories/AccSeqSpec.v
theories/CurveAdjust.v
theories/AdjustSpec.v
theories/RangeProofs.v
theories/PlanProofs.v
theories/PropsIntegerCurve.v
theories/PropsDuration.v
theories/PropsSpeeds.v
theories/StepperContext.v
theories/MachineSpec.v
theories/MachineProofs.v
theories/ContextProofs.v
theories/ContextOps.v
theories/ContextHist.v
theories/ContextClock.v
theories/ContextGoto.v
theories/PropsContext.v
theories/StepperControl.v
theories/ControlSpec.v
theories/ControlProofs.v
theories/ControlLive.v
theories/PropsControl.v
theories/Coords.v
theories/CoordsProofs.v
theories/PropsCoords.v
theories/Polynomials.v
theories/PolyProofs.v
theories/TaylorProofs.v
theories/TableProofs.v
theories/PropsPoly.v
theories/Curves.v
theories/CurvesProofs.v
theories/PropsCurves.v
theories/MachinePath.v
theories/PropsPath.v
theories/Floats.v
theories/FloatProofs.v
theories/ApproxCurve.v
theories/ApproxProofs.v
theories/ApproxBound.v
theories/DrawCurves.v
theories/PropsApprox.v
theories/DrawProofs.v
theories/PropsDraw.v
theories/Chars.v
theories/PathBuild.v
theories/ArcProofs.v
theories/PropsArc.v
theories/ImageRaster.v
theories/RasterProofs.v
theories/PropsRaster.v
theories/BuildProofs.v
theories/PropsBuild.v
theories/PropsCommands.v
theories/PathGrammar.v
theories/PathLex.v
theories/LexProofs.v
theories/PropsLex.v
theories/PropsTransform.v
theories/SvgDocument.v
theories/PropsSvg.v
theories/PropsError.v
theories/SvgMain.v
theories/FloatScale.v
theories/PropsSvgMain.v
theories/Gauss.v
theories/PropsGauss.v
theories/LinearCurve.v
theories/PropsLinear.v
theories/PropsOptimal.v
theories/CheckedCurve.v
theories/CheckedProofs.v
theories/CheckedBounds.v
theories/PropsChecked.v
theories/Polynom.v
theories/PolynomProofs.v
theories/PropsRoots.v
theories/SvgText.v
theories/PropsSvgText.v
theories/Animate.v
theories/PropsAnimate.v
theories/OldCode.v
theories/PropsOld.v
theories/Config.v
theories/PropsConfig.v
theories/PropsOldPath.v
theories/MainProg.v
theories/PropsMain.v
theories/FloatPath.v
theories/FloatErr.v
theories/FloatPathProofs.v
theories/PropsFloatPath.v
theories/FloatCurve.v
theories/PropsFloatCurve.v
theories/DrawPlan.v
theories/PropsDrawPlan.v
theories/FloatRun.v
theories/PropsLaser.v
theories/PropsSteps.v
theories/PropsNodes.v
theories/FloatLex.v
theories/FloatLexProofs.v
theories/PropsFloatLex.v
theories/PropsLaserText.v
theories/FloatDocument.v
theories/FloatDocProofs.v
theories/PropsFloatDoc.v
theories/FloatTransform.v
theories/FloatAngles.v
theories/PropsFloatTransform.v
theories/PropsDirection.v
theories/FloatLength.v
theories/FloatPlace.v
theories/PropsFloatSvg.v
theories/FloatCover.v
theories/PropsCover.v
theories/PropsLaserSvg.v
theories/PropsCoverSvg.v
theories/Programs.v
theories/EventProofs.v
theories/PropsPrograms.v
theories/PropsSpeed.v
theories/FloatCircle.v
theories/PropsCircle.v
theories/FloatArc.v
theories/FloatChord.v
theories/FloatEllipse.v
theories/PropsFloatArc.v
theories/PropsFloatEllipse.v
theories/PropsFloatArcs.v
theories/PropsLaserArcs.v
theories/FloatParts.v
theories/FloatRound.v
theories/PropsRoundSvg.v
theories/PropsArcsRead.v
theories/Permutate.v
theories/PropsPermutate.v
theories/OldRest.v
theories/PropsOldRest.v
theories/UnitTests.v
theories/PropsUnitTests.v
theories/DrawTotal.v
theories/FloatTotal.v
theories/PropsTotal.v
theories/PropsProgramTotal.v
theories/PropsDocTotal.v
theories/PropsWhole.v
theories/RasterTotal.v
theories/PropsRasterTotal.v
theories/PropsEnds.v
theories/PropsEndsSvg.v
