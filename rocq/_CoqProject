-Q theories Verif
theories/Base/CSum.v
theories/Base/CSumFacts.v
theories/Base/Float64.v
theories/Base/Py.v
theories/Base/PyFacts.v
theories/Base/Rat.v
theories/Base/Vec.v
theories/Model/Atmos.v
theories/Model/AtmosReal.v
theories/Model/Attrs.v
theories/Model/AttrsCode.v
theories/Model/Chain.v
theories/Model/Cli.v
theories/Model/Config.v
theories/Model/ConfigFile.v
theories/Model/Control.v
theories/Model/Convolve.v
theories/Model/Delay.v
theories/Model/Dm.v
theories/Model/DmShapes.v
theories/Model/FftObject.v
theories/Model/Fibre.v
theories/Model/FloatChain.v
theories/Model/FloatDot.v
theories/Model/FloatDriven.v
theories/Model/FloatEffect.v
theories/Model/FloatFlow.v
theories/Model/FloatFootprint.v
theories/Model/FloatGrad.v
theories/Model/FloatGradChain.v
theories/Model/FloatInteraction.v
theories/Model/FloatInterp.v
theories/Model/FloatLaunch.v
theories/Model/FloatLoop.v
theories/Model/FloatLos.v
theories/Model/FloatMirror.v
theories/Model/FloatScreens.v
theories/Model/FloatWhole.v
theories/Model/Grad.v
theories/Model/Gui.v
theories/Model/GuiDraw.v
theories/Model/GuiGain.v
theories/Model/GuiProgress.v
theories/Model/LegacyLos.v
theories/Model/LegacySh.v
theories/Model/Lgs.v
theories/Model/LgsReal.v
theories/Model/Loop.v
theories/Model/Los.v
theories/Model/MovedStar.v
theories/Model/NoLight.v
theories/Model/Numerics.v
theories/Model/Parallel.v
theories/Model/Persist.v
theories/Model/Pyramid.v
theories/Model/Readout64.v
theories/Model/Recon.v
theories/Model/Rounding64.v
theories/Model/Sampling.v
theories/Model/Science.v
theories/Model/ScreenFiles.v
theories/Model/Separations.v
theories/Model/Sh.v
theories/Model/ShOptics.v
theories/Model/ShReal.v
theories/Model/Sim.v
theories/Model/StrehlPlot.v
theories/Model/Version.v
theories/Model/Wfs.v
theories/Model/ZoomMissing.v
theories/Proofs/AtmosForms.v
theories/Proofs/AtmosProofs.v
theories/Proofs/AtmosRealProofs.v
theories/Proofs/AttrsMore.v
theories/Proofs/AttrsProofs.v
theories/Proofs/AttrsTac.v
theories/Proofs/ChainProofs.v
theories/Proofs/CommonTtProofs.v
theories/Proofs/ConfigFileDict.v
theories/Proofs/ConfigFileHist.v
theories/Proofs/ConfigFileMore.v
theories/Proofs/ConfigFileProofs.v
theories/Proofs/ConfigFileReload.v
theories/Proofs/ConfigFileTrip.v
theories/Proofs/ConfigProofs.v
theories/Proofs/ControlProofs.v
theories/Proofs/ControlTomo.v
theories/Proofs/ControlUse.v
theories/Proofs/ConvolveProofs.v
theories/Proofs/DelayProofs.v
theories/Proofs/DmProofs.v
theories/Proofs/DmShapesProofs.v
theories/Proofs/FftObjectProofs.v
theories/Proofs/FibreProofs.v
theories/Proofs/FloatChainFrame.v
theories/Proofs/FloatChainProofs.v
theories/Proofs/FloatDelay.v
theories/Proofs/FloatDotProofs.v
theories/Proofs/FloatDrivenFrame.v
theories/Proofs/FloatDrivenProofs.v
theories/Proofs/FloatEffectProofs.v
theories/Proofs/FloatFlowProofs.v
theories/Proofs/FloatFootprintFrame.v
theories/Proofs/FloatFootprintProofs.v
theories/Proofs/FloatGradChainProofs.v
theories/Proofs/FloatGradFrame.v
theories/Proofs/FloatGradProofs.v
theories/Proofs/FloatInteractionProofs.v
theories/Proofs/FloatInterpCoords.v
theories/Proofs/FloatInterpProofs.v
theories/Proofs/FloatLaunchProofs.v
theories/Proofs/FloatLoopProofs.v
theories/Proofs/FloatLosFrame.v
theories/Proofs/FloatLosProofs.v
theories/Proofs/FloatMirrorProofs.v
theories/Proofs/FloatScreensProofs.v
theories/Proofs/FloatWholeProofs.v
theories/Proofs/GradProofs.v
theories/Proofs/GuiDrawFrame.v
theories/Proofs/GuiDrawProofs.v
theories/Proofs/GuiGainProofs.v
theories/Proofs/GuiProgressProofs.v
theories/Proofs/GuiProofs.v
theories/Proofs/LegacyLosProofs.v
theories/Proofs/LegacyShProofs.v
theories/Proofs/LgsProofs.v
theories/Proofs/LgsRealProofs.v
theories/Proofs/LoopConv.v
theories/Proofs/LoopProofs.v
theories/Proofs/LoopScalar.v
theories/Proofs/LosProofs.v
theories/Proofs/MovedStarProofs.v
theories/Proofs/NoLightProofs.v
theories/Proofs/NumericsProofs.v
theories/Proofs/ParallelKernels.v
theories/Proofs/ParallelProofs.v
theories/Proofs/PersistProofs.v
theories/Proofs/PinvConv.v
theories/Proofs/PinvProofs.v
theories/Proofs/PyramidFlat.v
theories/Proofs/PyramidInversion.v
theories/Proofs/PyramidProofs.v
theories/Proofs/PyramidSymmetry.v
theories/Proofs/ReadoutProofs.v
theories/Proofs/ReconProofs.v
theories/Proofs/RobustDelay.v
theories/Proofs/RobustProofs.v
theories/Proofs/RoundingProofs.v
theories/Proofs/SamplingProofs.v
theories/Proofs/ScienceCases.v
theories/Proofs/ScienceFourier.v
theories/Proofs/ScienceProofs.v
theories/Proofs/ScienceStrehl.v
theories/Proofs/ScreenProofs.v
theories/Proofs/SeparationsProofs.v
theories/Proofs/ShOpticsProofs.v
theories/Proofs/ShProofs.v
theories/Proofs/ShRealProofs.v
theories/Proofs/SightProofs.v
theories/Proofs/SimProofs.v
theories/Proofs/StrehlChainProofs.v
theories/Proofs/StrehlLoopProofs.v
theories/Proofs/StrehlPlotProofs.v
theories/Proofs/StrehlProofs.v
theories/Proofs/TipTiltProofs.v
theories/Proofs/VersionProofs.v
theories/Proofs/WfsProofs.v
theories/Proofs/ZoomProofs.v
theories/Props/AtmosProps.v
theories/Props/AttrsProps.v
theories/Props/AttrsSensorProps.v
theories/Props/ChainProps.v
theories/Props/CliProps.v
theories/Props/CommonTtProps.v
theories/Props/ConfigFileProps.v
theories/Props/ConfigProps.v
theories/Props/ControlProps.v
theories/Props/DelayProps.v
theories/Props/DmProps.v
theories/Props/DmShapesProps.v
theories/Props/FibreProps.v
theories/Props/FloatChainProps.v
theories/Props/FloatDelayProps.v
theories/Props/FloatDotProps.v
theories/Props/FloatDrivenProps.v
theories/Props/FloatEffectProps.v
theories/Props/FloatFlowProps.v
theories/Props/FloatFootprintProps.v
theories/Props/FloatGradChainProps.v
theories/Props/FloatGradProps.v
theories/Props/FloatInteractionProps.v
theories/Props/FloatInterpProps.v
theories/Props/FloatLaunchProps.v
theories/Props/FloatLoopProps.v
theories/Props/FloatLosProps.v
theories/Props/FloatMirrorProps.v
theories/Props/FloatScreensProps.v
theories/Props/FloatWholeProps.v
theories/Props/FourierProps.v
theories/Props/GradProps.v
theories/Props/GuiDrawProps.v
theories/Props/GuiGainProps.v
theories/Props/GuiProgressProps.v
theories/Props/GuiProps.v
theories/Props/LegacyLosProps.v
theories/Props/LegacyShProps.v
theories/Props/LgsProps.v
theories/Props/LoopProps.v
theories/Props/LosProps.v
theories/Props/MovedStarProps.v
theories/Props/NoLightProps.v
theories/Props/NumericsProps.v
theories/Props/ParallelProps.v
theories/Props/PersistProps.v
theories/Props/PinvProps.v
theories/Props/PyramidFlatProps.v
theories/Props/PyramidProps.v
theories/Props/PyramidSymProps.v
theories/Props/ReadoutProps.v
theories/Props/ReconProps.v
theories/Props/RobustDelayProps.v
theories/Props/RobustProps.v
theories/Props/RoundingProps.v
theories/Props/SamplingProps.v
theories/Props/ScienceProps.v
theories/Props/ScreenProps.v
theories/Props/SeparationsProps.v
theories/Props/ShOpticsProps.v
theories/Props/ShProps.v
theories/Props/SightProps.v
theories/Props/SimProps.v
theories/Props/StrehlLoopProps.v
theories/Props/StrehlPlotProps.v
theories/Props/StrehlProps.v
theories/Props/TipTiltProps.v
theories/Props/VersionProps.v
theories/Props/WfsProps.v
theories/Props/ZoomProps.v
theories/Spec/AtmosSpec.v
theories/Spec/AttrsSpec.v
theories/Spec/ChainSpec.v
theories/Spec/CliSpec.v
theories/Spec/CommonTtSpec.v
theories/Spec/ConfigFileSpec.v
theories/Spec/ConfigSpec.v
theories/Spec/ControlSpec.v
theories/Spec/DelaySpec.v
theories/Spec/DmShapesSpec.v
theories/Spec/DmSpec.v
theories/Spec/FibreSpec.v
theories/Spec/FloatChainSpec.v
theories/Spec/FloatDotSpec.v
theories/Spec/FloatDrivenSpec.v
theories/Spec/FloatEffectSpec.v
theories/Spec/FloatFlowSpec.v
theories/Spec/FloatFootprintSpec.v
theories/Spec/FloatGradChainSpec.v
theories/Spec/FloatGradSpec.v
theories/Spec/FloatInteractionSpec.v
theories/Spec/FloatInterpSpec.v
theories/Spec/FloatLaunchSpec.v
theories/Spec/FloatLoopSpec.v
theories/Spec/FloatLosSpec.v
theories/Spec/FloatMirrorSpec.v
theories/Spec/FloatScreensSpec.v
theories/Spec/FloatWholeSpec.v
theories/Spec/FourierSpec.v
theories/Spec/GradSpec.v
theories/Spec/GuiDrawSpec.v
theories/Spec/GuiGainSpec.v
theories/Spec/GuiProgressSpec.v
theories/Spec/GuiSpec.v
theories/Spec/LegacyLosSpec.v
theories/Spec/LegacyShSpec.v
theories/Spec/LgsSpec.v
theories/Spec/LoopSpec.v
theories/Spec/LosSpec.v
theories/Spec/MovedStarSpec.v
theories/Spec/NoLightSpec.v
theories/Spec/NumericsSpec.v
theories/Spec/ParallelSpec.v
theories/Spec/PersistSpec.v
theories/Spec/PinvSpec.v
theories/Spec/PyramidSpec.v
theories/Spec/ReadoutSpec.v
theories/Spec/ReconSpec.v
theories/Spec/RobustSpec.v
theories/Spec/SamplingSpec.v
theories/Spec/ScienceSpec.v
theories/Spec/ScreenSpec.v
theories/Spec/SeparationsSpec.v
theories/Spec/ShOpticsSpec.v
theories/Spec/ShSpec.v
theories/Spec/SightSpec.v
theories/Spec/SimSpec.v
theories/Spec/StrehlChainSpec.v
theories/Spec/StrehlPlotSpec.v
theories/Spec/StrehlSpec.v
theories/Spec/TipTiltSpec.v
theories/Spec/VersionSpec.v
theories/Spec/WfsSpec.v
theories/Spec/ZoomSpec.v
