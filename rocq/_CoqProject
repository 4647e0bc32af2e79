-Q theories Verif
theories/XR.v
theories/Arr.v
theories/Csg.v
theories/SpecCsg.v
theories/ArrFacts.v
theories/CsgFacts.v
theories/XRFacts.v
theories/Lin.v
theories/LinFacts.v
theories/Ops.v
theories/Prim.v
theories/Surf.v
theories/SpecGeom.v
theories/PrimFacts.v
theories/PrimFacts2.v
theories/CsgProps.v
theories/Props_Csg.v
theories/Props_Prim.v
theories/SpecTree.v
theories/SpanFacts.v
theories/BoxFacts.v
theories/TreeFacts.v
theories/UnionFacts.v
theories/SpecNormal.v
theories/NormalFacts.v
theories/SurfFacts.v
theories/TreeExamples.v
theories/TreeProps.v
theories/NormalProps.v
theories/Props_Tree.v
theories/Props_Normal.v
theories/SpecOptics.v
theories/OpsFacts.v
theories/OpsExamples.v
theories/Props_Ops.v
theories/World.v
theories/SpecWorld.v
theories/WorldFacts.v
theories/WorldFacts2.v
theories/WorldFacts3.v
theories/WorldFacts4.v
theories/WorldFacts5.v
theories/WorldExamples.v
theories/WorldProps.v
theories/Props_World.v
theories/Tracer.v
theories/SpecTrace.v
theories/TraceFacts.v
theories/TraceFacts2.v
theories/TraceFacts3.v
theories/TraceFacts4.v
theories/TraceFacts5.v
theories/TraceFacts6.v
theories/TraceFacts7.v
theories/TraceFacts8.v
theories/TraceFacts9.v
theories/TraceExamples.v
theories/TraceProps.v
theories/Props_Trace.v
theories/Sources.v
theories/SpecSources.v
theories/SourceFacts.v
theories/SourceProps.v
theories/LampProps.v
theories/Props_Sources.v
theories/Utils.v
theories/SpecUtils.v
theories/UtilFacts.v
theories/UtilProps.v
theories/Props_Utils.v
theories/Components.v
theories/SpecComponents.v
theories/BuildFacts.v
theories/ComponentFacts.v
theories/ComponentFacts2.v
theories/ComponentFacts3.v
theories/ComponentFacts4.v
theories/ComponentProps.v
theories/Props_Components.v
theories/FirstHit.v
theories/ComponentOptics.v
theories/MirrorFacts.v
theories/MirrorFacts2.v
theories/PlateFacts.v
theories/MirrorFacts3.v
theories/MirrorFacts4.v
theories/OpticsExamples.v
theories/Props_Optics.v
theories/Render.v
theories/SpecRender.v
theories/RenderFacts.v
theories/RenderFacts2.v
theories/RenderFacts3.v
theories/RenderProps.v
theories/RenderExamples.v
theories/Props_Render.v
theories/Batch.v
theories/BatchFacts.v
theories/BatchFacts2.v
theories/RaySet.v
theories/SpecRaySet.v
theories/RaySetFacts.v
theories/RaySetProps.v
theories/Props_Batch.v
theories/BatchOps.v
theories/BatchOpsFacts.v
theories/BatchTracer.v
theories/BatchSources.v
theories/SpecArray.v
theories/BatchTraceFacts.v
theories/BatchTraceFacts2.v
theories/BatchTraceFacts3.v
theories/ArrayProps.v
theories/Props_Array.v
theories/SpecMotion.v
theories/MotionFacts.v
theories/MotionFacts2.v
theories/MotionFacts3.v
theories/MotionFacts4.v
theories/MotionFacts5.v
theories/MotionProps.v
theories/MotionExamples.v
theories/Props_Motion.v
theories/SpecSymmetry.v
theories/SymmetryFacts.v
theories/SymmetryProps.v
theories/SymmetryComponents.v
theories/SymmetryExamples.v
theories/Props_Symmetry.v
theories/RemovalProps.v
theories/Props_Removal.v
theories/Chords.v
theories/Paraxial.v
theories/AxisRays.v
theories/LensAxis.v
theories/SpecGauss.v
theories/LensAxis2.v
theories/GaussProps.v
theories/ImagingProps.v
theories/GaussExamples.v
theories/Props_Gauss.v
theories/Show.v
theories/SpecShow.v
theories/Renderers.v
theories/UtilProps2.v
theories/ShowFacts.v
theories/ShowProps.v
theories/ShowProps2.v
theories/RendererProps.v
theories/ShowProps3.v
theories/RendererExamples.v
theories/Props_Show.v
theories/Rounded.v
theories/SpecRounded.v
theories/RoundedFacts.v
theories/RoundedProps.v
theories/RoundedAlone.v
theories/RoundedExact.v
theories/RoundedExamples.v
theories/Props_Rounded.v
theories/Fl.v
theories/SpecFl.v
theories/FlFacts.v
theories/FlProps.v
theories/FlTrace.v
theories/FlBinary.v
theories/FlExamples.v
theories/Props_Float.v
theories/SpecCrossing.v
theories/Crossing.v
theories/CrossingProps.v
theories/CrossingExamples.v
theories/Props_Crossing.v
theories/SpecPrism.v
theories/PrismLaw.v
theories/PrismFacts.v
theories/PrismProps.v
theories/PrismExamples.v
theories/PrismExamples2.v
theories/PrismExamples3.v
theories/PrismExamples4.v
theories/Props_Prism.v
theories/SpecMedium.v
theories/NormalSides.v
theories/MediumFacts.v
theories/MediumProps.v
theories/MediumExamples.v
theories/MediumExamples2.v
theories/MediumExamples3.v
theories/Props_Medium.v
theories/SpecReverse.v
theories/ReverseFacts.v
theories/ReverseProps.v
theories/Props_Reverse.v
theories/FlHits.v
theories/SpecFlHits.v
theories/FlHitsFacts.v
theories/FlHitsRoot.v
theories/FlHitsProps.v
theories/FlHitsOn.v
theories/FlHitsBowl.v
theories/FlHitsSure.v
theories/FlHitsSure2.v
theories/FlHitsBinary.v
theories/Props_Hits.v
theories/SpecMirrors.v
theories/MirrorTrace.v
theories/MirrorScene.v
theories/MirrorExamples.v
theories/Props_Mirrors.v
theories/SpecSeen.v
theories/SeenFacts.v
theories/SeenWorld.v
theories/SeenProps.v
theories/Props_Seen.v
theories/SpecBand.v
theories/BandFacts.v
theories/BandLens.v
theories/BandProps.v
theories/BandTree.v
theories/Props_Band.v
theories/Quat.v
theories/SpecQuat.v
theories/QuatFacts.v
theories/QuatProps.v
theories/QuatExamples.v
theories/Props_Quat.v
theories/Session.v
theories/SpecSession.v
theories/SessionFacts.v
theories/SessionProps.v
theories/SessionExamples.v
theories/Props_Session.v
theories/SpecFlOptics.v
theories/FlOptics.v
theories/FlOpticsExamples.v
theories/Props_FlOptics.v
theories/SpecTrain.v
theories/TrainFacts.v
theories/TrainProps.v
theories/SpecApart.v
theories/FrameFacts.v
theories/FrameProps.v
theories/TrainExamples.v
theories/Props_Train.v
theories/Props_Apart.v
theories/SpecMoved.v
theories/MovedFacts.v
theories/MovedProps.v
theories/Props_Moved.v
theories/LensKinds.v
theories/TrainExamples2.v
theories/Props_Kinds.v
theories/SpecPixels.v
theories/PixelProps.v
theories/Props_Pixels.v
theories/FlStep.v
theories/SpecFlStep.v
theories/FlStepProps.v
theories/FlStepBinary.v
theories/Props_Step.v
theories/Refs.v
theories/SpecRefs.v
theories/RefsFacts.v
theories/RefsProps.v
theories/Props_Refs.v
theories/GlassCache.v
theories/SpecGlassCache.v
theories/GlassCacheProps.v
theories/Props_GlassCache.v
theories/SpecChroma.v
theories/ChromaProps.v
theories/ChromaExamples.v
theories/Props_Chroma.v
theories/SpecFocus.v
theories/FocusProps.v
theories/FocusExamples.v
theories/Props_Focus.v
theories/FlWorld.v
theories/SpecFlWorld.v
theories/FlWorldFacts.v
theories/FlWorldProps.v
theories/FlWorldMoves.v
theories/FlWorldExamples.v
theories/Props_Drift.v
theories/Shapes.v
theories/SpecShapes.v
theories/ShapesProps.v
theories/Props_Shapes.v
theories/SpecFlSeen.v
theories/FlSeenFacts.v
theories/FlSeenProps.v
theories/FlSeenHist.v
theories/Props_Met.v
theories/SpecQuatScaled.v
theories/QuatScaled.v
theories/QuatScaledHist.v
theories/PrismSpectrum.v
theories/LampExact.v
theories/PinExact.v
theories/Props_Pin.v
theories/SpecLens.v
theories/LensExact.v
theories/Props_Lens.v
theories/SpecMove.v
theories/MoveFails.v
theories/Props_Refused.v
theories/MoveBoxes.v
theories/Props_Boxes.v
theories/SpecListed.v
theories/ListedFacts.v
theories/Props_Listed.v
theories/SpecPixel.v
theories/PixelFacts.v
theories/Props_Nearest.v
theories/Props_SourceIds.v
theories/LimitFacts.v
theories/Props_Limit.v
theories/SpecEdges.v
theories/EdgeFacts.v
theories/Props_Edges.v
theories/BundleFacts.v
theories/Props_Bundles.v
theories/Props_Ink.v
theories/SpecImages.v
theories/ImageFacts.v
theories/ImageFacts2.v
theories/ImageFacts3.v
theories/ImageExamples.v
theories/Props_Images.v
theories/SpecLight.v
theories/LightFacts.v
theories/Props_Light.v
theories/SpecSkew.v
theories/SkewFacts.v
theories/SkewFacts2.v
theories/SkewFacts3.v
theories/SkewExamples.v
theories/Props_Skew.v
theories/SpecStop.v
theories/StopFacts.v
theories/StopFacts2.v
theories/StopFacts3.v
theories/Props_Stop.v
theories/SpecSheet.v
theories/SheetFacts.v
theories/SheetFacts2.v
theories/SheetFacts3.v
theories/Props_Sheet.v
theories/SpecShade.v
theories/ShadeProps.v
theories/Props_Shade.v
theories/SpecBall.v
theories/BallFacts.v
theories/BallProps.v
theories/BallExamples.v
theories/Props_Ball.v
theories/SpecRod.v
theories/RodFacts.v
theories/RodProps.v
theories/RodExamples.v
theories/Props_Rod.v
theories/SpecBlock.v
theories/BlockProps.v
theories/BlockExamples.v
theories/Props_Block.v
theories/FlBowl.v
theories/SpecFlBowl.v
theories/FlBowlProps.v
theories/FlBowlLine.v
theories/FlBowlSure.v
theories/Props_StepBowl.v
theories/SpecFlMetBowl.v
theories/FlMetBowl.v
theories/Props_MetBowl.v
theories/PlateProps.v
theories/PlateExamples.v
theories/Attributes.v
theories/AttributesProps.v
theories/Props_Attributes.v
theories/Interrupt.v
theories/Props_Interrupt.v
theories/Props_CutParts.v
theories/CutWalk.v
theories/Props_CutWalk.v
