-Q theories Verif
theories/Model/Aabb.v
theories/Model/Animation.v
theories/Model/BSplineFloat.v
theories/Model/BaryFloat.v
theories/Model/Bezier.v
theories/Model/BezierFloat.v
theories/Model/BezierPatchFloat.v
theories/Model/BoxFloat.v
theories/Model/BoxPlaneFloat.v
theories/Model/BoxRayFloat.v
theories/Model/BuildPlaneFloat.v
theories/Model/CapsuleFloat.v
theories/Model/Clip.v
theories/Model/ClipFloat.v
theories/Model/Coll.v
theories/Model/ConeFloat.v
theories/Model/Ext.v
theories/Model/FrustumBox.v
theories/Model/FrustumFloat.v
theories/Model/GridFloat.v
theories/Model/Interp.v
theories/Model/Keyframe.v
theories/Model/KeyframeFloat.v
theories/Model/LineFloat.v
theories/Model/Mesh.v
theories/Model/MeshFloat.v
theories/Model/MeshGen.v
theories/Model/NormalFloat.v
theories/Model/ObbPlaneFloat.v
theories/Model/PipeFloat.v
theories/Model/PipeTexFloat.v
theories/Model/Plane.v
theories/Model/PlaneFloat.v
theories/Model/PlaneHitFloat.v
theories/Model/Playback.v
theories/Model/Scalar.v
theories/Model/Shapes.v
theories/Model/Skeleton.v
theories/Model/SphereFloat.v
theories/Model/Spline.v
theories/Model/Tangent.v
theories/Model/Transforms.v
theories/Model/Tri.v
theories/Model/TriFloat.v
theories/Model/UniformSpline.v
theories/Model/UniformSplineFloat.v
theories/Model/Vec.v
theories/Model/VecAabb.v
theories/Model/VecAabbFloat.v
theories/Proofs/AabbLemmas.v
theories/Proofs/AnimationLemmas.v
theories/Proofs/AnimationPlay.v
theories/Proofs/BSplineFloatEval.v
theories/Proofs/BSplineFloatLemmas.v
theories/Proofs/BaryFloatLemmas.v
theories/Proofs/BezierFlat.v
theories/Proofs/BezierFloatLemmas.v
theories/Proofs/BezierLemmas.v
theories/Proofs/BezierPatchFloatLemmas.v
theories/Proofs/BezierPatchLemmas.v
theories/Proofs/BoxFloatLemmas.v
theories/Proofs/BoxPlaneFloatLemmas.v
theories/Proofs/BoxRayFloatLemmas.v
theories/Proofs/BoxRayLemmas.v
theories/Proofs/BuildPlaneFloatLemmas.v
theories/Proofs/CapsuleFloatLemmas.v
theories/Proofs/CircleLemmas.v
theories/Proofs/ClipAreaLemmas.v
theories/Proofs/ClipFloatLemmas.v
theories/Proofs/ClipLemmas.v
theories/Proofs/ClipMesh.v
theories/Proofs/ConeFloatLemmas.v
theories/Proofs/CutLemmas.v
theories/Proofs/CutVolume.v
theories/Proofs/FloatOrder.v
theories/Proofs/FrustumFloatLemmas.v
theories/Proofs/FrustumLemmas.v
theories/Proofs/GridFloatLemmas.v
theories/Proofs/InterpLemmas.v
theories/Proofs/KeyframeFloatLemmas.v
theories/Proofs/KeyframeLemmas.v
theories/Proofs/KeyframeSeq.v
theories/Proofs/KnotLemmas.v
theories/Proofs/LineFloatLemmas.v
theories/Proofs/LineLemmas.v
theories/Proofs/MeshBox.v
theories/Proofs/MeshFloatLemmas.v
theories/Proofs/MeshGenBezier.v
theories/Proofs/MeshGenChains.v
theories/Proofs/MeshGenCharts.v
theories/Proofs/MeshGenClosed.v
theories/Proofs/MeshGenCurve.v
theories/Proofs/MeshGenEdges.v
theories/Proofs/MeshGenExtent.v
theories/Proofs/MeshGenFacts.v
theories/Proofs/MeshGenIdeal.v
theories/Proofs/MeshGenInv.v
theories/Proofs/MeshGenLoops.v
theories/Proofs/MeshGenMain.v
theories/Proofs/MeshGenNormals.v
theories/Proofs/MeshGenPieces.v
theories/Proofs/MeshGenRange.v
theories/Proofs/MeshGenResult.v
theories/Proofs/MeshGenSpiral.v
theories/Proofs/MeshGenSpiralVolume.v
theories/Proofs/MeshGenSurface.v
theories/Proofs/MeshGenTexture.v
theories/Proofs/MeshGenTotal.v
theories/Proofs/MeshGenTube.v
theories/Proofs/MeshGenVolume.v
theories/Proofs/MeshGenWinding.v
theories/Proofs/MeshGenWrap.v
theories/Proofs/MeshLemmas.v
theories/Proofs/MeshLemmas2.v
theories/Proofs/NormalFloatLemmas.v
theories/Proofs/NormalTangents.v
theories/Proofs/ObbPlaneFloatLemmas.v
theories/Proofs/PiDigits.v
theories/Proofs/PipeFloatLemmas.v
theories/Proofs/PipeTexFloatLemmas.v
theories/Proofs/PlaneFloatLemmas.v
theories/Proofs/PlaneHitFloatLemmas.v
theories/Proofs/PlaneLemmas.v
theories/Proofs/PlaneLemmas2.v
theories/Proofs/PlaybackAny.v
theories/Proofs/PlaybackBackward.v
theories/Proofs/PlaybackDrift.v
theories/Proofs/PlaybackFloat.v
theories/Proofs/PlaybackLemmas.v
theories/Proofs/PlaybackMore.v
theories/Proofs/PlaybackRange.v
theories/Proofs/PlaybackReplay.v
theories/Proofs/PlaybackReturns.v
theories/Proofs/PlaybackSim.v
theories/Proofs/RayFloatLemmas.v
theories/Proofs/ShapeLemmas.v
theories/Proofs/SkeletonLemmas.v
theories/Proofs/SphereFloatLemmas.v
theories/Proofs/SplineEval.v
theories/Proofs/SplineFloat.v
theories/Proofs/SplineLemmas.v
theories/Proofs/SplineSmooth.v
theories/Proofs/TangentEval.v
theories/Proofs/TransformEval.v
theories/Proofs/TransformLemmas.v
theories/Proofs/TriFloatLemmas.v
theories/Proofs/TriHit.v
theories/Proofs/TriLemmas.v
theories/Proofs/TriSeg.v
theories/Proofs/TriTri.v
theories/Proofs/UniformSplineEval.v
theories/Proofs/UniformSplineFloatEval.v
theories/Proofs/UniformSplineFloatLemmas.v
theories/Proofs/UniformSplineLemmas.v
theories/Proofs/VecAabbFloatLemmas.v
theories/Proofs/VecLemmas.v
theories/Props/AabbProps.v
theories/Props/AnimationProps.v
theories/Props/BSplineFloatProps.v
theories/Props/BaryFloatProps.v
theories/Props/BezierFloatProps.v
theories/Props/BezierMotionProps.v
theories/Props/BezierPatchFloatProps.v
theories/Props/BezierProps.v
theories/Props/BoxPlaneFloatProps.v
theories/Props/BoxRayFloatProps.v
theories/Props/BoxRayProps.v
theories/Props/BuildPlaneFloatProps.v
theories/Props/CapsuleFloatProps.v
theories/Props/ClipAreaProps.v
theories/Props/ClipFloatProps.v
theories/Props/ClipProps.v
theories/Props/ConeFloatProps.v
theories/Props/CutProps.v
theories/Props/ExtentProps.v
theories/Props/FloatProps.v
theories/Props/FrustumFloatProps.v
theories/Props/FrustumProps.v
theories/Props/GridFloatProps.v
theories/Props/HullProps.v
theories/Props/KeyframeFloatProps.v
theories/Props/KeyframeProps.v
theories/Props/LineFloatProps.v
theories/Props/LineProps.v
theories/Props/MeshFloatProps.v
theories/Props/MeshGenProps.v
theories/Props/MeshProps.v
theories/Props/NormalFloatProps.v
theories/Props/NormalProps.v
theories/Props/ObbPlaneFloatProps.v
theories/Props/PipeFloatProps.v
theories/Props/PipeTexFloatProps.v
theories/Props/PlaneHitFloatProps.v
theories/Props/PlaneProps.v
theories/Props/PlaybackFloatProps.v
theories/Props/PlaybackProps.v
theories/Props/RayFloatProps.v
theories/Props/ReplayProps.v
theories/Props/ShapeProps.v
theories/Props/SkeletonProps.v
theories/Props/SolidProps.v
theories/Props/SphereFloatProps.v
theories/Props/SphereProps.v
theories/Props/SpiralProps.v
theories/Props/SplineProps.v
theories/Props/SplineSmoothProps.v
theories/Props/TangentProps.v
theories/Props/TextureProps.v
theories/Props/TransformProps.v
theories/Props/TriFloatProps.v
theories/Props/TriProps.v
theories/Props/UniformSplineFloatProps.v
theories/Props/UniformSplineProps.v
theories/Props/VolumeProps.v
theories/Spec/AabbSpec.v
theories/Spec/AnimationSpec.v
theories/Spec/BSplineFloatSpec.v
theories/Spec/BaryFloatSpec.v
theories/Spec/BezierFloatSpec.v
theories/Spec/BezierPatchFloatSpec.v
theories/Spec/BezierSpec.v
theories/Spec/BoxPlaneFloatSpec.v
theories/Spec/BoxRayFloatSpec.v
theories/Spec/BuildPlaneFloatSpec.v
theories/Spec/CapsuleFloatSpec.v
theories/Spec/ChartSpec.v
theories/Spec/ClipAreaSpec.v
theories/Spec/ClipFloatSpec.v
theories/Spec/ClipSpec.v
theories/Spec/ClosedSpec.v
theories/Spec/CollSpec.v
theories/Spec/ConeFloatSpec.v
theories/Spec/CurveSpec.v
theories/Spec/CutSpec.v
theories/Spec/ExtentSpec.v
theories/Spec/FloatSpec.v
theories/Spec/FrustumFloatSpec.v
theories/Spec/FrustumSpec.v
theories/Spec/GridFloatSpec.v
theories/Spec/InterpSpec.v
theories/Spec/KeyframeFloatSpec.v
theories/Spec/KeyframeSpec.v
theories/Spec/KnotSpec.v
theories/Spec/MeshFloatSpec.v
theories/Spec/MeshGenSpec.v
theories/Spec/MeshSpec.v
theories/Spec/NormalFloatSpec.v
theories/Spec/NormalSpec.v
theories/Spec/ObbPlaneFloatSpec.v
theories/Spec/PipeFloatSpec.v
theories/Spec/PipeTexFloatSpec.v
theories/Spec/PlaneHitFloatSpec.v
theories/Spec/PlaneSpec.v
theories/Spec/PlaybackSpec.v
theories/Spec/RayFloatSpec.v
theories/Spec/ReplaySpec.v
theories/Spec/ShapeSpec.v
theories/Spec/SkeletonSpec.v
theories/Spec/SphereFloatSpec.v
theories/Spec/SpiralSpec.v
theories/Spec/SpiralVolumeSpec.v
theories/Spec/SplineSpec.v
theories/Spec/SurfaceSpec.v
theories/Spec/TangentSpec.v
theories/Spec/TextureSpec.v
theories/Spec/TransformSpec.v
theories/Spec/TriFloatSpec.v
theories/Spec/TriSpec.v
theories/Spec/UniformSplineFloatSpec.v
theories/Spec/VolumeSpec.v
theories/Spec/WindingSpec.v
