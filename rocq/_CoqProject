-Q theories Verif
theories/Base.v
theories/Archive.v
theories/ArchiveSpec.v
theories/Utf8Proofs.v
theories/ArchiveProofs.v
theories/ArchiveExamples.v
theories/ArchiveProps.v
theories/ArchiveCanon.v
theories/Num.v
theories/NumF32.v
theories/NumR.v
theories/Math.v
theories/Gv4.v
theories/Gv4Spec.v
theories/Gv4Proofs.v
theories/Gv4Props.v
theories/Sampling.v
theories/SamplingSpec.v
theories/SamplingCache.v
theories/SamplingProofs.v
theories/F32Facts.v
theories/SamplingOrd.v
theories/SamplingHist.v
theories/Keys.v
theories/KeysSpec.v
theories/KeysHalf.v
theories/KeysProofs.v
theories/SamplingProps.v
theories/KeysProps.v
theories/Skeleton.v
theories/SkeletonSpec.v
theories/SkeletonProofs.v
theories/SkeletonProps.v
theories/F32Err.v
theories/KeysUnit.v
theories/MathSpec.v
theories/MathProofs.v
theories/MathF32.v
theories/MathProps.v
theories/Blending.v
theories/BlendingSpec.v
theories/BlendingProofs.v
theories/BlendingReal.v
theories/BlendingProps.v
theories/Skinning.v
theories/SkinningSpec.v
theories/SkinningProofs.v
theories/SkinningProps.v
theories/Tracks.v
theories/TracksSpec.v
theories/TracksProofs.v
theories/TracksProps.v
theories/TracksF32.v
theories/Motion.v
theories/MotionProps.v
theories/Ik.v
theories/IkSpec.v
theories/IkProofs.v
theories/IkGeom.v
theories/IkF32.v
theories/IkProps.v
theories/Layout.v
theories/LayoutSpec.v
theories/LayoutProofs.v
theories/LayoutProps.v
theories/Serial.v
theories/SerialSpec.v
theories/SerialProofs.v
theories/SerialProps.v
theories/Buffers.v
theories/BuffersSpec.v
theories/BuffersProofs.v
theories/BuffersAlias.v
theories/BuffersSkin.v
theories/BuffersMore.v
theories/BuffersProps.v
theories/BuffersPoison.v
theories/Threads.v
theories/ThreadsSpec.v
theories/ThreadsProofs.v
theories/ThreadsJobs.v
theories/ThreadsSerial.v
theories/ThreadsProps.v
theories/InterpF32.v
theories/PoseSpec.v
theories/PoseProofs.v
theories/PoseProps.v
theories/Player.v
theories/PlayerSpec.v
theories/PlayerProofs.v
theories/PlayerProps.v
theories/NormF32.v
theories/BlendLane.v
theories/BlendF32.v
theories/BlendF32Spec.v
theories/BlendF32Proofs.v
theories/BlendMean.v
theories/BlendF32Props.v
theories/TrackCurveSpec.v
theories/TrackCurveProps.v
theories/PlaybackSpec.v
theories/PlaybackProps.v
theories/RigidSpec.v
theories/RigidF32.v
theories/RigidRow.v
theories/RigidProps.v
theories/RigidPlaySpec.v
theories/RigidPlayProps.v
theories/Objects.v
theories/ObjectsSpec.v
theories/ObjectsProps.v
theories/SkinF32Spec.v
theories/SkinF32.v
theories/SkinF32Props.v
theories/AdditiveSpec.v
theories/AdditiveProofs.v
theories/QuatNorm.v
theories/AdditiveF32.v
theories/AdditiveSteps.v
theories/AdditiveProps.v
theories/AdditivePlaySpec.v
theories/AdditivePlayProps.v
theories/PolyBound.v
theories/TrigReal.v
theories/ApxF32.v
theories/TrigF32.v
theories/TrigModel.v
theories/TrigProps.v
theories/MotionGlam.v
theories/MotionF32Spec.v
theories/MotionF32.v
theories/MotionF32Proofs.v
theories/MotionF32Finish.v
theories/MotionF32Props.v
theories/TrackValues.v
theories/TrackValuesSpec.v
theories/TrackValuesProofs.v
theories/TrackValuesProps.v
theories/PolyErr.v
theories/MatInvF32.v
theories/VecNorm.v
theories/AimF32.v
theories/AimParts.v
theories/AimSteps.v
theories/AimF32Proofs.v
theories/AimF32Spec.v
theories/AimF32Props.v
theories/Soa.v
theories/SoaSpec.v
theories/SoaProps.v
theories/MatSimF32.v
theories/TwoBoneParts.v
theories/TwoBoneCos.v
theories/TwoBoneMid.v
theories/TwoBoneAngle.v
theories/TwoBoneSpec.v
theories/TwoBonePlaces.v
theories/TwoBoneSoft.v
theories/TwoBoneBend.v
theories/TwoBoneStart.v
theories/TwoBoneCore.v
theories/TwoBoneProps.v
theories/ScaleSpec.v
theories/ScaleRow.v
theories/ScaleProps.v
theories/ScalePlayProps.v
theories/Platform.v
theories/PlatformSpec.v
theories/PlatformProofs.v
theories/PlatformProps.v
theories/Loaded.v
theories/AuthorSpec.v
theories/AuthorBuild.v
theories/AuthorProofs.v
theories/AuthorFile.v
theories/AuthorProps.v
theories/KnotSpec.v
theories/KnotProps.v
theories/SkinRigidSpec.v
theories/SkinRigidProps.v
theories/SmoothSpec.v
theories/SmoothProps.v
theories/SmoothTrackProps.v
theories/SmoothRotProps.v
theories/FadeSpec.v
theories/FadeProps.v
theories/PlayFadeSpec.v
theories/PlayFadeProps.v
