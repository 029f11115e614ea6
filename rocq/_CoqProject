-Q theories Verif
theories/Base.v
theories/StringPattern.v
theories/StringPatternSpec.v
theories/StringPatternProofs.v
theories/StringPatternProps.v
theories/DataTable.v
theories/DataTableSpec.v
theories/DataTableProofs.v
theories/DataTableProps.v
theories/DataTableTFS.v
theories/DataTableTFSProofs.v
theories/DataTableTFSProps.v
theories/RBase.v
theories/Ranges.v
theories/RangesProps.v
theories/Interp.v
theories/InterpSpec.v
theories/InterpProofs.v
theories/InterpProps.v
theories/Ring.v
theories/RingProps.v
theories/Process.v
theories/ProcessSpec.v
theories/ProcessProofs.v
theories/ProcessProps.v
theories/Lattice.v
theories/LatticeSpec.v
theories/LatticeProofs.v
theories/LatticeProps.v
theories/Rot.v
theories/RotSpec.v
theories/RotProofs.v
theories/RotProps.v
theories/Frames.v
theories/FramesSpec.v
theories/FramesProofs.v
theories/FramesGeom.v
theories/FramesProps.v
theories/Tracker.v
theories/TrackerSpec.v
theories/TrackerProofs.v
theories/TrackerProps.v
theories/Tracking.v
theories/TrackingSpec.v
theories/TrackingProofs.v
theories/TrackingProps.v
theories/Cov.v
theories/CovProofs.v
theories/CovProps.v
theories/Bunch.v
theories/BunchSpec.v
theories/BunchProofs.v
theories/BunchProps.v
theories/Optics.v
theories/OpticsSpec.v
theories/OpticsProofs.v
theories/OpticsProps.v
theories/SparseMap.v
theories/SparseMapSpec.v
theories/SparseMapProofs.v
theories/SparseMapProps.v
theories/RFMap.v
theories/RFMapProps.v
theories/SmpLens.v
theories/SmpLensProps.v
theories/Aper.v
theories/AperSpec.v
theories/AperProps.v
theories/JawProps.v
theories/Survey.v
theories/SurveySpec.v
theories/SurveyProps.v
theories/Collimate.v
theories/CollimateSpec.v
theories/CollimateProps.v
theories/LossMap.v
theories/LossMapSpec.v
theories/LossMapProps.v
theories/Channels.v
theories/ChannelsProps.v
theories/Feedback.v
theories/FeedbackProps.v
theories/Cplx.v
theories/CplxFacts.v
theories/Klystron.v
theories/KlystronProps.v
theories/Field.v
theories/FieldProps.v
theories/Hist.v
theories/HistProps.v
theories/Wake.v
theories/WakeSpec.v
theories/WakeProofs.v
theories/WakeProps.v
theories/Support.v
theories/SupportSpec.v
theories/SupportProps.v
theories/Atl.v
theories/AtlProps.v
theories/Mat.v
theories/MatFacts.v
theories/Gauss.v
theories/GaussProps.v
theories/SympProps.v
theories/CollimatePlace.v
theories/LU.v
theories/LUProofs.v
theories/LUProps.v
theories/TMat.v
theories/TMatProps.v
theories/BeamMat.v
theories/BeamMatSpec.v
theories/BeamMatProofs.v
theories/BeamMatProps.v
theories/Mad.v
theories/MadSpec.v
theories/MadProofs.v
theories/MadProps.v
theories/Chromatic.v
theories/ChromaticProps.v
theories/SympInt.v
theories/SympIntSpec.v
theories/SympIntProofs.v
theories/SympIntProps.v
theories/SympRectProps.v
theories/SympStepProps.v
theories/BendMap.v
theories/BendMapSpec.v
theories/BendMapProofs.v
theories/BendMapProps.v
theories/GenBendProofs.v
theories/GenBendDeriv.v
theories/GenBendProps.v
theories/FaceProps.v
theories/TransInt.v
theories/TransSpec.v
theories/TransIntProps.v
theories/TransSkewProps.v
theories/TransBendProps.v
theories/TransFaceProps.v
theories/PoleFaces.v
theories/PoleFacesSpec.v
theories/PoleFacesProps.v
theories/ThinInt.v
theories/ThinSpec.v
theories/ThinIntProps.v
theories/ThinRectProps.v
theories/ThinOtherProps.v
theories/Orbit.v
theories/OrbitSpec.v
theories/OrbitProofs.v
theories/OrbitProps.v
theories/OrbitFindProps.v
theories/OrbitMoreProps.v
theories/LatFun.v
theories/LatFunSpec.v
theories/LatFunProofs.v
theories/LatFunProps.v
theories/LatTwissProps.v
theories/LatTwissEx.v
theories/LatTableProps.v
theories/LatMoreProps.v
theories/LatPhaseProps.v
theories/HollowLens.v
theories/HollowLensSpec.v
theories/HollowLensProofs.v
theories/HollowLensProps.v
theories/HollowDirProps.v
theories/HollowModeProps.v
theories/Spin.v
theories/SpinSpec.v
theories/SpinProofs.v
theories/SpinProps.v
theories/SpinEdgeProps.v
theories/SpinBunchProps.v
theories/Material.v
theories/MaterialData.v
theories/MaterialSpec.v
theories/MaterialProps.v
theories/MaterialTableProps.v
theories/MaterialDataProps.v
theories/MaterialStdProps.v
theories/Scatter.v
theories/ScatterSpec.v
theories/ScatterProps.v
theories/ScatterLoopProps.v
theories/ScatterMediumProps.v
theories/ScatterPathProps.v
theories/ApConf.v
theories/ApConfSpec.v
theories/ApConfProps.v
theories/ApDriftProps.v
theories/CollDB.v
theories/CollDBSpec.v
theories/CollDBProps.v
theories/CollOptProps.v
theories/Distr.v
theories/DistrSpec.v
theories/DistrProps.v
theories/Tune.v
theories/TuneSpec.v
theories/TuneProofs.v
theories/TuneProps.v
theories/TuneRealProps.v
theories/Linac.v
theories/LinacSpec.v
theories/LinacProps.v
theories/Watch.v
theories/WatchSpec.v
theories/WatchProps.v
theories/SynchRad.v
theories/SynchRadSpec.v
theories/SynchRadProps.v
theories/CollWake.v
theories/CollWakeSpec.v
theories/CollWakeProps.v
theories/CCFail.v
theories/CCFailSpec.v
theories/CCFailProps.v
theories/SMPWake.v
theories/SMPWakeSpec.v
theories/SMPWakeProps.v
theories/SMPConv.v
theories/SMPConvSpec.v
theories/SMPConvProps.v
theories/CoupWake.v
theories/CoupWakeSpec.v
theories/CoupWakeProps.v
theories/CorrWind.v
theories/CorrWindProps.v
theories/MultiNorm.v
theories/MultiNormSpec.v
theories/MultiNormProps.v
theories/MultiNormPosProps.v
