-Q theories Verif
theories/model/Base.v
theories/model/Packed.v
theories/model/Driver.v
theories/spec/DriverSpec.v
theories/proof/BaseProof.v
theories/proof/DriverProof.v
theories/model/DriverRun.v
theories/props/DriverProps.v
theories/model/IdTracker.v
theories/spec/TrackerSpec.v
theories/model/TrackerRun.v
theories/proof/PackedProof.v
theories/props/PackedProps.v
theories/proof/TrackerProof.v
theories/props/TrackerProps.v
theories/model/Sparse.v
theories/spec/SparseSpec.v
theories/model/SparseRun.v
theories/proof/SparseProof.v
theories/props/SparseProps.v
theories/model/Num.v
theories/model/NumR.v
theories/spec/LgammaSpec.v
theories/spec/PartitionSpec.v
theories/spec/VectorSpec.v
theories/spec/RandomSpec.v
theories/spec/LabelSpec.v
theories/model/PitmanYor.v
theories/model/PitmanYorRun.v
theories/proof/LgammaProof.v
theories/proof/PitmanYorProof.v
theories/proof/PitmanYorR.v
theories/proof/VectorProof.v
theories/proof/RandomProof.v
theories/proof/SamplerProof.v
theories/props/PitmanYorProps.v
theories/props/VectorProps.v
theories/props/RandomProps.v
theories/props/SamplerProps.v
theories/model/VectorMath.v
theories/model/Random.v
theories/model/Sampler.v
theories/model/LowEntropyTable.v
theories/spec/GroupSpec.v
theories/spec/GaussSpec.v
theories/model/Component.v
theories/model/Slave.v
theories/model/BB.v
theories/model/GP.v
theories/model/BNB.v
theories/model/NICH.v
theories/model/DD.v
theories/proof/GroupProof.v
theories/proof/LoopProof.v
theories/proof/BBProof.v
theories/proof/CountsProof.v
theories/proof/NICHProof.v
theories/proof/DDProof.v
theories/proof/ScoreProof.v
theories/proof/DDScore.v
theories/proof/DataProof.v
theories/props/GroupProps.v
theories/proof/ClosedForm.v
theories/props/ScoreProps.v
theories/spec/SlaveSpec.v
theories/model/NumTerm.v
theories/model/SlaveRun.v
theories/proof/SlaveProof.v
theories/proof/SlaveInst.v
theories/proof/DDSlave.v
theories/proof/SlaveScore.v
theories/props/SlaveProps.v
theories/model/DPD.v
theories/proof/DPDProof.v
theories/proof/MapSum.v
theories/proof/DPDScore.v
theories/spec/SharedSpec.v
theories/spec/JointSpec.v
theories/spec/SystemSpec.v
theories/model/SharedRun.v
theories/model/JointRun.v
theories/model/System.v
theories/proof/DPDShared.v
theories/proof/DPDSlave.v
theories/proof/DPDSlaveRun.v
theories/proof/DPDJoint.v
theories/props/DPDProps.v
theories/props/DPDSlaveProps.v
theories/proof/FeatureProof.v
theories/proof/FeatureInst.v
theories/proof/SystemProof.v
theories/proof/ClientProof.v
theories/props/SystemProps.v
theories/spec/StreamSpec.v
theories/model/Stream.v
theories/proof/StreamProof.v
theories/spec/CloseSpec.v
theories/model/AssertClose.v
theories/proof/CloseProof.v
theories/props/StreamProps.v
theories/props/CloseProps.v
theories/spec/StirlingSpec.v
theories/spec/ThreadSpec.v
theories/model/Stirling.v
theories/model/StirlingThreads.v
theories/model/MessageClose.v
theories/spec/MessageSpec.v
theories/proof/MessageProof.v
theories/props/MessageProps.v
theories/model/Alloc.v
theories/spec/AllocSpec.v
theories/proof/AllocProof.v
theories/props/AllocProps.v
theories/proof/StirlingProof.v
theories/proof/StirlingThreadsProof.v
theories/props/StirlingProps.v
theories/props/ThreadProps.v
theories/model/SpecialTables.v
theories/model/Special.v
theories/proof/LnBounds.v
theories/spec/SpecialSpec.v
theories/proof/SpecialProof.v
theories/props/SpecialProps.v
theories/proof/SeriesProof.v
theories/props/CountProps.v
theories/model/RField.v
theories/model/NIW.v
theories/spec/NiwSpec.v
theories/model/LinR.v
theories/proof/DetProof.v
theories/proof/NIWProof.v
theories/proof/LinProof.v
theories/proof/NIWScore.v
theories/props/NiwProps.v
theories/model/Proto.v
theories/proof/ProtoProof.v
theories/proof/DPDProto.v
theories/props/ProtoProps.v
theories/spec/LawSpec.v
theories/spec/LowEntropySpec.v
theories/spec/LowEntropyFloatSpec.v
theories/proof/PYLaw.v
theories/proof/LowEntropySum.v
theories/proof/LowEntropyNormal.v
theories/proof/LowEntropyLarge.v
theories/proof/LowEntropySub.v
theories/proof/LowEntropyFloat.v
theories/proof/MarginalLaw.v
theories/props/LawProps.v
theories/props/LowEntropyProps.v
theories/props/LowEntropyFloatProps.v
theories/props/CheckProps.v
theories/model/NIWSample.v
theories/proof/NIWSampleProof.v
theories/spec/NormalSpec.v
theories/props/NiwSampleProps.v
theories/model/ExpTable.v
theories/model/FastExp.v
theories/spec/ExpSpec.v
theories/proof/FastExpProof.v
theories/proof/ExpTableProof.v
theories/props/ExpProps.v
theories/model/FloatNum.v
theories/spec/FloatSpec.v
theories/proof/FloatScoresProof.v
theories/props/FloatProps.v
theories/spec/FlavorSpec.v
theories/spec/GrowSpec.v
theories/model/HistoryRun.v
theories/model/Dbg.v
theories/model/DbgDPD.v
theories/model/DbgNIW.v
theories/proof/FlavorProof.v
theories/proof/FlavorDD.v
theories/proof/FlavorDPD.v
theories/proof/FlavorNIW.v
theories/proof/FlavorClustering.v
theories/proof/FlavorHp.v
theories/props/FlavorProps.v
theories/proof/FloatNichProof.v
theories/proof/FloatNichAccuracy.v
theories/proof/FloatNichPost.v
theories/proof/FloatNichMerge.v
theories/props/FloatNichProps.v
theories/spec/DrawSpec.v
theories/model/GroupSampler.v
theories/proof/DirichletLaw.v
theories/proof/DrawProof.v
theories/proof/DrawDD.v
theories/proof/DrawDPD.v
theories/proof/GammaFunction.v
theories/proof/DrawCount.v
theories/proof/NormalLaw.v
theories/proof/DrawNormal.v
theories/proof/PiBound.v
theories/proof/LgammaBound.v
theories/proof/PolyCheck.v
theories/proof/LogPoly.v
theories/model/FastLgamma.v
theories/proof/LgammaSeg.v
theories/proof/FloatPoly.v
theories/proof/FastLgammaProof.v
theories/proof/NuSeg.v
theories/proof/FastLgammaNuProof.v
theories/proof/FastLgammaMore.v
theories/props/DrawProps.v
theories/props/FastLgammaProps.v
theories/model/FastLog.v
theories/spec/LogSpec.v
theories/proof/FastLogProof.v
theories/proof/FastLogMono.v
theories/proof/FloatRel.v
theories/proof/FloatPredictive.v
theories/proof/FloatPredictive2.v
theories/props/FloatScoreProps.v
theories/spec/GibbsSpec.v
theories/model/Gibbs.v
theories/proof/GibbsClusters.v
theories/proof/GibbsProof.v
theories/proof/GibbsMove.v
theories/props/GibbsProps.v
theories/spec/LseSpec.v
theories/model/FloatLse.v
theories/model/FloatStirling.v
theories/spec/FloatStirlingSpec.v
theories/proof/FloatStirlingProof.v
theories/proof/StirlingBounds.v
theories/proof/FloatStirlingApprox.v
theories/props/FloatStirlingProps.v
theories/proof/FloatLseProof.v
theories/proof/FloatOfReal.v
theories/props/LseProps.v
theories/model/Student.v
theories/spec/StudentSpec.v
theories/spec/CountSpec.v
theories/model/FloatCount.v
theories/proof/StudentProof.v
theories/proof/StudentFlat.v
theories/proof/StudentGamma.v
theories/props/StudentProps.v
theories/proof/FloatCountScores.v
theories/proof/FloatCountModels.v
theories/proof/FloatCountDD.v
theories/proof/FloatCountDPD.v
theories/props/FloatCountProps.v
theories/props/FloatCountDpdProps.v
theories/spec/DensitySpec.v
theories/proof/StudentInt.v
theories/proof/SchurProof.v
theories/proof/MvStudentInt.v
theories/proof/LnPi.v
theories/proof/DensityProof.v
theories/props/DensityProps.v
theories/spec/WireSpec.v
theories/spec/ClusteringMessageSpec.v
theories/model/Wire.v
theories/model/SchemaCode.v
theories/model/Schema.v
theories/model/SchemaClustering.v
theories/proof/WireProof.v
theories/proof/SchemaGen.v
theories/proof/SchemaWrite.v
theories/proof/SchemaMerge.v
theories/proof/SchemaProof.v
theories/props/SchemaProps.v
theories/spec/ClusteringUse.v
theories/proof/ClusteringMessage.v
theories/props/ClusteringMessageProps.v
theories/model/ProtoWire.v
theories/spec/CrossSpec.v
theories/proof/ProtoWireProof.v
theories/props/CrossProps.v
