-Q theories Verif
theories/AdfExample.v
theories/AdfModel.v
theories/AdfProofs.v
theories/AdfProofs2.v
theories/AdfProofs3.v
theories/AdfProps.v
theories/AdfSpec.v
theories/ArnoldiProofs.v
theories/AsmModel.v
theories/AsmProofs.v
theories/AsmProps.v
theories/AsmSpec.v
theories/AssembleModel.v
theories/AssembleProofs.v
theories/AssembleProps.v
theories/AssembleSpec.v
theories/AugProofs.v
theories/BasisModel.v
theories/BasisProofs.v
theories/BasisProofs2.v
theories/BasisProps.v
theories/BasisSpec.v
theories/BicProofs.v
theories/BmatProofs.v
theories/CacheKeyProofs.v
theories/CochainModel.v
theories/CochainProofs.v
theories/CochainProofs2.v
theories/CochainProofs3.v
theories/CochainProofs4.v
theories/CochainProofs5.v
theories/CochainProofs6.v
theories/CochainProps.v
theories/CochainSpec.v
theories/Cr2Example.v
theories/Cr2Model.v
theories/Cr2Proofs.v
theories/Cr2Proofs2.v
theories/Cr2Props.v
theories/Cr2Spec.v
theories/CrossExample.v
theories/CrossModel.v
theories/CrossProofs.v
theories/CrossProofs2.v
theories/CrossProps.v
theories/CrossSpec.v
theories/CtExample.v
theories/CtModel.v
theories/CtProofs.v
theories/CtProofs2.v
theories/CtProps.v
theories/CtSpec.v
theories/Disc2Example.v
theories/Disc2Model.v
theories/Disc2Proofs.v
theories/Disc2Proofs2.v
theories/Disc2Props.v
theories/Disc2Spec.v
theories/DiscExample.v
theories/DiscModel.v
theories/DiscProofs.v
theories/DiscProofs2.v
theories/DiscProofs3.v
theories/DiscProps.v
theories/DiscSpec.v
theories/Edge2Model.v
theories/Edge2Proofs.v
theories/EdgeModel.v
theories/EdgeProofs.v
theories/EdgeProofs2.v
theories/EdgeProofs3.v
theories/EdgeProofs4.v
theories/EdgeProps.v
theories/EdgeSpec.v
theories/ErrExample.v
theories/ErrModel.v
theories/ErrProofs.v
theories/ErrProofs2.v
theories/ErrProofs3.v
theories/ErrProofs4.v
theories/ErrProofs5.v
theories/ErrProofs6.v
theories/ErrProps.v
theories/ErrSpec.v
theories/EwcModel.v
theories/EwcMore.v
theories/EwcProofs.v
theories/EwcProps.v
theories/EwcSpec.v
theories/ExHelp.v
theories/ExactCaseModel.v
theories/ExactExample.v
theories/ExactModel.v
theories/ExactProofs.v
theories/ExactProofs2.v
theories/ExactProofs3.v
theories/ExactProofs4.v
theories/ExactProofs5.v
theories/ExactProofs6.v
theories/ExactProps.v
theories/ExactSpec.v
theories/FarExample.v
theories/FarModel.v
theories/FarProofs.v
theories/FarProofs2.v
theories/FarProofs3.v
theories/FarProofs4.v
theories/FarProps.v
theories/FarSpec.v
theories/FieldExample.v
theories/FieldModel.v
theories/FieldProofs.v
theories/FieldProofs2.v
theories/FieldProofs3.v
theories/FieldProps.v
theories/FieldSpec.v
theories/FindProofs.v
theories/GatherModel.v
theories/GatherProofs.v
theories/GatherProps.v
theories/GatherSpec.v
theories/GroupModel.v
theories/GroupProofs.v
theories/IterModel.v
theories/IterProofs.v
theories/IterProps.v
theories/IterSpec.v
theories/KrylovModel.v
theories/KrylovProps.v
theories/KrylovSpec.v
theories/LinAlgModel.v
theories/LinAlgProofs.v
theories/LinAlgProps.v
theories/LinAlgSpec.v
theories/LtcExample.v
theories/LtcModel.v
theories/LtcProofs.v
theories/LtcProofs2.v
theories/LtcProofs3.v
theories/LtcProps.v
theories/LtcSpec.v
theories/MarkExample.v
theories/MarkModel.v
theories/MarkProofs.v
theories/MarkProofs2.v
theories/MarkProps.v
theories/MarkSpec.v
theories/MdmExample.v
theories/MdmModel.v
theories/MdmProofs.v
theories/MdmProofs2.v
theories/MdmProofs3.v
theories/MdmProofs4.v
theories/MdmProofs5.v
theories/MdmProofs6.v
theories/MdmPropLemmas.v
theories/MdmProps.v
theories/MdmSpec.v
theories/MeshMapModel.v
theories/MeshMapProofs.v
theories/MeshMapProofs2.v
theories/MeshMapProofs3.v
theories/MeshMapProofs4.v
theories/MeshMapSpec.v
theories/MeshModel.v
theories/MeshProofs.v
theories/MeshProofs2.v
theories/MeshProofs3.v
theories/MeshProps.v
theories/MeshSpec.v
theories/MiscModel.v
theories/MiscProofs.v
theories/MiscProofs2.v
theories/MiscProofs3.v
theories/MiscProps.v
theories/MiscSpec.v
theories/NhtModel.v
theories/NhtProofs.v
theories/NhtProofs2.v
theories/NhtProofs3.v
theories/NhtProofs4.v
theories/NhtProofs5.v
theories/NhtProofs6.v
theories/NhtProps.v
theories/NhtSpec.v
theories/NumModel.v
theories/NumProofs.v
theories/NumProofs2.v
theories/NumProofs3.v
theories/NumProofs4.v
theories/NumProofs5.v
theories/NumProofs6.v
theories/NumProps.v
theories/NumSpec.v
theories/ParProps.v
theories/Prelude.v
theories/PreludeProofs.v
theories/RField.v
theories/Rec2Example.v
theories/Rec2Model.v
theories/Rec2Proofs.v
theories/Rec2Proofs2.v
theories/Rec2Proofs3.v
theories/Rec2Proofs4.v
theories/Rec2Proofs5.v
theories/Rec2Proofs6.v
theories/Rec2Props.v
theories/Rec2Spec.v
theories/ReconBasis.v
theories/ReconBasisEx.v
theories/ReconBasisProps.v
theories/ReconExample.v
theories/ReconModel.v
theories/ReconProofs.v
theories/ReconProofs2.v
theories/ReconProofs3.v
theories/ReconProofs4.v
theories/ReconProofs5.v
theories/ReconProps.v
theories/ReconSpec.v
theories/RingSum.v
theories/RowsProofs.v
theories/RunnerExample.v
theories/RunnerModel.v
theories/RunnerNumModel.v
theories/RunnerNumProofs.v
theories/RunnerNumSpec.v
theories/RunnerProofs.v
theories/RunnerProofs10.v
theories/RunnerProofs2.v
theories/RunnerProofs3.v
theories/RunnerProofs4.v
theories/RunnerProofs5.v
theories/RunnerProofs6.v
theories/RunnerProofs7.v
theories/RunnerProofs8.v
theories/RunnerProofs9.v
theories/RunnerProps.v
theories/RunnerSpec.v
theories/SaveExample.v
theories/SaveModel.v
theories/SaveProofs.v
theories/SaveProofs2.v
theories/SaveProofs3.v
theories/SaveProofs4.v
theories/SaveProps.v
theories/SaveSpec.v
theories/SchedModel.v
theories/SchedProofs.v
theories/SchurProofs.v
theories/SequentProofs.v
theories/SpaceModel.v
theories/SpaceProofs.v
theories/SpaceProofs2.v
theories/SpaceProofs3.v
theories/SpaceProofs4.v
theories/SpaceProofs5.v
theories/SpaceProofs6.v
theories/SpaceProofs7.v
theories/SpaceProofs8.v
theories/SpaceProofs9.v
theories/SpaceProps.v
theories/SpaceSpec.v
theories/SpacingModel.v
theories/SpacingProofs.v
theories/SpacingSpec.v
theories/SplitProofs.v
theories/StopModel.v
theories/StopProofs.v
theories/StopProps.v
theories/StopSpec.v
theories/StrongExample.v
theories/StrongModel.v
theories/StrongProofs.v
theories/StrongProofs2.v
theories/StrongProofs3.v
theories/StrongProofs4.v
theories/StrongProofs5.v
theories/StrongProofs6.v
theories/StrongProofs7.v
theories/StrongProofs8.v
theories/StrongProps.v
theories/StrongSpec.v
theories/TdiscExample.v
theories/TdiscModel.v
theories/TdiscProofs.v
theories/TdiscProofs2.v
theories/TdiscProofs3.v
theories/TdiscProofs4.v
theories/TdiscProps.v
theories/TdiscSpec.v
theories/TewExample.v
theories/TewModel.v
theories/TewProofs.v
theories/TewProofs2.v
theories/TewProofs3.v
theories/TewProofs4.v
theories/TewProofs5.v
theories/TewProps.v
theories/TewSpec.v
theories/TfiExample.v
theories/TfiModel.v
theories/TfiProofs.v
theories/TfiProofs2.v
theories/TfiProofs3.v
theories/TfiProofs4.v
theories/TfiProps.v
theories/TfiSpec.v
theories/TraceModel.v
theories/TraceProofs.v
theories/TraceProofs2.v
theories/TraceProofs3.v
theories/TraceProps.v
theories/TraceSpec.v
theories/TransModel.v
theories/TransProofs.v
theories/TransProps.v
theories/TransSpec.v
theories/TreconBasis.v
theories/TreconBasisProps.v
theories/TreconExample.v
theories/TreconModel.v
theories/TreconProofs.v
theories/TreconProofs2.v
theories/TreconProofs3.v
theories/TreconProofs4.v
theories/TreconProofs5.v
theories/TreconProofs6.v
theories/TreconProps.v
theories/TreconSpec.v
theories/TreeModel.v
theories/TreeProofs.v
theories/TrfExample.v
theories/TrfModel.v
theories/TrfProofs.v
theories/TrfProofs2.v
theories/TrfProofs3.v
theories/TrfProofs4.v
theories/TrfProps.v
theories/TrfSpec.v
theories/TriExample.v
theories/TriModel.v
theories/TriProofs.v
theories/TriProofs2.v
theories/TriProofs3.v
theories/TriProofs4.v
theories/TriProofs5.v
theories/TriProofs6.v
theories/TriProofs7.v
theories/TriProps.v
theories/TriSpec.v
theories/TsizeExample.v
theories/TsizeModel.v
theories/TsizeProofs.v
theories/TsizeProps.v
theories/Typ3Example.v
theories/Typ3Model.v
theories/Typ3Proofs.v
theories/Typ3Props.v
theories/Typ3Spec.v
theories/TypExample.v
theories/TypModel.v
theories/TypProofs.v
theories/TypProps.v
theories/TypSpec.v
theories/VCusProofs.v
theories/VRowsProofs.v
theories/VdExample.v
theories/VdModel.v
theories/VdProofs.v
theories/VdProofs2.v
theories/VdProps.v
theories/VdSpec.v
theories/VtkExample.v
theories/VtkModel.v
theories/VtkProofs.v
theories/VtkProofs2.v
theories/VtkProps.v
theories/VtkSpec.v
