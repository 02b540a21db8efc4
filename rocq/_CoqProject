-Q theories Verif
theories/Base.v
theories/ScatterModel.v
theories/ScatterSpec.v
theories/ScatterProofs.v
theories/ScatterProps.v
theories/ComplexModel.v
theories/BatchSpec.v
theories/BatchProofs.v
theories/BatchSpec2.v
theories/BatchProofs2.v
theories/DummyModel.v
theories/BatchProps.v
theories/MPModel.v
theories/MPSpec.v
theories/MPProofs.v
theories/MPEngine.v
theories/MPBatch.v
theories/MPForward.v
theories/MPNets.v
theories/MPProps.v
theories/MPParams.v
theories/MPLower.v
theories/MPIso.v
theories/LiftModel.v
theories/LiftSpec.v
theories/LiftBase.v
theories/LiftProofs.v
theories/LiftClique.v
theories/LiftTables.v
theories/LiftCliqueProps.v
theories/LiftProps.v
theories/LiftRing.v
theories/LiftRingProps.v
theories/LiftRingBoundary.v
theories/LiftRingExamples.v
theories/LiftIso.v
theories/LiftInvariance.v
theories/PermModel.v
theories/PermProps.v
theories/PermLift.v
theories/LiftDataset.v
theories/EmbedModel.v
theories/EmbedSpec.v
theories/EmbedProofs.v
theories/EmbedNets.v
theories/EmbedProps.v
theories/FlowModel.v
theories/FlowSpec.v
theories/FlowProofs.v
theories/FlowProofs2.v
theories/FlowHole.v
theories/FlowWalk.v
theories/FlowAdj.v
theories/FlowProps.v
theories/OceanModel.v
theories/OceanProofs.v
theories/OceanProps.v
theories/OrientModel.v
theories/OrientSpec.v
theories/OrientProofs.v
theories/OrientBatch.v
theories/OrientProps.v
theories/DatasetModel.v
theories/DatasetSpec.v
theories/DatasetProofs.v
theories/DatasetProps.v
theories/CacheModel.v
theories/CacheProps.v
theories/RingModel.v
theories/RingProps.v
theories/TUModel.v
theories/TUSpec.v
theories/TUProofs.v
theories/TUProps.v
theories/ExpModel.v
theories/ExpSpec.v
theories/ExpProofs.v
theories/ExpProps.v
theories/InferModel.v
theories/InferProps.v
theories/GraphNetModel.v
theories/GraphNetSpec.v
theories/GraphNetProofs.v
theories/RingNetProofs.v
theories/GraphNetProps.v
theories/RingTaskModel.v
theories/RingTaskSpec.v
theories/RingTaskProofs.v
theories/RingTaskProps.v
theories/PowerSpec.v
theories/PowerProofs.v
theories/PowerProps.v
theories/TrainModel.v
theories/TrainSpec.v
theories/TrainProps.v
theories/WLSpec.v
theories/WLProofs.v
theories/WLProps.v
theories/CountProps.v
theories/RedundantSpec.v
theories/RedundantProofs.v
theories/RedundantProps.v
theories/BlindSpec.v
theories/BlindProofs.v
theories/BlindProps.v
theories/CollectModel.v
theories/CollectSpec.v
theories/CollectProofs.v
theories/CollectProps.v
theories/FlowUpSpec.v
theories/FlowUpProofs.v
theories/FlowUpProps.v
theories/UnionSpec.v
theories/UnionProofs.v
theories/UnionLift.v
theories/UnionProps.v
theories/LaunchModel.v
theories/LaunchSpec.v
theories/LaunchProofs.v
theories/LaunchFamilies.v
theories/LaunchSession.v
theories/LaunchProps.v
theories/CommandModel.v
theories/CommandSpec.v
theories/CommandProofs.v
theories/CommandProps.v
theories/ShippedModel.v
theories/ShippedSpec.v
theories/ShippedProps.v
theories/NormModel.v
theories/NormSpec.v
theories/NormProofs.v
theories/NormMembers.v
theories/NormProps.v
theories/SchedModel.v
theories/SchedSpec.v
theories/SchedProofs.v
theories/SchedProps.v
theories/PartialModel.v
theories/PartialSpec.v
theories/PartialProofs.v
theories/PartialProps.v
theories/SelfIsoModel.v
theories/SelfIsoSpec.v
theories/SelfIsoProofs.v
theories/SelfIsoProps.v
theories/CollaterModel.v
theories/CollaterSpec.v
theories/CollaterProofs.v
theories/CollaterProps.v
theories/HierSpec.v
theories/HierProofs.v
theories/HierProps.v
theories/PartSpec.v
theories/PartProofs.v
theories/PartProps.v
theories/MolModel.v
theories/MolSpec.v
theories/MolProofs.v
theories/MolProps.v
theories/KwlSpec.v
theories/KwlProofs.v
theories/KwlProps.v
theories/KwlBound.v
theories/KwlClique.v
theories/KwlCells.v
theories/KwlUpper.v
theories/KwlSrg.v
theories/SparseModel.v
theories/SparseSpec.v
theories/SparseProps.v
theories/TUPipeModel.v
theories/TUPipeSpec.v
theories/TUPipeProofs.v
theories/TUPipeProps.v
theories/CostSpec.v
theories/CostProps.v
theories/FlowPipeModel.v
theories/FlowPipeProofs.v
theories/FlowPipeProps.v
theories/FloatModel.v
theories/FloatSpec.v
theories/FloatProofs.v
theories/FloatProps.v
theories/WidthModel.v
theories/WidthSpec.v
theories/WidthProofs.v
theories/WidthProofs2.v
theories/WidthProofs3.v
theories/WidthProps.v
theories/ResetModel.v
theories/ResetProps.v
theories/RunModel.v
theories/RunProofs.v
theories/RunNum.v
theories/RunProps.v
theories/SummModel.v
theories/SummSpec.v
theories/SummProofs.v
theories/SummProps.v
theories/SchedEnds.v
theories/DropModel.v
theories/DropSpec.v
theories/DropProofs.v
theories/DropHeads.v
theories/DropProps.v
theories/DropLin1.v
theories/TUBaseModel.v
theories/TUBaseProps.v
theories/RingSummModel.v
theories/RingSummProps.v
theories/PartialKeys.v
