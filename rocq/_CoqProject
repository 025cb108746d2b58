-Q theories Verif
theories/Base.v
theories/PlanModel.v
theories/PlanSpec.v
theories/PlanProofs.v
theories/PlanProps.v
theories/McCellModel.v
theories/McCellSpec.v
theories/McCellProofs.v
theories/McCellProps.v
theories/AtomMapModel.v
theories/AtomMapSpec.v
theories/AtomMapProofs.v
theories/AtomMapProps.v
theories/Containers.v
theories/AtomStorageModel.v
theories/AtomStorageSpec.v
theories/AtomStorageProofs.v
theories/AtomStorageProps.v
theories/GroupStorageModel.v
theories/GroupStorageSpec.v
theories/GroupStorageProofs.v
theories/GroupStorageProps.v
theories/Vec3.v
theories/DomainModel.v
theories/DomainSpec.v
theories/DomainProofs.v
theories/DomainProps.v
theories/OrthoModel.v
theories/BoxSpec.v
theories/OrthoSpec.v
theories/OrthoProofs.v
theories/OrthoProps.v
theories/BoxIoModel.v
theories/BoxIoProps.v
theories/MonoModel.v
theories/MonoSpec.v
theories/MonoProofs.v
theories/MonoProps.v
theories/FpShiftModel.v
theories/FpShiftProps.v
theories/PairModel.v
theories/Deriv.v
theories/PairSpec.v
theories/PairProofs.v
theories/PairProps.v
theories/BondModel.v
theories/BondSpec.v
theories/BondProps.v
theories/AngleModel.v
theories/GradSpec.v
theories/AngleProofs.v
theories/AngleSpec.v
theories/AngleProps.v
theories/DihedralModel.v
theories/DihedralSpec.v
theories/DihedralProofs.v
theories/DihedralProps.v
theories/WallModel.v
theories/WallSpec.v
theories/WallProps.v
theories/SpeciesModel.v
theories/SpeciesSpec.v
theories/SpeciesProofs.v
theories/SpeciesBuild.v
theories/SpeciesProps.v
theories/SpeciesIo.v
theories/MutatorModel.v
theories/MutatorProps.v
theories/LinkModel.v
theories/LinkProps.v
theories/SimModel.v
theories/SimSpec.v
theories/SimProofs.v
theories/SimGroups.v
theories/SimInit.v
theories/SimProps.v
theories/ActivateModel.v
theories/ActivateProps.v
theories/ReservoirModel.v
theories/ReservoirProps.v
theories/CellListModel.v
theories/CellListSpec.v
theories/CellListProofs.v
theories/CellListProps.v
theories/CellListFpModel.v
theories/CellListFpProps.v
theories/PairListModel.v
theories/PairListSpec.v
theories/PairListProofs.v
theories/PairListProps.v
theories/BufferModel.v
theories/BufferSpec.v
theories/BufferProofs.v
theories/BufferProps.v
theories/EnergyModel.v
theories/EnergySpec.v
theories/EnergyProofs.v
theories/MoveModel.v
theories/MoveSpec.v
theories/MoveProofs.v
theories/EnergyProps.v
theories/MoveProps.v
theories/BalanceSpec.v
theories/BalanceProps.v
theories/MdModel.v
theories/MdSpec.v
theories/MdProofs.v
theories/MdForces.v
theories/MdProps.v
theories/MdGradSpec.v
theories/MdGradProofs.v
theories/MdGradProps.v
theories/MdGradClasses.v
theories/CoordModel.v
theories/CoordSpec.v
theories/CoordProps.v
theories/NbrModel.v
theories/NbrSpec.v
theories/NbrOffsets.v
theories/NbrCells.v
theories/NbrGet.v
theories/NbrSearch.v
theories/NbrPairs.v
theories/NbrIter.v
theories/NbrProofs.v
theories/NbrProps.v
theories/NbrRefuted.v
theories/NbrExamples.v
theories/DistModel.v
theories/DistSpec.v
theories/DistProofs.v
theories/DistProps.v
theories/DistExamples.v
theories/CollModel.v
theories/CollProofs.v
theories/GDistModel.v
theories/GDistSpec.v
theories/GDistProofs.v
theories/GDistProps.v
theories/CollProps.v
theories/CollExamples.v
theories/ExchModel.v
theories/ExchSpec.v
theories/ExchProofs.v
theories/ExchAtoms.v
theories/ExchElem.v
theories/ExchStart.v
theories/ExchGhost.v
theories/ExchCopies.v
theories/ExchFinal.v
theories/ExchProps.v
theories/ExchExamples.v
theories/ExchUpdSpec.v
theories/ExchLinks.v
theories/ExchUpdate.v
theories/ExchUpdProps.v
theories/CfbModel.v
theories/CfbSpec.v
theories/CfbProofs.v
theories/CfbSteps.v
theories/CfbProps.v
theories/GExchModel.v
theories/GExchSpec.v
theories/GExchProofs.v
theories/GExchAtoms.v
theories/GExchOrigin.v
theories/GExchGhosts.v
theories/GExchReach.v
theories/GExchTotal.v
theories/GExchProps.v
theories/GExchExamples.v
theories/DdPairModel.v
theories/DdPairSpec.v
theories/DdPairExch.v
theories/DdPairProofs.v
theories/DdPairRuns.v
theories/DdPairTotal.v
theories/DdPairProps.v
theories/DdPairExamples.v
theories/DdGroupModel.v
theories/DdGroupSpec.v
theories/DdGroupProofs.v
theories/DdGroupTotal.v
theories/DdGroupProps.v
theories/DdGroupExamples.v
theories/EwaldModel.v
theories/EwaldSpec.v
theories/EwaldProofs.v
theories/EwaldForces.v
theories/EwaldGrad.v
theories/EwaldStress.v
theories/EwaldMdModel.v
theories/EwaldMdSpec.v
theories/EwaldMdProofs.v
theories/EwaldKept.v
theories/EwaldProps.v
theories/ClusterModel.v
theories/ClusterSpec.v
theories/ClusterProofs.v
theories/ClusterProps.v
theories/FieldModel.v
theories/FieldSpec.v
theories/FieldProofs.v
theories/FieldProps.v
theories/ThermoModel.v
theories/ThermoSpec.v
theories/ThermoProofs.v
theories/ThermoDpd.v
theories/ThermoLang.v
theories/ThermoArch.v
theories/ThermoProps.v
theories/ThermoExamples.v
theories/NphModel.v
theories/NphSpec.v
theories/NphProofs.v
theories/NphProps.v
theories/NphExamples.v
theories/ClusterComModel.v
theories/ClusterComSpec.v
theories/ClusterComProofs.v
theories/ClusterComProps.v
theories/AnaModel.v
theories/AnaSpec.v
theories/AnaProofs.v
theories/AnaRouse.v
theories/AnaMsd.v
theories/AnaProps.v
theories/AnaExamples.v
theories/PairSelModel.v
theories/PairSelSpec.v
theories/PairSelProofs.v
theories/PairSelProps.v
theories/SfModel.v
theories/SfSpec.v
theories/SfProofs.v
theories/SfProps.v
theories/SymModel.v
theories/SymSpec.v
theories/SymProofs.v
theories/SymGrid.v
theories/SymProps.v
theories/SymGridProps.v
theories/RepModel.v
theories/RepSpec.v
theories/RepPerm.v
theories/RepProps.v
theories/ReptModel.v
theories/ReptSpec.v
theories/ReptProofs.v
theories/ReptSteps.v
theories/ReptProps.v
theories/ReptBalance.v
theories/GnrModel.v
theories/GnrSpec.v
theories/GnrProofs.v
theories/GnrProps.v
theories/CchModel.v
theories/CchSpec.v
theories/CchProofs.v
theories/CchProps.v
