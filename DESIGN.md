# Formal model of simpatico: design

The code in `/repo` is read as text; nothing is compiled from it.  This file
says what is modelled, how the properties of `properties.jsonl` are stated and
proved, and what has to be trusted.

## Layout

`rocq/theories/` holds, per topic X,

* `XModel.v`  - Gallina definitions; each one carries a comment that cites the
  file and lines of `/repo` it models and says where it simplifies;
* `XSpec.v`   - small specifications that do not use the model's helpers, where
  the statement needs more than a line;
* `XProofs.v` and further files - lemmas;
* `XProps.v`  - the theorems named in `MANIFEST.json`, with worked `Example`s that
  meet their hypotheses, and `Print Assumptions`.

`Base.v` holds the outcome type (`Ok`, `Throw`, `UB`) and array-as-list lemmas.
An out-of-range array access, a write past a buffer, or use of a null or
uninitialised value is the outcome `UB`; a `UTIL_THROW` or a failed `UTIL_CHECK`
is `Throw`.  `assert` and `UTIL_ASSERT` are compiled out in the builds the model
follows, so a failed assertion is not an outcome.

Where a property is false of the code as written, the full statement is kept in
a theorem `..._refuted`, which exhibits a counterexample in the model that meets
all hypotheses, and the strongest true variant found, with the missing hypothesis
explicit, is proved next to it, under a name that ends in `_partial` when it is
weaker than the property.  The manifest marks such properties `partial`.

## Numbers

* Coordinates and energies are Coq reals (`R`): arithmetic is exact.  Where
  rounding decides the claim (C02, and the cell list of the MC code in
  `CellListFpModel`), Flocq's `binary64` is used instead.
* Counters, ids and indices are `nat` or `Z`; overflow of `int` is not modelled.
* Vectors are `vec3 A`, a record of three components, with `vget v i`.
* Random numbers are arguments: a stream, or a function argument of the move; the
  distribution claims (C43, C46-C50, C60, C71, C72) are about densities or finite
  choices.

## How the models are built

* Serial containers (`Cell`, `AtomMap`, `AtomStorage`, `GroupStorage`, `Mask`,
  `ReservoirModel`, ...) are state machines.  Claims quantify over all histories of
  public calls.
* Files, archives, parameter blocks and MPI messages are lists of tokens.  A round
  trip is a statement about the reader applied to what the writer emits, followed by
  an arbitrary rest.
* Potentials are functions on `R`; "the force is minus the gradient" is
  `is_derive` of Coquelicot, for every coordinate.
* Monte Carlo moves are functions of a configuration and the random draws; detailed
  balance is an identity between weights of a move and of its reverse.
* Parallel functions (exchange, distribution, collection) are functions on the list
  of the states of all processors.  A blocking send and its receive are one step: the
  receiver takes the message of the rank that its table names.  Deadlock and the
  order of messages within one round are therefore not modelled; the tables that
  pair senders with receivers are (C23).
* Pointers to atoms are numbers (`h`) into a memory function; a freed slot is not
  reused within one exchange in the parallel models, while `AtomStorageModel` and
  `GroupStorageModel` model the reservoirs with their reuse.

## Properties

Status, and the files that hold the theorems.  The theorems and what is
missing from partial ones are in `MANIFEST.json`; the statements in words are in
`properties.jsonl`.

| id | title | status | theorems in |
|----|-------|--------|-------------|
| C01 | Wrapping a position into an orthorhombic box is exact | proved | `OrthoProps` |
| C02 | Wrapping in binary64 stays strictly below the upper face | partial | `FpShiftProps` |
| C03 | distanceSq is the true minimum-image distance in an orthorhombic box | proved | `OrthoProps` |
| C04 | Cartesian and generalized coordinates are inverse maps that commute with lattice shifts | proved | `MonoProps`, `OrthoProps` |
| C05 | A monoclinic box wraps positions and measures separations consistently | partial | `MonoProps` |
| C06 | Bravais and reciprocal vectors are dual and give the volume | proved | `MonoProps`, `OrthoProps` |
| C07 | An orthorhombic boundary survives output and re-input | partial | `BoxIoProps` |
| C08 | An MC cell holds exactly the atoms that were added and not deleted | partial | `McCellProps` |
| C09 | Cell index and cell coordinates are inverse and cover the box | proved | `CellListFpProps`, `CellListProps` |
| C10 | The MC cell list finds every atom within the cutoff exactly once | partial | `CellListProps` |
| C100 | Mean squared displacements follow atoms and molecules across faces | partial | `AnaProps` |
| C101 | Rouse modes do not depend on periodic images or translations | partial | `AnaProps` |
| C102 | Structure factors are averages of sums over pairs | partial | `SfProps` |
| C103 | Pair selectors select each pair once; energies and distribution functions of selected pairs | partial | `PairSelProps` |
| C104 | Symmetry groups, stars and the grid of structure factors | partial | `SymGridProps`, `SymProps` |
| C105 | Perturbation derivatives and replica exchange keep the joint distribution | partial | `RepProps` |
| C106 | Reptation samples the Boltzmann distribution | partial | `ReptBalance`, `ReptProps` |
| C107 | Generated configurations do not overlap | partial | `GnrProps` |
| C108 | Analyzers get the energies of the configuration they analyze | partial | `CchProps` |
| C11 | An MD pair list holds every unmasked close pair exactly once | proved | `PairListProps` |
| C12 | Iterating a pair list visits exactly the stored pairs | proved | `NbrExamples`, `PairListProps` |
| C13 | A pair list reported current misses no interacting pair | partial | `CoordProps`, `PairListProps` |
| C14 | Masks are symmetric sets after species initialisation | proved | `SimProps` |
| C15 | Deactivating and reactivating atoms keeps group activity consistent | proved | `ActivateProps` |
| C16 | Communication plan flags are independent | proved | `PlanProps` |
| C17 | A Plan written to a stream reads back unchanged | partial | `PlanProps` |
| C18 | The atom map always finds the local atom, else a ghost | proved | `AtomMapProps` |
| C19 | Atom storage never loses or duplicates a slot | proved | `AtomStorageProps` |
| C20 | Group storage keeps one record per group id | partial | `GroupStorageProps` |
| C21 | Packing then unpacking atoms, ghosts, forces and groups is the identity | proved | `BufferProps` |
| C22 | The send buffer accepts the advertised number of items and is never overrun | partial | `BufferProps` |
| C23 | Neighbouring processors agree on who sends to whom | proved | `DomainProps` |
| C24 | Processor domains partition the box | proved | `DomainProps` |
| C25 | Exchanging atoms moves every atom to the processor that owns its position | proved | `ExchExamples`, `ExchProps` |
| C26 | Ghost exchange supplies every neighbour within the cutoff | partial | `ExchExamples`, `ExchProps` |
| C27 | Ghost positions track their owners and ghost forces flow back | proved | `ExchUpdProps` |
| C28 | The atom distributor delivers every atom once to its owner | proved | `DistProps` |
| C29 | The atom and group collectors return every item once | proved | `CollProps` |
| C30 | Groups are distributed to every processor that holds one of their atoms | proved | `CollProps`, `GDistProps` |
| C31 | With reverse communication the domain-decomposed neighbour search counts each pair once | proved | `NbrProps` |
| C32 | Cell offsets reach every cell within the cutoff | proved | `NbrProps` |
| C33 | Pair forces are minus the gradient of pair energies | partial | `PairProps` |
| C34 | Pair parameters stay symmetric and self-consistent under set calls | partial | `PairProps` |
| C35 | Bond forces are minus the gradient of bond energies | partial | `BondProps` |
| C36 | Angle forces are the gradient of angle energies and exert no torque | proved | `AngleProps` |
| C37 | Dihedral forces are the gradient of dihedral energies | proved | `DihedralProofs`, `DihedralProps` |
| C38 | Wall forces are minus the gradient of wall energies | partial | `WallProps` |
| C39 | Built species have valid chain and ring topology | proved | `SpeciesIo`, `SpeciesProps` |
| C40 | A species saved to an archive loads back unchanged | partial | `SpeciesIo` |
| C41 | A structure written by a species matches that species | partial | `SpeciesIo` |
| C42 | Molecules own disjoint contiguous blocks of atoms and groups | proved | `SimProps` |
| C43 | Molecules are never lost between reservoir and system | proved | `ReservoirProps` |
| C44 | State occupancies of a mutable species count molecules | partial | `MutatorProps` |
| C45 | Dynamic links stay consistent with the per-atom link sets | partial | `LinkProps` |
| C46 | Displacement moves use the true change in energy | partial | `MoveProps` |
| C47 | EndSwap and semigrand moves use the true change in energy | partial | `MoveProps` |
| C48 | Configuration-bias end regrowth uses the right weights | partial | `CfbProps` |
| C49 | A rejected move leaves the system as it was | partial | `CfbProps`, `MoveProps` |
| C50 | Metropolis acceptance satisfies detailed balance | proved | `BalanceProps` |
| C51 | Velocity-Verlet integration is reversible and conserves momentum | proved | `MdProps` |
| C52 | Positions in storage are converted between coordinate systems consistently | proved | `CoordProps` |
| C53 | Holding a snapshot locks the atom storage | partial | `AtomStorageProps`, `CoordProps` |
| C54 | A monoclinic boundary survives output and re-input | proved | `MonoProps` |
| C55 | Compensated pair forces are minus the gradient of compensated pair energies | proved | `PairProps` |
| C56 | Bond, angle and dihedral parameters reported by get() are those in force | partial | `AngleProps`, `BondProps`, `DihedralProps` |
| C57 | A species has the groups and group types its parameter file asks for | partial | `SpeciesProps` |
| C58 | Species::isValid accepts exactly the consistent species | proved | `SpeciesProps` |
| C59 | readStructure reproduces what writeStructure wrote | proved | `SpeciesIo` |
| C60 | Energies computed with the cell list and with the pair list are the energy of the configuration | proved | `EnergyProps` |
| C61 | MD force on each atom is the sum of the forces of its neighbours, groups and field | proved | `MdProps` |
| C62 | MD forces are minus the gradient of the potential energy | proved | `MdGradProps` |
| C63 | Parallel exchange is requested exactly when some atom has moved further than half the skin | proved | `CoordProps` |
| C64 | A change of the box deforms all atoms affinely | proved | `CoordProps` |
| C65 | Building a DdMd pair list succeeds for every configuration | partial | `NbrRefuted` |
| C66 | The domain-decomposed neighbour search counts each pair once in every mode | partial | `NbrProps`, `NbrRefuted` |
| C67 | Cell offsets reach every cell within the cutoff of a monoclinic box | partial | `NbrProps`, `NbrRefuted` |
| C68 | Building a DdMd cell list accepts exactly the domains it can handle | proved | `NbrProps` |
| C69 | Distribution and collection need no more than the documented capacities | partial | `CollExamples`, `DistExamples` |
| C70 | Ghost exchange is exact if domains are as wide as the cutoff plus the displacement | proved | `ExchProps` |
| C71 | Configuration-bias end regrowth balances for any number of trials | proved | `CfbProps` |
| C72 | CfbEndMove runs for every number of regrown atoms | partial | `CfbProps` |
| C73 | Groups are stored by exactly the processors that own their atoms | proved | `GExchProps` |
| C74 | Exchange of groups needs no more than the documented capacities | partial | `GExchExamples`, `GExchProps` |
| C75 | Exchange finds all atoms of every group | partial | `GExchExamples`, `GExchProps` |
| C76 | Nonbonded energy, stress and pair count of the parallel program | proved | `DdPairProps` |
| C77 | Nonbonded forces of the parallel program | proved | `DdPairProps` |
| C78 | Energies and stresses of covalent groups of the parallel program | proved | `DdGroupProps` |
| C79 | Forces of all potentials of the parallel program | proved | `DdGroupProps` |
| C80 | Stress of dihedrals of the parallel program | partial | `DdGroupExamples`, `DdGroupProps` |
| C81 | Wavevectors of the Ewald sum | proved | `EwaldProps` |
| C82 | K-space energy and forces of the Ewald sum | proved | `EwaldProps` |
| C83 | K-space stress of the Ewald sum | proved | `EwaldProps` |
| C84 | Forces on charged atoms | proved | `EwaldProps` |
| C85 | Kept values of the Ewald sum | partial | `EwaldProps` |
| C86 | Clusters of molecules | proved | `ClusterProps` |
| C87 | Periodic external fields | partial | `FieldProps` |
| C88 | Nucleation and tabulated external fields | partial | `FieldProps` |
| C89 | External fields survive a restart | partial | `FieldProps` |
| C90 | Nose-Hoover dynamics can be reversed | proved | `ThermoProps` |
| C91 | Dissipative particle dynamics conserves momentum and draws one number for each pair | proved | `ThermoProps` |
| C92 | The Langevin thermostat reaches the temperature asked for, for every time step | proved | `ThermoProps` |
| C93 | Integrators survive a restart | partial | `ThermoProps` |
| C94 | The NphIntegrator solves its equations of motion and is reversible | proved | `NphProps` |
| C95 | Momenta at the start of a hybrid move are drawn from the Boltzmann distribution | partial | `NphProps` |
| C96 | HybridMdMove is a Metropolis move on the whole energy | proved | `NphProps` |
| C97 | Moves with an integrator use it after it was set up | partial | `NphProps` |
| C98 | The centre and the moments of a cluster are those of its atoms | partial | `ClusterComProps` |
| C99 | Radii of gyration and block radii of gyration across periodic faces | partial | `AnaProps` |

## What is modelled

Per directory of `/repo/src`: the files of which some part is modelled, with the
model files that cite them.  Only the lines cited in the comments of a model file
are modelled; the rest of a listed file is not.

* `ddMd/chemistry`: `Atom.cpp` (AtomStorageModel, BufferModel, DistModel, ExchModel); `Atom.h` (BufferModel, CoordModel, ExchModel); `AtomArray.h` (BufferModel); `AtomContext.h` (BufferModel); `Group.h` (BufferModel, DdGroupModel, GDistModel, GExchModel, GroupStorageModel); `Mask.cpp` (BufferModel); `Mask.h` (BufferModel)
* `ddMd/communicate`: `AtomCollector.cpp` (CollModel); `AtomCollector.h` (CollModel); `AtomDistributor.cpp` (DistModel); `AtomDistributor.h` (DistModel); `Buffer.cpp` (BufferModel, DistModel); `Buffer.h` (BufferModel, DistModel); `Domain.cpp` (DistModel, DomainModel); `Domain.h` (DomainModel); `Exchanger.cpp` (BufferModel, ExchModel, GExchModel); `Exchanger.h` (ExchModel); `GroupCollector.tpp` (CollModel, GDistModel); `GroupDistributor.h` (GDistModel); `GroupDistributor.tpp` (GDistModel); `Plan.cpp` (PlanModel); `Plan.h` (PlanModel)
* `ddMd/configIos`: `DdMdConfigIo.cpp` (CollModel, DistModel, GDistModel)
* `ddMd/integrators`: `Integrator.cpp` (CoordModel, DdPairModel, ThermoModel); `NptIntegrator.cpp` (ThermoModel); `NptIntegrator.h` (ThermoModel); `NveIntegrator.cpp` (MdModel, ThermoModel); `NvtIntegrator.cpp` (ThermoModel); `NvtIntegrator.h` (ThermoModel); `NvtLangevinIntegrator.h` (ThermoModel); `TwoStepIntegrator.cpp` (DdPairModel)
* `ddMd/neighbor`: `Cell.cpp` (NbrModel); `Cell.h` (NbrModel); `CellList.cpp` (NbrModel); `CellList.h` (NbrModel); `PairIterator.h` (NbrModel); `PairList.cpp` (NbrModel); `PairList.h` (NbrModel)
* `ddMd/potentials`: `Potential.cpp` (DdGroupModel, DdPairModel); `Potential.h` (DdPairModel)
* `ddMd/potentials/angle`: `AnglePotentialImpl.h` (AngleModel, DdGroupModel)
* `ddMd/potentials/bond`: `BondPotentialImpl.h` (DdGroupModel)
* `ddMd/potentials/dihedral`: `DihedralPotentialImpl.h` (DdGroupModel, DihedralModel)
* `ddMd/potentials/external`: `ExternalPotentialImpl.h` (DdGroupModel)
* `ddMd/potentials/pair`: `PairPotential.cpp` (DdPairModel, NbrModel); `PairPotentialImpl.h` (DdPairModel, NbrModel)
* `ddMd/simulation`: `Simulation.cpp` (DdGroupModel, DdPairModel, ThermoModel)
* `ddMd/storage`: `AtomMap.cpp` (AtomMapModel, AtomStorageModel, DistModel, ExchModel); `AtomMap.h` (AtomMapModel, GDistModel, GExchModel); `AtomStorage.cpp` (AtomStorageModel, CoordModel, DdPairModel, DistModel, ExchModel); `AtomStorage.h` (AtomMapModel, AtomStorageModel, CoordModel, DistModel, ExchModel); `GroupStorage.h` (GDistModel, GExchModel, GroupStorageModel); `GroupStorage.tpp` (BufferModel, GDistModel, GExchModel, GroupStorageModel)
* `mcMd/analyzers`: `Analyzer.h` (CchModel); `AnalyzerManager.cpp` (CchModel)
* `mcMd/analyzers/base`: `AverageListAnalyzer.tpp` (CchModel)
* `mcMd/analyzers/mcSystem`: `McEnergyAnalyzer.cpp` (CchModel); `McPairEnergyAnalyzer.cpp` (PairSelModel); `McPairEnergyAverage.cpp` (PairSelModel)
* `mcMd/analyzers/system`: `AtomMSD.cpp` (AnaModel); `AtomMSD.h` (AnaModel); `BlockRadiusGyration.cpp` (AnaModel); `Cluster.cpp` (ClusterComModel, ClusterModel); `Cluster.h` (ClusterModel); `ClusterIdentifier.cpp` (ClusterModel); `ClusterIdentifier.h` (ClusterModel); `ClusterLink.h` (ClusterModel); `ComMSD.cpp` (AnaModel); `ComMSD.h` (AnaModel); `IntraStructureFactor.cpp` (SfModel); `LinearRouseAutoCorr.cpp` (AnaModel); `RDF.cpp` (PairSelModel); `RDF.h` (PairSelModel); `RadiusGyrationSq.cpp` (AnaModel); `RingRouseAutoCorr.cpp` (AnaModel); `StructureFactor.cpp` (SfModel); `StructureFactor.h` (SfModel, SymModel); `StructureFactorGrid.cpp` (SymModel); `StructureFactorGrid.h` (SymModel); `VanHove.cpp` (SfModel)
* `mcMd/analyzers/util`: `PairSelector.cpp` (PairSelModel); `PairSelector.h` (PairSelModel)
* `mcMd/chemistry`: `Activate.cpp` (ActivateModel); `Activate.h` (ActivateModel); `Atom.cpp` (ActivateModel); `Atom.h` (ActivateModel, SimModel); `Group.h` (ActivateModel, SimModel); `Mask.cpp` (SimModel); `Mask.h` (PairListModel, SimModel); `Molecule.cpp` (ReservoirModel); `Molecule.h` (ReservoirModel, SimModel); `getAtomGroups.cpp` (CfbModel, EnergyModel)
* `mcMd/generators`: `Generator.cpp` (GnrModel); `LinearGenerator.cpp` (GnrModel); `PointGenerator.cpp` (GnrModel)
* `mcMd/links`: `Link.h` (EnergyModel, LinkModel); `LinkMaster.cpp` (LinkModel); `LinkMaster.h` (LinkModel)
* `mcMd/mcMoves`: `SystemMove.h` (MoveModel)
* `mcMd/mcMoves/base`: `CfbEndBase.cpp` (CfbModel)
* `mcMd/mcMoves/common`: `AtomDisplaceMove.cpp` (MoveModel); `HybridMdMove.cpp` (NphModel); `HybridNphMdMove.cpp` (NphModel); `MdMove.cpp` (NphModel); `RigidDisplaceMove.cpp` (MoveModel)
* `mcMd/mcMoves/linear`: `CfbEndMove.cpp` (CfbModel); `CfbLinear.cpp` (ReptModel); `CfbReptateMove.cpp` (ReptModel); `EndSwapMove.cpp` (MoveModel)
* `mcMd/mcMoves/semigrand`: `HomopolymerSemiGrandMove.cpp` (MoveModel)
* `mcMd/mcSimulation`: `McSimulation.cpp` (CchModel, NphModel); `McSystem.cpp` (CchModel, EnergyModel)
* `mcMd/mdIntegrators`: `NphIntegrator.cpp` (EwaldMdModel, NphModel, ThermoModel); `NphIntegrator.h` (ThermoModel); `NveVvIntegrator.cpp` (MdModel, NphModel, ThermoModel); `NveVvIntegrator.h` (ThermoModel); `NvtDpdVvIntegrator.cpp` (ThermoModel); `NvtDpdVvIntegrator.h` (ThermoModel); `NvtLangevinIntegrator.cpp` (ThermoModel); `NvtLangevinIntegrator.h` (ThermoModel); `NvtNhIntegrator.cpp` (ThermoModel); `NvtNhIntegrator.h` (ThermoModel)
* `mcMd/mdSimulation`: `MdSimulation.cpp` (CchModel, MdModel, NphModel, ThermoModel); `MdSystem.cpp` (EwaldMdModel, MdModel, NphModel, ThermoModel); `MdSystem.h` (NphModel)
* `mcMd/neighbor`: `Cell.cpp` (McCellModel); `Cell.h` (CellListModel, McCellModel); `CellList.cpp` (CellListFpModel, CellListModel, McCellModel, PairListModel); `CellList.h` (CellListFpModel, CellListModel, McCellModel); `CellTag.h` (CellListModel, McCellModel); `PairIterator.h` (PairListModel); `PairList.cpp` (PairListModel); `PairList.h` (PairListModel)
* `mcMd/perturb`: `LinearPerturbation.h` (RepModel); `Perturbation.cpp` (RepModel); `ReplicaMove.cpp` (RepModel)
* `mcMd/perturb/mcSystem`: `McEnergyPerturbation.cpp` (RepModel); `McExternalPerturbation.h` (RepModel); `McPairExternalPerturbation.h` (RepModel); `McPairPerturbation.h` (RepModel)
* `mcMd/potentials/angle`: `AnglePotentialImpl.h` (AngleModel, CfbModel, EnergyModel, MdModel)
* `mcMd/potentials/bond`: `BondPotentialImpl.h` (EnergyModel, MdModel)
* `mcMd/potentials/coulomb`: `EwaldRSpaceAccumulator.cpp` (EwaldMdModel); `EwaldRSpaceAccumulator.h` (EwaldMdModel); `MdCoulombPotential.cpp` (EwaldMdModel); `MdCoulombPotential.h` (EwaldMdModel); `MdEwaldPotential.cpp` (EwaldMdModel, EwaldModel); `MdEwaldPotential.h` (EwaldMdModel, EwaldModel)
* `mcMd/potentials/dihedral`: `DihedralPotentialImpl.h` (DihedralModel, EnergyModel, MdModel)
* `mcMd/potentials/external`: `ExternalPotentialImpl.h` (EnergyModel, MdModel)
* `mcMd/potentials/link`: `LinkPotentialImpl.h` (EnergyModel)
* `mcMd/potentials/misc`: `EnergyCalculator.cpp` (CchModel); `EnergyCalculator.h` (CchModel)
* `mcMd/potentials/pair`: `McPairPotential.cpp` (EnergyModel); `McPairPotential.h` (EnergyModel, MoveModel); `McPairPotentialImpl.h` (EnergyModel); `MdEwaldPairPotentialImpl.h` (EwaldMdModel); `MdPairPotential.cpp` (PairListModel); `MdPairPotentialImpl.h` (EnergyModel, MdModel, NphModel, PairListModel)
* `mcMd/simulation`: `Simulation.cpp` (ReservoirModel, SimModel); `Simulation.h` (ReservoirModel); `System.cpp` (ReservoirModel); `System.h` (ReservoirModel); `stress.h` (NphModel)
* `mcMd/species`: `HomopolymerSG.cpp` (MoveModel, MutatorModel, SpeciesModel); `HomopolymerSG.h` (SpeciesModel); `LinearSG.cpp` (MutatorModel); `SpeciesMutator.cpp` (MutatorModel); `SpeciesMutator.h` (MutatorModel)
* `simp/boundary`: `MonoclinicBoundary.cpp` (MonoModel); `MonoclinicBoundary.h` (CoordModel, EnergyModel, EwaldModel, MonoModel); `OrthoRegion.cpp` (OrthoModel); `OrthoRegion.h` (BoxIoModel, OrthoModel); `OrthorhombicBoundary.cpp` (BoxIoModel, CellListFpModel, OrthoModel); `OrthorhombicBoundary.h` (BoxIoModel, CellListFpModel, CoordModel, EnergyModel, EwaldModel, FpShiftModel, OrthoModel)
* `simp/crystal`: `LatticeSystem.h` (OrthoModel, SymModel); `PointGroup.h` (SymModel); `PointSymmetry.cpp` (SymModel); `PointSymmetry.h` (SymModel); `SymmetryGroup.h` (SymModel)
* `simp/interaction/angle`: `Bend.h` (AngleModel); `BendForce.h` (AngleModel); `CosineAngle.cpp` (AngleModel); `CosineAngle.h` (AngleModel); `CosineSqAngle.cpp` (AngleModel); `CosineSqAngle.h` (AngleModel); `HarmonicAngle.cpp` (AngleModel); `HarmonicAngle.h` (AngleModel)
* `simp/interaction/bond`: `CompositeBond.h` (BondModel); `FeneBond.cpp` (BondModel); `FeneBond.h` (BondModel); `HarmonicBond.cpp` (BondModel); `HarmonicBond.h` (BondModel); `HarmonicL0Bond.cpp` (BondModel); `HarmonicL0Bond.h` (BondModel)
* `simp/interaction/coulomb`: `EwaldInteraction.cpp` (EwaldModel); `EwaldInteraction.h` (EwaldModel)
* `simp/interaction/dihedral`: `CosineDihedral.cpp` (DihedralModel); `CosineDihedral.h` (DihedralModel); `FourierDihedral.cpp` (DihedralModel); `FourierDihedral.h` (DihedralModel); `Torsion.h` (DihedralModel); `TorsionForce.h` (DihedralModel)
* `simp/interaction/external`: `BoxExternal.cpp` (FieldModel, WallModel); `BoxExternal.h` (WallModel); `GeneralPeriodicExternal.cpp` (FieldModel); `GeneralPeriodicExternal.h` (FieldModel); `LamellarOrderingExternal.cpp` (FieldModel); `LamellarOrderingExternal.h` (FieldModel); `NucleationExternal.cpp` (FieldModel); `NucleationExternal.h` (FieldModel); `OrthoBoxExternal.cpp` (FieldModel, WallModel); `OrthoBoxExternal.h` (WallModel); `PeriodicExternal.cpp` (FieldModel); `PeriodicExternal.h` (FieldModel); `SimplePeriodicExternal.cpp` (FieldModel); `SimplePeriodicExternal.h` (FieldModel); `SlitExternal.cpp` (FieldModel, WallModel); `SlitExternal.h` (WallModel); `SphericalTabulatedExternal.cpp` (FieldModel); `SphericalTabulatedExternal.h` (FieldModel)
* `simp/interaction/pair`: `CompensatedPair.h` (PairModel); `DpdPair.cpp` (PairModel); `DpdPair.h` (PairModel); `LJPair.cpp` (PairModel); `LJPair.h` (PairModel); `WcaPair.cpp` (PairModel)
* `simp/species`: `Diblock.cpp` (SpeciesModel); `Diblock.h` (SpeciesModel); `HomoRing.cpp` (SpeciesModel); `HomoRing.h` (SpeciesModel); `Homopolymer.cpp` (SpeciesModel); `Homopolymer.h` (SpeciesModel); `Linear.cpp` (SpeciesModel); `Linear.h` (SpeciesModel); `Multiblock.cpp` (SpeciesModel); `Multiblock.h` (SpeciesModel); `Point.cpp` (SpeciesModel); `Point.h` (SpeciesModel); `Ring.cpp` (SpeciesModel); `Species.cpp` (SpeciesIo, SpeciesModel); `Species.h` (ReservoirModel, SpeciesIo, SpeciesModel); `SpeciesGroup.h` (SpeciesModel)

## What is not modelled

Files of the same directories of which nothing is modelled:

* `ddMd/chemistry`: Angle, AtomType, Bond, Dihedral, MaskPolicy
* `ddMd/configIos`: ConfigIo, ConfigIoFactory, DdMdOrderedConfigIo, LammpsConfigIo, SerializeConfigIo, SmpConfigIo
* `ddMd/integrators`: IntegratorFactory, NphIntegrator
* `ddMd/neighbor`: CellAtom
* `ddMd/potentials/angle`: AngleFactory, AnglePotential
* `ddMd/potentials/bond`: BondFactory, BondPotential
* `ddMd/potentials/dihedral`: DihedralFactory, DihedralPotential
* `ddMd/potentials/external`: ExternalFactory, ExternalPotential
* `ddMd/potentials/pair`: PairFactory
* `ddMd/simulation`: SimulationAccess
* `ddMd/storage`: AngleStorage, AtomIterator, BondStorage, ConstAtomIterator, ConstGhostIterator, ConstGroupIterator, DihedralStorage, GhostIterator, GroupExchanger, GroupIterator
* `mcMd/analyzers/base`: AverageAnalyzer, DistributionAnalyzer, SystemAnalyzer
* `mcMd/analyzers/mcSystem`: McAnalyzerFactory, McExternalEnergyAverage, McIntraBondStressAutoCorr, McIntraBondTensorAutoCorr, McMuExchange, McNVTChemicalPotential, McPressureAnalyzer, McStressAutoCorrelation, McVirialStressTensorAverage
* `mcMd/analyzers/system`: BondLengthDist, BoundaryAverage, ClusterHistogram, ConfigWriter, DihedralDist, IntraBondStressAutoCorr, IntraBondTensorAutoCorr, IntraPairAutoCorr, IntraStructureFactorGrid, StressAutoCorr, StressTensorAverage, StructureFactorP, StructureFactorPGrid, SystemAnalyzerFactory
* `mcMd/chemistry`: Angle, AtomType, Bond, Dihedral, MaskPolicy
* `mcMd/generators`: generatorFactory
* `mcMd/links`: LinkEvents
* `mcMd/mcMoves`: McMove, McMoveFactory, McMoveManager
* `mcMd/mcMoves/base`: CfbRebridgeBase, GroupRebridgeBase
* `mcMd/mcMoves/common`: DpdMove
* `mcMd/mcMoves/linear`: CfbDoubleRebridgeMove, CfbLinearEndMove, CfbRebridgeMove, CfbReptationMove
* `mcMd/mcSimulation`: McAnalyzerManager, McCommandManager, McSystemInterface, mc_potentials
* `mcMd/mdIntegrators`: MdIntegrator, MdIntegratorFactory
* `mcMd/mdSimulation`: MdAnalyzerManager, MdCommandManager, MdSystemInterface, md_potentials
* `mcMd/perturb/mcSystem`: McPerturbationFactory
* `mcMd/potentials/angle`: AngleFactory, AnglePotential
* `mcMd/potentials/bond`: BondFactory, BondPotential
* `mcMd/potentials/coulomb`: CoulombFactory, McCoulombPotential, MdSpmePotential
* `mcMd/potentials/dihedral`: DihedralFactory, DihedralPotential
* `mcMd/potentials/external`: ExternalFactory, ExternalPotential
* `mcMd/potentials/link`: LinkFactory
* `mcMd/potentials/misc`: StressCalculator
* `mcMd/potentials/pair`: PairFactory, PairPotential
* `mcMd/simulation`: McMd_mpi, SystemInterface
* `mcMd/species`: SpeciesFactory, SpeciesManager

Directories of which nothing is modelled (`src/draft` as well, and `src/util`,
`src/test`, which are empty here):

* `ddMd`: (top level), analyzers, analyzers/base, analyzers/energy, analyzers/misc, analyzers/scattering, analyzers/stress, analyzers/trajectory, attic/analyzers, misc, modifiers, tests, tests/chemistry, tests/communicate, tests/configIos, tests/modifiers, tests/neighbor, tests/potentials, tests/simulation, tests/storage
* `mcMd`: analyzers/mdSystem, analyzers/mutable, analyzers/perturb, analyzers/simulation, analyzers/trajectory, attic/analyzers, attic/analyzers/clusters, attic/configIos, attic/hoomd/src, attic/hoomd/src/analyzers, attic/hoomd/src/mcMoves, attic/hoomd/src/perturbation, attic/hoomd/src/potentials/bond, attic/hoomd/src/potentials/external, attic/hoomd/src/potentials/link, attic/hoomd/src/potentials/pair, attic/pmc, attic/potentials/coulomb, attic/potentials/pair, colvars, commands, configIos, mcMoves/ring, potentials/special, tests, tests/analyzers, tests/chemistry, tests/generators, tests/links, tests/mcSimulation, tests/mdIntegrators, tests/mdSimulation, tests/neighbor, tests/perturb, tests/potentials/coulomb, tests/simulation, trajectory
* `mdPp`: (top level), analyzers, attic/chemistry, chemistry, config, neighbor, processor, storage, tests, tests/chemistry, tests/config, tests/neighbor, tests/processor, tests/storage, trajectory
* `simp`: analysis, attic/chainMaker, attic/interaction, ensembles, tests, tests/analysis, tests/boundary, tests/crystal, tests/interaction, tests/interaction/angle, tests/interaction/bond, tests/interaction/dihedral, tests/interaction/pair, tests/species

## Trusted base

* Coq 8.16.1: its kernel, and `coqchk` where it is run.  No kernel check is switched
  off, no axiom is added by this development, there is no `Admitted`.
* The axioms that `Print Assumptions` lists for each theorem, below.  They come from
  Coq's standard library only: `sig_forall_dec` and `sig_not_dec` (the construction
  of the reals), `functional_extensionality_dep`, and `classic` (classical logic, used
  by Coquelicot and Flocq).
* Reading of the code: that each definition does what the cited lines do.  No tool
  checks this; the comments exist so that a reader can.
* `src/util` is an empty submodule in `/repo`.  What it provides (`DArray`,
  `DPArray`, `GPArray`, `FSArray`, `ArraySet`, `ArrayStack`, `SSet`, `Grid`, `IntVector`,
  `Vector`, `Random`, archives, `Parameter` and its text and archive forms, the MPI
  wrappers) is modelled from its documentation and its use.
* The C++ library: `std::multimap` as a list of pairs, `memcpy` and pointer casts in
  the buffer as copies of words.
* Specification files: that they say what the text of the property says.

Mutation tests of the theorems are logged in `seeded/LOG.jsonl`: each line names the
definition that was changed, the change, the theorems that then failed to compile, and
what was tightened when none did.

## Axioms of each theorem

As `Print Assumptions` prints them for the theorems named in the manifest.

**Axioms: none ("Closed under the global context")**

`mc_cell_holds_its_atoms_partial`, `mc_cell_overfill_refuted`, `selector_plain`, `selector_once`, `complete_group_correct`, `valid_group_correct`, `star_correct`, `grid_correct`, `complete_group_diverges`, `grid_other_refuted`, `pair_choice`, `sample_one_refuted`, `unbuffered_refuted`, `reptate_back`, `simulate_energies`, `analyze_calls`, `trajectory_calls`, `analyze_stale_refuted`, `analyze_interval_refuted`, `analyze_one_refuted`, `trajectory_count_refuted`, `init_layout`, `mask_append_set`, `mask_append_throws`, `isMasked_exact`, `activity_consistent`, `activity_effects`, `deactivate_without_groups_refuted`, `plan_flags_independent`, `plan_new_clear`, `plan_text_round_trip_refuted`, `plan_text_round_trip_partial`, `plan_text_round_trip_iff_partial`, `atom_map_find_correct`, `atom_map_success_conditions`, `atom_storage_slots_conserved`, `atom_storage_always_valid`, `atom_storage_clear`, `group_storage_one_record_per_id_partial`, `group_storage_effects_partial`, `group_storage_one_record_per_id_refuted`, `buffer_roundtrip`, `buffer_roundtrip_total`, `one_block_exact`, `capacity_minus_one_partial`, `capacity_refuted`, `pack_inside`, `no_overrun_partial`, `overrun_refuted`, `domain_transfers_agree`, `atom_collector`, `group_collector`, `groups_distributed`, `groups_collected_once`, `homopolymer_topology`, `homopolymer_accepted`, `diblock_topology`, `multiblock_topology`, `homoring_topology`, `homoring_accepted`, `homopolymerSG_topology`, `homopolymerSG_angles_throw`, `point_topology`, `species_read_sound`, `species_accepted`, `homopolymer_archive`, `diblock_archive`, `point_archive`, `homopolymerSG_archive`, `species_archive`, `multiblock_archive_refuted`, `homoring_archive_refuted`, `match_own_text_partial`, `match_own_text_no_angles`, `match_own_text_ring`, `match_own_text_refuted`, `match_other_text_refuted`, `match_missing_section_refuted`, `molecules_accounted`, `molecule_ops_total`, `molecule_enumeration`, `return_in_system_refuted`, `hsg_occupancy_counts`, `lsg_occupancy_counts`, `hsg_history_total`, `lsg_history_total`, `set_null_state_refuted`, `links_consistent_partial`, `link_ops_defined_partial`, `clear_removes_all`, `add_self_link_refuted`, `reset_onto_self_refuted`, `reset_inactive_refuted`, `chain_palindromic`, `cfb_bond_types_partial`, `snapshot_lock_refuted`, `snapshot_lock_partial`, `cosine_dihedral_get_reports`, `homopolymerSG_dihedral_type_refuted`, `isValid_exact`, `read_own_text`, `box_change_affine`, `group_collector_refuted`, `simple_archive_partial`, `field_archive_refuted`, `general_archive_order_refuted`, `langevin_restart_refuted`.

**Axioms: `ClassicalDedekindReals.sig_forall_dec`**

`harmonic_bond_get_reports`, `fourier_dihedral_get_reports`, `no_core_is_cluster`.

**Axioms: `ClassicalDedekindReals.sig_forall_dec`, `FunctionalExtensionality.functional_extensionality_dep`**

`ortho_shiftGen_wraps`, `cell_index_correct`, `com_msd_single`, `external_derivative_correct`, `energy_parameter_correct`, `ladder_correct`, `exchange_correct`, `pair_external_sign_refuted`, `generator_zero_refuted`, `generate_bond_type_refuted`, `pair_iterator_correct`, `dd_pair_iterator_correct`, `pair_list_cleared_current_refuted`, `domains_partition_the_box`, `atoms_exchanged`, `exchange_atoms_completes`, `atoms_exchanged_half_open_refuted`, `ghosts_complete`, `ghosts_complete_wide_refuted`, `ghosts_follow`, `ortho_lattice`, `mono_lattice`, `distributor_delivers`, `distributor_once`, `nbr_reverse_two_processors`, `lj_force_consistent`, `lj_energy_consistent_partial`, `lj_energy_symmetric_refuted`, `metropolis_probability`, `verlet_reversible`, `displacement_since_snapshot`, `displacement_after_remove_refuted`, `cell_list_build_defined`, `dist_full_masks_refuted`, `atom_collector_refuted`, `group_spare_refuted`, `group_cache_refuted`, `ghosts_complete_before`, `ghosts_once`, `neighbours_present`, `exchange_completes`, `groups_exchanged`, `groups_kept`, `group_images`, `group_images_once`, `group_atoms_complete`, `groups_fit_refuted`, `groups_complete`, `bonds_complete`, `angles_complete_refuted`, `dd_pair_same`, `dd_pair_momentum`, `dd_external_energy`, `dd_group_momentum`, `field_archive_partial`, `integrators_restart`, `cluster_com_no_atoms_refuted`, `block_gyration_absent_refuted`.

**Axioms: `ClassicalDedekindReals.sig_forall_dec`, `ClassicalDedekindReals.sig_not_dec`, `FunctionalExtensionality.functional_extensionality_dep`**

`ortho_shift_wraps`, `ortho_distanceSq_min_image`, `ortho_transforms_inverse`, `mono_transforms_inverse`, `mono_shift_wraps`, `mono_distanceSq_image_partial`, `mono_min_image_refuted`, `ortho_basis_dual`, `mono_basis_dual`, `ortho_text_round_trip`, `ortho_archive_round_trip`, `ortho_mpi_round_trip_partial`, `ortho_mpi_round_trip_refuted`, `cell_list_finds_neighbors_partial`, `cell_list_finds_neighbors_mono_partial`, `cell_list_overfull_refuted`, `atom_msd_correct`, `com_msd_refuted`, `linear_rouse_even`, `linear_rouse_odd_refuted`, `ring_rouse_correct`, `structure_factor_correct`, `structure_factor_invariant`, `maximum_correct`, `restart_averages`, `restart_maxima_refuted`, `intra_structure_correct`, `vanhove_correct`, `selected_energy_correct`, `rdf_pairs_correct`, `rdf_norm_value`, `rdf_norm_refuted`, `rdf_second_run_refuted`, `pair_derivative_correct`, `sample_permutation_correct`, `swap_balance`, `pair_derivative_types_refuted`, `reptate_weights`, `reptate_balance`, `reptate_one_trial`, `reptate_junction_refuted`, `reptate_angle_type_refuted`, `generator_setup`, `place_molecule_correct`, `generate_correct`, `first_atom_refuted`, `pair_list_complete`, `pair_list_complete_mono`, `pair_list_current_partial`, `pair_list_current_mono_partial`, `pair_list_current_box_refuted`, `exchange_needed_correct`, `nbr_reverse_once`, `offsets_cover_cutoff`, `lj_core_force_refuted`, `dpd_consistent_partial`, `dpd_set_refuted`, `composite_bond_force_is_gradient_partial`, `bend_cos_exact`, `atom_displace_exact`, `rigid_displace_nonbonded_partial`, `rigid_displace_exact_partial`, `end_swap_exact_partial`, `end_swap_link_refuted`, `semigrand_exact_partial`, `semigrand_external_refuted`, `cfb_end_weights`, `cfb_one_trial`, `cfb_bond_types_refuted`, `rejected_moves_restore_partial`, `metropolis_detailed_balance`, `metropolis_invariant`, `metropolis_invariant_density`, `atom_displace_detailed_balance`, `nve_momentum_conserved`, `nve_reversible`, `coordinates_converted`, `conversions_keep_places`, `mono_io_round_trip`, `cosineSq_angle_reports_partial`, `cosineSq_angle_set_refuted`, `mc_energy_correct`, `md_energy_correct`, `md_energy_correct_mono`, `mc_md_energy_agree`, `md_forces_correct`, `pair_list_first_build_refuted`, `pair_list_build_defined`, `nbr_once_partial`, `nbr_mono_once_partial`, `nbr_thin_refuted`, `nbr_mono_lost_refuted`, `offsets_cover_mono_partial`, `offsets_mono_refuted`, `ortho_spaced`, `mono_spaced`, `cfb_end_balance`, `cfb_null_pivot_refuted`, `dd_pair_sums`, `dd_pair_sums_first`, `dd_pair_sums_groups`, `dd_lists_build`, `dd_group_energies`, `dd_group_stress`, `dd_all_forces`, `dd_dihedral_stress_refuted`, `dd_dihedral_stress_zero`, `dd_dihedral_stress_of`, `waves_correct`, `strained_0`, `charged_pair_energies`, `kept_rspace_partial`, `clusters_correct`, `clusters_correct_ortho`, `clusters_correct_mono`, `periodic_fields_documented`, `periodic_fields_images`, `periodic_fields_bounded`, `nose_hoover_step`, `nose_hoover_reversible_general`, `nose_hoover_reversible`, `nose_hoover_momentum`, `dpd_momentum_conserved`, `dpd_step_correct`, `dpd_friction_dissipates`, `velocities_boltzmann`, `hybrid_move_correct`, `nph_reject_restores`, `md_move_unset_refuted`, `hybrid_move_set`, `cluster_com_correct`, `cluster_com_compact`, `cluster_com_extended_refuted`, `radius_gyration_correct`, `block_gyration_correct`, `block_pair_correct`.

**Axioms: `ClassicalDedekindReals.sig_forall_dec`, `ClassicalDedekindReals.sig_not_dec`, `Classical_Prop.classic`, `FunctionalExtensionality.functional_extensionality_dep`**

`fp_shift_wraps_partial`, `fp_shift_upper_face_refuted`, `fp_cell_index_in_range`, `lj_force_is_gradient_partial`, `lj_energy_continuous_at_cutoff`, `wca_force_is_gradient_partial`, `dpd_force_is_gradient`, `harmonic_bond_force_is_gradient`, `harmonicL0_bond_force_is_gradient`, `fene_bond_force_is_gradient`, `composite_bond_refuted`, `cosine_angle_force_is_gradient`, `cosineSq_angle_force_is_gradient`, `harmonic_angle_force_is_gradient`, `tor_grad`, `cosine_dihedral_force_is_gradient`, `fourier_dihedral_force_is_gradient`, `slit_force_is_gradient_partial`, `ortho_force_is_gradient_partial`, `box_force_is_gradient_partial`, `wall_core_force_refuted`, `box_set_refuted`, `wall_setExternal_refuted`, `rigid_displace_refuted`, `compensated_force_is_gradient`, `md_forces_are_gradient`, `kspace_correct`, `kspace_stress_correct`, `charged_forces_are_gradient`, `kept_values_partial`, `kept_box_refuted`, `kept_set_refuted`, `periodic_fields_conservative`, `periodic_constant_refuted`, `periodic_images_refuted`, `nucleation_force_partial`, `nucleation_force_flat_partial`, `nucleation_force_refuted`, `tab_force_partial`, `tab_force_refuted`, `langevin_mean`, `langevin_temperature_limit`, `nph_step_equations`, `nph_reversible`, `barostat_boltzmann_refuted`.
