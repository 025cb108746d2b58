{"id": "C01", "title": "Wrapping a position into an orthorhombic box is exact", "statement": "For an orthorhombic box with positive edge lengths and any position whose coordinates lie in [-L, 2L), OrthorhombicBoundary::shift returns a position inside [0, L) on every axis that differs from the input by exactly the reported integer number of box lengths; applyShift with the opposite shift gives the original position back; wrapping twice changes nothing.", "quantifier": "all box lengths, all positions within one box length of the primary cell, all axes", "why_tests_cant": "the claim is about a continuum of positions and box lengths; a test samples a few", "anchors": ["src/simp/boundary/OrthorhombicBoundary.h: shift(Vector&), shift(Vector&,IntVector&), applyShift, shiftGen"]}
{"id": "C02", "title": "Wrapping in binary64 stays strictly below the upper face", "statement": "With IEEE double arithmetic, the wrapped coordinate returned by OrthorhombicBoundary::shift satisfies 0 <= r < L, so that it can be used as a cell-list position.", "quantifier": "all finite binary64 box lengths and coordinates", "why_tests_cant": "the failing inputs are tiny negative coordinates, a vanishing fraction of the space that random tests do not hit", "anchors": ["src/simp/boundary/OrthorhombicBoundary.h: shift", "src/mcMd/neighbor/CellList.h: cellIndexFromPosition"]}
{"id": "C03", "title": "distanceSq is the true minimum-image distance in an orthorhombic box", "statement": "For two positions in the primary cell, OrthorhombicBoundary::distanceSq equals the minimum over all integer lattice translations of the squared distance between the images; the separation vector and translation it reports reproduce that distance; exchanging the arguments leaves it unchanged.", "quantifier": "all box lengths, all pairs of positions in the primary cell, all lattice translations", "why_tests_cant": "minimality ranges over infinitely many images of a continuum of pairs", "anchors": ["src/simp/boundary/OrthorhombicBoundary.h: distanceSq (three overloads)"]}
{"id": "C04", "title": "Cartesian and generalized coordinates are inverse maps that commute with lattice shifts", "statement": "transformCartToGen and transformGenToCart are mutual inverses; moving a Cartesian position by a lattice translation moves its generalized coordinates by the same integers; the primary cell corresponds to [0,1)^3. This holds for orthorhombic and monoclinic boxes.", "quantifier": "all valid boxes of both kinds, all positions, all integer translations", "why_tests_cant": "continuum of boxes and positions", "anchors": ["src/simp/boundary/OrthorhombicBoundary.h: transformCartToGen, transformGenToCart", "src/simp/boundary/MonoclinicBoundary.h: transformCartToGen, transformGenToCart, applyShift"]}
{"id": "C05", "title": "A monoclinic box wraps positions and measures separations consistently", "statement": "In a monoclinic box, shift brings any position within one cell of the primary cell into the primary cell by a lattice translation; distanceSq is the squared length of a separation vector that differs from r1 - r2 by a lattice translation and is symmetric; its value is the minimum over all lattice images.", "quantifier": "all monoclinic boxes (any tilt), all pairs of positions in the primary cell", "why_tests_cant": "depends on the tilt; ordinary test boxes have small tilt where the claim about the minimum happens to hold", "anchors": ["src/simp/boundary/MonoclinicBoundary.h: shift, applyShift, distanceSq"]}
{"id": "C06", "title": "Bravais and reciprocal vectors are dual and give the volume", "statement": "After any set... call, a_i . b_j = 2 pi delta_ij for the Bravais and reciprocal basis vectors, and volume() equals the triple product of the Bravais vectors, for orthorhombic and monoclinic boxes.", "quantifier": "all positive box parameters", "why_tests_cant": "algebraic identity over all real parameters", "anchors": ["src/simp/boundary/OrthorhombicBoundary.cpp: reset, setOrthorhombic, setTetragonal, setCubic", "src/simp/boundary/MonoclinicBoundary.cpp: reset, setMonoclinic"]}
{"id": "C07", "title": "An orthorhombic boundary survives output and re-input", "statement": "Writing a boundary (stream operators, archive, or MPI transfer) and reading it back gives a boundary with the same lengths and the same lattice system.", "quantifier": "all boundaries reachable by the set functions, all three transfer paths", "why_tests_cant": "needs all lattice systems crossed with all transfer paths and the history of set calls", "anchors": ["src/simp/boundary/OrthorhombicBoundary.cpp: operator >>, operator <<, send, recv, bcast", "src/simp/boundary/OrthorhombicBoundary.h: serialize"]}
{"id": "C08", "title": "An MC cell holds exactly the atoms that were added and not deleted", "statement": "After any sequence of Cell::addAtom and Cell::deleteAtom calls, the atoms found by scanning the cell are exactly those added and not yet deleted, nAtomCell() is their number, each atom's tag names its slot, and adding to a full cell throws instead of losing an atom.", "quantifier": "all operation histories, including those that fill the cell", "why_tests_cant": "the failing history needs a completely full cell, a deletion in the interior, and two further insertions", "anchors": ["src/mcMd/neighbor/Cell.h: addAtom, deleteAtom, clear", "src/mcMd/neighbor/CellTag.h"]}
{"id": "C09", "title": "Cell index and cell coordinates are inverse and cover the box", "statement": "In an MC cell list every position with generalized coordinates in [0,1) is assigned a cell index in range, cell coordinates and cell index are in bijection, and the assigned cell is the box-shaped region that contains the position.", "quantifier": "all grid dimensions, all positions in the primary cell", "why_tests_cant": "all grids and a continuum of positions", "anchors": ["src/mcMd/neighbor/CellList.h: cellIndexFromPosition, cellIndexFromCoord, cellCoordFromIndex", "src/mcMd/neighbor/CellList.cpp: setCellsAxis, setup"]}
{"id": "C10", "title": "The MC cell list finds every atom within the cutoff exactly once", "statement": "CellList::getNeighbors for a position returns every atom whose minimum-image distance to it is less than the cutoff used in setup, and visits no cell twice (also when the grid has only one or two cells along an axis).", "quantifier": "all boxes, cutoffs, grids (including 1 and 2 cells per axis), all atom configurations", "why_tests_cant": "small-grid special cases crossed with a continuum of configurations", "anchors": ["src/mcMd/neighbor/CellList.cpp: setup, getNeighbors, getCellNeighbors", "src/mcMd/neighbor/CellList.h: shiftCellCoordAxis"]}
{"id": "C11", "title": "An MD pair list holds every unmasked close pair exactly once", "statement": "After PairList::build, every pair of atoms closer than the list cutoff that is not masked is present exactly once, no other pair is present, and no pair appears in both orders; if the lists would overflow their capacity an exception is thrown.", "quantifier": "all configurations, masks, capacities", "why_tests_cant": "all configurations and masks", "anchors": ["src/mcMd/neighbor/PairList.cpp: build, allocate", "src/mcMd/neighbor/PairList.h"]}
{"id": "C12", "title": "Iterating a pair list visits exactly the stored pairs", "statement": "A loop begin / isEnd / ++ over a PairIterator yields exactly the pairs stored by PairList, in order, and terminates.", "quantifier": "all pair lists a build can produce, including empty ones and atoms with no neighbours", "why_tests_cant": "all shapes of the offset array", "anchors": ["src/mcMd/neighbor/PairIterator.h", "src/ddMd/neighbor/PairIterator.h"]}
{"id": "C13", "title": "A pair list reported current misses no interacting pair", "statement": "If PairList::isCurrent returns true then every unmasked pair whose present minimum-image distance is below the potential cutoff is in the list built earlier with cutoff plus skin.", "quantifier": "all past and present configurations, skins, boxes", "why_tests_cant": "needs the triangle inequality for periodic distances over all displacement patterns", "anchors": ["src/mcMd/neighbor/PairList.cpp: isCurrent, build", "src/ddMd/storage/AtomStorage.cpp: maxSqDisplacement", "src/ddMd/integrators/Integrator.cpp: isExchangeNeeded"]}
{"id": "C14", "title": "Masks are symmetric sets after species initialisation", "statement": "Mask::append keeps a set of distinct atoms and throws when full or on a duplicate; after Simulation initialisation with policy MaskBonded, two atoms mask each other if and only if they are joined by a bond of their molecule (species with at most 4 bonds per atom and no two bonds between the same atoms, which append would refuse).", "quantifier": "all species, molecule counts, operation histories", "why_tests_cant": "all species structures", "anchors": ["src/mcMd/chemistry/Mask.h: append, isMasked, clear", "src/mcMd/simulation/Simulation.cpp: initializeSpeciesBonds"]}
{"id": "C15", "title": "Deactivating and reactivating atoms keeps group activity consistent", "statement": "In a simulation with at least one type for each kind of group its species have, after any sequence of Activate::deactivate, reactivate and activate calls, a bond, angle or dihedral reports isActive exactly when all of its atoms are active, and its inactive count equals the number of its inactive atoms.", "quantifier": "all molecules, all operation histories", "why_tests_cant": "all histories over overlapping groups", "anchors": ["src/mcMd/chemistry/Activate.cpp", "src/mcMd/chemistry/Group.h: incrementInactive, decrementInactive, activate"]}
{"id": "C16", "title": "Communication plan flags are independent", "statement": "Setting or clearing one exchange or ghost flag of a Plan changes that flag only; after any history each flag reads as the last value written to it, and clearFlags resets all twelve.", "quantifier": "all histories of set, clear and clearFlags over the twelve flags", "why_tests_cant": "histories over twelve bits packed in one word", "anchors": ["src/ddMd/communicate/Plan.h: setExchange, clearExchange, setGhost, clearGhost, exchange, ghost"]}
{"id": "C17", "title": "A Plan written to a stream reads back unchanged", "statement": "Reading the text produced by operator << for a Plan with operator >> gives the same flags.", "quantifier": "all 4096 plans", "why_tests_cant": "the reader is wrong only for ghost flag patterns that a hand-written test string hides", "anchors": ["src/ddMd/communicate/Plan.cpp: operator >>, operator <<"]}
{"id": "C18", "title": "The atom map always finds the local atom, else a ghost", "statement": "After any history of addLocal, removeLocal, addGhost, removeGhost and clearGhosts that does not throw, find(id) returns the local atom with that id if there is one, otherwise one of the current ghosts with that id, otherwise null; nLocal and nGhost count the atoms held.", "quantifier": "all operation histories", "why_tests_cant": "interleavings of local and ghost copies of the same id", "anchors": ["src/ddMd/storage/AtomMap.h", "src/ddMd/storage/AtomMap.cpp: addLocal, removeLocal, addGhost, removeGhost, clearGhosts"]}
{"id": "C19", "title": "Atom storage never loses or duplicates a slot", "statement": "After any history of AtomStorage operations each of the allocated local slots is exactly one of: in use, in the reservoir, or handed out pending; the same holds for ghosts; nAtom and nGhost count those in use; find(id) agrees with the atoms in use and isValid() accepts.", "quantifier": "all operation histories, including those where an operation throws", "why_tests_cant": "histories with exceptions in the middle", "anchors": ["src/ddMd/storage/AtomStorage.cpp: newAtomPtr, addNewAtom, addAtom, removeAtom, clearAtoms, newGhostPtr, addNewGhost, removeGhost, clearGhosts, makeSnapshot, clearSnapshot"]}
{"id": "C20", "title": "Group storage keeps one record per group id", "statement": "After any history of GroupStorage operations find(id) returns the stored group with that id or null, size() counts them, slots are conserved, and a second add of the same id throws.", "quantifier": "all operation histories", "why_tests_cant": "histories with removal and re-insertion", "anchors": ["src/ddMd/storage/GroupStorage.h", "src/ddMd/storage/GroupStorage.tpp: newPtr, returnPtr, add, remove, clearGroups"]}
{"id": "C21", "title": "Packing then unpacking atoms, ghosts, forces and groups is the identity", "statement": "For any sequence of atoms (or ghosts, position updates, forces, groups) packed into one send block, the receiver that unpacks the block obtains the same sequence with the same field values and consumes the block exactly.", "quantifier": "all sequences of items, all field values, all block types", "why_tests_cant": "all sequences and lengths", "anchors": ["src/ddMd/communicate/Buffer.cpp", "src/ddMd/communicate/Buffer.h: pack, unpack", "src/ddMd/chemistry/Atom.cpp: packAtom, unpackAtom, packGhost, unpackGhost, packUpdate, unpackUpdate, packForce, unpackForce", "src/ddMd/chemistry/Group.h: pack, unpack"]}
{"id": "C22", "title": "The send buffer accepts the advertised number of items and is never overrun", "statement": "After Buffer::allocate, packing up to atomCapacity() atoms or ghostCapacity() ghosts into one block succeeds, and no sequence of block and pack operations writes outside the allocated buffer.", "quantifier": "all capacities and all sequences of operations", "why_tests_cant": "needs the exact capacity boundary, off by one byte, and several blocks in one buffer", "anchors": ["src/ddMd/communicate/Buffer.cpp: allocate, setupBuffer, beginSendBlock, endSendBlock", "src/ddMd/communicate/Buffer.h: pack"]}
{"id": "C23", "title": "Neighbouring processors agree on who sends to whom", "statement": "For every processor grid, axis and direction: if processor p sends to q in direction j then q receives from p in direction j; the destination is the grid neighbour with periodic wrap; the shift is nonzero exactly when the transfer crosses the periodic boundary.", "quantifier": "all grid dimensions and all ranks", "why_tests_cant": "all grids, including dimension 1 and 2 where neighbours coincide", "anchors": ["src/ddMd/communicate/Domain.cpp: initialize", "src/ddMd/communicate/Domain.h: sourceRank, destRank, shift"]}
{"id": "C24", "title": "Processor domains partition the box", "statement": "Every position with generalized coordinates in [0,1) belongs to exactly one processor domain (isInDomain), this is the processor returned by ownerRank, and it lies between the bounds reported by domainBound.", "quantifier": "all processor grids, all positions", "why_tests_cant": "all grids and a continuum of positions", "anchors": ["src/ddMd/communicate/Domain.cpp: ownerRank, domainBound, isInDomain"]}
{"id": "C25", "title": "Exchanging atoms moves every atom to the processor that owns its position", "statement": "After Exchanger::exchangeAtoms, given that no atom moved farther than one domain, every atom is held by exactly one processor, inside that processor's domain (faces included), and its position has changed only by a box translation.", "quantifier": "all processor grids, all distributions of atoms", "why_tests_cant": "an SPMD protocol over arbitrary numbers of processors and atoms", "anchors": ["src/ddMd/communicate/Exchanger.cpp: exchangeAtoms"]}
{"id": "C26", "title": "Ghost exchange supplies every neighbour within the cutoff", "statement": "After Exchanger::exchange each processor has, as a local atom or ghost image at the right place, every atom that lies within the pair cutoff of its domain.", "quantifier": "all processor grids (each domain at least one cutoff wide), all positions", "why_tests_cant": "edge and corner transfers pass through intermediate processors", "anchors": ["src/ddMd/communicate/Exchanger.cpp: exchangeAtoms (plan setting), exchangeGhosts"]}
{"id": "C27", "title": "Ghost positions track their owners and ghost forces flow back", "statement": "Exchanger::update sets every ghost to its owner's current position plus the same lattice shift as when it was created; reverseUpdate adds the force on every ghost to its owner so that each owner gets the sum over all its copies and the total force is conserved.", "quantifier": "all send/receive patterns built by exchangeGhosts, including ghosts of ghosts", "why_tests_cant": "chains of forwarded ghosts over several axes", "anchors": ["src/ddMd/communicate/Exchanger.cpp: update, reverseUpdate, exchangeGhosts"]}
{"id": "C28", "title": "The atom distributor delivers every atom once to its owner", "statement": "For any list of atoms with different ids, generalized positions less than one box length outside the cell and at most three masked atoms each, read on the master into an AtomDistributor that is new or was used before, setup/newAtomPtr/addAtom/send on the master and receive on all others return without an exception and without a processor left waiting, each AtomStorage then has exactly the atoms of its own domain in the order of the file, together every atom once, and validate() returns the number of atoms.", "quantifier": "all processor grids, cache capacities, send capacities, atom orders and owner assignments, any number of distributions", "why_tests_cant": "flush decisions depend on the whole arrival history", "anchors": ["src/ddMd/communicate/AtomDistributor.cpp: setup, newAtomPtr, addAtom, send, receive, validate"]}
{"id": "C29", "title": "The atom and group collectors return every item once", "statement": "Successive AtomCollector::nextPtr calls on the master return all atoms of all processors exactly once, in rank order, then null, and all other processors return from send, for any buffer and any recvArrayCapacity if atoms mask at most three others; GroupCollector::nextPtr does the same for the groups whose first atom is local on the processor, if the data capacity of the buffer is not a multiple of the packed size of a group or every other processor has fewer such groups than groupCapacity().", "quantifier": "all numbers of processors and atoms, all buffer capacities", "why_tests_cant": "packet boundaries, empty processors, exact multiples of the capacity", "anchors": ["src/ddMd/communicate/AtomCollector.cpp: setup, nextPtr, send", "src/ddMd/communicate/GroupCollector.tpp: setup, nextPtr, send"]}
{"id": "C30", "title": "Groups are distributed to every processor that holds one of their atoms", "statement": "If every atom of the groups is local on exactly one processor, a full cache fits into the buffer, and every GroupStorage can hold the groups of its processor (one place more on processors other than the master), then GroupDistributor::send and receive return without an exception, every processor holds exactly the groups with at least one of its local atoms, with pointers to exactly its local atoms, and GroupCollector then returns each group exactly once.", "quantifier": "all group lists, atom distributions and cache capacities, any number of distributions", "why_tests_cant": "all assignments of atoms to processors", "anchors": ["src/ddMd/communicate/GroupDistributor.tpp: add, send, receive, validate", "src/ddMd/communicate/GroupCollector.tpp: nextPtr, send"]}
{"id": "C31", "title": "With reverse communication the domain-decomposed neighbour search counts each pair once", "statement": "With reverse communication on and an orthorhombic boundary, iterating a DdMd pair list built by PairPotential::buildCellList and buildPairList yields each unmasked pair of local atoms within the cutoff exactly once (in one order), a local-ghost pair exactly once if the ghost lies in a later cell and never otherwise, and nothing else; and of two processors that both see a pair across their boundary exactly one lists it.", "quantifier": "all domain sizes of at least one cutoff, all cell subdivisions, all configurations and masks", "why_tests_cant": "thin domains, where a row of cells has ghosts at both ends, are not exercised by the tests", "anchors": ["src/ddMd/neighbor/Cell.cpp: getNeighbors", "src/ddMd/neighbor/CellList.cpp: makeGrid, build", "src/ddMd/neighbor/PairList.cpp: build"]}
{"id": "C32", "title": "Cell offsets reach every cell within the cutoff", "statement": "With an orthorhombic boundary, CellList::makeGrid's list of cell offsets covers every pair of cells that can contain two positions closer than the cutoff, for any nCellCut, and no offset is in two strips.", "quantifier": "all domain lengths, cutoffs and nCellCut", "why_tests_cant": "geometric claim over all real lengths", "anchors": ["src/ddMd/neighbor/CellList.cpp: makeGrid"]}
{"id": "C33", "title": "Pair forces are minus the gradient of pair energies", "statement": "For LJPair, WcaPair and DpdPair, forceOverR(r^2) * r = -d energy(r^2) / dr for every separation below the cutoff, and the energy is continuous at the cutoff.", "quantifier": "all parameters and all separations below the cutoff", "why_tests_cant": "continuum of separations; the clamped core of LJPair is never sampled", "anchors": ["src/simp/interaction/pair/LJPair.h: energy, forceOverR", "src/simp/interaction/pair/WcaPair.cpp: readParameters", "src/simp/interaction/pair/DpdPair.h: energy, forceOverR"]}
{"id": "C34", "title": "Pair parameters stay symmetric and self-consistent under set calls", "statement": "After any sequence of setEpsilon, setSigma and set calls, energy(rsq,i,j) = energy(rsq,j,i), and energy and force are those of the parameters that get() reports.", "quantifier": "all histories of parameter changes, all type pairs", "why_tests_cant": "needs different types, a set call, and a comparison in both orders", "anchors": ["src/simp/interaction/pair/LJPair.cpp: setEpsilon, setSigma, set, get", "src/simp/interaction/pair/WcaPair.cpp: set", "src/simp/interaction/pair/DpdPair.cpp: setEpsilon, setSigma, set, get"]}
{"id": "C35", "title": "Bond forces are minus the gradient of bond energies", "statement": "For HarmonicBond, HarmonicL0Bond, FeneBond and CompositeBond, forceOverR * r = -dE/dr for all r > 0; the FENE energy and force are continuous at the switch to constant force.", "quantifier": "all parameters, all bond lengths", "why_tests_cant": "continuum", "anchors": ["src/simp/interaction/bond/HarmonicBond.h", "src/simp/interaction/bond/HarmonicL0Bond.h", "src/simp/interaction/bond/FeneBond.h", "src/simp/interaction/bond/FeneBond.cpp: readParameters", "src/simp/interaction/bond/CompositeBond.h"]}
{"id": "C36", "title": "Angle forces are the gradient of angle energies and exert no torque", "statement": "For CosineAngle, CosineSqAngle and HarmonicAngle, force() returns the gradient of energy(cosTheta(b1,b2)) with respect to the two bond vectors, and the resulting forces on the three atoms have zero sum and zero torque.", "quantifier": "all pairs of bond vectors (nonzero; sin(theta) > 1e-10 for HarmonicAngle, the threshold below which the code returns zero force)", "why_tests_cant": "continuum of geometries", "anchors": ["src/simp/interaction/angle/BendForce.h", "src/simp/interaction/angle/CosineAngle.h", "src/simp/interaction/angle/CosineSqAngle.h", "src/simp/interaction/angle/HarmonicAngle.h"]}
{"id": "C37", "title": "Dihedral forces are the gradient of dihedral energies", "statement": "TorsionForce::computeDerivatives returns the derivatives of cosPhi with respect to the three bond vectors; CosineDihedral and FourierDihedral forces are the gradients of their energies; the Fourier energy equals sum_n k_n cos(n phi).", "quantifier": "all triples of bond vectors with nondegenerate planes", "why_tests_cant": "continuum of geometries", "anchors": ["src/simp/interaction/dihedral/Torsion.h", "src/simp/interaction/dihedral/TorsionForce.h", "src/simp/interaction/dihedral/CosineDihedral.h", "src/simp/interaction/dihedral/FourierDihedral.h"]}
{"id": "C38", "title": "Wall forces are minus the gradient of wall energies", "statement": "For SlitExternal, BoxExternal and OrthoBoxExternal getForce is minus the gradient of energy(position) wherever the energy is differentiable, and set() leaves energy and force consistent with the reported parameters.", "quantifier": "all positions in the box, all parameters and set histories", "why_tests_cant": "continuum of positions; the two halves of the box and the clamped core", "anchors": ["src/simp/interaction/external/SlitExternal.h", "src/simp/interaction/external/BoxExternal.h", "src/simp/interaction/external/OrthoBoxExternal.h", "src/simp/interaction/external/BoxExternal.cpp: set"]}
{"id": "C39", "title": "Built species have valid chain and ring topology", "statement": "Every species accepted by the parameter readers of Linear- and Ring-derived classes has bonds, angles and dihedrals that join consecutive distinct atoms, every atom lists exactly the groups that contain it, and Species::isValid accepts it.", "quantifier": "all chain lengths, all combinations of angles and dihedrals", "why_tests_cant": "all lengths; the smallest ring is a special case", "anchors": ["src/simp/species/Linear.cpp: buildLinear", "src/simp/species/Ring.cpp: buildRing", "src/simp/species/Species.cpp: makeBond, makeAngle, makeDihedral, isValid"]}
{"id": "C40", "title": "A species saved to an archive loads back unchanged", "statement": "For each species class, loadParameters on the archive written by save reproduces moleculeCapacity and the whole structure and consumes the archive exactly.", "quantifier": "all parameter values of Point, Homopolymer, Diblock, Multiblock, HomoRing, HomopolymerSG", "why_tests_cant": "all classes and all optional-parameter combinations", "anchors": ["src/simp/species/Homopolymer.cpp", "src/simp/species/Diblock.cpp", "src/simp/species/Multiblock.cpp", "src/simp/species/HomoRing.cpp", "src/simp/species/Point.cpp", "src/mcMd/species/HomopolymerSG.cpp"]}
{"id": "C41", "title": "A structure written by a species matches that species", "statement": "matchStructure returns true on the text produced by writeStructure of the same species, and false on the text of a species with a different structure.", "quantifier": "all species structures", "why_tests_cant": "all structures; needs angles, and tests use molecules without them", "anchors": ["src/simp/species/Species.cpp: writeStructure, matchStructure, readStructure"]}
{"id": "C42", "title": "Molecules own disjoint contiguous blocks of atoms and groups", "statement": "After initialisation each molecule of each species owns nAtom consecutive atoms, no atom belongs to two molecules, every atom is owned, atom types match the species, and group atoms belong to the same molecule.", "quantifier": "all numbers of species, capacities and structures", "why_tests_cant": "all species tables", "anchors": ["src/mcMd/simulation/Simulation.cpp: initializeSpeciesData, initializeSpeciesMolecules, initializeSpeciesBonds"]}
{"id": "C43", "title": "Molecules are never lost between reservoir and system", "statement": "After any history of getMolecule, addMolecule, removeMolecule, returnMolecule and removeAllMolecules in which callers add and return only molecules they hold, every molecule of a species is exactly once in the reservoir or in the system (or held by the caller in between); molecule(speciesId, i) for i < nMolecule enumerates exactly those in the system; moleculeId inverts it.", "quantifier": "all operation histories", "why_tests_cant": "removal reorders the set; all histories", "anchors": ["src/mcMd/simulation/Simulation.cpp: getMolecule, returnMolecule", "src/mcMd/simulation/System.cpp: addMolecule, removeMolecule, moleculeId, removeAllMolecules"]}
{"id": "C44", "title": "State occupancies of a mutable species count molecules", "statement": "After any history of setMoleculeState calls stateOccupancy(s) is the number of molecules whose state is s, including after a molecule's state is set back to null.", "quantifier": "all histories", "why_tests_cant": "the null state is written through index -1", "anchors": ["src/mcMd/species/SpeciesMutator.cpp: setMoleculeStateId", "src/mcMd/species/HomopolymerSG.cpp: setMoleculeState"]}
{"id": "C45", "title": "Dynamic links stay consistent with the per-atom link sets", "statement": "After any history of addLink, removeLink, reSetAtoms, reSetAtom and clear, a link is in the link set of exactly its two atoms, active links are those in the list, and slots are conserved (isValid accepts).", "quantifier": "all operation histories", "why_tests_cant": "histories of rewiring", "anchors": ["src/mcMd/links/LinkMaster.cpp: addLink, removeLink, reSetAtoms, reSetAtom, clear, isValid"]}
{"id": "C46", "title": "Displacement moves use the true change in energy", "statement": "The energy difference used in the acceptance test of AtomDisplaceMove and RigidDisplaceMove equals the change of the total potential energy caused by the trial move.", "quantifier": "all configurations, potentials, masks and displacements", "why_tests_cant": "a wrong difference changes only the sampled distribution, not any single output", "anchors": ["src/mcMd/mcMoves/common/AtomDisplaceMove.cpp: move", "src/mcMd/mcMoves/common/RigidDisplaceMove.cpp: move", "src/mcMd/potentials/pair/McPairPotentialImpl.h: atomEnergy"]}
{"id": "C47", "title": "EndSwap and semigrand moves use the true change in energy", "statement": "EndSwapMove computes the energy change of reversing a chain by swapping types and then reverses positions: the two agree. HomopolymerSemiGrandMove's ratio contains the full change of potential energy when the type of a molecule changes.", "quantifier": "all configurations and potentials, including external ones", "why_tests_cant": "affects only the sampled distribution", "anchors": ["src/mcMd/mcMoves/linear/EndSwapMove.cpp: move", "src/mcMd/mcMoves/semigrand/HomopolymerSemiGrandMove.cpp: move"]}
{"id": "C48", "title": "Configuration-bias end regrowth uses the right weights", "statement": "In CfbEndMove the bond type used to grow an atom is the type of the bond it is attached by, and the ratio of Rosenbluth weights for one trial equals the Boltzmann factor of the nonbonded energy change.", "quantifier": "all chains, bond type patterns, regrow lengths and directions", "why_tests_cant": "chains with unequal bond types; affects only the sampled distribution", "anchors": ["src/mcMd/mcMoves/linear/CfbEndMove.cpp: move", "src/mcMd/mcMoves/base/CfbEndBase.cpp: deleteEndAtom, addEndAtom", "src/mcMd/mcMoves/linear/CfbLinear.cpp: deleteAtom, addAtom"]}
{"id": "C49", "title": "A rejected move leaves the system as it was", "statement": "When move() returns false, every atom has the position, type and cell it had before, and molecule states are unchanged.", "quantifier": "all moves modelled, all random number streams", "why_tests_cant": "all streams and configurations", "anchors": ["src/mcMd/mcMoves/common/AtomDisplaceMove.cpp: move", "src/mcMd/mcMoves/common/RigidDisplaceMove.cpp: move", "src/mcMd/mcMoves/linear/EndSwapMove.cpp: move", "src/mcMd/mcMoves/linear/CfbEndMove.cpp: move", "src/mcMd/mcMoves/semigrand/HomopolymerSemiGrandMove.cpp: move"]}
{"id": "C50", "title": "Metropolis acceptance satisfies detailed balance", "statement": "With acceptance probability min(1, exp(-beta dE)) as implemented by metropolis(boltzmann(dE)), a move with symmetric proposals satisfies detailed balance with respect to the Boltzmann distribution, hence leaves it invariant.", "quantifier": "all energies and temperatures", "why_tests_cant": "statement about probabilities", "anchors": ["src/mcMd/mcMoves/SystemMove.h: boltzmann", "src/mcMd/mcMoves/common/AtomDisplaceMove.cpp: move"]}
{"id": "C51", "title": "Velocity-Verlet integration is reversible and conserves momentum", "statement": "One NVE step followed by reversal of velocities and another step returns to the initial positions with reversed velocities; with pairwise opposite forces the total momentum is unchanged by any number of steps.", "quantifier": "all numbers of atoms, force fields, time steps and step counts", "why_tests_cant": "exact algebraic law over all states", "anchors": ["src/mcMd/mdIntegrators/NveVvIntegrator.cpp: setup, step", "src/ddMd/integrators/NveIntegrator.cpp: integrateStep1, integrateStep2"]}
{"id": "C52", "title": "Positions in storage are converted between coordinate systems consistently", "statement": "AtomStorage keeps track of whether coordinates are Cartesian; converting to generalized coordinates and back returns all positions (local and ghost) unchanged, and a second conversion in the same direction is rejected.", "quantifier": "all boxes, all atoms, all histories of conversions", "why_tests_cant": "histories of conversions", "anchors": ["src/ddMd/storage/AtomStorage.cpp: transformCartToGen, transformGenToCart, isCartesian"]}
{"id": "C53", "title": "Holding a snapshot locks the atom storage", "statement": "Between AtomStorage::makeSnapshot and clearSnapshot no operation changes the set of local atoms or ghosts: those that would do so throw, so that maxSqDisplacement compares each atom with its own saved position.", "quantifier": "all histories and all operations while a snapshot is held", "why_tests_cant": "needs each mutating operation to be tried in the locked state; one of them does not test the lock", "anchors": ["src/ddMd/storage/AtomStorage.cpp: makeSnapshot, clearSnapshot, maxSqDisplacement, removeAtom, addNewAtom, clearAtoms, removeGhost"]}
{"id": "C54", "title": "A monoclinic boundary survives output and re-input", "statement": "Writing a MonoclinicBoundary with operator <<, an output archive or an MPI transfer and reading it back gives a boundary equal in every member (up to the rounding of printed numbers for the text form), whatever the previous state of the object read into.", "quantifier": "all boundaries reachable by the set functions, all previous states of the receiving object, all three paths", "why_tests_cant": "needs every box crossed with every prior state of the receiver, because reset overwrites only some elements of the basis vectors", "anchors": ["src/simp/boundary/MonoclinicBoundary.cpp: operator >>, operator <<, send, recv, bcast, reset", "src/simp/boundary/MonoclinicBoundary.h: serialize"]}
{"id": "C55", "title": "Compensated pair forces are minus the gradient of compensated pair energies", "statement": "CompensatedPair::forceOverR(r^2) * r = -d energy(r^2)/dr at every separation other than the two cutoffs, whenever the bare pair potential and the link potential it is built from satisfy the same relation.", "quantifier": "all pair and link potentials, temperatures, chemical potentials, cutoffs and separations", "why_tests_cant": "The relation is between two functions on a continuum of separations and parameter values; a test samples a few points with a finite difference tolerance.", "anchors": ["src/simp/interaction/pair/CompensatedPair.h"]}
{"id": "C56", "title": "Bond, angle and dihedral parameters reported by get() are those in force", "statement": "After any sequence of readParameters and set() calls, the energies and forces of HarmonicBond, HarmonicL0Bond, FeneBond, CosineAngle, CosineSqAngle, HarmonicAngle, CosineDihedral and FourierDihedral are those of the parameter values that get() reports, and get() reports the value last set.", "quantifier": "all parameter values, all histories of set() calls, all configurations", "why_tests_cant": "Derived quantities (cosines, squared lengths, polynomial coefficients) must be refreshed by every setter; a test would have to try each setter order and compare with a freshly read object.", "anchors": ["src/simp/interaction/bond/FeneBond.cpp: set", "src/simp/interaction/angle/CosineSqAngle.cpp: set", "src/simp/interaction/dihedral/FourierDihedral.cpp: set"]}
{"id": "C57", "title": "A species has the groups and group types its parameter file asks for", "statement": "After readParam a species has bonds, angles and dihedrals exactly as enabled by the flags in its parameter block and with the type ids given there.", "quantifier": "all parameter blocks of Homopolymer, Diblock, Multiblock and HomopolymerSG", "why_tests_cant": "One class uses the type id of another group kind; a test with a single type id of each kind cannot see it.", "anchors": ["src/simp/species/HomopolymerSG.cpp: readSpeciesParam, calculateDihedralTypeId", "src/simp/species/Homopolymer.cpp: readSpeciesParam", "src/simp/species/Linear.cpp: buildLinear"]}
{"id": "C58", "title": "Species::isValid accepts exactly the consistent species", "statement": "Species::isValid returns true if and only if the per-atom group lists and the group arrays describe the same incidence relation (every group listed by each of its atoms, nothing listed twice, no list entry out of range, no atom repeated in a group); otherwise it throws.", "quantifier": "all contents of the tables of a species, including inconsistent ones", "why_tests_cant": "The function counts entries instead of comparing the tables, so its completeness rests on a counting argument about all tables.", "anchors": ["src/simp/species/Species.cpp: isValid"]}
{"id": "C59", "title": "readStructure reproduces what writeStructure wrote", "statement": "A species that reads, through readStructure, the text another species printed with writeStructure has the same atom types, bonds, angles and dihedrals and consistent per-atom lists; the text is consumed exactly.", "quantifier": "all species structures and the text forms with and without optional sections", "why_tests_cant": "Sections of the format are optional and delimited by labels; a round trip has to be checked for all combinations of sections and sizes.", "anchors": ["src/simp/species/Species.cpp: readStructure, writeStructure"]}
{"id": "C60", "title": "Energies computed with the cell list and with the pair list are the energy of the configuration", "statement": "After buildCellList, the total energy a Monte Carlo system reports (pair, bonded and external potentials) is the sum over all unmasked pairs, all groups and all atoms of the interaction energies with the minimum image; an MD system whose pair list was built from any configuration and is still current reports the same energy, so energies of the same configuration agree between Monte Carlo and MD.", "quantifier": "all boxes of both lattice systems, all configurations, masks, cutoffs, skins, potentials and molecule topologies, up to the capacity of cells and lists", "why_tests_cant": "a pair missed or counted twice for one rare geometry changes energies by little; agreement has to hold for all configurations", "anchors": ["src/mcMd/potentials/pair/McPairPotentialImpl.h: computeEnergy, atomEnergy, moleculeEnergy", "src/mcMd/potentials/pair/MdPairPotentialImpl.h: computeEnergy", "src/mcMd/mcSimulation/McSystem.cpp: atomPotentialEnergy, potentialEnergy", "src/mcMd/potentials/bond/BondPotentialImpl.h: computeEnergy"]}
{"id": "C61", "title": "MD force on each atom is the sum of the forces of its neighbours, groups and field", "statement": "After a force calculation of an MD system (pair list rebuilt when it is no longer current), the force stored for each atom is the sum over all unmasked atoms within the cutoff of the pair force along the minimum image separation, plus the forces of every bond, angle and dihedral that contains the atom and the external force; without an external field the forces of all atoms add up to zero.", "quantifier": "all boxes of both lattice systems, all configurations, masks, cutoffs, skins, potentials, molecule topologies and earlier states of the pair list, up to the capacity of cells and lists", "why_tests_cant": "the forces are accumulated pair by pair from a list built for an earlier configuration; a pair missed, repeated or scattered with the wrong sign shows up only as a slow drift", "anchors": ["src/mcMd/mdSimulation/MdSystem.cpp: calculateForces", "src/mcMd/potentials/pair/MdPairPotentialImpl.h: addForces", "src/mcMd/potentials/bond/BondPotentialImpl.h: addForces", "src/mcMd/potentials/angle/AnglePotentialImpl.h: addForces", "src/mcMd/potentials/dihedral/DihedralPotentialImpl.h: addForces"]}
{"id": "C62", "title": "MD forces are minus the gradient of the potential energy", "statement": "When MdSystem::calculateForces has ended, moving all atoms at once in any directions changes the potential energy of the configuration (the one potentialEnergy reports, C60), to first order, by minus the sum over the atoms of the stored force times the displacement.", "quantifier": "all configurations at which the interactions are differentiable and no interacting pair is exactly half a cell apart; both lattice systems, any molecules, masks and earlier states of the pair list", "why_tests_cant": "energies and forces are computed by different loops over different data; that they agree is a statement about derivatives in all directions at all configurations", "anchors": ["src/mcMd/mdSimulation/MdSystem.cpp: calculateForces, potentialEnergy", "src/mcMd/potentials/pair/MdPairPotentialImpl.h: addForces, computeEnergy", "src/simp/boundary/OrthorhombicBoundary.h: distanceSq", "src/simp/boundary/MonoclinicBoundary.h: distanceSq"]}
{"id": "C63", "title": "Parallel exchange is requested exactly when some atom has moved further than half the skin", "statement": "Integrator::isExchangeNeeded, called on all processors in Cartesian coordinates while each holds a snapshot, answers the same everywhere: false exactly when no local atom of any processor is further than half the skin from its position at the snapshot. When it answers false, the distance between any two atoms, or any of their periodic images, differs by at most the skin from what it was.", "quantifier": "all numbers of processors, all histories of their storages before and after the snapshot (without removal of atoms), all skins", "why_tests_cant": "needs all displacement patterns over all processors, and that snapshot entries still belong to the same atoms after any intervening calls", "anchors": ["src/ddMd/integrators/Integrator.cpp: isExchangeNeeded", "src/ddMd/storage/AtomStorage.cpp: makeSnapshot, maxSqDisplacement"]}
{"id": "C64", "title": "A change of the box deforms all atoms affinely", "statement": "If the box is changed between AtomStorage::transformCartToGen and transformGenToCart, every local atom and ghost moves from its place in the old box to the place with the same generalized coordinates in the new box, each exactly once; nothing else in the storage changes.", "quantifier": "all pairs of boxes, all histories of the storage", "why_tests_cant": "relation over all boxes and all reachable storages", "anchors": ["src/ddMd/storage/AtomStorage.cpp: transformCartToGen, transformGenToCart", "src/ddMd/integrators/NphIntegrator.cpp: integrateStep1"]}
{"id": "C65", "title": "Building a DdMd pair list succeeds for every configuration", "statement": "PairPotential::buildPairList succeeds for every configuration in the domain with at most 2000 atoms, including configurations without interacting pairs.", "quantifier": "all configurations, all earlier states of the pair list", "why_tests_cant": "the tests start from dense liquids; a dilute first configuration is not exercised", "anchors": ["src/ddMd/potentials/pair/PairPotential.cpp: buildPairList", "src/ddMd/neighbor/PairList.cpp: countPairs, build"]}
{"id": "C66", "title": "The domain-decomposed neighbour search counts each pair once in every mode", "statement": "With reverse communication on or off, with orthorhombic or monoclinic boundaries, a DdMd pair list contains each local-local pair within the cutoff exactly once, and with reverse communication off each local-ghost pair exactly once.", "quantifier": "all domain sizes of at least one cutoff, all cell subdivisions, boundaries and configurations", "why_tests_cant": "thin domains without reverse communication, and skewed boxes with several cells per cutoff", "anchors": ["src/ddMd/neighbor/Cell.cpp: getNeighbors", "src/ddMd/neighbor/CellList.cpp: makeGrid, build", "src/ddMd/neighbor/PairList.cpp: build"]}
{"id": "C67", "title": "Cell offsets reach every cell within the cutoff of a monoclinic box", "statement": "With a monoclinic boundary, CellList::makeGrid's list of cell offsets covers every pair of cells that can contain two positions closer than the cutoff, for any nCellCut.", "quantifier": "all boxes, cutoffs and nCellCut", "why_tests_cant": "geometric claim over all real lengths and tilts", "anchors": ["src/ddMd/neighbor/CellList.cpp: makeGrid", "src/simp/boundary/MonoclinicBoundary.h: length"]}
{"id": "C68", "title": "Building a DdMd cell list accepts exactly the domains it can handle", "statement": "PairPotential::buildCellList succeeds if the domain is at least one cutoff wide in every direction and nCellCut is between 1 and 4, throws otherwise, and never has undefined behaviour, whatever cell list it starts from.", "quantifier": "all domains, cutoffs, nCellCut, configurations and earlier cell lists", "why_tests_cant": "boundary cases of the grid size, stale state of a reused list", "anchors": ["src/ddMd/neighbor/CellList.cpp: allocate, makeGrid, placeAtom, build", "src/ddMd/potentials/pair/PairPotential.cpp: buildCellList"]}
{"id": "C69", "title": "Distribution and collection need no more than the documented capacities", "statement": "AtomDistributor, AtomCollector, GroupDistributor and GroupCollector succeed whenever the capacities are respected: up to four masked atoms per atom, as many groups per processor as GroupStorage::capacity(), any GroupDistributor cacheCapacity, blocks of up to atomCapacity() and groupCapacity() items.", "quantifier": "all buffers, capacities, atoms and groups within the capacities", "why_tests_cant": "only exactly full blocks and storages fail", "anchors": ["src/ddMd/communicate/Buffer.cpp: allocate", "src/ddMd/communicate/AtomDistributor.cpp: send", "src/ddMd/communicate/AtomCollector.cpp: send", "src/ddMd/communicate/GroupDistributor.tpp: add, receive", "src/ddMd/communicate/GroupCollector.tpp: send"]}
{"id": "C70", "title": "Ghost exchange is exact if domains are as wide as the cutoff plus the displacement", "statement": "If no atom is farther than m outside of its domain and every domain is at least m plus the cutoff wide along every axis (in generalized coordinates), then after Exchanger::exchange the local atoms and ghosts of a processor are exactly the periodic images less than one cutoff outside of its domain, each once; in orthorhombic and monoclinic boxes every image within the cutoff of a local atom is among them; and the exchange completes if ids are different and capacities suffice.", "quantifier": "all processor grids, boxes, positions, numbers of atoms", "why_tests_cant": "needs all combinations of forwarding along three axes and wrap around small grids, including grids with one or two processors per axis", "anchors": ["src/ddMd/communicate/Exchanger.cpp: exchange, exchangeAtoms, exchangeGhosts"]}
{"id": "C71", "title": "Configuration-bias end regrowth balances for any number of trials", "statement": "CfbEndMove accepts with the ratio of the products of Rosenbluth weights of the new and the old chain end; each weight is the sum over trial positions of the Boltzmann factors of the energy of putting the atom there. With each position chosen with its Boltzmann factor over the weight, Boltzmann weight times probability of choosing times probability of accepting is the same forwards and backwards. A rejected move restores all positions.", "quantifier": "all chains, numbers of trials, regrown atoms, ends, interactions and random numbers", "why_tests_cant": "statistical property of all random streams", "anchors": ["src/mcMd/mcMoves/linear/CfbEndMove.cpp: move", "src/mcMd/mcMoves/base/CfbEndBase.cpp: deleteEndAtom, addEndAtom"]}
{"id": "C72", "title": "CfbEndMove runs for every number of regrown atoms", "statement": "For every chain and every nRegrow below its number of atoms, CfbEndMove::move runs without error.", "quantifier": "all chains, potentials and random numbers", "why_tests_cant": "depends on the combination of nRegrow, molecule length and angle potential", "anchors": ["src/mcMd/mcMoves/linear/CfbEndMove.cpp: move", "src/mcMd/mcMoves/base/CfbEndBase.cpp: deleteEndAtom"]}
{"id": "C73", "title": "Groups are stored by exactly the processors that own their atoms", "statement": "Starting from a system in which every processor has one record of each covalent group with an atom among its local atoms, and no others, with pointers to the local atoms and ghosts of the right ids, after Exchanger::exchangeAtoms the same holds for the new owners, pointers to local atoms are set and all others null; after Exchanger::exchange it holds again and no pointer is null.  Local atoms and their positions are those that an exchange without groups gives.", "quantifier": "all processor grids, positions, displacements, kinds and numbers of groups of any size", "why_tests_cant": "a group is sent with each of its atoms, may arrive several times in one round over any of six directions and is removed once its last atom leaves; needs all combinations", "anchors": ["src/ddMd/communicate/Exchanger.cpp: exchangeAtoms, exchangeGhosts", "src/ddMd/storage/GroupStorage.tpp: markSpanningGroups, pack, unpack, markGhosts, findGhosts", "src/ddMd/storage/AtomMap.h: findGroupLocalAtoms, findGroupGhostAtoms"]}
{"id": "C74", "title": "Exchange of groups needs no more than the documented capacities", "statement": "Exchanger::exchangeAtoms completes if ids are different and no processor ever has more atoms, ghosts or groups of one kind than its capacities.", "quantifier": "all processor grids, positions, groups and capacities", "why_tests_cant": "only exactly full storages fail", "anchors": ["src/ddMd/communicate/Exchanger.cpp: exchangeAtoms", "src/ddMd/storage/GroupStorage.tpp: newPtr, unpack"]}
{"id": "C75", "title": "Exchange finds all atoms of every group", "statement": "If no atom has moved farther than m out of its domain and the atoms of each group are less than the width of a domain minus m apart along every axis, then Exchanger::exchange completes: every processor with an atom of a group has local atoms or ghosts for all atoms of the group (no exception Incomplete group after search for ghosts).", "quantifier": "all processor grids, positions, groups of 2, 3 and 4 atoms, slab widths", "why_tests_cant": "whether the ghosts needed for a long group are sent depends on directions marked on one processor for atoms that may be exchanged at the same time over other directions", "anchors": ["src/ddMd/communicate/Exchanger.cpp: exchange", "src/ddMd/storage/GroupStorage.tpp: markSpanningGroups, unpack, markGhosts, findGhosts"]}
{"id": "C76", "title": "Nonbonded energy, stress and pair count of the parallel program", "statement": "After Exchanger::exchange, buildCellList and buildPairList on all processors, and as long as no atom has moved farther than half the skin and ghosts have been updated, the energy, the stress and the number of pairs that PairPotentialImpl computes with the pair lists and reduces over all processors are half the sums over all ordered pairs of an atom and a periodic image of an atom that are closer than the cutoff of their types and not masked: each pair is counted once, by whichever processors hold it, with and without reverse communication. Conditions: no atom lies exactly on an upper face of a domain; without reverse communication domains are at least two cutoffs wide along z; in skewed boxes there is one cell per cutoff.", "quantifier": "all processor grids, boxes of both kinds, numbers of atoms, positions, types, masks, interactions without energy beyond their cutoffs, earlier lists, motions since the exchange", "why_tests_cant": "a pair across a face is listed by one processor or by both with half the weight, depending on the order of cells of different grids and on which images were sent as ghosts; tests see a few configurations on a few processors", "anchors": ["src/ddMd/potentials/pair/PairPotentialImpl.h: energyList, computeStress", "src/ddMd/potentials/pair/PairPotential.cpp: buildCellList, buildPairList, nPairList", "src/ddMd/communicate/Exchanger.cpp: exchange, update"]}
{"id": "C77", "title": "Nonbonded forces of the parallel program", "statement": "Under the same conditions, computeForces (zeroForces, computeForcesList and, with reverse communication, Exchanger::reverseUpdate) leaves on every local atom the sum of the pair forces over all images of atoms within the cutoff that are not masked, changes nothing else, and gives the same with and without reverse communication; the forces of all atoms add up to zero.", "quantifier": "all processor grids, boxes of both kinds, numbers of atoms, positions, types, masks, pair forces, earlier lists, motions since the exchange", "why_tests_cant": "forces on ghosts must reach the owners exactly once through up to three messages, and loops over blocks of 16 pairs must give what a loop over single pairs gives", "anchors": ["src/ddMd/potentials/pair/PairPotentialImpl.h: computeForcesList", "src/ddMd/storage/AtomStorage.cpp: zeroForces", "src/ddMd/communicate/Exchanger.cpp: reverseUpdate", "src/ddMd/integrators/Integrator.cpp: computeForces"]}
{"id": "C78", "title": "Energies and stresses of covalent groups of the parallel program", "statement": "After Exchanger::exchange with group storages, any motion of local atoms and Exchanger::update, the bond, angle and dihedral energies, and the bond and angle stresses, that the processors compute from their records of groups and reduce to the master are the sums over all groups of the system, each counted once with the separations of nearest images, however its atoms are spread over processors; the external energy is the sum over all atoms. Conditions: atoms that follow each other in a group are less than half the smallest box length apart, and no two atoms or ghosts of a processor are more than one and a half periods apart.", "quantifier": "all processor grids, boxes of both kinds, sets of groups, positions, motions, and interaction functions", "why_tests_cant": "a group of n atoms can have records on up to n processors, each with its own local atoms, and contributes the fraction of its atoms that are local there; wrong weights show up only if groups cross domains", "anchors": ["src/ddMd/potentials/bond/BondPotentialImpl.h: computeEnergy, computeStress", "src/ddMd/potentials/angle/AnglePotentialImpl.h: computeEnergy, computeStress", "src/ddMd/potentials/dihedral/DihedralPotentialImpl.h: computeEnergy", "src/ddMd/potentials/external/ExternalPotentialImpl.h", "src/ddMd/potentials/Potential.cpp: reduceEnergy, reduceStress"]}
{"id": "C79", "title": "Forces of all potentials of the parallel program", "statement": "Under the conditions of C76 and C78, Simulation::computeForces leaves on every local atom the sum of the pair forces of all images within the cutoff, the forces of all bonds, angles and dihedrals that the atom is in, and the external force, with and without reverse communication, and changes nothing else; the forces of every group on its atoms add to zero.", "quantifier": "all processor grids, boxes of both kinds, sets of groups, positions, types, masks, interaction functions, earlier lists and motions within half the skin", "why_tests_cant": "bonded forces are added on every processor that has a record, but to local atoms only, while with reverse communication pair forces on ghosts are sent back; adding bonded forces to ghosts too would count them twice in one mode and be invisible in the other", "anchors": ["src/ddMd/simulation/Simulation.cpp: computeForces", "src/ddMd/potentials/bond/BondPotentialImpl.h: computeForces", "src/ddMd/potentials/angle/AnglePotentialImpl.h: computeForces", "src/ddMd/potentials/dihedral/DihedralPotentialImpl.h: computeForces", "src/ddMd/communicate/Exchanger.cpp: reverseUpdate"]}
{"id": "C80", "title": "Stress of dihedrals of the parallel program", "statement": "The dihedral stress that the processors compute and reduce is the sum over all dihedrals of the virials, minus the derivatives of the dihedral energy with respect to the three separations times these separations.", "quantifier": "all processor grids, boxes of both kinds, sets of dihedrals, positions and coefficients of both dihedral potentials", "why_tests_cant": "the stress of dihedrals has no effect on the motion in constant volume runs, and its trace vanishes for potentials that depend on the angle only, so that neither trajectories nor pressures show an error", "anchors": ["src/ddMd/potentials/dihedral/DihedralPotentialImpl.h: computeStress", "src/simp/interaction/dihedral/CosineDihedral.h: force", "src/simp/interaction/dihedral/FourierDihedral.h: force"]}
{"id": "C81", "title": "Wavevectors of the Ewald sum", "statement": "MdEwaldPotential::makeWaves stores exactly one of each pair k, -k of the nonzero wavevectors not longer than kSpaceCutoff, each with the square of its length and the influence function of the Ewald interaction; their indices are in the ranges of the tables of exponentials; it throws if and only if there is no such wavevector.", "quantifier": "all orthorhombic and monoclinic boxes, all positive cutoffs, all dielectric constants but zero and positive alpha", "why_tests_cant": "that the loop bounds, computed from the lengths of the edges, include all wavevectors within the cutoff is a matter of geometry, which in a tilted box a few runs do not show; a lost or doubled wave is a small error of every force", "anchors": ["src/mcMd/potentials/coulomb/MdEwaldPotential.cpp: makeWaves", "src/simp/interaction/coulomb/EwaldInteraction.h: kSpacePotential"]}
{"id": "C82", "title": "K-space energy and forces of the Ewald sum", "statement": "With the waves that makeWaves makes, MdEwaldPotential::computeEnergy stores the sum over all nonzero wavevectors within the cutoff of the influence function times the squared Fourier mode of the charge, over twice the volume, minus the self energies; addForces adds minus the gradient of this energy to the forces, changes no other force, adds forces that sum to zero, and reads no table out of bounds.", "quantifier": "all boxes of both kinds, sets of atoms, charges that are zero or larger than 1e-10, positions, cutoffs and parameters", "why_tests_cant": "the code sums over half of the waves with products of tabulated exponentials; a wrong factor of two, a wrong table index or a wrong sign for one family of waves is only visible against an independent sum over all waves", "anchors": ["src/mcMd/potentials/coulomb/MdEwaldPotential.cpp: computeKSpaceCharge, addForces, computeEnergy"]}
{"id": "C83", "title": "K-space stress of the Ewald sum", "statement": "MdEwaldPotential::computeStress gives the tensor that is -1/V times the derivative of the k-space energy with respect to a homogeneous deformation of the box and of all positions, for deformations of every kind.", "quantifier": "all boxes of both kinds, sets of atoms, charges, positions, cutoffs, parameters and deformations", "why_tests_cant": "the deformation changes wavevectors, volume and positions together; tests compare at most the trace of the stress, in cubic boxes, to a finite difference", "anchors": ["src/mcMd/potentials/coulomb/MdEwaldPotential.cpp: computeStress"]}
{"id": "C84", "title": "Forces on charged atoms", "statement": "MdSystem::calculateForces, with an Ewald pair potential and an Ewald potential, either throws, because a cell, the list of pairs or the list of atoms is full or no wave is within the cutoff, or leaves on the atoms minus the gradient of the sum of the energies of pairs and of screened charges closer than rSpaceCutoff, of groups, of the external field and of waves; without external field the forces sum to zero; and the energies of pairs and screened charges that computeEnergy stores are these sums, each pair once.", "quantifier": "all boxes of both kinds, systems, charges, parameters, positions without pairs exactly at a cutoff, earlier lists and motions of the atoms", "why_tests_cant": "the forces come from a loop over a pair list with a cutoff of its own, from the potential and from waves; whether these three are derivatives of one energy is not visible in any of them, only in the drift of the energy in long runs", "anchors": ["src/mcMd/mdSimulation/MdSystem.cpp: calculateForces", "src/mcMd/potentials/pair/MdEwaldPairPotentialImpl.h: addForces, computeEnergy", "src/simp/interaction/coulomb/EwaldInteraction.h: rSpaceEnergy, rSpaceForceOverR"]}
{"id": "C85", "title": "Kept values of the Ewald sum", "statement": "After any sequence of calls of set, makeWaves, unsetWaves, unsetEnergy, unsetStress, kSpaceEnergy, kSpaceStress, rSpaceEnergy, motions of the atoms and changes of the box, kSpaceEnergy(), kSpaceStress() and rSpaceEnergy() give the values for the current parameters, positions and box.", "quantifier": "all sequences of calls, boxes, charges and positions", "why_tests_cant": "a value or a table that is kept too long is only visible if the calls come in an order in which it matters; integrators with variable boxes and changes of parameters in a run are such orders", "anchors": ["src/mcMd/potentials/coulomb/MdCoulombPotential.cpp: kSpaceEnergy, kSpaceStress, unsetWaves", "src/mcMd/potentials/coulomb/MdEwaldPotential.cpp: set, makeWaves", "src/mcMd/potentials/coulomb/EwaldRSpaceAccumulator.cpp: rSpaceEnergy", "src/mcMd/mdIntegrators/NphIntegrator.cpp: integrateStep1"]}
{"id": "C86", "title": "Clusters of molecules", "statement": "ClusterIdentifier::identifyClusters() returns without exception and leaves clusters numbered from 0 such that two molecules of the species are in the same cluster if and only if they are connected by a chain of molecules in which each has a core atom with a periodic image closer than the cutoff to a core atom of the next; every molecule is in exactly one cluster, each cluster lists its molecules once by head() and next(), and size() is their number. Nothing is kept from earlier calls.", "quantifier": "all boxes, cutoffs, molecules, choices of core atoms and configurations in which no cell of the grid is too crowded, after any earlier calls", "why_tests_cant": "the result depends on the order in which molecules are met, on which cells atoms fall into and on periodic images; a missed connection or a clash needs a special configuration", "anchors": ["src/mcMd/analyzers/system/ClusterIdentifier.cpp: identifyClusters, processNextMolecule, isValid", "src/mcMd/analyzers/system/Cluster.cpp: clear, setId, addLink, isValid", "src/mcMd/analyzers/system/ClusterLink.h", "src/mcMd/neighbor/CellList.h: getNeighbors"]}
{"id": "C87", "title": "Periodic external fields", "statement": "LamellarOrderingExternal, SimplePeriodicExternal, PeriodicExternal and GeneralPeriodicExternal: energy() returns the documented clipped sum of cosines, which does not exceed prefactor times external parameter and, for integer wave vectors, is the same for all periodic images of a position; getForce() returns minus its gradient at every position.", "quantifier": "all parameters, numbers of waves, box lengths, positions and atom types", "why_tests_cant": "energy and force are computed by separate loops over the waves; a wrong sign or factor for one wave or one axis is only visible with waves along that axis", "anchors": ["src/simp/interaction/external/LamellarOrderingExternal.h: energy, getForce", "src/simp/interaction/external/SimplePeriodicExternal.h: energy, getForce", "src/simp/interaction/external/PeriodicExternal.h: energy, getForce", "src/simp/interaction/external/GeneralPeriodicExternal.h: energy, getForce"]}
{"id": "C88", "title": "Nucleation and tabulated external fields", "statement": "NucleationExternal::getForce and SphericalTabulatedExternal::getForce return minus the gradient of energy(), wherever it has one.", "quantifier": "all parameters, tables, box lengths, positions and atom types", "why_tests_cant": "the forces are separate formulas; a missing factor that happens to be near 1 in a test, or a table with unit spacing, hides the error", "anchors": ["src/simp/interaction/external/NucleationExternal.h: energy, getForce", "src/simp/interaction/external/SphericalTabulatedExternal.h: energy, getForce", "src/simp/interaction/external/SphericalTabulatedExternal.cpp: readParameters"]}
{"id": "C89", "title": "External fields survive a restart", "statement": "For every external potential, loadParameters() of a new object, given what save() of an initialized one has written, restores all parameters and leaves the archive at the end of what was written.", "quantifier": "all parameters, numbers of waves and atom types, and whatever follows in the archive", "why_tests_cant": "saving and loading are separate lists of members which must agree in order, type and presence; tests of restarting use one potential", "anchors": ["src/simp/interaction/external: save and loadParameters of LamellarOrderingExternal, SimplePeriodicExternal, PeriodicExternal, GeneralPeriodicExternal, NucleationExternal, SphericalTabulatedExternal, SlitExternal, BoxExternal, OrthoBoxExternal"]}
{"id": "C90", "title": "Nose-Hoover dynamics can be reversed", "statement": "NvtNhIntegrator and ddMd NvtIntegrator make the same reversible step: after any number of steps, changing the signs of all velocities and of xi and running as many steps returns every atom to an image of its position, with opposite velocities and xi; after every step xiDot is (T_kinetic/T - 1)/tauT^2 for the new velocities; and without external field the total momentum only ever changes by a positive factor.", "quantifier": "all systems, numbers of steps, time steps, temperatures and time constants, also when the pair lists of the two runs are rebuilt at different steps", "why_tests_cant": "tests look at averages over short runs; reversal depends on the order of six updates in two programs", "anchors": ["NvtNhIntegrator::setup and step in src/mcMd/mdIntegrators/NvtNhIntegrator.cpp", "NvtIntegrator::setup, integrateStep1 and integrateStep2 in src/ddMd/integrators/NvtIntegrator.cpp"]}
{"id": "C91", "title": "Dissipative particle dynamics conserves momentum and draws one number for each pair", "statement": "NvtDpdVvIntegrator conserves the total momentum exactly, whatever numbers Random returns. Every step gives each pair of unmasked atoms within the cutoff one new random number, which no earlier step has used, with forces sigma w e xi opposite on the two atoms; friction belongs to the velocities at that point, takes energy out of relative motion and does not act on common motion; sigma^2 dt = 2 gamma T.", "quantifier": "all systems, states, numbers of steps, random numbers, friction constants, cutoffs up to that of the pair list, and the three weight functions", "why_tests_cant": "a pair visited twice or not at all changes statistics slightly; tests cannot tell", "anchors": ["NvtDpdVvIntegrator::setup, computeDpdForces and step in src/mcMd/mdIntegrators/NvtDpdVvIntegrator.cpp"]}
{"id": "C92", "title": "The Langevin thermostat reaches the temperature asked for, for every time step", "statement": "For atoms without forces, after n+1 steps of either NvtLangevinIntegrator the mean over the random numbers of the kinetic temperature is T + ((1+q)/2)^2 q^(2n) (T_0 - 2T/(1+q)) with q = exp(-gamma dt), and the mean velocity has decayed by (1+q)/2 q^n; so for gamma > 0 the mean temperature tends to T, without any error from the length of the time step.", "quantifier": "all numbers of atoms, masses, initial velocities, time steps, friction constants, temperatures and numbers of steps", "why_tests_cant": "a mean over all random numbers is an integral in 3 N n dimensions; simulations give it with noise of the size of the error of the time step", "anchors": ["NvtLangevinIntegrator::setup and step in src/mcMd/mdIntegrators/NvtLangevinIntegrator.cpp", "NvtLangevinIntegrator::setup, integrateStep1 and integrateStep2 in src/ddMd/integrators/NvtLangevinIntegrator.cpp"]}
{"id": "C93", "title": "Integrators survive a restart", "statement": "For every integrator of both programs, loadParameters() of a new object, given what save() of an initialized one has written, restores all saved members and leaves the archive at the end of what was written.", "quantifier": "all values of members, and whatever follows in the archive", "why_tests_cant": "saving and loading are separate lists of members which must agree in order, type and presence; tests of restarting use one integrator", "anchors": ["save and loadParameters in src/mcMd/mdIntegrators and src/ddMd/integrators: NveVvIntegrator, NvtNhIntegrator, NvtDpdVvIntegrator, NphIntegrator, NvtLangevinIntegrator, Integrator, NveIntegrator, NvtIntegrator, NptIntegrator"]}
{"id": "C94", "title": "The NphIntegrator solves its equations of motion and is reversible", "statement": "A step of NphIntegrator advances the barostat momenta by half a step with the pressure (virial and kinetic) in the present box, the box lengths by a whole step with these momenta (the volume for a cubic box), the atoms by the velocity-Verlet step in coordinates scaled with the box, and the barostat momenta by half a step with the new pressure, for cubic, tetragonal and orthorhombic boxes. Running N steps, reversing all velocities and barostat momenta, and running N steps returns to the same box, positions (up to images) and opposite momenta.", "quantifier": "all systems whose forces and virial depend on the box and on positions up to images, all N, masses, time steps, barostat masses and pressures for which no length of the box becomes zero or negative", "why_tests_cant": "the step mixes three stages of scaling of the box in three lattice systems; a wrong factor still conserves the enthalpy roughly, and reversal is exact only if all factors match", "anchors": ["NphIntegrator::step in src/mcMd/mdIntegrators/NphIntegrator.cpp", "MdSystem::computeKineticStress in src/mcMd/mdSimulation/MdSystem.cpp"]}
{"id": "C95", "title": "Momenta at the start of a hybrid move are drawn from the Boltzmann distribution", "statement": "Given independent normal deviates, MdSystem::setBoltzmannVelocities draws velocities with the Boltzmann distribution of the kinetic energy, and HybridNphMdMove draws barostat momenta with the Boltzmann distribution of NphIntegrator::barostatEnergy.", "quantifier": "all systems with positive masses, all temperatures, barostat masses and the three lattice systems", "why_tests_cant": "a wrong variance of the barostat momenta biases the volume slightly; with the barostat mass 1 the bias vanishes", "anchors": ["MdSystem::setBoltzmannVelocities in src/mcMd/mdSimulation/MdSystem.cpp", "HybridNphMdMove::move in src/mcMd/mcMoves/common/HybridNphMdMove.cpp", "NphIntegrator::barostatEnergy in src/mcMd/mdIntegrators/NphIntegrator.cpp"]}
{"id": "C96", "title": "HybridMdMove is a Metropolis move on the whole energy", "statement": "HybridMdMove::move integrates the equations of motion for nStep steps from the present positions with fresh velocities, computes the change of potential plus kinetic energy of the whole system, and accepts with the Metropolis probability exp(-beta dE). After acceptance all atoms have the new positions, shifted into the primary cell, and the cell list of the McPairPotential holds exactly these; after a rejection all atoms are where they were and the cell list still holds them there.", "quantifier": "all systems, configurations, numbers of steps and random numbers for which no atom moves by more than a cell length in a step", "why_tests_cant": "the move works on two representations of one system (cell list and pair list); a stale list or energy shows up only after rare acceptances or rejections", "anchors": ["HybridMdMove::move in src/mcMd/mcMoves/common/HybridMdMove.cpp", "MdSystem::potentialEnergy, kineticEnergy and setBoltzmannVelocities in src/mcMd/mdSimulation/MdSystem.cpp", "McPairPotential::buildCellList in src/mcMd/potentials/pair/McPairPotential.cpp"]}
{"id": "C97", "title": "Moves with an integrator use it after it was set up", "statement": "When McSimulation::simulate runs the moves that were read, the NveVvIntegrator of an MdMove or HybridMdMove has its prefactors dt/(2m) set for all atom types, so that move() integrates with the masses of the atoms.", "quantifier": "all systems with at least one atom, all numbers of types and steps", "why_tests_cant": "elements of an array that was allocated but not assigned are often zero, and then the atoms just move along straight lines", "anchors": ["MdMove::move in src/mcMd/mcMoves/common/MdMove.cpp", "HybridMdMove::move in src/mcMd/mcMoves/common/HybridMdMove.cpp", "McSimulation::simulate in src/mcMd/mcSimulation/McSimulation.cpp", "McMoveManager::setup in src/mcMd/mcMoves/McMoveManager.cpp", "NveVvIntegrator::setup and step in src/mcMd/mdIntegrators/NveVvIntegrator.cpp"]}
{"id": "C98", "title": "The centre and the moments of a cluster are those of its atoms", "statement": "For every cluster that ClusterIdentifier finds, Cluster::clusterCOM returns the mean of the positions of the atoms of the given type, taken as one contiguous set of periodic images, up to a lattice vector and inside the primary cell; Cluster::momentTensor returns the second moments of these images about their mean. Both do not depend on the order of the molecules in the cluster.", "quantifier": "all orthorhombic boxes, clusters, numbers of molecules and atoms, types and positions", "why_tests_cant": "positions far from faces of the box give right results whatever is done about images; compact clusters do so too, and clusters of more than half a box are rare in tests", "anchors": ["Cluster::clusterCOM and Cluster::momentTensor in src/mcMd/analyzers/system/Cluster.cpp", "ClusterHistogram::sample in src/mcMd/analyzers/system/ClusterHistogram.cpp", "OrthorhombicBoundary::distanceSq and shift in src/simp/boundary/OrthorhombicBoundary.h"]}
{"id": "C99", "title": "Radii of gyration and block radii of gyration across periodic faces", "statement": "For molecules whose consecutive atoms have periodic images less than half an edge apart along each axis, RadiusGyrationSq::compute returns the mean over molecules of the mean squared distance of these images from their mean, and BlockRadiusGyration the same for the atoms of each type and the mean squared distance between the centres of two types, if every molecule has the same, nonzero, number of atoms of these types. For a type that does not occur BlockRadiusGyration divides by zero.", "quantifier": "every orthorhombic box, species, number of molecules, all positions and images", "why_tests_cant": "tests use molecules inside the cell; wrapped molecules and all type patterns are needed", "anchors": ["src/mcMd/analyzers/system/RadiusGyrationSq.cpp", "src/mcMd/analyzers/system/BlockRadiusGyration.cpp"]}
{"id": "C100", "title": "Mean squared displacements follow atoms and molecules across faces", "statement": "If an atom moves by less than half an edge along each axis between samples, AtomMSD reports exact displacements whatever the number of faces crossed. For ComMSD this holds for molecules of one atom only: for every molecule of n >= 2 atoms moleculeCom leaves out the last atom but divides by n, and a translation by d is reported as d minus 1/n of the change of the wrapped position of the first atom.", "quantifier": "every box, trajectory and number of samples; every molecule with at least two atoms", "why_tests_cant": "needs trajectories with any number of crossings; the error of ComMSD is hidden in a statistical average", "anchors": ["src/mcMd/analyzers/system/AtomMSD.cpp", "src/mcMd/analyzers/system/ComMSD.cpp"]}
{"id": "C101", "title": "Rouse modes do not depend on periodic images or translations", "statement": "RingRouseAutoCorr (modes 1 and up) and LinearRouseAutoCorr (even modes) compute the sum of contiguous images of the atoms of a molecule with the weights of the mode, which does not depend on the images chosen or on translations. For odd modes LinearRouseAutoCorr is wrong for every molecule: the weights have sum -1/n, so translating the molecule, or storing another image of its first atom, changes the mode.", "quantifier": "every box, chain length n, mode p with 0 < p < n, all positions and images", "why_tests_cant": "needs trigonometric sums for all chain lengths and modes", "anchors": ["src/mcMd/analyzers/system/LinearRouseAutoCorr.cpp", "src/mcMd/analyzers/system/RingRouseAutoCorr.cpp"]}
{"id": "C102", "title": "Structure factors are averages of sums over pairs", "statement": "StructureFactor reports for each wave and mode the mean, over the samples since setup, of the sum over all pairs of atoms at the wavevector of the current box, also after a restart; these values are not negative and do not depend on images or translations, and each line of the file of maxima names a wave of maximal value. IntraStructureFactor adds pairs within molecules only, and the modes of VanHove have the structure factor as squared modulus. The file of maxima should also survive a restart; it does not: isFirstStep_ is not in the archive, so the first sample after a restart truncates it.", "quantifier": "every box (orthorhombic or monoclinic), list of waves, mode coefficients, sequence of samples and restarts", "why_tests_cant": "a sum over all pairs against a square of a Fourier mode; tests compare with stored output of the same code", "anchors": ["src/mcMd/analyzers/system/StructureFactor.cpp", "src/mcMd/analyzers/system/IntraStructureFactor.cpp", "src/mcMd/analyzers/system/VanHove.cpp"]}
{"id": "C103", "title": "Pair selectors select each pair once; energies and distribution functions of selected pairs", "statement": "PairSelector::match accepts exactly the ordered pairs that satisfy the documented selection (intra or inter molecular, type pair or ALL), and with setAvoidDoubleCounting(true) exactly one order of each such pair. McPairEnergyAverage therefore reports the energy of the wanted pairs. RDF samples the distances of exactly the ordered pairs wanted. Its norm should be the number of pairs of the two types per volume; it is N*N/V of all atoms whatever the types selected (of the right size only for ALL), and setup does not clear it, so that a second run divides by the norm of both.", "quantifier": "every selector, configuration, species and sequence of samples and runs", "why_tests_cant": "needs all combinations of selector and molecules; the norm only scales the output", "anchors": ["src/mcMd/analyzers/util/PairSelector.cpp", "src/mcMd/analyzers/mcSystem/McPairEnergyAverage.cpp", "src/mcMd/analyzers/mcSystem/McPairEnergyAnalyzer.cpp", "src/mcMd/analyzers/system/RDF.cpp"]}
{"id": "C104", "title": "Symmetry groups, stars and the grid of structure factors", "statement": "SymmetryGroup::add and makeCompleteGroup turn any set of point symmetries that preserve the cubic lattice into the group that they generate: each element once, closed under product and inverse, and isValid holds. PointGroup::makeStar lists each vector of the star of a wavevector once, or throws if its array is too small. StructureFactorGrid::readParameters, for every cubic, tetragonal or orthorhombic lattice and every hMax, lists each wavevector with components between -hMax and hMax exactly once, in nStar stars that are exactly the classes of wavevectors equivalent by symmetry. makeCompleteGroup also ends for symmetries of other lattices, and the grid is read for these too.", "quantifier": "every generating set, group, root vector, lattice and hMax", "why_tests_cant": "the tests of groups print one group; no test reads the grid, and errors in stars only merge or split averages", "anchors": ["src/simp/crystal/SymmetryGroup.h", "src/simp/crystal/PointSymmetry.cpp", "src/simp/crystal/PointGroup.h", "src/simp/crystal/PointGroup.cpp", "src/mcMd/analyzers/system/StructureFactorGrid.cpp"]}
{"id": "C105", "title": "Perturbation derivatives and replica exchange keep the joint distribution", "statement": "derivative(i) of every LinearPerturbation is the derivative of the Boltzmann exponent with respect to parameter(i), so that difference() is the change of the exponent to any other parameters. In mode 1 the parameters go in equal steps from initialParameter to finalParameter. ReplicaMove::move chooses every ordered pair of different ranks from exactly one pair of draws, samples a permutation of the ranks, and each swap is in detailed balance with the joint distribution of the replicas. Every configuration is then delivered to exactly one rank, and the joint exponent afterwards is that of the sampled permutation. The exchange completes for every permutation, also if MPI does not buffer messages, and for any number of processors.", "quantifier": "every configuration, parameter set, sequence of draws, permutation and number of processors", "why_tests_cant": "a wrong sign or a pair too many only changes acceptance rates; MPI buffers small messages in practice", "anchors": ["src/mcMd/perturb/ReplicaMove.cpp", "src/mcMd/perturb/Perturbation.cpp", "src/mcMd/perturb/LinearPerturbation.h", "src/mcMd/perturb/mcSystem/McPairPerturbation.h", "src/mcMd/perturb/mcSystem/McExternalPerturbation.h", "src/mcMd/perturb/mcSystem/McPairExternalPerturbation.h", "src/mcMd/perturb/mcSystem/McEnergyPerturbation.cpp"]}
{"id": "C106", "title": "Reptation samples the Boltzmann distribution", "statement": "CfbReptateMove::move computes, for any heteropolymer without angles, a ratio that is a Boltzmann factor times the quotient of the sums of Boltzmann factors of the trial positions of the new head and of the old tail; if it is accepted every atom takes the place of its successor, otherwise nothing changes; types, masks and the cell list are restored. Moves in the two directions are then in detailed balance with the Boltzmann distribution for chains of atoms of any types, and with an angle potential the type of each angle is used.", "quantifier": "every chain, direction, set of trial positions, boundary, pair and external interaction", "why_tests_cant": "the bias of a wrong ratio is statistical, and no test runs chains of different atom types or angle types", "anchors": ["src/mcMd/mcMoves/linear/CfbReptateMove.cpp", "src/mcMd/mcMoves/linear/CfbLinear.cpp"]}
{"id": "C107", "title": "Generated configurations do not overlap", "statement": "Generator::generate, for LinearGenerator and PointGenerator, always returns. If it returns true the system has all molecules asked for, no two atoms are closer than the mean of their diameters, the cell list holds exactly the atoms of the system, and consecutive atoms of a chain are a bond of the right type apart; if it returns false the molecules placed before are kept and nothing remains of the one that failed. Any diameters that are not negative may be given.", "quantifier": "every boundary, list of diameters, number and length of molecules, earlier contents of the system and sequence of random draws", "why_tests_cant": "overlaps and loops without end arise only in dense systems for some sequences of draws", "anchors": ["src/mcMd/generators/Generator.cpp", "src/mcMd/generators/LinearGenerator.cpp", "src/mcMd/generators/PointGenerator.cpp"]}
{"id": "C108", "title": "Analyzers get the energies of the configuration they analyze", "statement": "Every sample that McSimulation::simulate, analyzeConfigs and analyzeTrajectory (also those of MdSimulation) take at a step that is due consists of the configuration at that step, of that file or of that frame, and of its energies, for any base interval and any range min <= n <= max; sampling does not change the run, and the number of frames reported is the number analyzed.", "quantifier": "every sequence of moves, set of analyzers and intervals, range, sequence of configurations and earlier contents of the stored energies", "why_tests_cant": "a stored energy that was not invalidated is a plausible number, and it depends on what was asked for before", "anchors": ["src/mcMd/mcSimulation/McSimulation.cpp", "src/mcMd/mdSimulation/MdSimulation.cpp", "src/mcMd/potentials/misc/EnergyCalculator.cpp", "src/mcMd/analyzers/AnalyzerManager.cpp"]}
