{
 "claims": [
  {
   "property": "C08",
   "status": "partial",
   "theorems": [
    "mc_cell_holds_its_atoms_partial",
    "mc_cell_overfill_refuted"
   ],
   "note": "The full claim is false of the code: after a full cell has an interior slot freed and refilled, firstEmptyPos_ stays on an occupied slot and the next addAtom overwrites an atom (refuted with MaxAtomCell = 61). Proved for all histories that keep at most MaxAtomCell-1 atoms in the cell."
  },
  {
   "property": "C16",
   "status": "proved",
   "theorems": [
    "plan_flags_independent",
    "plan_new_clear"
   ],
   "note": ""
  },
  {
   "property": "C17",
   "status": "partial",
   "theorems": [
    "plan_text_round_trip_refuted",
    "plan_text_round_trip_partial",
    "plan_text_round_trip_iff_partial"
   ],
   "note": "False of the code: operator>> advances the character index once per axis in the ghost loop. The exact effect is proved, with the necessary and sufficient condition for a faithful round trip."
  },
  {
   "property": "C18",
   "status": "proved",
   "theorems": [
    "atom_map_find_correct",
    "atom_map_success_conditions"
   ],
   "note": ""
  },
  {
   "property": "C19",
   "status": "proved",
   "theorems": [
    "atom_storage_slots_conserved",
    "atom_storage_always_valid",
    "atom_storage_clear"
   ],
   "note": ""
  },
  {
   "property": "C53",
   "status": "partial",
   "theorems": [
    "snapshot_lock_refuted",
    "snapshot_lock_partial",
    "displacement_since_snapshot",
    "displacement_after_remove_refuted"
   ],
   "note": "False of the code: removeAtom does not test the lock, after which maxSqDisplacement compares different atoms. For all histories without removeAtom both parts are proved."
  },
  {
   "property": "C20",
   "status": "partial",
   "theorems": [
    "group_storage_one_record_per_id_partial",
    "group_storage_effects_partial",
    "group_storage_one_record_per_id_refuted"
   ],
   "note": "Proved for every history in which remove is not applied to the record still handed out by newPtr. Without that restriction it is false: remove pushes the slot on the reservoir before ArraySet::remove throws, so the slot ends up in two places."
  },
  {
   "property": "C23",
   "status": "proved",
   "theorems": [
    "domain_transfers_agree"
   ],
   "note": "Util::Grid (missing submodule) modelled from its documentation."
  },
  {
   "property": "C24",
   "status": "proved",
   "theorems": [
    "domains_partition_the_box"
   ],
   "note": "Over real numbers, not binary64."
  },
  {
   "property": "C01",
   "status": "proved",
   "theorems": [
    "ortho_shift_wraps",
    "ortho_shiftGen_wraps"
   ],
   "note": "Exact real arithmetic; C02 covers binary64."
  },
  {
   "property": "C03",
   "status": "proved",
   "theorems": [
    "ortho_distanceSq_min_image"
   ],
   "note": "Exact real arithmetic."
  },
  {
   "property": "C07",
   "status": "partial",
   "theorems": [
    "ortho_text_round_trip",
    "ortho_archive_round_trip",
    "ortho_mpi_round_trip_partial",
    "ortho_mpi_round_trip_refuted"
   ],
   "note": "Text and archive round trips are proved. The MPI part is false: send/recv/bcast transmit only the lengths and the receiver calls setOrthorhombic, so the lattice system is lost."
  },
  {
   "property": "C02",
   "status": "partial",
   "theorems": [
    "fp_shift_wraps_partial",
    "fp_shift_upper_face_refuted"
   ],
   "note": "False: -2^-1074 is wrapped onto the upper face in every box of edge >= 2^-1000. Proved: the result is finite, within the closed interval, and strictly below the upper face for nonnegative coordinates."
  },
  {
   "property": "C04",
   "status": "proved",
   "theorems": [
    "ortho_transforms_inverse",
    "mono_transforms_inverse"
   ],
   "note": ""
  },
  {
   "property": "C05",
   "status": "partial",
   "theorems": [
    "mono_shift_wraps",
    "mono_distanceSq_image_partial",
    "mono_min_image_refuted"
   ],
   "note": "The claim that distanceSq is the minimum over images is false for every box with nonzero tilt. Everything else is proved, including that any image closer than minLength()/2 is found."
  },
  {
   "property": "C06",
   "status": "proved",
   "theorems": [
    "ortho_basis_dual",
    "mono_basis_dual"
   ],
   "note": ""
  },
  {
   "property": "C54",
   "status": "proved",
   "theorems": [
    "mono_io_round_trip"
   ],
   "note": ""
  },
  {
   "property": "C33",
   "status": "partial",
   "theorems": [
    "lj_force_is_gradient_partial",
    "lj_core_force_refuted",
    "lj_energy_continuous_at_cutoff",
    "wca_force_is_gradient_partial",
    "dpd_force_is_gradient"
   ],
   "note": "DpdPair is proved for all separations. For LJPair and WcaPair the claim is false in the core r^2 < 0.6 sigma^2, where only the energy is clamped (refuted for all parameters); proved outside the core, with continuity at the cutoff (WcaPair also C1 there)."
  },
  {
   "property": "C34",
   "status": "partial",
   "theorems": [
    "lj_force_consistent",
    "lj_energy_consistent_partial",
    "lj_energy_symmetric_refuted",
    "dpd_consistent_partial",
    "dpd_set_refuted"
   ],
   "note": "LJPair forces are proved consistent for all histories. Energies: false after setSigma(i,j) or set(i,j) with i <> j, which assign ljShift_[j][i] to itself; proved for all other histories. DpdPair: proved for setEpsilon/setSigma histories, false for set()."
  },
  {
   "property": "C55",
   "status": "proved",
   "theorems": [
    "compensated_force_is_gradient"
   ],
   "note": ""
  },
  {
   "property": "C35",
   "status": "partial",
   "theorems": [
    "harmonic_bond_force_is_gradient",
    "harmonicL0_bond_force_is_gradient",
    "fene_bond_force_is_gradient",
    "composite_bond_force_is_gradient_partial",
    "composite_bond_refuted"
   ],
   "note": "Proved for HarmonicBond, HarmonicL0Bond and FeneBond (C1 everywhere, including the switch to constant force, for all set histories). CompositeBond is false where the pair part is in its clamped core (C33), proved elsewhere."
  },
  {
   "property": "C36",
   "status": "proved",
   "theorems": [
    "bend_cos_exact",
    "cosine_angle_force_is_gradient",
    "cosineSq_angle_force_is_gradient",
    "harmonic_angle_force_is_gradient"
   ],
   "note": "Exact real arithmetic."
  },
  {
   "property": "C37",
   "status": "proved",
   "theorems": [
    "tor_grad",
    "cosine_dihedral_force_is_gradient",
    "fourier_dihedral_force_is_gradient"
   ],
   "note": "Exact real arithmetic; both well defined and degenerate configurations, excluding |b1 x b2|^2 = 1e-10 exactly, where the energy jumps."
  },
  {
   "property": "C38",
   "status": "partial",
   "theorems": [
    "slit_force_is_gradient_partial",
    "ortho_force_is_gradient_partial",
    "box_force_is_gradient_partial",
    "wall_core_force_refuted",
    "box_set_refuted",
    "wall_setExternal_refuted"
   ],
   "note": "False in the clamped core (force nonzero, energy constant) and after BoxExternal::set, OrthoBoxExternal::set or setExternalParameter (prefactor not updated). Proved outside the core; SlitExternal for all set() histories."
  },
  {
   "property": "C56",
   "status": "partial",
   "theorems": [
    "harmonic_bond_get_reports",
    "cosine_angle_force_is_gradient",
    "harmonic_angle_force_is_gradient",
    "cosineSq_angle_reports_partial",
    "cosineSq_angle_set_refuted",
    "harmonicL0_bond_force_is_gradient",
    "fene_bond_force_is_gradient",
    "cosine_dihedral_get_reports",
    "cosine_dihedral_force_is_gradient",
    "fourier_dihedral_get_reports",
    "fourier_dihedral_force_is_gradient"
   ],
   "note": "False for CosineSqAngle after set(\"theta0\"); proved for the other classes."
  },
  {
   "property": "C39",
   "status": "proved",
   "theorems": [
    "homopolymer_topology",
    "homopolymer_accepted",
    "diblock_topology",
    "multiblock_topology",
    "homoring_topology",
    "homoring_accepted",
    "homopolymerSG_topology",
    "homopolymerSG_angles_throw",
    "point_topology",
    "species_read_sound",
    "species_accepted"
   ],
   "note": "HomopolymerSG throws for every parameter block that asks for angles, so what it accepts has no angles."
  },
  {
   "property": "C40",
   "status": "partial",
   "theorems": [
    "homopolymer_archive",
    "diblock_archive",
    "point_archive",
    "homopolymerSG_archive",
    "species_archive",
    "multiblock_archive_refuted",
    "homoring_archive_refuted"
   ],
   "note": "Proved for Homopolymer, Diblock, Point, HomopolymerSG and the generic Species. False for Multiblock and HomoRing, with witnesses."
  },
  {
   "property": "C41",
   "status": "partial",
   "theorems": [
    "match_own_text_partial",
    "match_own_text_no_angles",
    "match_own_text_ring",
    "match_own_text_refuted",
    "match_other_text_refuted",
    "match_missing_section_refuted"
   ],
   "note": "Both directions of the claim are false as written: a Homopolymer with angles does not match its own text, and texts of different species are accepted. Proved for species without angles and for rings."
  },
  {
   "property": "C57",
   "status": "partial",
   "theorems": [
    "homopolymer_topology",
    "diblock_topology",
    "multiblock_topology",
    "homopolymerSG_dihedral_type_refuted"
   ],
   "note": "False for HomopolymerSG, proved for the others."
  },
  {
   "property": "C58",
   "status": "proved",
   "theorems": [
    "isValid_exact"
   ],
   "note": ""
  },
  {
   "property": "C59",
   "status": "proved",
   "theorems": [
    "read_own_text",
    "species_read_sound"
   ],
   "note": ""
  },
  {
   "property": "C44",
   "status": "partial",
   "theorems": [
    "hsg_occupancy_counts",
    "lsg_occupancy_counts",
    "hsg_history_total",
    "lsg_history_total",
    "set_null_state_refuted"
   ],
   "note": "Proved for all histories of states 0..nState-1. Setting a molecule back to NullStateId, which the function admits, increments stateOccupancies_[-1]: undefined in every state."
  },
  {
   "property": "C45",
   "status": "partial",
   "theorems": [
    "links_consistent_partial",
    "link_ops_defined_partial",
    "clear_removes_all",
    "add_self_link_refuted",
    "reset_onto_self_refuted",
    "reset_inactive_refuted"
   ],
   "note": "Proved for all histories in which no link is given the same atom at both ends. False otherwise: Link::setAtoms silently ignores such a request while the per-atom sets are changed."
  },
  {
   "property": "C42",
   "status": "proved",
   "theorems": [
    "init_layout"
   ],
   "note": "One theorem for molecules, atoms, bonds, angles, dihedrals and reservoirs; initialisation is shown to complete."
  },
  {
   "property": "C14",
   "status": "proved",
   "theorems": [
    "init_layout",
    "mask_append_set",
    "mask_append_throws",
    "isMasked_exact"
   ],
   "note": ""
  },
  {
   "property": "C15",
   "status": "proved",
   "theorems": [
    "activity_consistent",
    "activity_effects",
    "deactivate_without_groups_refuted"
   ],
   "note": "With no bond types (nBondType = 0) and a species that has bonds, molecule.bond(i) is a null reference and deactivate is undefined: the hypothesis excludes that case, the last theorem shows it."
  },
  {
   "property": "C43",
   "status": "proved",
   "theorems": [
    "molecules_accounted",
    "molecule_ops_total",
    "molecule_enumeration",
    "return_in_system_refuted"
   ],
   "note": "ArraySet and ArrayStack (missing submodule) from their documentation. The protocol is needed: returnMolecule does not check that the molecule has left the system (last theorem)."
  },
  {
   "property": "C09",
   "status": "proved",
   "theorems": [
    "cell_index_correct",
    "fp_cell_index_in_range"
   ],
   "note": "Over the reals for all boundaries, cutoffs and grids; in binary64 a generalized coordinate in [0,1) also gives a cell in range. fp_cell_index_refuted (CellListFpProps.v): a Cartesian position inside the box can have computed generalized coordinate 1.0 (edge 26.25, largest double below it), and then the cell index is out of range."
  },
  {
   "property": "C10",
   "status": "partial",
   "theorems": [
    "cell_list_finds_neighbors_partial",
    "cell_list_finds_neighbors_mono_partial",
    "cell_list_overfull_refuted"
   ],
   "note": "Proved for orthorhombic and monoclinic boxes while no cell holds more than MaxAtomCell-1 atoms; the full statement is false (cell_list_overfull_refuted) because a cell that has been full can lose an atom."
  },
  {
   "property": "C11",
   "status": "proved",
   "theorems": [
    "pair_list_complete",
    "pair_list_complete_mono"
   ],
   "note": "For orthorhombic and monoclinic boxes, from any earlier state of the list. The throw cases are characterised: an over-full cell, too many atoms, too many pairs."
  },
  {
   "property": "C12",
   "status": "proved",
   "theorems": [
    "pair_iterator_correct",
    "dd_pair_iterator_correct"
   ],
   "note": "Both PairIterators: McMd for every state of the list that any history can produce; DdMd for every list built from any cell list, with a fresh iterator or one whose last loop was completed (PairList::begin leaves the iterator alone if the list is empty)."
  },
  {
   "property": "C13",
   "status": "partial",
   "theorems": [
    "pair_list_current_partial",
    "pair_list_current_mono_partial",
    "pair_list_current_box_refuted",
    "pair_list_cleared_current_refuted",
    "exchange_needed_correct"
   ],
   "note": "McMd: proved while the box is not changed and the list not cleared between build and isCurrent; false if the box changes (as NphIntegrator does) or the list is cleared. DdMd: the displacement criterion is proved, the pair list itself is not modelled."
  },
  {
   "property": "C21",
   "status": "proved",
   "theorems": [
    "buffer_roundtrip",
    "buffer_roundtrip_total"
   ],
   "note": "Buffer at the level of bytes: messages of any number of blocks of atoms, ghosts, updates, forces and groups from any buffer state; the receiver gets exactly the packed fields (mask included) and ends at the end of the message; total when the sizes fit."
  },
  {
   "property": "C22",
   "status": "partial",
   "theorems": [
    "one_block_exact",
    "capacity_minus_one_partial",
    "capacity_refuted",
    "pack_inside",
    "no_overrun_partial",
    "overrun_refuted"
   ],
   "note": "As stated it is false: bufferCapacity_ starts at -1, so for every buffer a block of atomCapacity() full atoms or of ghostCapacity() ghosts throws; and the header of an empty block can be written outside the buffer. Proved: the exact condition for one block, that one item fewer always fits, that pack stays inside, and that messages without empty blocks never overrun."
  },
  {
   "property": "C46",
   "status": "partial",
   "theorems": [
    "atom_displace_exact",
    "rigid_displace_nonbonded_partial",
    "rigid_displace_exact_partial",
    "rigid_displace_refuted"
   ],
   "note": "Proved in full for AtomDisplaceMove, in both lattice systems, with all potentials. RigidDisplaceMove: proved when all pairs inside the molecule are masked; false otherwise (rigid_displace_refuted), because the new energies of the first atoms are computed while later atoms are at their old positions. Tethers are not modelled."
  },
  {
   "property": "C47",
   "status": "partial",
   "theorems": [
    "end_swap_exact_partial",
    "chain_palindromic",
    "end_swap_link_refuted",
    "semigrand_exact_partial",
    "semigrand_external_refuted"
   ],
   "note": "EndSwapMove: proved for bonded potentials that are the same from both ends (as all species of one bond type are); false with links. HomopolymerSemiGrandMove: proved without external potential; false with one, as the move leaves it out."
  },
  {
   "property": "C49",
   "status": "partial",
   "theorems": [
    "rejected_moves_restore_partial",
    "cfb_end_weights"
   ],
   "note": "For AtomDisplaceMove, RigidDisplaceMove, EndSwapMove and HomopolymerSemiGrandMove; for CfbEndMove positions, types and the cells of all atoms (cfb_end_weights). Missing: other moves."
  },
  {
   "property": "C50",
   "status": "proved",
   "theorems": [
    "metropolis_probability",
    "metropolis_detailed_balance",
    "metropolis_invariant",
    "metropolis_invariant_density",
    "atom_displace_detailed_balance"
   ],
   "note": "Random::metropolis from its documentation (missing submodule), with an ideal uniform random number. Invariance for finitely many states, and for densities with respect to any integral; the last theorem is detailed balance of the whole AtomDisplaceMove."
  },
  {
   "property": "C60",
   "status": "proved",
   "theorems": [
    "mc_energy_correct",
    "md_energy_correct",
    "md_energy_correct_mono",
    "mc_md_energy_agree"
   ],
   "note": "The number of atoms in a cell is bounded by MaxAtomCell - 1, as in C10. Coulomb and tether energies are not modelled."
  },
  {
   "property": "C51",
   "status": "proved",
   "theorems": [
    "nve_momentum_conserved",
    "verlet_reversible",
    "nve_reversible"
   ],
   "note": "Over the reals, for runs of NveVvIntegrator of any length with the pair list rebuilt whenever it is not current; also for the abstract velocity-Verlet step with any force law that depends only on the images of the positions."
  },
  {
   "property": "C61",
   "status": "proved",
   "theorems": [
    "md_forces_correct"
   ],
   "note": "Up to the capacity of cells and lists, as in C11. Coulomb and tether forces are not modelled."
  },
  {
   "property": "C62",
   "status": "proved",
   "theorems": [
    "md_forces_are_gradient"
   ],
   "note": "The interaction enters through its derivative (pair_smooth, bond_smooth, angle_smooth, dihedral_smooth); MdGradClasses.v shows that LJPair, HarmonicBond, CosineSqAngle and CosineDihedral meet these conditions by C33, C35, C36 and C37."
  },
  {
   "property": "C52",
   "status": "proved",
   "theorems": [
    "coordinates_converted",
    "conversions_keep_places"
   ],
   "note": "For all histories of AtomStorage with both kinds of boundary; real arithmetic."
  },
  {
   "property": "C63",
   "status": "proved",
   "theorems": [
    "exchange_needed_correct",
    "displacement_since_snapshot"
   ],
   "note": "The storages of all processors are given together; Allreduce is modelled as the maximum of the flags."
  },
  {
   "property": "C64",
   "status": "proved",
   "theorems": [
    "box_change_affine"
   ],
   "note": ""
  },
  {
   "property": "C31",
   "status": "proved",
   "theorems": [
    "nbr_reverse_once",
    "nbr_reverse_two_processors"
   ],
   "note": "Orthorhombic boundaries, for every history of the cell list; positions of local atoms in the domain, ghosts outside of it; masks symmetric."
  },
  {
   "property": "C32",
   "status": "proved",
   "theorems": [
    "offsets_cover_cutoff"
   ],
   "note": "Over the reals."
  },
  {
   "property": "C65",
   "status": "partial",
   "theorems": [
    "pair_list_first_build_refuted",
    "pair_list_build_defined"
   ],
   "note": "False: the first build throws whenever there is no interacting pair. Otherwise it succeeds (two cutoffs wide along z, or reverse communication)."
  },
  {
   "property": "C66",
   "status": "partial",
   "theorems": [
    "nbr_reverse_once",
    "nbr_once_partial",
    "nbr_mono_once_partial",
    "nbr_thin_refuted",
    "nbr_mono_lost_refuted"
   ],
   "note": "False in general: without reverse communication pairs are counted twice if the domain is less than two cutoffs wide along z, and in skewed boxes with more than one cell per cutoff pairs are lost. Proved for all other cases."
  },
  {
   "property": "C67",
   "status": "partial",
   "theorems": [
    "offsets_cover_mono_partial",
    "offsets_mono_refuted"
   ],
   "note": "Proved for nCellCut 1; false for nCellCut 4."
  },
  {
   "property": "C68",
   "status": "proved",
   "theorems": [
    "cell_list_build_defined"
   ],
   "note": "Over the reals; the number of atoms is within the capacity given to the list."
  },
  {
   "property": "C28",
   "status": "proved",
   "theorems": [
    "distributor_delivers",
    "distributor_once"
   ],
   "note": "Sequential model of the message passing; blocks are delivered in order. Generalized coordinates over the reals."
  },
  {
   "property": "C29",
   "status": "proved",
   "theorems": [
    "atom_collector",
    "group_collector"
   ],
   "note": "Sequential model of the message passing; that unpacking gives what was packed is C21."
  },
  {
   "property": "C30",
   "status": "proved",
   "theorems": [
    "groups_distributed",
    "groups_collected_once"
   ],
   "note": "Sequential model of the message passing; no ghosts, as the code requires."
  },
  {
   "property": "C69",
   "status": "partial",
   "theorems": [
    "dist_full_masks_refuted",
    "atom_collector_refuted",
    "group_spare_refuted",
    "group_cache_refuted",
    "group_collector_refuted"
   ],
   "note": "False: each of the five theorems gives a run within the documented capacities that throws. C28, C29 and C30 give conditions under which nothing throws."
  },
  {
   "property": "C25",
   "status": "proved",
   "theorems": [
    "atoms_exchanged",
    "exchange_atoms_completes",
    "atoms_exchanged_half_open_refuted"
   ],
   "note": "Faces of the domain are included: an atom on the upper face stays (atoms_exchanged_half_open_refuted). Sequential model of the message passing, coordinates over the reals, no groups."
  },
  {
   "property": "C26",
   "status": "partial",
   "theorems": [
    "ghosts_complete",
    "ghosts_complete_wide_refuted"
   ],
   "note": "False as stated: an atom that left its domain is sent on to one side only, so images are missing unless domains are wider than the cutoff plus the displacement; see C70 for that case."
  },
  {
   "property": "C70",
   "status": "proved",
   "theorems": [
    "ghosts_complete",
    "ghosts_complete_before",
    "ghosts_once",
    "neighbours_present",
    "ortho_spaced",
    "mono_spaced",
    "exchange_completes"
   ],
   "note": "Sequential model of the message passing, coordinates over the reals, no groups."
  },
  {
   "property": "C27",
   "status": "proved",
   "theorems": [
    "ghosts_follow",
    "ortho_lattice",
    "mono_lattice"
   ],
   "note": "Sequential model of the message passing, coordinates and forces over the reals."
  },
  {
   "property": "C48",
   "status": "partial",
   "theorems": [
    "cfb_end_weights",
    "cfb_one_trial",
    "cfb_bond_types_partial",
    "cfb_bond_types_refuted"
   ],
   "note": "The part about weights is proved for all chains; the part about bond types is false for chains with different bond types (refuted) and proved for one type. With angles, at least two atoms stay and the angles are those of a linear chain. Links are not in the model of this move. CfbLinear is not modelled."
  },
  {
   "property": "C71",
   "status": "proved",
   "theorems": [
    "cfb_end_weights",
    "cfb_end_balance"
   ],
   "note": "Real arithmetic; drawFrom (util) is trusted to choose with the given probabilities."
  },
  {
   "property": "C72",
   "status": "partial",
   "theorems": [
    "cfb_end_weights",
    "cfb_null_pivot_refuted"
   ],
   "note": "False: with an angle potential, regrowing all atoms but one follows a null pointer. Proved otherwise."
  },
  {
   "property": "C73",
   "status": "proved",
   "theorems": [
    "groups_exchanged",
    "groups_kept",
    "group_images",
    "group_images_once"
   ],
   "note": "Sequential model of the message passing, coordinates over the reals. One to any number of atoms per group and any kinds; the AtomMap is modelled by a search over local atoms (C22)."
  },
  {
   "property": "C74",
   "status": "partial",
   "theorems": [
    "group_atoms_complete",
    "groups_fit_refuted"
   ],
   "note": "False: a record is taken from the storage before it is known whether the group is here already, so an exactly full storage throws (groups_fit_refuted). Proved with room for one more group of each kind, and 27 times all atoms for ghosts."
  },
  {
   "property": "C75",
   "status": "partial",
   "theorems": [
    "groups_complete",
    "bonds_complete",
    "angles_complete_refuted",
    "group_images"
   ],
   "note": "False for groups of three atoms (angles_complete_refuted): if a record of the group is here already, unpack drops the plan of an arriving one, so ghosts in those directions are not sent. Proved for bonds, and for groups of any size whose atoms are closer than the slabs are wide."
  },
  {
   "property": "C76",
   "status": "proved",
   "theorems": [
    "dd_pair_sums",
    "dd_pair_sums_first",
    "dd_pair_sums_groups",
    "dd_pair_same",
    "dd_lists_build"
   ],
   "note": "For all numbers of processors, both lattice systems and both kinds of communication. Where the conditions fail the claim is false: nbr_thin_refuted, nbr_mono_lost_refuted."
  },
  {
   "property": "C77",
   "status": "proved",
   "theorems": [
    "dd_pair_sums",
    "dd_pair_sums_first",
    "dd_pair_sums_groups",
    "dd_pair_momentum",
    "dd_pair_same"
   ],
   "note": "Under the conditions of C76."
  },
  {
   "property": "C78",
   "status": "proved",
   "theorems": [
    "dd_group_energies",
    "dd_group_stress",
    "dd_external_energy"
   ],
   "note": "For all numbers of processors and both lattice systems. The interactions are arbitrary functions of the separations."
  },
  {
   "property": "C79",
   "status": "proved",
   "theorems": [
    "dd_all_forces",
    "dd_group_momentum"
   ],
   "note": "For both kinds of communication; pair forces as in C77."
  },
  {
   "property": "C80",
   "status": "partial",
   "theorems": [
    "dd_dihedral_stress_refuted",
    "dd_dihedral_stress_zero",
    "dd_dihedral_stress_of"
   ],
   "note": "False: computeStress gives the second separation twice to force (DihedralPotentialImpl.h:529). What is computed is proved, and with both dihedral potentials of the program it is zero for all positions."
  },
  {
   "property": "C81",
   "status": "proved",
   "theorems": [
    "waves_correct"
   ],
   "note": "Over the reals."
  },
  {
   "property": "C82",
   "status": "proved",
   "theorems": [
    "kspace_correct"
   ],
   "note": "Over the reals; the tables of exponentials are modelled with their indices."
  },
  {
   "property": "C83",
   "status": "proved",
   "theorems": [
    "kspace_stress_correct",
    "strained_0"
   ],
   "note": "Over the reals. The stress of the screened charges, MdEwaldPairPotentialImpl::computeStress, is not modelled."
  },
  {
   "property": "C84",
   "status": "proved",
   "theorems": [
    "charged_forces_are_gradient",
    "charged_pair_energies"
   ],
   "note": "Over the reals; rSpaceCutoff not larger than the cutoff that the pair list was initialized with. The energy is that of the code: pairs beyond rSpaceCutoff have no pair energy, and masked pairs have no screened part although the waves include them."
  },
  {
   "property": "C85",
   "status": "partial",
   "theorems": [
    "kept_values_partial",
    "kept_rspace_partial",
    "kept_box_refuted",
    "kept_set_refuted"
   ],
   "note": "False: NphIntegrator changes the box but not the waves (kept_box_refuted), and set() leaves rSpaceEnergy_ (kept_set_refuted). Proved for k-space values in a constant box, and for the r-space energy as long as no parameter of the interaction is set."
  },
  {
   "property": "C86",
   "status": "proved",
   "theorems": [
    "clusters_correct",
    "clusters_correct_ortho",
    "clusters_correct_mono"
   ],
   "note": "Over the reals, with at most MaxAtomCell - 1 core atoms per cell. In a monoclinic box distanceSq need not find the nearest image beyond minLength()/2 (C05), so there clusters_correct speaks of distanceSq, and clusters_correct_mono of images for cutoffs up to minLength()/2. GArray::resize is trusted to value-initialize added clusters."
  },
  {
   "property": "C87",
   "status": "partial",
   "theorems": [
    "periodic_fields_conservative",
    "periodic_fields_documented",
    "periodic_fields_images",
    "periodic_fields_bounded",
    "periodic_constant_refuted",
    "periodic_images_refuted"
   ],
   "note": "False for PeriodicExternal with a nonzero constant C: the documented clip parameter multiplies C as well, in the code it does not (periodic_constant_refuted, for all such parameters). Everything else is proved for all parameters, over the reals; images need integer wave vectors, which PeriodicExternal and GeneralPeriodicExternal do not enforce (periodic_images_refuted)."
  },
  {
   "property": "C88",
   "status": "partial",
   "theorems": [
    "nucleation_force_partial",
    "nucleation_force_flat_partial",
    "nucleation_force_refuted",
    "tab_force_partial",
    "tab_force_refuted"
   ],
   "note": "False. NucleationExternal::getForce omits the field from the derivatives of the three factors and divides by the wrong hyperbolic cosines: nucleation_force_partial says exactly where it is right, and atoms that feel no field feel a force (nucleation_force_refuted). SphericalTabulatedExternal::energy does not divide the distance from the lower node by the spacing of the table: the gradient is the spacing times the force (tab_force_partial, between nodes, spacings up to 1); for larger spacings energy() throws (tab_force_refuted)."
  },
  {
   "property": "C89",
   "status": "partial",
   "theorems": [
    "field_archive_partial",
    "simple_archive_partial",
    "field_archive_refuted",
    "general_archive_order_refuted"
   ],
   "note": "Proved for LamellarOrdering, Periodic, SphericalTabulated, Slit and OrthoBox (field_archive_partial). False for SimplePeriodic, GeneralPeriodic and Nucleation, which do not save the number of waves and throw on loading, for GeneralPeriodic also because of the order of members, and for Box, which loads a number of atom types that it did not save (field_archive_refuted). DArray allocation and serialization as documented in util."
  },
  {
   "property": "C90",
   "status": "proved",
   "theorems": [
    "nose_hoover_step",
    "nose_hoover_reversible_general",
    "nose_hoover_reversible",
    "nose_hoover_momentum"
   ],
   "note": "Over the reals. nose_hoover_reversible speaks of an MdSystem in an orthorhombic box twice as wide as the cutoff, when every step moves atoms by less than a cell and neighbours in bonds are never at half a length; nose_hoover_reversible_general of any forces that do not depend on the images. The ddMd step is the same function of the state of all processors (nose_hoover_step); the exchange of atoms between its two halves is C25 to C27."
  },
  {
   "property": "C91",
   "status": "proved",
   "theorems": [
    "dpd_momentum_conserved",
    "dpd_step_correct",
    "dpd_friction_dissipates"
   ],
   "note": "Over the reals; two atoms within the cutoff at the same place make NaNs in the code and count as undefined. Numbers from Random::gaussian are an arbitrary sequence."
  },
  {
   "property": "C92",
   "status": "proved",
   "theorems": [
    "langevin_mean",
    "langevin_temperature_limit"
   ],
   "note": "Over the reals; Random::uniform is modelled as independent numbers, uniform in [0,1]: means are iterated integrals. Atoms without forces; with forces the mean has no closed form."
  },
  {
   "property": "C93",
   "status": "partial",
   "theorems": [
    "integrators_restart",
    "langevin_restart_refuted"
   ],
   "note": "False for NvtLangevinIntegrator of both programs: save() writes gamma_, loadParameters() does not read it (langevin_restart_refuted, for every state). Proved for all others (integrators_restart), for ddMd with the same base interval and, if nothing is saved, the file name of a new object. DArray allocation and serialization as documented in util."
  },
  {
   "property": "C94",
   "status": "proved",
   "theorems": [
    "nph_step_equations",
    "nph_reversible"
   ],
   "note": "Over the reals, for any forces and virial that depend only on the box and on positions up to images. Without that condition, see C13: the pair list does not notice a change of the box (pair_list_current_box_refuted)."
  },
  {
   "property": "C95",
   "status": "partial",
   "theorems": [
    "velocities_boltzmann",
    "barostat_boltzmann_refuted"
   ],
   "note": "Proved for velocities. False for barostat momenta: the standard deviation is sqrt(T/W) where sqrt(T W) is needed, so that they have the right distribution only if W = 1 and the box is not tetragonal (barostat_boltzmann_refuted says this for all W, T and lattice systems). Distributions are compared as densities in the normal deviates."
  },
  {
   "property": "C96",
   "status": "proved",
   "theorems": [
    "hybrid_move_correct",
    "nph_reject_restores"
   ],
   "note": "Over the reals; after acceptance provided that no cell of the grid overflows. For HybridNphMdMove only the restoration after a rejection is modelled (nph_reject_restores)."
  },
  {
   "property": "C97",
   "status": "partial",
   "theorems": [
    "md_move_unset_refuted",
    "hybrid_move_set"
   ],
   "note": "False for MdMove: neither MdMove nor McSimulation::simulate calls setup() of the integrator (McMove::setup would be called by McMoveManager::setup, which nothing calls, and MdMove does not override it); the first step reads prefactors never assigned (md_move_unset_refuted, for every system with an atom). Proved for HybridMdMove, which calls setup() in move() (hybrid_move_set)."
  },
  {
   "property": "C98",
   "status": "partial",
   "theorems": [
    "cluster_com_correct",
    "cluster_com_compact",
    "cluster_com_extended_refuted",
    "cluster_com_no_atoms_refuted",
    "no_core_is_cluster"
   ],
   "note": "Proved, over the reals, if all atoms of the type have images less than half an edge along each axis from the first atom of the molecule at the head of the list (for the moments also from the mean), in particular for all clusters of extent less than half of each edge, whatever the order of molecules. False for longer clusters that fit in the box (one molecule of length 6 in a box of 10, as identifyClusters finds it), and for molecules without an atom of the type: each is a cluster of its own (no_core_is_cluster), and both results are divided by zero. Orthorhombic boundaries only."
  },
  {
   "property": "C99",
   "status": "partial",
   "theorems": [
    "radius_gyration_correct",
    "block_gyration_correct",
    "block_pair_correct",
    "block_gyration_absent_refuted"
   ],
   "note": "Proved, over the reals and for orthorhombic boundaries, for the one value sampled per call, if at least one molecule and all types considered occur equally often in all molecules (BlockRadiusGyration counts the types of molecule 0 only). False for types that do not occur in the species: 0/0 (block_gyration_absent_refuted). The accumulators and files are not modelled."
  },
  {
   "property": "C100",
   "status": "partial",
   "theorems": [
    "atom_msd_correct",
    "com_msd_single",
    "com_msd_refuted"
   ],
   "note": "Proved for AtomMSD and for molecules of one atom, over the reals, in a box that does not change. False for ComMSD with every molecule of two or more atoms (com_msd_refuted). The accumulator MeanSqDispArray is part of the empty submodule util and not modelled."
  },
  {
   "property": "C101",
   "status": "partial",
   "theorems": [
    "linear_rouse_even",
    "linear_rouse_odd_refuted",
    "ring_rouse_correct"
   ],
   "note": "Proved, over the reals and for orthorhombic boundaries, for rings and for even modes of linear molecules. False for the odd modes of every linear molecule (linear_rouse_odd_refuted)."
  },
  {
   "property": "C102",
   "status": "partial",
   "theorems": [
    "structure_factor_correct",
    "structure_factor_invariant",
    "maximum_correct",
    "restart_averages",
    "restart_maxima_refuted",
    "intra_structure_correct",
    "vanhove_correct"
   ],
   "note": "Proved, over the reals, but for the file of maxima: it is opened anew by the first sample after a restart, and everything written before is lost (restart_maxima_refuted, for every state of a run). The accumulators of VanHove are part of the empty submodule util and not modelled."
  },
  {
   "property": "C103",
   "status": "partial",
   "theorems": [
    "selector_plain",
    "selector_once",
    "selected_energy_correct",
    "rdf_pairs_correct",
    "rdf_norm_value",
    "rdf_norm_refuted",
    "rdf_second_run_refuted"
   ],
   "note": "Proved for selectors, the pair energies and the pairs that RDF samples. False for the norm of RDF: it is the square of the number of all atoms over the volume for every selector (rdf_norm_refuted), and is not cleared by setup (rdf_second_run_refuted). The histogram class RadialDistribution is part of the empty submodule util and not modelled."
  },
  {
   "property": "C104",
   "status": "partial",
   "theorems": [
    "complete_group_correct",
    "valid_group_correct",
    "star_correct",
    "grid_correct",
    "complete_group_diverges",
    "grid_other_refuted"
   ],
   "note": "Proved for orthogonal integer symmetries and for the cubic, tetragonal and orthorhombic grids. False beyond: PointSymmetry::inverse is the transpose, so for the rotation of a hexagonal lattice the loop of makeCompleteGroup never ends (complete_group_diverges); and for the other lattices readParameters assigns no wave and reports no error (grid_other_refuted). The fixed capacity of the group array is not modelled beyond the bound of 48 elements that is proved."
  },
  {
   "property": "C105",
   "status": "partial",
   "theorems": [
    "pair_derivative_correct",
    "external_derivative_correct",
    "energy_parameter_correct",
    "ladder_correct",
    "pair_choice",
    "sample_permutation_correct",
    "swap_balance",
    "exchange_correct",
    "pair_external_sign_refuted",
    "pair_derivative_types_refuted",
    "sample_one_refuted",
    "unbuffered_refuted"
   ],
   "note": "Proved for energy and external perturbations, for pair perturbations with two atom types, for the sampling of permutations and for the exchange with buffered messages. False for McPairExternalPerturbation, whose second derivative has the wrong sign (pair_external_sign_refuted); for pair perturbations with three atom types (pair_derivative_types_refuted); for one processor, where arrays are read past their end (sample_one_refuted); and without buffering, where the messages of rank 0 get through only for the identity (unbuffered_refuted). The theorems assume the same temperature in all replicas of pair and external perturbations."
  },
  {
   "property": "C106",
   "status": "partial",
   "theorems": [
    "reptate_weights",
    "reptate_back",
    "reptate_balance",
    "reptate_one_trial",
    "reptate_junction_refuted",
    "reptate_angle_type_refuted"
   ],
   "note": "The ratio and the final state are proved for every chain without angles and with bonds of one type (reptate_weights), over the reals and provided that no cell overflows. Detailed balance is proved for chains of atoms of one type (reptate_balance). It is false for atoms of different types: the weights of the new head use the types that the other atoms had before the move, and the junction factor leaves the interactions with the new head out (reptate_junction_refuted: a chain of two atoms, ratios exp(-1) and 1 between configurations of the same energy). With angles the type is read from a bond, so that the move cannot depend on the types of angles (reptate_angle_type_refuted)."
  },
  {
   "property": "C107",
   "status": "partial",
   "theorems": [
    "generator_setup",
    "place_molecule_correct",
    "generate_correct",
    "first_atom_refuted",
    "generator_zero_refuted",
    "generate_bond_type_refuted"
   ],
   "note": "Proved, over the reals, for every run that returns, provided that atoms which do not overlap cannot overfill a cell (place_molecule_correct, generate_correct). False: the loop for the first atom never counts its attempts, so that it does not end if no position is free (first_atom_refuted); if all diameters are zero setupCellList throws (generator_zero_refuted); and all bonds get lengths of type 0 (generate_bond_type_refuted). Returning molecules to the reservoir of the simulation is left out."
  },
  {
   "property": "C108",
   "status": "partial",
   "theorems": [
    "simulate_energies",
    "analyze_calls",
    "trajectory_calls",
    "analyze_stale_refuted",
    "analyze_interval_refuted",
    "analyze_one_refuted",
    "trajectory_count_refuted"
   ],
   "note": "Proved for simulate of McSimulation (for moves that do not depend on stored energies), and for the calls and configurations of the other two loops with base interval 1. False: no signal is sent when a file is read, so that all samples of analyzeConfigs have the energies of the first file (analyze_stale_refuted); with any other base interval analyzeConfigs always throws (analyze_interval_refuted); it throws for one file, and in McSimulation for number 0 (analyze_one_refuted); and analyzeTrajectory reports one frame too many if the file ends early (trajectory_count_refuted). The main loop of MdSimulation and stored stresses are not modelled."
  }
 ]
}