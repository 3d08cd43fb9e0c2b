{
 "claims": [
  {
   "property": "C01",
   "status": "proved",
   "theorems": [
    "C01_scene_precedence_exact"
   ],
   "note": "Exact owner of every point, for all object lists, priorities and insertion histories."
  },
  {
   "property": "C02",
   "status": "proved",
   "theorems": [
    "C02_contribution_exact",
    "C02_no_double_occupancy"
   ],
   "note": ""
  },
  {
   "property": "C03",
   "status": "proved",
   "theorems": [
    "C03_insertion_order_irrelevant",
    "C03_listing_order"
   ],
   "note": ""
  },
  {
   "property": "C04",
   "status": "proved",
   "theorems": [
    "C04_populate_idempotent",
    "C04_positions_species_aligned"
   ],
   "note": ""
  },
  {
   "property": "C05",
   "status": "proved",
   "theorems": [
    "C05_interior_is_union",
    "C05_multivolume_precedence",
    "C05_atoms_come_from_leaves"
   ],
   "note": ""
  },
  {
   "property": "C06",
   "status": "partial",
   "theorems": [
    "C06_read_after_add_refuted",
    "C06_read_after_repopulate_partial"
   ],
   "note": "False as stated: reads after an add return the stale result. Proved for reads that follow a populate."
  },
  {
   "property": "C07",
   "status": "partial",
   "theorems": [
    "C07_to_file_characterised",
    "C07_to_file_writes_once_refuted",
    "C07_to_file_partial",
    "C07_image"
   ],
   "note": "to_file can write twice or not at all; exactly characterised."
  },
  {
   "property": "C08",
   "status": "proved",
   "theorems": [
    "C08_void_carves_exactly"
   ],
   "note": ""
  },
  {
   "property": "C09",
   "status": "proved",
   "theorems": [
    "C09_populate_keeps_interior"
   ],
   "note": ""
  },
  {
   "property": "C10",
   "status": "proved",
   "theorems": [
    "C10_crystal_volume_filled",
    "C10_sphere_bounded_filled",
    "C10_cylinder_bounded_filled",
    "C10_point_bounded_filled"
   ],
   "note": "Relative to exact Qhull membership (hypotheses of the point-bounded case)."
  },
  {
   "property": "C11",
   "status": "partial",
   "theorems": [
    "C11_plane_bounded_populate_refuted",
    "C11_with_sphere_partial"
   ],
   "note": "False as stated: a volume bounded by planes alone has no box and populate fails. With an enclosing sphere added it holds."
  },
  {
   "property": "C12",
   "status": "partial",
   "theorems": [
    "C12_cylinder_box_refuted",
    "C12_cylinder_box_partial"
   ],
   "note": "Box is NaN for an axis along (1,1,1); encloses the cylinder for every other axis."
  },
  {
   "property": "C13",
   "status": "proved",
   "theorems": [
    "C13_sphere_box"
   ],
   "note": ""
  },
  {
   "property": "C14",
   "status": "partial",
   "theorems": [
    "C14_point_volume_transform_refuted",
    "C14_rebuilt_partial"
   ],
   "note": "False as stated: transforming a volume with points raises. A new volume built from the transformed points does have the image as its interior."
  },
  {
   "property": "C15",
   "status": "partial",
   "theorems": [
    "C15_add_points_refuted",
    "C15_added_point_outside_refuted",
    "C15_add_points_partial"
   ],
   "note": ""
  },
  {
   "property": "C16",
   "status": "partial",
   "theorems": [
    "C16_from_volume_partial",
    "C16_from_volume_transformations",
    "C16_tolerance_refuted",
    "C16_copy_without_generator_refuted"
   ],
   "note": "The tolerance is not copied and a volume without generator cannot be copied."
  },
  {
   "property": "C17",
   "status": "proved",
   "theorems": [
    "C17_interior_is_intersection",
    "C17_interior_of_point_volume",
    "C17_order_irrelevant",
    "C17_adding_only_removes",
    "C17_unbounded_volume",
    "C17_batch_is_pointwise"
   ],
   "note": ""
  },
  {
   "property": "C18",
   "status": "proved",
   "theorems": [
    "C18_rigid_motion_of_object",
    "C18_rigid_motion_of_volume",
    "C18_rigid_motion_of_multivolume"
   ],
   "note": ""
  },
  {
   "property": "C19",
   "status": "partial",
   "theorems": [
    "C19_reflection_of_object_refuted",
    "C19_reflection_in_sequence_refuted",
    "C19_mirror_matrix_partial"
   ],
   "note": "False: the code does not reflect planes and cylinders. The partial theorem: a MatrixTransform with the matrix and origin of the Reflection does mirror every surface."
  },
  {
   "property": "C20",
   "status": "partial",
   "theorems": [
    "C20_general_matrix_refuted",
    "C20_general_matrix_partial"
   ],
   "note": ""
  },
  {
   "property": "C21",
   "status": "proved",
   "theorems": [
    "C21_projection_laws",
    "C21_distance_laws",
    "C21_flip"
   ],
   "note": "Projection is stated for Nx3 arrays: for a single point of shape (3,) project_point raises IndexError, which is what breaks s2s_alignment (C32)."
  },
  {
   "property": "C22",
   "status": "proved",
   "theorems": [
    "C22_always_valid",
    "C22_setters_exact",
    "C22_constructors_exact"
   ],
   "note": ""
  },
  {
   "property": "C23",
   "status": "proved",
   "theorems": [
    "C23_sphere_interior_is_ball",
    "C23_cylinder_interior"
   ],
   "note": ""
  },
  {
   "property": "C24",
   "status": "partial",
   "theorems": [
    "C24_thin_hull_refuted",
    "C24_hull_planes_face_inward_partial",
    "C24_succeeds"
   ],
   "note": "Fails for hulls thinner than the tolerance."
  },
  {
   "property": "C25",
   "status": "partial",
   "theorems": [
    "C25_negative_octant_refuted",
    "C25_bounding_box_partial",
    "C25_vertices_partial"
   ],
   "note": "linprog's default non-negativity bounds make regions in the negative octants look empty; true when the shifted region meets the positive octant; and when status 0 is reported for a bounded region, the returned points are its corners."
  },
  {
   "property": "C26",
   "status": "partial",
   "theorems": [
    "C26_snap_plane_partial",
    "C26_origin_refuted",
    "C26_multi_index_refuted"
   ],
   "note": "The point is not shifted by the generator's origin; proved in full for generators at the coordinate origin."
  },
  {
   "property": "C27",
   "status": "proved",
   "theorems": [
    "C27_sequential_composition",
    "C27_nesting_irrelevant",
    "C27_concatenation"
   ],
   "note": ""
  },
  {
   "property": "C28",
   "status": "partial",
   "theorems": [
    "C28_sequence_at_once_refuted",
    "C28_sequence_at_once_partial"
   ],
   "note": ""
  },
  {
   "property": "C29",
   "status": "proved",
   "theorems": [
    "C29_reflection_is_mirror"
   ],
   "note": ""
  },
  {
   "property": "C30",
   "status": "partial",
   "theorems": [
    "C30_rot_vtv_refuted",
    "C30_always_rotation",
    "C30_aligns_partial",
    "C30_parallel",
    "C30_antiparallel_partial"
   ],
   "note": "NaN for opposite directions along a coordinate axis; exact whenever the directions are parallel, exactly opposite with a usable fallback axis, or separated by at least machine epsilon."
  },
  {
   "property": "C31",
   "status": "partial",
   "theorems": [
    "C31_extrinsic_refuted",
    "C31_extrinsic_partial",
    "C31_rotation_and_intrinsic_partial"
   ],
   "note": "The extrinsic branch passes its angles in the wrong order."
  },
  {
   "property": "C32",
   "status": "partial",
   "theorems": [
    "C32_s2s_alignment_refuted",
    "C32_argument_mutated_refuted",
    "C32_planes_face_partial"
   ],
   "note": "No call returns: refuted for every input. The partial theorem says what is left behind: for planes that are not nearly parallel the caller's moving plane has been turned to face the target."
  },
  {
   "property": "C33",
   "status": "proved",
   "theorems": [
    "C33_near_isometry",
    "C33_distances",
    "C33_exact_rotations_accepted"
   ],
   "note": ""
  },
  {
   "property": "C34",
   "status": "proved",
   "theorems": [
    "C34_isometries",
    "C34_inverses"
   ],
   "note": ""
  },
  {
   "property": "C35",
   "status": "proved",
   "theorems": [
    "C35_supply_covers_box"
   ],
   "note": "For site coordinates in [0,1); see C76 for the others."
  },
  {
   "property": "C36",
   "status": "proved",
   "theorems": [
    "C36_supply_sites_once"
   ],
   "note": ""
  },
  {
   "property": "C37",
   "status": "partial",
   "theorems": [
    "C37_transform_moves_crystal_partial",
    "C37_row_scaled_refuted"
   ],
   "note": ""
  },
  {
   "property": "C38",
   "status": "partial",
   "theorems": [
    "C38_structure_lattice_refuted",
    "C38_structure_lattice_partial"
   ],
   "note": ""
  },
  {
   "property": "C39",
   "status": "partial",
   "theorems": [
    "C39_accepted_bases_refuted",
    "C39_accepted_bases_partial"
   ],
   "note": ""
  },
  {
   "property": "C40",
   "status": "partial",
   "theorems": [
    "C40_modes_refuted",
    "C40_strain_laws_partial"
   ],
   "note": ""
  },
  {
   "property": "C41",
   "status": "partial",
   "theorems": [
    "C41_strained_fill_refuted",
    "C41_strained_fill_partial"
   ],
   "note": ""
  },
  {
   "property": "C42",
   "status": "partial",
   "theorems": [
    "C42_amorphous_fills_box_refuted",
    "C42_amorphous_fills_box_partial",
    "C42_density_ignored"
   ],
   "note": "False as stated: the density attribute is never used and the block is placed at the origin. The partial theorem gives number, species, separation and reuse."
  },
  {
   "property": "C43",
   "status": "partial",
   "theorems": [
    "C43_istrain_construction_refuted"
   ],
   "note": "The constructor fails for every input."
  },
  {
   "property": "C44",
   "status": "proved",
   "theorems": [
    "C44_amorphous_separated"
   ],
   "note": "For any stream of draws on which the call returns."
  },
  {
   "property": "C45",
   "status": "partial",
   "theorems": [
    "C45_periodic_separation_refuted",
    "C45_periodic_separation_partial"
   ],
   "note": "False unless the x and y sizes are multiples of min_dist, which is the partial theorem."
  },
  {
   "property": "C46",
   "status": "proved",
   "theorems": [
    "C46_batched_separated"
   ],
   "note": ""
  },
  {
   "property": "C47",
   "status": "proved",
   "theorems": [
    "C47_minimum_image"
   ],
   "note": ""
  },
  {
   "property": "C48",
   "status": "proved",
   "theorems": [
    "C48_voxel_neighbours",
    "C48_neighbourhood_symmetric"
   ],
   "note": ""
  },
  {
   "property": "C49",
   "status": "proved",
   "theorems": [
    "C49_splits_separated"
   ],
   "note": ""
  },
  {
   "property": "C50",
   "status": "partial",
   "theorems": [
    "C50_splits_terminate_refuted",
    "C50_splits_terminate_partial"
   ],
   "note": "False in the boundary case l-2m=(n-1)m, which passes the check but loops forever for every stream; the partial theorem classifies all other requests."
  },
  {
   "property": "C51",
   "status": "proved",
   "theorems": [
    "C51_round_away",
    "C51_bracket"
   ],
   "note": ""
  },
  {
   "property": "C52",
   "status": "partial",
   "theorems": [
    "C52_sdist_always_refuted",
    "C52_sdist_always_partial"
   ],
   "note": "Without a box size the function raises IndexError even with no periodic direction."
  },
  {
   "property": "C53",
   "status": "partial",
   "theorems": [
    "C53_rdf_counts_refuted",
    "C53_flat_refuted",
    "C53_sparse_refuted",
    "C53_rdf_counts_partial",
    "C53_small_cluster_partial"
   ],
   "note": "False: the neighbour table is indexed with the voxel of the i-th particle, so the call fails with fewer particles than voxels, and a flat or linear configuration has no voxels and counts nothing. Proved for non-periodic configurations whose extents are not multiples of the cutoff when the i-th particle lies in voxel i, which covers every configuration smaller than the cutoff. Bin 0 is always reset to zero by the code."
  },
  {
   "property": "C54",
   "status": "proved",
   "theorems": [
    "C54_prism_is_box",
    "C54_centred_prism_is_box"
   ],
   "note": ""
  },
  {
   "property": "C55",
   "status": "proved",
   "theorems": [
    "C55_substitution",
    "C55_reproducible"
   ],
   "note": "Draws are any reals in [0,1)."
  },
  {
   "property": "C56",
   "status": "proved",
   "theorems": [
    "C56_sequence",
    "C56_pairing"
   ],
   "note": ""
  },
  {
   "property": "C57",
   "status": "partial",
   "theorems": [
    "C57_paired",
    "C57_failed_call_partial",
    "C57_failed_call_refuted"
   ],
   "note": "The pairing holds after any history. The last clause is false in one case: set_origin with an index out of range raises but leaves the molecule tracking an atom without an index, and the next transform moves the atoms and then raises AttributeError while formatting its warning (C57_failed_call_refuted; print_warnings at its default). C57_failed_call_partial: this is the only case."
  },
  {
   "property": "C58",
   "status": "proved",
   "theorems": [
    "C58_origin_moves",
    "C58_origin_stays"
   ],
   "note": ""
  },
  {
   "property": "C59",
   "status": "partial",
   "theorems": [
    "C59_tracked_origin_refuted",
    "C59_tracked_origin_partial",
    "C59_tracked_origin_end_partial"
   ],
   "note": "False: the tracked index is not adjusted when an earlier atom (later, for a negative index) is removed. The partial theorems cover the other removals."
  },
  {
   "property": "C60",
   "status": "proved",
   "theorems": [
    "C60_remove_exact"
   ],
   "note": ""
  },
  {
   "property": "C61",
   "status": "partial",
   "theorems": [
    "C61_rejected_origin_refuted",
    "C61_rejected_origin_partial"
   ],
   "note": "False: tracking is switched on before the index is checked, so a fixed origin is lost. True for molecules already tracking an atom."
  },
  {
   "property": "C62",
   "status": "partial",
   "theorems": [
    "C62_shells_partial",
    "C62_all_tetrahedra_refuted",
    "C62_wrong_neighbours_refuted"
   ],
   "note": "With surface_only=False the selection by the tuple np.nonzero returns adds a dimension: only the first four tetrahedra are read, and their vertices are joined by position."
  },
  {
   "property": "C63",
   "status": "proved",
   "theorems": [
    "C63_circumsphere",
    "C63_flat",
    "C63_translation",
    "C63_relabelling"
   ],
   "note": ""
  },
  {
   "property": "C64",
   "status": "partial",
   "theorems": [
    "C64_surface_points_refuted",
    "C64_surface_tetrahedra_partial",
    "C64_returned_on_surface_partial",
    "C64_single_face_partial",
    "C64_no_repeats"
   ],
   "note": "Completeness is false for tetrahedra with two or more exposed faces (for instance a lone tetrahedron): their vertices are missed. Soundness, and completeness for tetrahedra with one exposed face, are proved."
  },
  {
   "property": "C65",
   "status": "proved",
   "theorems": [
    "C65_rigid_placement",
    "C65_add_adsorbate",
    "C65_placement_succeeds"
   ],
   "note": ""
  },
  {
   "property": "C66",
   "status": "partial",
   "theorems": [
    "C66_unit_normal_refuted",
    "C66_unit_normal_partial",
    "C66_terminates"
   ],
   "note": "The initial guess is returned un-normalised when no point triggers an update."
  },
  {
   "property": "C67",
   "status": "proved",
   "theorems": [
    "C67_candidates",
    "C67_target",
    "C67_unknown_key"
   ],
   "note": ""
  },
  {
   "property": "C68",
   "status": "partial",
   "theorems": [
    "C68_fcc_partition_partial",
    "C68_wurtzite_partition_partial",
    "C68_tolerance_refuted"
   ],
   "note": "Proved for 0 <= N, 0 <= min_sep and hosts without points or with the default tolerance and an up to date triangulation. For a host with points and its own tolerance from_volume drops the tolerance and part of the host is lost (C68_tolerance_refuted)."
  },
  {
   "property": "C69",
   "status": "proved",
   "theorems": [
    "C69_fcc_planes_separated",
    "C69_wurtzite_planes_separated"
   ],
   "note": "Stated for non-negative N and min_sep."
  },
  {
   "property": "C70",
   "status": "proved",
   "theorems": [
    "C70_facets_dealt",
    "C70_only_multiples"
   ],
   "note": "For n = 5 and n = 20 in particular. Facet normals are assumed to be unit vectors, as wulffpack returns them. A facet count that is not a multiple of n raises (ZeroDivisionError or IndexError)."
  },
  {
   "property": "C71",
   "status": "partial",
   "theorems": [
    "C71_convenience_refuted",
    "C71_decahedron_refuted",
    "C71_icosahedron_refuted"
   ],
   "note": "False for every input: cls(generator, natoms) passes natoms as the surface energies (AttributeError); Cylinder(radius=1e-3) lacks three required arguments and _strain_from_111() lacks its points (TypeError). The direct constructor WulffSingle(generator, energies, natoms) works: C91."
  },
  {
   "property": "C72",
   "status": "partial",
   "theorems": [
    "C72_tolerance_refuted",
    "C72_grain_boundary_partition_partial"
   ],
   "note": "False for hosts with points and their own tolerance: from_volume drops it, and points of the host are in neither grain. Proved for hosts without points or with the default tolerance and an up to date triangulation and a Plane as boundary."
  },
  {
   "property": "C73",
   "status": "proved",
   "theorems": [
    "C73_volumes_isolated",
    "C73_clients_isolated",
    "C73_volumes_isolated_ever",
    "C73_clients_isolated_ever",
    "C73_new_objects_free",
    "C73_added_surface",
    "C73_added_generator",
    "C73_volume_copies",
    "C73_generator_copies",
    "C73_populate_own"
   ],
   "note": "Over all histories of calls, raising calls included, except that the caller does not assign a strain field by reference to a generator inside a volume (v.generator.strain_field = s); numpy arrays are values in the heap model."
  },
  {
   "property": "C74",
   "status": "partial",
   "theorems": [
    "C74_refuted",
    "C74_counts",
    "C74_once_partial",
    "C74_copies_once"
   ],
   "note": "False when a volume occurs twice (add_volume does not check). C74_counts says exactly what happens: each volume is transformed as often as it occurs; once in particular without sharing, and always for copies made by from_volume."
  },
  {
   "property": "C75",
   "status": "partial",
   "theorems": [
    "C75_locked_transform_refuted",
    "C75_locked_transform_partial"
   ],
   "note": "Amorphous and null generators have no transform method."
  },
  {
   "property": "C76",
   "status": "partial",
   "theorems": [
    "C76_sites_outside_cell_refuted",
    "C76_near_cell_partial"
   ],
   "note": "False as stated; proved for site coordinates in the open interval (-1,1), which includes the unit cell."
  },
  {
   "property": "C77",
   "status": "partial",
   "theorems": [
    "C77_batched_periodic_refuted",
    "C77_batched_periodic_partial"
   ],
   "note": "False when the last voxel along x or y is thinner than min_dist; proved otherwise."
  },
  {
   "property": "C78",
   "status": "partial",
   "theorems": [
    "C78_zero_fraction_refuted",
    "C78_zero_fraction_partial"
   ],
   "note": "False when a draw is exactly 0."
  },
  {
   "property": "C79",
   "status": "partial",
   "theorems": [
    "C79_tracked_atom_protected_refuted",
    "C79_tracked_atom_protected_partial"
   ],
   "note": "False for an index written in the other (negative/positive) form."
  },
  {
   "property": "C80",
   "status": "proved",
   "theorems": [
    "C80_sampling",
    "C80_monotone"
   ],
   "note": ""
  },
  {
   "property": "C81",
   "status": "partial",
   "theorems": [
    "C81_orientation_refuted",
    "C81_orientation_partial"
   ],
   "note": "Proved when mol_vector is neither parallel nor antiparallel to the normal (up to machine epsilon); an exactly antiparallel vector makes the call fail with AssertionError."
  },
  {
   "property": "C82",
   "status": "partial",
   "theorems": [
    "C82_orientation_follows_refuted",
    "C82_quarter_turn_refuted",
    "C82_unturned_partial"
   ],
   "note": "transform never updates the stored orientation, for any transformation; a quarter turn is the concrete counterexample. C82_unturned_partial: directions between atoms keep their coordinates in the molecule's frame exactly when the transformation leaves them unturned, in particular for translations."
  },
  {
   "property": "C83",
   "status": "partial",
   "theorems": [
    "C83_argument_kept_refuted",
    "C83_argument_shifted_partial"
   ],
   "note": "False: the array is shifted in place; the partial theorem says exactly when it is unchanged."
  },
  {
   "property": "C84",
   "status": "proved",
   "theorems": [
    "C84_fcc_builds"
   ],
   "note": ""
  },
  {
   "property": "C85",
   "status": "partial",
   "theorems": [
    "C85_rows_refuted",
    "C85_grain_crystals_partial"
   ],
   "note": "False for crystals with a per-row voxel scale: the twin is not a mirror image in any plane. Proved for unstrained crystals with any other scale."
  },
  {
   "property": "C86",
   "status": "partial",
   "theorems": [
    "C86_fault_in_plane_partial",
    "C86_other_planes_refuted"
   ],
   "note": "Proved for all {111} planes; for other planes the displacement leaves the plane, for (001) it is along the normal."
  },
  {
   "property": "C87",
   "status": "partial",
   "theorems": [
    "C87_planes_miss_host_refuted",
    "C87_centred_ball_partial"
   ],
   "note": "False: the centre of a spherical host is ignored, so that all defect planes can miss it. C87_centred_ball_partial proves the claim for balls centred at the coordinate origin, cubic unstrained crystals and a minimum separation of at least the number of non-zero Miller indices (three, the default, always suffices)."
  },
  {
   "property": "C88",
   "status": "partial",
   "theorems": [
    "C88_phases_ignored_refuted",
    "C88_plane_required_refuted",
    "C88_whole_turns_partial"
   ],
   "note": "False: r1, r2 and point are never read; anything but a single Volume and an algebraic surface fails. True for phases that are whole turns."
  },
  {
   "property": "C89",
   "status": "partial",
   "theorems": [
    "C89_zone_axes_partial",
    "C89_antiparallel_refuted"
   ],
   "note": "Proved for axes parallel to z or at least machine epsilon away from z and -z; an axis exactly along -z makes the build fail."
  },
  {
   "property": "C90",
   "status": "partial",
   "theorems": [
    "C90_hosts_refuted",
    "C90_hosts_partial"
   ],
   "note": "False for MultiVolumes and volumes bounded by planes only; hosts with points or a sphere are accepted."
  },
  {
   "property": "C91",
   "status": "proved",
   "theorems": [
    "C91_single_shape",
    "C91_winterbottom_shape"
   ],
   "note": "What wulffpack computes is an argument of the model; it may also raise."
  },
  {
   "property": "C92",
   "status": "partial",
   "theorems": [
    "C92_populate_refuted",
    "C92_with_sphere_partial"
   ],
   "note": "False for every particle with at least four facets: populate_atoms raises ValueError. After an enclosing sphere has been added it works and gives exactly the atoms inside all facets."
  },
  {
   "property": "C93",
   "status": "partial",
   "theorems": [
    "C93_settings_refuted",
    "C93_repeatable_partial"
   ],
   "note": "False: the particle is cached at the first call and the setters do not clear the cache. The second half (repeatability) holds for all objects."
  },
  {
   "property": "C94",
   "status": "proved",
   "theorems": [
    "C94_strain_111",
    "C94_scale_expands"
   ],
   "note": "A basis sending [1,1,1] to the zero vector gives NaN and is excluded by the hypothesis. The icosahedron construction itself never gets to apply it (C71)."
  },
  {
   "property": "C95",
   "status": "proved",
   "theorems": [
    "C95_accepted",
    "C95_stored"
   ],
   "note": ""
  },
  {
   "property": "C96",
   "status": "partial",
   "theorems": [
    "C96_areas_refuted",
    "C96_areas_partial"
   ],
   "note": "False before the first get_construction (AttributeError on None). After it, the areas are those of the particle last computed."
  },
  {
   "property": "C97",
   "status": "proved",
   "theorems": [
    "C97_strain_reusable",
    "C97_strain_changed"
   ],
   "note": "For homogeneous strain fields (IStrain cannot be constructed, C43)."
  },
  {
   "property": "C98",
   "status": "proved",
   "theorems": [
    "C98_scale_effect",
    "C98_scale_accepted",
    "C98_scaled_supply"
   ],
   "note": "Arrays of more than two dimensions are not modelled."
  },
  {
   "property": "C99",
   "status": "proved",
   "theorems": [
    "C99_orientation_ever",
    "C99_orientation_assigned"
   ],
   "note": "Writing into the array given to or returned by the orientation property is outside this model: the molecule stores it by reference, see C132."
  },
  {
   "property": "C100",
   "status": "proved",
   "theorems": [
    "C100_atoms_move",
    "C100_crystal_stays"
   ],
   "note": "For volumes bounded by surfaces with at least one sphere (others have no bounding box or cannot be transformed, C11, C14), crystals without strain and post transformation and without per-row voxel scale (C37_row_scaled_refuted); inside the nominal sphere radii, not in the padding of 1e-5."
  },
  {
   "property": "C101",
   "status": "proved",
   "theorems": [
    "C101_wurtzite_grains"
   ],
   "note": "For unstrained crystals and hosts without points or with the default tolerance and an up to date triangulation (see C68_tolerance_refuted)."
  },
  {
   "property": "C102",
   "status": "proved",
   "theorems": [
    "C102_wurtzite_builds"
   ],
   "note": ""
  },
  {
   "property": "C103",
   "status": "partial",
   "theorems": [
    "C103_iterator_refuted",
    "C103_added_partial",
    "C103_history_partial",
    "C103_effect_partial",
    "C103_constructors_refuse_partial",
    "C103_iterator_wrong_partial"
   ],
   "note": "False for iterators: the class check uses the iterator up, and extend then adds nothing, without an error. True for single objects and for iterables that can be read twice."
  },
  {
   "property": "C104",
   "status": "proved",
   "theorems": [
    "C104_scene_holds"
   ],
   "note": ""
  },
  {
   "property": "C105",
   "status": "partial",
   "theorems": [
    "C105_iterator_refuted",
    "C105_every_part_partial",
    "C105_single_refused"
   ],
   "note": "False for iterators: only the first part is moved. A bare transformation instead of a list raises TypeError. True for lists."
  },
  {
   "property": "C106",
   "status": "proved",
   "theorems": [
    "C106_surface",
    "C106_volume",
    "C106_agrees",
    "C106_no_gap",
    "C106_sphere_band",
    "C106_plane_band",
    "C106_accurate"
   ],
   "note": "IEEE binary64 as defined by Flocq, every operation rounded to nearest even, no overflow; np.dot is any dot product whose error is within the usual bound (C106_accurate: the plain one is). The convex-hull test is scipy's."
  },
  {
   "property": "C107",
   "status": "proved",
   "theorems": [
    "C107_notation",
    "C107_constructed",
    "C107_refused",
    "C107_history"
   ],
   "note": ""
  },
  {
   "property": "C108",
   "status": "proved",
   "theorems": [
    "C108_origin",
    "C108_no_origin",
    "C108_populated",
    "C108_others"
   ],
   "note": ""
  },
  {
   "property": "C109",
   "status": "proved",
   "theorems": [
    "C109_history",
    "C109_refused",
    "C109_reuse_ignores_settings"
   ],
   "note": "C109_reuse_ignores_settings shows that with use_old_result on the result can contradict the current settings."
  },
  {
   "property": "C110",
   "status": "partial",
   "theorems": [
    "C110_unset",
    "C110_column_refuted",
    "C110_translates_partial",
    "C110_column_wrong_partial",
    "C110_accepted"
   ],
   "note": "False: a column of shape (3,1) passes the setter's checks but broadcasts the wrong way. True for flat shifts; C110_column_wrong_partial says what a column does."
  },
  {
   "property": "C111",
   "status": "proved",
   "theorems": [
    "C111_last_values",
    "C111_rotation_rigid",
    "C111_inversion",
    "C111_refused"
   ],
   "note": ""
  },
  {
   "property": "C112",
   "status": "partial",
   "theorems": [
    "C112_origin_refuted",
    "C112_flat_normal_refuted",
    "C112_mirror_partial",
    "C112_unset"
   ],
   "note": "False after assigning the inherited origin or matrix: the mirror moves (or is no isometry any more) while params still reports the old plane. True for histories that assign the plane only."
  },
  {
   "property": "C113",
   "status": "partial",
   "theorems": [
    "C113_hexagonal_refuted",
    "C113_orthogonal_partial",
    "C113_rows_partial",
    "C113_volume_partial"
   ],
   "note": "False: the rows of pymatgen's matrix are used as columns. In the crystal of a hexagonal cell with a = b = 1 no two atoms are at distance 1. True for right angles; the cell volume, hence the number density, is right for all angles. lattice_from_parameters transcribes the formula of pymatgen's Lattice.from_parameters, which is external."
  },
  {
   "property": "C114",
   "status": "partial",
   "theorems": [
    "C114_number_overrides_refuted",
    "C114_single_partial",
    "C114_symbol_wins"
   ],
   "note": "False with both: the symbol decides and the number is ignored, against the docstring. The rest holds. pymatgen's tables and site expansion are arguments of the model."
  },
  {
   "property": "C115",
   "status": "proved",
   "theorems": [
    "C115_complete",
    "C115_sound",
    "C115_once",
    "C115_positions"
   ],
   "note": "The error of np.linalg.solve on the box corners is a hypothesis (delta); rounding of the products and sums is modelled with Flocq. Strain, post transforms and triangulations are excluded."
  },
  {
   "property": "C116",
   "status": "partial",
   "theorems": [
    "C116_rows_partial",
    "C116_update_partial",
    "C116_species_partial",
    "C116_reading_order",
    "C116_transposed_refuted",
    "C116_fraction_refuted"
   ],
   "note": "True for (N,3) arrays and whole species. False otherwise: any array with 3N entries is accepted and read in row-major order, so a transposed (3,N) array is silently scrambled (C116_transposed_refuted), and fractional species are truncated (C116_fraction_refuted). C116_reading_order says what any accepted array does. NaN and overflow of astype(int) are not modelled."
  },
  {
   "property": "C117",
   "status": "partial",
   "theorems": [
    "C117_copied_partial",
    "C117_left_alone_partial",
    "C117_rotation_refuted",
    "C117_plane_refuted"
   ],
   "note": "True of translations, inversions and what reflections do to points, and of shift, origin and flags of all kinds (C117_copied_partial). False of the matrix of a MatrixTransform or Rotation, which is kept by reference: a validated rotation can be turned into a scaling (C117_rotation_refuted), and of the plane a Reflection reports (C117_plane_refuted). If such arrays and planes are left alone after being handed over, the object is the one described by the assignments (C117_left_alone_partial). Arrays obtained from the getters are not modelled."
  },
  {
   "property": "C118",
   "status": "proved",
   "theorems": [
    "C118_adding_is_local"
   ],
   "note": "The objects already present must not use ChemicalSubstitution (whose random draws would differ between the two populates)."
  },
  {
   "property": "C119",
   "status": "partial",
   "theorems": [
    "C119_parts_make_whole",
    "C119_cut_and_joined",
    "C119_equal_priorities_refuted"
   ],
   "note": "True when the parts have pairwise different priorities. With equal priorities, which is the default, the halves overlap within the plane's tolerance and every atom there is removed by both: an atom on the cutting plane is lost (C119_equal_priorities_refuted)."
  },
  {
   "property": "C120",
   "status": "proved",
   "theorems": [
    "C120_same_crystal_same_atoms",
    "C120_lattice_shift",
    "C120_site_order"
   ],
   "note": "Exact arithmetic; positions within the nominal spheres."
  },
  {
   "property": "C121",
   "status": "proved",
   "theorems": [
    "C121_scene_moves"
   ],
   "note": "Exact arithmetic, and away from the margin that the tolerance adds around a sphere. Scenes whose generators are not carried along (locked=False), strained crystals and amorphous blocks are not covered."
  },
  {
   "property": "C122",
   "status": "proved",
   "theorems": [
    "C122_view_shows_scene",
    "C122_view_shows_points"
   ],
   "note": "What matplotlib does with the data is outside the model; its camera convention (azimuth, elevation) is stated in Spec/ViewSpec.v. Ticks, labels and grids are not modelled."
  },
  {
   "property": "C123",
   "status": "proved",
   "theorems": [
    "C123_bounds",
    "C123_refused",
    "C123_cell",
    "C123_default_bounds",
    "C123_given_bounds"
   ],
   "note": "The order of the two rows is not checked: bounds given in the wrong order are accepted and the exported cell then has negative lengths."
  },
  {
   "property": "C124",
   "status": "proved",
   "theorems": [
    "C124_volume_export",
    "C124_molecule_export",
    "C124_unpopulated",
    "C124_pymatgen"
   ],
   "note": "The imported molecule has origin 0, the standard orientation and priority 0, whatever the exported one had: ASE atoms carry none of these. ASE and pymatgen are external and taken to keep the arrays they are given."
  },
  {
   "property": "C125",
   "status": "proved",
   "theorems": [
    "C125_settings",
    "C125_refused",
    "C125_build_uses_last",
    "C125_new",
    "C125_defaults"
   ],
   "note": "A count given as a float is cut off towards zero, not refused. The ratio of the pure prefabs and of the wurtzite prefab can be assigned without error and has no effect. Strings (which int() parses) and planes that are not integer triples are not modelled."
  },
  {
   "property": "C126",
   "status": "proved",
   "theorems": [
    "C126_defect_types",
    "C126_pure",
    "C126_no_defects"
   ],
   "note": "The wurtzite prefab always reports a stacking fault, also for N = 0; this is outside the statement. A negative N is accepted and acts as 0."
  },
  {
   "property": "C127",
   "status": "partial",
   "theorems": [
    "C127_first_axis",
    "C127_second_axis_partial",
    "C127_refused",
    "C127_default_axis_refuted"
   ],
   "note": "The default is taken at the moment z2 is assigned, not at the build: when z1 is changed after construction the second grain keeps the old axis (C127_default_axis_refuted exhibits two different results). True as long as z1 is not assigned after z2 (C127_second_axis_partial)."
  },
  {
   "property": "C128",
   "status": "proved",
   "theorems": [
    "C128_angle",
    "C128_no_angle",
    "C128_laws"
   ],
   "note": "Exact arithmetic: in floating point the cosine of parallel vectors can exceed 1 by rounding, and arccos then gives NaN; this is not modelled."
  },
  {
   "property": "C129",
   "status": "partial",
   "theorems": [
    "C129_sphere_partial",
    "C129_sphere_shapes",
    "C129_column_refuted",
    "C129_plane_partial",
    "C129_plane_shapes_refuted",
    "C129_plane_table",
    "C129_cylinder",
    "C129_refused_unchanged",
    "C129_refusals"
   ],
   "note": "False for a sphere whose centre is a 3x1 column, the shape its documentation names: the centre is accepted, but three points are tested against one coordinate each and any other number of points raises (C129_column_refuted). The point setter of planes accepts arrays with a second long axis, for which the later test raises. True for centres and points with three entries along one axis, and for cylinders without exception. Assigning values that are not arrays is not modelled."
  },
  {
   "property": "C130",
   "status": "partial",
   "theorems": [
    "C130_empty_partial",
    "C130_infinite_direction_partial",
    "C130_refused_partial",
    "C130_accepted_refuted",
    "C130_finite",
    "C130_infinite_sphere"
   ],
   "note": "False: NaN is accepted for a sphere's centre, a plane's point and a cylinder's axis, point, radius and length, and infinities in most places (C130_accepted_refuted). What is true: NaN is refused for tolerances, sphere radii and plane normals; an object with a NaN among its parameters, or with an infinite direction, contains no point at all, so that its volume is silently empty; a sphere of infinite radius contains all of space when its centre is finite."
  },
  {
   "property": "C131",
   "status": "partial",
   "theorems": [
    "C131_settings",
    "C131_refused",
    "C131_ints",
    "C131_priority_refuted",
    "C131_tolerance_refuted",
    "C131_made",
    "C131_molecule_ever"
   ],
   "note": "The last clause is false: numpy integers are priorities for molecules but not for volumes, True and False for volumes but not for molecules (C131_priority_refuted), and the constructor of Volume takes tolerances that the setter refuses (C131_tolerance_refuted). Python ints are accepted by all. The set of accepted values and the exceptions are given exactly by C131_refused."
  },
  {
   "property": "C132",
   "status": "partial",
   "theorems": [
    "C132_copied_partial",
    "C132_left_alone_partial",
    "C132_orientation_refuted",
    "C132_atoms_shared_refuted",
    "C132_parted_partial",
    "C132_old_arrays_kept_partial",
    "C132_origin_point_partial",
    "C132_origin_atom_refuted"
   ],
   "note": "True for positions, species and points given to the molecule, which are copied. False for the orientation, which is stored by reference, so that later writes can make it any matrix (C132_orientation_refuted), and for the arrays read from the molecule: .atoms and the origin that tracks an atom are live (C132_atoms_shared_refuted, C132_origin_atom_refuted). An array read earlier parts from the molecule with the next call that stores new positions."
  },
  {
   "property": "C133",
   "status": "partial",
   "theorems": [
    "C133_history_partial",
    "C133_refused_partial",
    "C133_structure_refuted",
    "C133_no_voxel",
    "C133_supplies_partial",
    "C133_order",
    "C133_structure_resets",
    "C133_complete",
    "C133_moves",
    "C133_remembers"
   ],
   "note": "False for structures: one whose lattice has two parallel vectors is refused by an exception, but its sites are stored before the check and are from then on supplied on the lattice of the structure before (C133_structure_refuted). The _partial theorems state exactly what the generator then has: the sites of the last structure assigned, the lattice of the last structure accepted. They cover histories without transformations and assigned voxels; C133_structure_resets says what a new structure does after those."
  },
  {
   "property": "C134",
   "status": "partial",
   "theorems": [
    "C134_settings",
    "C134_used_partial",
    "C134_origin_refuted",
    "C134_assigned_origin_refuted",
    "C134_freed_partial",
    "C134_refused",
    "C134_made"
   ],
   "note": "False for fields made without an origin: their origin_type stays 'generator', so that an origin assigned later is overwritten by that of the generator at the next use (C134_origin_refuted). True for fields made with an origin of their own, and for all fields once origin_type is set to something else (C134_freed_partial). Modes are not checked; unknown ones act as 'standard'."
  },
  {
   "property": "C135",
   "status": "partial",
   "theorems": [
    "C135_interior_partial",
    "C135_generator",
    "C135_refused",
    "C135_later_points_refuted",
    "C135_no_hull_refuted",
    "C135_assign_refuted"
   ],
   "note": "False for points: those given after the first hull never change the interior (C135_later_points_refuted), an array of points of which no hull can be made raises but leaves a volume that contains all of space (C135_no_hull_refuted), and assigning to points always raises ValueError and loses the points (C135_assign_refuted). C135_interior_partial states exactly what the interior is: the hull of the points given up to the first successful hull, and all surfaces. True for surfaces and generators."
  },
  {
   "property": "C136",
   "status": "proved",
   "theorems": [
    "C136_complete",
    "C136_sound",
    "C136_once"
   ],
   "note": "Volumes given by surfaces of which one is a sphere, so that the bounding box is the sphere's. Sites within three tolerances of a boundary may go either way. Matrix products, dot products and np.linalg.solve are functions with an error bound; the rest is Flocq's binary64."
  },
  {
   "property": "C137",
   "status": "proved",
   "theorems": [
    "C137_any_history",
    "C137_determined"
   ],
   "note": "wulffpack's answers are arguments. Editing the generator in place changes what fills the particle but not the atoms its shape is computed from, which were read at assignment. C93 has the complaint that the particle does not follow the settings."
  },
  {
   "property": "C138",
   "status": "proved",
   "theorems": [
    "C138_weights",
    "C138_bond_length"
   ],
   "note": "Draws and the alpha shape are arguments. Without draws of every neighbour the starting guess of length 1.7e-10 can be returned (C66)."
  },
  {
   "property": "C139",
   "status": "partial",
   "theorems": [
    "C139_points_away_refuted",
    "C139_last_of_ten_partial"
   ],
   "note": "False: the search keeps the best margin but returns the last normal, which comes from a run that did not beat it; with two neighbours a normal can be returned that has one of them in front, although the first run had found one with both behind, for runs of any length that draw both. True: what is returned is the result of the last of ten runs in a row that all missed the best margin."
  },
  {
   "property": "C140",
   "status": "partial",
   "theorems": [
    "C140_new_origin_refuted",
    "C140_removal_partial"
   ],
   "note": "False for every molecule: the new index is checked and then ignored, so the origin stays what it was. True: which removals are refused, with which exception and without touching the molecule, and exactly what the others leave. An index is compared with the list literally, so -1 does not count as the last atom."
  },
  {
   "property": "C141",
   "status": "proved",
   "theorems": [
    "C141_origin",
    "C141_determined"
   ],
   "note": "The history is described by three relations (following or not, last accepted index, point) that never mention the attributes; each is shown to have exactly one value."
  },
  {
   "property": "C142",
   "status": "proved",
   "theorems": [
    "C142_molecules_take_no_space"
   ],
   "note": ""
  },
  {
   "property": "C143",
   "status": "partial",
   "theorems": [
    "C143_failed_populate_refuted",
    "C143_left_behind_partial",
    "C143_group_left_behind_partial",
    "C143_masks_partial",
    "C143_nothing_to_read_partial",
    "C143_populate_recovers_partial"
   ],
   "note": "False: objects before the failing one have new atoms and the masks are old, so the scene then reports an atom inside an object of higher precedence. True: exactly which objects are repopulated; the masks never change without a populate that returns; a scene never populated with success has nothing to read; and a populate that returns gives the specified contents whatever happened before."
  },
  {
   "property": "C144",
   "status": "partial",
   "theorems": [
    "C144_retry_refuted",
    "C144_parts_drift_refuted",
    "C144_left_behind_partial",
    "C144_multivolume_partial",
    "C144_reflection_partial"
   ],
   "note": "False: a Volume with an amorphous or no-atom generator raises under every locked rigid motion and moves once more at every call, and in a MultiVolume the members after the failing one stay behind. True: exactly what is left in every case, down to the surface at which the call stopped."
  },
  {
   "property": "C145",
   "status": "partial",
   "theorems": [
    "C145_same_direction_refuted",
    "C145_misaligned_refuted",
    "C145_itself_partial",
    "C145_opposite_partial",
    "C145_whole_partial",
    "C145_rotation_partial",
    "C145_accurate_partial"
   ],
   "note": "False: rot_vtv of [111], [110] or [112] with itself or its opposite is a matrix of NaNs (so s2s_alignment of surfaces that already face each other along such a direction raises AssertionError), and for (0.3, 0.4, 0.5) against (-1.5, -2, -2.5) the result is an accepted rotation that makes the vectors perpendicular. True: exactly when rot_vtv(v, v) is the identity; the identity for whole-number vectors of whole length; whatever is not NaN is within 2^-40 of a rotation and accepted; and for directions at an angle of sine at least s >= 2^-13 the result is within 2^-40/s of the exact matrix and aligns."
  },
  {
   "property": "C146",
   "status": "partial",
   "theorems": [
    "C146_itself_refuted",
    "C146_close_partial",
    "C146_accurate_partial"
   ],
   "note": "False: vangle of [111] or [112] with itself is NaN and of [110] with itself is not 0. True: when it is a number it is the true angle up to 2^-20, and for directions at an angle of sine at least s >= 2^-13 it is a number and accurate to 2^-44/s."
  },
  {
   "property": "C147",
   "status": "partial",
   "theorems": [
    "C147_collinear_refuted",
    "C147_independent_partial",
    "C147_whole_partial"
   ],
   "note": "False: bases with [111] twice are accepted, although exact arithmetic refuses them. True: vectors at pairwise angles of sine at least 2^-13 are always accepted, and parallel or opposite whole-number vectors of whole length are always refused."
  },
  {
   "property": "C148",
   "status": "partial",
   "theorems": [
    "C148_index_refuted",
    "C148_separation_refuted",
    "C148_separated_partial",
    "C148_no_error_partial"
   ],
   "note": "False: with side 14 and the default spacing 1.4 the largest draw falls in voxel 10 of 10 and IndexError is raised, and in a cube of side 4 with spacing 1 two atoms closer than 1 are accepted. True: the count is right up to rounding, every atom is inside the box, atoms are min_dist apart up to 2^-50 of it and 2^-52 of the longest side, and nothing is raised if no side divided by min_dist rounds to a whole number."
  },
  {
   "property": "C149",
   "status": "partial",
   "theorems": [
    "C149_separation_refuted",
    "C149_index_refuted",
    "C149_separated_partial"
   ],
   "note": "False: in a block of 28 x 16 x 16 with the default spacing 1.4 and voxel scale 2, the largest draw along x gives voxel 10 of 10, which is the number of a voxel in the next row; the atom is compared with the wrong neighbours and accepted 0.07 from another one. In a cube of side 28 the largest draw along all axes raises IndexError. True if no side divided by the voxel size rounds to a whole number: the batches run out or the count is right up to rounding, every atom is inside the box, and atoms are min_dist apart up to 2^-50 of it and 2^-52 of the longest side."
  },
  {
   "property": "C150",
   "status": "partial",
   "theorems": [
    "C150_twice_refuted",
    "C150_molecule_refuted",
    "C150_second_copy_partial"
   ],
   "note": "False: the two entries of a volume have the same priority number and contain each other's atoms, so both lose all of them; what is left inside the volume comes from objects of strictly smaller number, and a scene holding nothing but one volume twice is empty. A molecule listed twice has every atom twice. True for a second copy of a volume with a larger priority number: the multiset of atoms and species is unchanged."
  },
  {
   "property": "C151",
   "status": "partial",
   "theorems": [
    "C151_grouping_refuted",
    "C151_grouping_partial",
    "C151_alone"
   ],
   "note": "False: outside, only the MultiVolume's own number counts, so a member can lose atoms to an object it took precedence over. True whenever the MultiVolume's number compares with every other object as those of its members do, in particular for a MultiVolume alone in the scene whatever its number: the grouped scene populates too and has the same multiset of (position, species)."
  },
  {
   "property": "C152",
   "status": "partial",
   "theorems": [
    "C152_rotation",
    "C152_rotation_exact",
    "C152_orientation_refuted",
    "C152_orientation_partial",
    "C152_orientation_exact",
    "C152_bases_refuted",
    "C152_bases_partial"
   ],
   "note": "True of Rotation, whatever the determinant routine answers. False of Molecule.orientation, which raises on `x > 1e-6` and so lets every matrix with a NaN pass whose determinant comes out NaN; what it accepts is finite or makes the orthogonality test NaN. False of Voxel.bases: a vector with a NaN or an infinity is never found collinear, and a cell is accepted exactly if no two of its finite vectors are parallel."
  },
  {
   "property": "C153",
   "status": "proved",
   "theorems": [
    "C153_order_only"
   ],
   "note": "Random generators, failing volumes and objects of equal priority are included; the lists are equal, not only equal up to order."
  },
  {
   "property": "C154",
   "status": "proved",
   "theorems": [
    "C154_first_rest"
   ],
   "note": "The specification describes one correction and the rest on its own (Spec/StopSpec.v); a guess that becomes NaN is covered and is never corrected again."
  },
  {
   "property": "C155",
   "status": "proved",
   "theorems": [
    "C155_larger_number"
   ],
   "note": "Boundaries are exact: lost atoms lie in objects with old < number <= new, gained atoms belong to objects with old <= number < new."
  },
  {
   "property": "C156",
   "status": "partial",
   "theorems": [
    "C156_undo_refuted",
    "C156_points_partial",
    "C156_restored_partial",
    "C156_rigid_partial"
   ],
   "note": "False as stated: after a large dilation the way back raises, as the normal made a unit vector in between is then too short for the setter. Whenever neither call raises, the object is exactly what it was, scalings and shears included; rigid motions never raise on surfaces, nor on the way back of a crystal. Exact arithmetic."
  },
  {
   "property": "C157",
   "status": "partial",
   "theorems": [
    "C157_moved",
    "C157_called_again",
    "C157_order_refuted",
    "C157_order_error_refuted",
    "C157_order_partial",
    "C157_tail_order_partial",
    "C157_small_order_partial"
   ],
   "note": "C157_moved and C157_called_again prove independence of the place and of earlier calls for every cloud. The order does matter (C157_order_refuted: the same four points in two orders give different counts, as the neighbour table is looked up with the voxel of the i-th point instead of voxel i; C157_order_error_refuted: in one order the call fails). C157_order_partial: two orders agree, counts or failure, as soon as their first points (as many as there are voxels) lie in the same voxels one by one; C157_tail_order_partial and C157_small_order_partial are the cases of the points after those, and of a cloud smaller than the cutoff."
  },
  {
   "property": "C158",
   "status": "proved",
   "theorems": [
    "C158_tetrahedra",
    "C158_points",
    "C158_similarities",
    "C158_translated"
   ],
   "note": "Delaunay and the noise are arguments: the theorems are about any two calls whose triangulations are of the same tetrahedra (Spec/ComplexSpec.v), which holds for points in general position. Exact real arithmetic. C158_translated: a translated cloud with the same noise gives literally the same answer. C64 says which points are returned."
  },
  {
   "property": "C159",
   "status": "proved",
   "theorems": [
    "C159_drift",
    "C159_accepted",
    "C159_rigid",
    "C159_undone"
   ],
   "note": "Model/FloatMove.v: every operation is rounded to nearest even, dot products are any accurate ones (Spec/FloatSpec.v), no overflow. The bound needs n (1 + d)^n <= 2^40. The matrix of a reflection is computed with rounding too."
  },
  {
   "property": "C160",
   "status": "proved",
   "theorems": [
    "C160_crystal"
   ],
   "note": "Model/FloatMove.v (f_move). The exact history is one in which no call raises. The test for collinear bases in double precision is C147, the rounding of the sites themselves C115. Same conventions as C159."
  },
  {
   "property": "C161",
   "status": "proved",
   "theorems": [
    "C161_surface",
    "C161_decides",
    "C161_volume",
    "C161_accepted",
    "C161_rigid_turn"
   ],
   "note": "Model/FloatMove.v (f_apply_alg). Reflections are not accepted (C19). The matrices are near isometries: what the Rotation class accepts has d = 1e-6, orthogonal matrices d = 0 (C161_accepted); for rigid motions and n up to 2^30 the turn is at most n 2^-38 (C161_rigid_turn). Surfaces with a stored direction that is of length 1 up to rounding. Volumes without points. Same conventions as C106 and C159."
  },
  {
   "property": "C162",
   "status": "proved",
   "theorems": [
    "C162_filled",
    "C162_rigid"
   ],
   "note": "Composition of C115, C160 and C161. Volumes without points; voxel of scale 1; no strain field. The completeness half assumes of the linear solver what C115 assumes (corners_within, for the computed cell and bounding box). The other conditions (solid_cell, moderate_site, clear_of) speak of the exact crystal. A hundred rigid motions within 1000 Angstrom stay below a third of the default tolerance (C162_rigid)."
  }
 ]
}