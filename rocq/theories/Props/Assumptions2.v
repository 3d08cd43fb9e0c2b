(** Prints what the theorems named in MANIFEST.json rest on, part 2 of 4. *)
From Verif.Props Require Import AcrossProps AdsorbateProps AmorphousProps BoxProps CircumProps GeneratorProps GrainProps HeapProps MoleculeProps PostProps PrefabMore PrefabProps RdfProps RestProps StateProps SurfaceProps VolumeProps WulffProps.

Print Assumptions RdfProps.C53_sparse_refuted.
Print Assumptions RdfProps.C53_rdf_counts_partial.
Print Assumptions RdfProps.C53_small_cluster_partial.
Print Assumptions BoxProps.C54_prism_is_box.
Print Assumptions BoxProps.C54_centred_prism_is_box.
Print Assumptions PostProps.C55_substitution.
Print Assumptions PostProps.C55_reproducible.
Print Assumptions PostProps.C56_sequence.
Print Assumptions PostProps.C56_pairing.
Print Assumptions MoleculeProps.C57_paired.
Print Assumptions MoleculeProps.C57_failed_call_partial.
Print Assumptions MoleculeProps.C57_failed_call_refuted.
Print Assumptions MoleculeProps.C58_origin_moves.
Print Assumptions MoleculeProps.C58_origin_stays.
Print Assumptions MoleculeProps.C59_tracked_origin_refuted.
Print Assumptions MoleculeProps.C59_tracked_origin_partial.
Print Assumptions MoleculeProps.C59_tracked_origin_end_partial.
Print Assumptions MoleculeProps.C60_remove_exact.
Print Assumptions MoleculeProps.C61_rejected_origin_refuted.
Print Assumptions MoleculeProps.C61_rejected_origin_partial.
Print Assumptions SurfaceProps.C62_shells_partial.
Print Assumptions SurfaceProps.C62_all_tetrahedra_refuted.
Print Assumptions SurfaceProps.C62_wrong_neighbours_refuted.
Print Assumptions CircumProps.C63_circumsphere.
Print Assumptions CircumProps.C63_flat.
Print Assumptions CircumProps.C63_translation.
Print Assumptions CircumProps.C63_relabelling.
Print Assumptions SurfaceProps.C64_surface_points_refuted.
Print Assumptions SurfaceProps.C64_surface_tetrahedra_partial.
Print Assumptions SurfaceProps.C64_returned_on_surface_partial.
Print Assumptions SurfaceProps.C64_single_face_partial.
Print Assumptions SurfaceProps.C64_no_repeats.
Print Assumptions AdsorbateProps.C65_rigid_placement.
Print Assumptions AdsorbateProps.C65_add_adsorbate.
Print Assumptions AdsorbateProps.C65_placement_succeeds.
Print Assumptions AdsorbateProps.C66_unit_normal_refuted.
Print Assumptions AdsorbateProps.C66_unit_normal_partial.
Print Assumptions AdsorbateProps.C66_terminates.
Print Assumptions AdsorbateProps.C67_candidates.
Print Assumptions AdsorbateProps.C67_target.
Print Assumptions AdsorbateProps.C67_unknown_key.
Print Assumptions PrefabProps.C68_fcc_partition_partial.
Print Assumptions PrefabProps.C68_wurtzite_partition_partial.
Print Assumptions PrefabProps.C68_tolerance_refuted.
Print Assumptions PrefabProps.C69_fcc_planes_separated.
Print Assumptions PrefabProps.C69_wurtzite_planes_separated.
Print Assumptions WulffProps.C70_facets_dealt.
Print Assumptions WulffProps.C70_only_multiples.
Print Assumptions WulffProps.C71_convenience_refuted.
Print Assumptions WulffProps.C71_decahedron_refuted.
Print Assumptions WulffProps.C71_icosahedron_refuted.
Print Assumptions PrefabMore.C72_tolerance_refuted.
Print Assumptions GrainProps.C72_grain_boundary_partition_partial.
Print Assumptions HeapProps.C73_volumes_isolated.
Print Assumptions HeapProps.C73_clients_isolated.
Print Assumptions HeapProps.C73_volumes_isolated_ever.
Print Assumptions HeapProps.C73_clients_isolated_ever.
Print Assumptions HeapProps.C73_new_objects_free.
Print Assumptions HeapProps.C73_added_surface.
Print Assumptions HeapProps.C73_added_generator.
Print Assumptions HeapProps.C73_volume_copies.
Print Assumptions HeapProps.C73_generator_copies.
Print Assumptions HeapProps.C73_populate_own.
Print Assumptions HeapProps.C74_refuted.
Print Assumptions HeapProps.C74_counts.
Print Assumptions HeapProps.C74_once_partial.
Print Assumptions HeapProps.C74_copies_once.
Print Assumptions VolumeProps.C75_locked_transform_refuted.
Print Assumptions VolumeProps.C75_locked_transform_partial.
Print Assumptions GeneratorProps.C76_sites_outside_cell_refuted.
Print Assumptions GeneratorProps.C76_near_cell_partial.
Print Assumptions AmorphousProps.C77_batched_periodic_refuted.
Print Assumptions AmorphousProps.C77_batched_periodic_partial.
Print Assumptions PostProps.C78_zero_fraction_refuted.
Print Assumptions PostProps.C78_zero_fraction_partial.
Print Assumptions MoleculeProps.C79_tracked_atom_protected_refuted.
Print Assumptions MoleculeProps.C79_tracked_atom_protected_partial.
Print Assumptions SurfaceProps.C80_sampling.
Print Assumptions SurfaceProps.C80_monotone.
Print Assumptions AdsorbateProps.C81_orientation_refuted.
Print Assumptions AdsorbateProps.C81_orientation_partial.
Print Assumptions AdsorbateProps.C82_orientation_follows_refuted.
Print Assumptions AdsorbateProps.C82_quarter_turn_refuted.
Print Assumptions AdsorbateProps.C82_unturned_partial.
Print Assumptions RdfProps.C83_argument_kept_refuted.
Print Assumptions RdfProps.C83_argument_shifted_partial.
Print Assumptions PrefabProps.C84_fcc_builds.
Print Assumptions PrefabMore.C85_rows_refuted.
Print Assumptions PrefabProps.C85_grain_crystals_partial.
Print Assumptions PrefabProps.C86_fault_in_plane_partial.
Print Assumptions PrefabProps.C86_other_planes_refuted.
Print Assumptions PrefabProps.C87_planes_miss_host_refuted.
Print Assumptions AcrossProps.C87_centred_ball_partial.
Print Assumptions GrainProps.C88_phases_ignored_refuted.
Print Assumptions GrainProps.C88_plane_required_refuted.
Print Assumptions GrainProps.C88_whole_turns_partial.
Print Assumptions GrainProps.C89_zone_axes_partial.
Print Assumptions GrainProps.C89_antiparallel_refuted.
Print Assumptions PrefabProps.C90_hosts_refuted.
Print Assumptions PrefabProps.C90_hosts_partial.
Print Assumptions WulffProps.C91_single_shape.
Print Assumptions WulffProps.C91_winterbottom_shape.
Print Assumptions WulffProps.C92_populate_refuted.
Print Assumptions RestProps.C92_with_sphere_partial.
Print Assumptions WulffProps.C93_settings_refuted.
Print Assumptions WulffProps.C93_repeatable_partial.
Print Assumptions WulffProps.C94_strain_111.
Print Assumptions WulffProps.C94_scale_expands.
Print Assumptions WulffProps.C95_accepted.
Print Assumptions WulffProps.C95_stored.
Print Assumptions WulffProps.C96_areas_refuted.
Print Assumptions WulffProps.C96_areas_partial.
Print Assumptions HeapProps.C97_strain_reusable.
Print Assumptions HeapProps.C97_strain_changed.
Print Assumptions StateProps.C98_scale_effect.
Print Assumptions StateProps.C98_scale_accepted.
Print Assumptions StateProps.C98_scaled_supply.
Print Assumptions StateProps.C99_orientation_ever.
Print Assumptions StateProps.C99_orientation_assigned.
Print Assumptions RestProps.C100_atoms_move.
Print Assumptions RestProps.C100_crystal_stays.
