(** Prints what the theorems named in MANIFEST.json rest on, part 1 of 4. *)
From Verif.Props Require Import AlgebraicProps AmorphousProps BoxProps GeneratorProps MiscProps RdfProps RegionProps RestProps SceneProps TransformProps VolumeProps.

Print Assumptions SceneProps.C01_scene_precedence_exact.
Print Assumptions SceneProps.C02_contribution_exact.
Print Assumptions SceneProps.C02_no_double_occupancy.
Print Assumptions SceneProps.C03_insertion_order_irrelevant.
Print Assumptions SceneProps.C03_listing_order.
Print Assumptions SceneProps.C04_populate_idempotent.
Print Assumptions SceneProps.C04_positions_species_aligned.
Print Assumptions VolumeProps.C05_interior_is_union.
Print Assumptions VolumeProps.C05_multivolume_precedence.
Print Assumptions VolumeProps.C05_atoms_come_from_leaves.
Print Assumptions SceneProps.C06_read_after_add_refuted.
Print Assumptions SceneProps.C06_read_after_repopulate_partial.
Print Assumptions SceneProps.C07_to_file_characterised.
Print Assumptions SceneProps.C07_to_file_writes_once_refuted.
Print Assumptions SceneProps.C07_to_file_partial.
Print Assumptions SceneProps.C07_image.
Print Assumptions SceneProps.C08_void_carves_exactly.
Print Assumptions VolumeProps.C09_populate_keeps_interior.
Print Assumptions GeneratorProps.C10_crystal_volume_filled.
Print Assumptions GeneratorProps.C10_sphere_bounded_filled.
Print Assumptions GeneratorProps.C10_cylinder_bounded_filled.
Print Assumptions GeneratorProps.C10_point_bounded_filled.
Print Assumptions VolumeProps.C11_plane_bounded_populate_refuted.
Print Assumptions RestProps.C11_with_sphere_partial.
Print Assumptions BoxProps.C12_cylinder_box_refuted.
Print Assumptions BoxProps.C12_cylinder_box_partial.
Print Assumptions BoxProps.C13_sphere_box.
Print Assumptions VolumeProps.C14_point_volume_transform_refuted.
Print Assumptions RestProps.C14_rebuilt_partial.
Print Assumptions VolumeProps.C15_add_points_refuted.
Print Assumptions VolumeProps.C15_added_point_outside_refuted.
Print Assumptions VolumeProps.C15_add_points_partial.
Print Assumptions VolumeProps.C16_from_volume_partial.
Print Assumptions VolumeProps.C16_from_volume_transformations.
Print Assumptions VolumeProps.C16_tolerance_refuted.
Print Assumptions VolumeProps.C16_copy_without_generator_refuted.
Print Assumptions VolumeProps.C17_interior_is_intersection.
Print Assumptions VolumeProps.C17_interior_of_point_volume.
Print Assumptions VolumeProps.C17_order_irrelevant.
Print Assumptions VolumeProps.C17_adding_only_removes.
Print Assumptions VolumeProps.C17_unbounded_volume.
Print Assumptions VolumeProps.C17_batch_is_pointwise.
Print Assumptions AlgebraicProps.C18_rigid_motion_of_object.
Print Assumptions VolumeProps.C18_rigid_motion_of_volume.
Print Assumptions VolumeProps.C18_rigid_motion_of_multivolume.
Print Assumptions AlgebraicProps.C19_reflection_of_object_refuted.
Print Assumptions AlgebraicProps.C19_reflection_in_sequence_refuted.
Print Assumptions RestProps.C19_mirror_matrix_partial.
Print Assumptions AlgebraicProps.C20_general_matrix_refuted.
Print Assumptions AlgebraicProps.C20_general_matrix_partial.
Print Assumptions AlgebraicProps.C21_projection_laws.
Print Assumptions AlgebraicProps.C21_distance_laws.
Print Assumptions AlgebraicProps.C21_flip.
Print Assumptions AlgebraicProps.C22_always_valid.
Print Assumptions AlgebraicProps.C22_setters_exact.
Print Assumptions AlgebraicProps.C22_constructors_exact.
Print Assumptions AlgebraicProps.C23_sphere_interior_is_ball.
Print Assumptions AlgebraicProps.C23_cylinder_interior.
Print Assumptions AlgebraicProps.C24_thin_hull_refuted.
Print Assumptions AlgebraicProps.C24_hull_planes_face_inward_partial.
Print Assumptions AlgebraicProps.C24_succeeds.
Print Assumptions TransformProps.C25_negative_octant_refuted.
Print Assumptions TransformProps.C25_bounding_box_partial.
Print Assumptions RegionProps.C25_vertices_partial.
Print Assumptions TransformProps.C26_snap_plane_partial.
Print Assumptions TransformProps.C26_origin_refuted.
Print Assumptions TransformProps.C26_multi_index_refuted.
Print Assumptions TransformProps.C27_sequential_composition.
Print Assumptions TransformProps.C27_nesting_irrelevant.
Print Assumptions TransformProps.C27_concatenation.
Print Assumptions GeneratorProps.C28_sequence_at_once_refuted.
Print Assumptions GeneratorProps.C28_sequence_at_once_partial.
Print Assumptions TransformProps.C29_reflection_is_mirror.
Print Assumptions TransformProps.C30_rot_vtv_refuted.
Print Assumptions TransformProps.C30_always_rotation.
Print Assumptions TransformProps.C30_aligns_partial.
Print Assumptions TransformProps.C30_parallel.
Print Assumptions TransformProps.C30_antiparallel_partial.
Print Assumptions TransformProps.C31_extrinsic_refuted.
Print Assumptions TransformProps.C31_extrinsic_partial.
Print Assumptions TransformProps.C31_rotation_and_intrinsic_partial.
Print Assumptions TransformProps.C32_s2s_alignment_refuted.
Print Assumptions TransformProps.C32_argument_mutated_refuted.
Print Assumptions RestProps.C32_planes_face_partial.
Print Assumptions TransformProps.C33_near_isometry.
Print Assumptions TransformProps.C33_distances.
Print Assumptions TransformProps.C33_exact_rotations_accepted.
Print Assumptions TransformProps.C34_isometries.
Print Assumptions TransformProps.C34_inverses.
Print Assumptions GeneratorProps.C35_supply_covers_box.
Print Assumptions GeneratorProps.C36_supply_sites_once.
Print Assumptions GeneratorProps.C37_transform_moves_crystal_partial.
Print Assumptions GeneratorProps.C37_row_scaled_refuted.
Print Assumptions GeneratorProps.C38_structure_lattice_refuted.
Print Assumptions GeneratorProps.C38_structure_lattice_partial.
Print Assumptions GeneratorProps.C39_accepted_bases_refuted.
Print Assumptions GeneratorProps.C39_accepted_bases_partial.
Print Assumptions GeneratorProps.C40_modes_refuted.
Print Assumptions GeneratorProps.C40_strain_laws_partial.
Print Assumptions GeneratorProps.C41_strained_fill_refuted.
Print Assumptions GeneratorProps.C41_strained_fill_partial.
Print Assumptions AmorphousProps.C42_amorphous_fills_box_refuted.
Print Assumptions AmorphousProps.C42_amorphous_fills_box_partial.
Print Assumptions AmorphousProps.C42_density_ignored.
Print Assumptions GeneratorProps.C43_istrain_construction_refuted.
Print Assumptions AmorphousProps.C44_amorphous_separated.
Print Assumptions AmorphousProps.C45_periodic_separation_refuted.
Print Assumptions AmorphousProps.C45_periodic_separation_partial.
Print Assumptions AmorphousProps.C46_batched_separated.
Print Assumptions AmorphousProps.C47_minimum_image.
Print Assumptions AmorphousProps.C48_voxel_neighbours.
Print Assumptions AmorphousProps.C48_neighbourhood_symmetric.
Print Assumptions MiscProps.C49_splits_separated.
Print Assumptions MiscProps.C50_splits_terminate_refuted.
Print Assumptions MiscProps.C50_splits_terminate_partial.
Print Assumptions TransformProps.C51_round_away.
Print Assumptions TransformProps.C51_bracket.
Print Assumptions AmorphousProps.C52_sdist_always_refuted.
Print Assumptions AmorphousProps.C52_sdist_always_partial.
Print Assumptions RdfProps.C53_rdf_counts_refuted.
Print Assumptions RdfProps.C53_flat_refuted.
