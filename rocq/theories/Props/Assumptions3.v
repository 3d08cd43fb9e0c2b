(** Prints what the theorems named in MANIFEST.json rest on, part 3 of 4. *)
From Verif.Props Require Import AlgNanProps AlgShapeProps AmorphHistory AngleProps CollectProps FloatProps FloatSupplyProps MolArrayProps MolSceneProps MolShareProps MotionProps PartsProps PrefabObjProps SettingsProps SharingProps StrainProps TransformObjProps UnitCellProps ViewProps WholeProps WurtziteProps.

Print Assumptions WurtziteProps.C101_wurtzite_grains.
Print Assumptions WurtziteProps.C102_wurtzite_builds.
Print Assumptions CollectProps.C103_iterator_refuted.
Print Assumptions CollectProps.C103_added_partial.
Print Assumptions CollectProps.C103_history_partial.
Print Assumptions CollectProps.C103_effect_partial.
Print Assumptions CollectProps.C103_constructors_refuse_partial.
Print Assumptions CollectProps.C103_iterator_wrong_partial.
Print Assumptions CollectProps.C104_scene_holds.
Print Assumptions CollectProps.C105_iterator_refuted.
Print Assumptions CollectProps.C105_every_part_partial.
Print Assumptions CollectProps.C105_single_refused.
Print Assumptions FloatProps.C106_surface.
Print Assumptions FloatProps.C106_volume.
Print Assumptions FloatProps.C106_agrees.
Print Assumptions FloatProps.C106_no_gap.
Print Assumptions FloatProps.C106_sphere_band.
Print Assumptions FloatProps.C106_plane_band.
Print Assumptions FloatProps.C106_accurate.
Print Assumptions StrainProps.C107_notation.
Print Assumptions StrainProps.C107_constructed.
Print Assumptions StrainProps.C107_refused.
Print Assumptions StrainProps.C107_history.
Print Assumptions StrainProps.C108_origin.
Print Assumptions StrainProps.C108_no_origin.
Print Assumptions StrainProps.C108_populated.
Print Assumptions StrainProps.C108_others.
Print Assumptions AmorphHistory.C109_history.
Print Assumptions AmorphHistory.C109_refused.
Print Assumptions AmorphHistory.C109_reuse_ignores_settings.
Print Assumptions TransformObjProps.C110_unset.
Print Assumptions TransformObjProps.C110_column_refuted.
Print Assumptions TransformObjProps.C110_translates_partial.
Print Assumptions TransformObjProps.C110_column_wrong_partial.
Print Assumptions TransformObjProps.C110_accepted.
Print Assumptions TransformObjProps.C111_last_values.
Print Assumptions TransformObjProps.C111_rotation_rigid.
Print Assumptions TransformObjProps.C111_inversion.
Print Assumptions TransformObjProps.C111_refused.
Print Assumptions TransformObjProps.C112_origin_refuted.
Print Assumptions TransformObjProps.C112_flat_normal_refuted.
Print Assumptions TransformObjProps.C112_mirror_partial.
Print Assumptions TransformObjProps.C112_unset.
Print Assumptions UnitCellProps.C113_hexagonal_refuted.
Print Assumptions UnitCellProps.C113_orthogonal_partial.
Print Assumptions UnitCellProps.C113_rows_partial.
Print Assumptions UnitCellProps.C113_volume_partial.
Print Assumptions UnitCellProps.C114_number_overrides_refuted.
Print Assumptions UnitCellProps.C114_single_partial.
Print Assumptions UnitCellProps.C114_symbol_wins.
Print Assumptions FloatSupplyProps.C115_complete.
Print Assumptions FloatSupplyProps.C115_sound.
Print Assumptions FloatSupplyProps.C115_once.
Print Assumptions FloatSupplyProps.C115_positions.
Print Assumptions MolArrayProps.C116_rows_partial.
Print Assumptions MolArrayProps.C116_update_partial.
Print Assumptions MolArrayProps.C116_species_partial.
Print Assumptions MolArrayProps.C116_reading_order.
Print Assumptions MolArrayProps.C116_transposed_refuted.
Print Assumptions MolArrayProps.C116_fraction_refuted.
Print Assumptions SharingProps.C117_copied_partial.
Print Assumptions SharingProps.C117_left_alone_partial.
Print Assumptions SharingProps.C117_rotation_refuted.
Print Assumptions SharingProps.C117_plane_refuted.
Print Assumptions WholeProps.C118_adding_is_local.
Print Assumptions PartsProps.C119_parts_make_whole.
Print Assumptions PartsProps.C119_cut_and_joined.
Print Assumptions PartsProps.C119_equal_priorities_refuted.
Print Assumptions PartsProps.C120_same_crystal_same_atoms.
Print Assumptions PartsProps.C120_lattice_shift.
Print Assumptions PartsProps.C120_site_order.
Print Assumptions MotionProps.C121_scene_moves.
Print Assumptions ViewProps.C122_view_shows_scene.
Print Assumptions ViewProps.C122_view_shows_points.
Print Assumptions ViewProps.C123_bounds.
Print Assumptions ViewProps.C123_refused.
Print Assumptions ViewProps.C123_cell.
Print Assumptions MolSceneProps.C123_default_bounds.
Print Assumptions MolSceneProps.C123_given_bounds.
Print Assumptions ViewProps.C124_volume_export.
Print Assumptions ViewProps.C124_molecule_export.
Print Assumptions ViewProps.C124_unpopulated.
Print Assumptions ViewProps.C124_pymatgen.
Print Assumptions PrefabObjProps.C125_settings.
Print Assumptions PrefabObjProps.C125_refused.
Print Assumptions PrefabObjProps.C125_build_uses_last.
Print Assumptions PrefabObjProps.C125_new.
Print Assumptions PrefabObjProps.C125_defaults.
Print Assumptions PrefabObjProps.C126_defect_types.
Print Assumptions PrefabObjProps.C126_pure.
Print Assumptions PrefabObjProps.C126_no_defects.
Print Assumptions PrefabObjProps.C127_first_axis.
Print Assumptions PrefabObjProps.C127_second_axis_partial.
Print Assumptions PrefabObjProps.C127_refused.
Print Assumptions PrefabObjProps.C127_default_axis_refuted.
Print Assumptions AngleProps.C128_angle.
Print Assumptions AngleProps.C128_no_angle.
Print Assumptions AngleProps.C128_laws.
Print Assumptions AlgShapeProps.C129_sphere_partial.
Print Assumptions AlgShapeProps.C129_sphere_shapes.
Print Assumptions AlgShapeProps.C129_column_refuted.
Print Assumptions AlgShapeProps.C129_plane_partial.
Print Assumptions AlgShapeProps.C129_plane_shapes_refuted.
Print Assumptions AlgShapeProps.C129_plane_table.
Print Assumptions AlgShapeProps.C129_cylinder.
Print Assumptions AlgShapeProps.C129_refused_unchanged.
Print Assumptions AlgShapeProps.C129_refusals.
Print Assumptions AlgNanProps.C130_empty_partial.
Print Assumptions AlgNanProps.C130_infinite_direction_partial.
Print Assumptions AlgNanProps.C130_refused_partial.
Print Assumptions AlgNanProps.C130_accepted_refuted.
Print Assumptions AlgNanProps.C130_finite.
Print Assumptions AlgNanProps.C130_infinite_sphere.
Print Assumptions SettingsProps.C131_settings.
Print Assumptions SettingsProps.C131_refused.
Print Assumptions SettingsProps.C131_ints.
Print Assumptions SettingsProps.C131_priority_refuted.
Print Assumptions SettingsProps.C131_tolerance_refuted.
Print Assumptions SettingsProps.C131_made.
Print Assumptions SettingsProps.C131_molecule_ever.
Print Assumptions MolShareProps.C132_copied_partial.
