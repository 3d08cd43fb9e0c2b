(** Prints what the theorems named in MANIFEST.json rest on, part 4 of 4. *)
From Verif.Props Require Import CloudProps ComplexProps DriftFillProps DriftProps DriftSurfProps FloatAmorphProps FloatAngleProps FloatBatchProps FloatRotProps FloatSceneProps GenObjProps GroupProps MatNanProps MolOriginProps MolSceneProps MolShareProps NormalProps RankProps RenumberProps SceneRunProps StopProps StrainObjProps TransAbortProps UndoProps VolumeObjProps WulffObjProps.

Print Assumptions MolShareProps.C132_left_alone_partial.
Print Assumptions MolShareProps.C132_orientation_refuted.
Print Assumptions MolShareProps.C132_atoms_shared_refuted.
Print Assumptions MolShareProps.C132_parted_partial.
Print Assumptions MolShareProps.C132_old_arrays_kept_partial.
Print Assumptions MolShareProps.C132_origin_point_partial.
Print Assumptions MolShareProps.C132_origin_atom_refuted.
Print Assumptions GenObjProps.C133_history_partial.
Print Assumptions GenObjProps.C133_refused_partial.
Print Assumptions GenObjProps.C133_structure_refuted.
Print Assumptions GenObjProps.C133_no_voxel.
Print Assumptions GenObjProps.C133_supplies_partial.
Print Assumptions GenObjProps.C133_order.
Print Assumptions GenObjProps.C133_structure_resets.
Print Assumptions GenObjProps.C133_complete.
Print Assumptions GenObjProps.C133_moves.
Print Assumptions GenObjProps.C133_remembers.
Print Assumptions StrainObjProps.C134_settings.
Print Assumptions StrainObjProps.C134_used_partial.
Print Assumptions StrainObjProps.C134_origin_refuted.
Print Assumptions StrainObjProps.C134_assigned_origin_refuted.
Print Assumptions StrainObjProps.C134_freed_partial.
Print Assumptions StrainObjProps.C134_refused.
Print Assumptions StrainObjProps.C134_made.
Print Assumptions VolumeObjProps.C135_interior_partial.
Print Assumptions VolumeObjProps.C135_generator.
Print Assumptions VolumeObjProps.C135_refused.
Print Assumptions VolumeObjProps.C135_later_points_refuted.
Print Assumptions VolumeObjProps.C135_no_hull_refuted.
Print Assumptions VolumeObjProps.C135_assign_refuted.
Print Assumptions FloatSceneProps.C136_complete.
Print Assumptions FloatSceneProps.C136_sound.
Print Assumptions FloatSceneProps.C136_once.
Print Assumptions WulffObjProps.C137_any_history.
Print Assumptions WulffObjProps.C137_determined.
Print Assumptions NormalProps.C138_weights.
Print Assumptions NormalProps.C138_bond_length.
Print Assumptions NormalProps.C139_points_away_refuted.
Print Assumptions NormalProps.C139_last_of_ten_partial.
Print Assumptions MolOriginProps.C140_new_origin_refuted.
Print Assumptions MolOriginProps.C140_removal_partial.
Print Assumptions MolOriginProps.C141_origin.
Print Assumptions MolOriginProps.C141_determined.
Print Assumptions MolSceneProps.C142_molecules_take_no_space.
Print Assumptions SceneRunProps.C143_failed_populate_refuted.
Print Assumptions SceneRunProps.C143_left_behind_partial.
Print Assumptions SceneRunProps.C143_group_left_behind_partial.
Print Assumptions SceneRunProps.C143_masks_partial.
Print Assumptions SceneRunProps.C143_nothing_to_read_partial.
Print Assumptions SceneRunProps.C143_populate_recovers_partial.
Print Assumptions TransAbortProps.C144_retry_refuted.
Print Assumptions TransAbortProps.C144_parts_drift_refuted.
Print Assumptions TransAbortProps.C144_left_behind_partial.
Print Assumptions TransAbortProps.C144_multivolume_partial.
Print Assumptions TransAbortProps.C144_reflection_partial.
Print Assumptions FloatRotProps.C145_same_direction_refuted.
Print Assumptions FloatRotProps.C145_misaligned_refuted.
Print Assumptions FloatRotProps.C145_itself_partial.
Print Assumptions FloatRotProps.C145_opposite_partial.
Print Assumptions FloatRotProps.C145_whole_partial.
Print Assumptions FloatRotProps.C145_rotation_partial.
Print Assumptions FloatRotProps.C145_accurate_partial.
Print Assumptions FloatAngleProps.C146_itself_refuted.
Print Assumptions FloatAngleProps.C146_close_partial.
Print Assumptions FloatAngleProps.C146_accurate_partial.
Print Assumptions FloatAngleProps.C147_collinear_refuted.
Print Assumptions FloatAngleProps.C147_independent_partial.
Print Assumptions FloatAngleProps.C147_whole_partial.
Print Assumptions FloatAmorphProps.C148_index_refuted.
Print Assumptions FloatAmorphProps.C148_separation_refuted.
Print Assumptions FloatAmorphProps.C148_separated_partial.
Print Assumptions FloatAmorphProps.C148_no_error_partial.
Print Assumptions FloatBatchProps.C149_separation_refuted.
Print Assumptions FloatBatchProps.C149_index_refuted.
Print Assumptions FloatBatchProps.C149_separated_partial.
Print Assumptions GroupProps.C150_twice_refuted.
Print Assumptions GroupProps.C150_molecule_refuted.
Print Assumptions GroupProps.C150_second_copy_partial.
Print Assumptions GroupProps.C151_grouping_refuted.
Print Assumptions GroupProps.C151_grouping_partial.
Print Assumptions GroupProps.C151_alone.
Print Assumptions MatNanProps.C152_rotation.
Print Assumptions MatNanProps.C152_rotation_exact.
Print Assumptions MatNanProps.C152_orientation_refuted.
Print Assumptions MatNanProps.C152_orientation_partial.
Print Assumptions MatNanProps.C152_orientation_exact.
Print Assumptions MatNanProps.C152_bases_refuted.
Print Assumptions MatNanProps.C152_bases_partial.
Print Assumptions RenumberProps.C153_order_only.
Print Assumptions StopProps.C154_first_rest.
Print Assumptions RankProps.C155_larger_number.
Print Assumptions UndoProps.C156_undo_refuted.
Print Assumptions UndoProps.C156_points_partial.
Print Assumptions UndoProps.C156_restored_partial.
Print Assumptions UndoProps.C156_rigid_partial.
Print Assumptions CloudProps.C157_moved.
Print Assumptions CloudProps.C157_called_again.
Print Assumptions CloudProps.C157_order_refuted.
Print Assumptions CloudProps.C157_order_error_refuted.
Print Assumptions CloudProps.C157_order_partial.
Print Assumptions CloudProps.C157_tail_order_partial.
Print Assumptions CloudProps.C157_small_order_partial.
Print Assumptions ComplexProps.C158_tetrahedra.
Print Assumptions ComplexProps.C158_points.
Print Assumptions ComplexProps.C158_similarities.
Print Assumptions ComplexProps.C158_translated.
Print Assumptions DriftProps.C159_drift.
Print Assumptions DriftProps.C159_accepted.
Print Assumptions DriftProps.C159_rigid.
Print Assumptions DriftProps.C159_undone.
Print Assumptions DriftProps.C160_crystal.
Print Assumptions DriftSurfProps.C161_surface.
Print Assumptions DriftSurfProps.C161_decides.
Print Assumptions DriftSurfProps.C161_volume.
Print Assumptions DriftSurfProps.C161_accepted.
Print Assumptions DriftSurfProps.C161_rigid_turn.
Print Assumptions DriftFillProps.C162_filled.
Print Assumptions DriftFillProps.C162_rigid.
