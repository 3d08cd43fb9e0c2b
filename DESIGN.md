# Formal model of lerandc/construction_zone in Rocq

## 1. Approach

* The Python sources in /repo/czone are transcribed function by function into Gallina
  (`rocq/theories/Model/*.v`).  Every definition cites file and lines; a simplification is stated in the
  same comment.
* Positions are triples of Coq reals (`R`); numpy's binary64 arithmetic is modelled by exact real
  arithmetic, except in the `Model/Float*.v` files, which round every operation: interior tests and supply_atoms (`Float.v`), populating scenes (`FloatScene.v`), transformations (`FloatMove.v`), rot_vtv (`FloatRot.v`), the collinearity test (`FloatAngle.v`) and the two amorphous algorithms (`FloatAmorph.v`, `FloatBatch.v`).  Discrete parts (priorities, indices, voxels, species, histories) are `nat`, `Z`, lists.
* Exceptions are values: `res A := Ok a | Err e`.  Where the state left behind by an exception matters
  the model returns the state as well (`*_st` functions).
* Object identity (who shares what with whom) is modelled by a heap of objects with references
  (`Model/Heap.v`); the other files use values.
* Randomness is an explicit stream of draws, quantified universally in the theorems.
* Third-party numerics (scipy Delaunay/find_simplex, linprog, HalfspaceIntersection, numpy RNG, ASE writers,
  pymatgen, wulffpack) enter as explicit arguments, never as axioms.
* Loops that need not terminate consume an explicit list of draws and return `Err NeedMore` when it is exhausted.
* `Spec/*.v` holds small specifications that do not use the model's helpers.
* `Proofs/*.v` holds lemmas, `Props/*.v` the theorems for the properties, with examples (`*_nonvacuous`) showing
  that a concrete case meets the hypotheses.
* When the property as users expect it is false of the code, a theorem with the suffix `_refuted`
  gives a witness (or, where the failure is universal, says so for every input); the part that is true is
  proved beside it with the suffix `_partial` (or with a plain name when it is a complete claim of its own).
  Such a property has status "partial" in MANIFEST.json.

## 2. Trusted base

* Coq 8.16.1's kernel.  No kernel check is switched off, no axiom is declared, nothing is admitted, no
  functors or module types are defined, no plugins are used.
* The standard library axioms listed below, which the classical reals bring in.  mathcomp, Iris and std++
  are not used; Flocq's definitions of floor, ceiling and rounding to even on reals are used, which rest on the same axioms.
* The transcription from Python to Gallina, done by hand, including the behaviour ascribed to numpy
  (broadcasting, truthiness of arrays, sort stability, boolean masks) in the comments.

### Print Assumptions, per theorem

The classes below are exactly the lists that `Print Assumptions` prints (the files `Props/Assumptions1.v` to `Assumptions4.v` print all of them during the build).

* class A: closed under the global context (no axioms)
* class B: `ClassicalDedekindReals.sig_forall_dec`
* class C: `ClassicalDedekindReals.sig_forall_dec`, `FunctionalExtensionality.functional_extensionality_dep`
* class D: `ClassicalDedekindReals.sig_forall_dec`, `ClassicalDedekindReals.sig_not_dec`, `FunctionalExtensionality.functional_extensionality_dep`
* class E: `ClassicalDedekindReals.sig_forall_dec`, `ClassicalDedekindReals.sig_not_dec`, `Classical_Prop.classic`, `FunctionalExtensionality.functional_extensionality_dep`

## 3. Properties

For each property: how it is modelled and proved, its status, the theorems (with the file in `Props/` and the assumption class in brackets), and what the status means.

* **C01 Scene precedence is exact** - generic priority resolution (sort, unique, levels, offsets, masks) over lists; proof by counting in a stable sorted list.
  - status: proved. Exact owner of every point, for all object lists, priorities and insertion histories.
  - theorems: `C01_scene_precedence_exact` (SceneProps, D)
* **C02 No double occupancy of overlaps** - corollary of the exact characterisation, stated on two indexed objects.
  - status: proved
  - theorems: `C02_contribution_exact` (SceneProps, D), `C02_no_double_occupancy` (SceneProps, D)
* **C03 Scene contents do not depend on insertion order** - Permutation argument over the order-free specification list.
  - status: proved
  - theorems: `C03_insertion_order_irrelevant` (SceneProps, D), `C03_listing_order` (SceneProps, D)
* **C04 Populate is idempotent and keeps positions and species aligned** - stable sort is idempotent; masks of equal length.
  - status: proved
  - theorems: `C04_populate_idempotent` (SceneProps, D), `C04_positions_species_aligned` (SceneProps, D)
* **C05 MultiVolume: union interior and internal precedence, at any nesting depth** - inductive tree of volumes; nested induction.
  - status: proved
  - theorems: `C05_interior_is_union` (VolumeProps, D), `C05_multivolume_precedence` (VolumeProps, D), `C05_atoms_come_from_leaves` (VolumeProps, D)
* **C06 A scene can be read after it changes** - state machine add/populate/read with the cached mask list; expected refutation.
  - status: partial. False as stated: reads after an add return the stale result. Proved for reads that follow a populate.
  - theorems: `C06_read_after_add_refuted` (SceneProps, D), `C06_read_after_repopulate_partial` (SceneProps, D)
* **C07 Scene.to_file writes the scene** - keyword list -> list of writer calls; expected refutation of the full statement, characterisation of when it writes.
  - status: partial. to_file can write twice or not at all; exactly characterised.
  - theorems: `C07_to_file_characterised` (SceneProps, D), `C07_to_file_writes_once_refuted` (SceneProps, D), `C07_to_file_partial` (SceneProps, D), `C07_image` (SceneProps, C)
* **C08 Empty objects carve voids** - instance of C01 with an empty atom list.
  - status: proved
  - theorems: `C08_void_carves_exactly` (SceneProps, D)
* **C09 Volume.populate_atoms keeps exactly the supplied atoms that are interior** - mask compression of parallel arrays.
  - status: proved
  - theorems: `C09_populate_keeps_interior` (VolumeProps, D)
* **C10 Crystal volumes are completely filled** - coverage (C35) + bounding boxes (C12, C13, C54) + exactness (C09, C36).
  - status: proved. Relative to exact Qhull membership (hypotheses of the point-bounded case).
  - theorems: `C10_crystal_volume_filled` (GeneratorProps, D), `C10_sphere_bounded_filled` (GeneratorProps, D), `C10_cylinder_bounded_filled` (GeneratorProps, D), `C10_point_bounded_filled` (GeneratorProps, D)
* **C11 Polyhedral (plane-bounded) volumes can be populated** - bounding box result as a sum type (array / tuple / None); expected refutation, universally quantified.
  - status: partial. False as stated: a volume bounded by planes alone has no box and populate fails. With an enclosing sphere added it holds.
  - theorems: `C11_plane_bounded_populate_refuted` (VolumeProps, D), `C11_with_sphere_partial` (RestProps, D)
* **C12 Cylinder bounding box contains the cylinder** - real geometry; proof for axes not parallel to (1,1,1), refutation otherwise.
  - status: partial. Box is NaN for an axis along (1,1,1); encloses the cylinder for every other axis.
  - theorems: `C12_cylinder_box_refuted` (BoxProps, D), `C12_cylinder_box_partial` (BoxProps, D)
* **C13 Sphere bounding box contains the sphere and uses the smallest sphere** - real geometry, stable selection of the minimum.
  - status: proved
  - theorems: `C13_sphere_box` (BoxProps, D)
* **C14 Volumes defined by points can be transformed** - points setter modelled with its np.append shape error; expected refutation, universal.
  - status: partial. False as stated: transforming a volume with points raises. A new volume built from the transformed points does have the image as its interior.
  - theorems: `C14_point_volume_transform_refuted` (VolumeProps, D), `C14_rebuilt_partial` (RestProps, D)
* **C15 Adding points enlarges the interior** - triangulation point list kept as separate state; expected refutation.
  - status: partial
  - theorems: `C15_add_points_refuted` (VolumeProps, D), `C15_added_point_outside_refuted` (VolumeProps, D), `C15_add_points_partial` (VolumeProps, D)
* **C16 from_volume is a faithful copy** - record copy; expected refutation for tolerance; interior equality on algebraic volumes.
  - status: partial. The tolerance is not copied and a volume without generator cannot be copied.
  - theorems: `C16_from_volume_partial` (VolumeProps, D), `C16_from_volume_transformations` (VolumeProps, D), `C16_tolerance_refuted` (VolumeProps, D), `C16_copy_without_generator_refuted` (VolumeProps, D)
* **C17 Volume interior is the intersection of its parts** - boolean conjunction over a list, hull test as oracle.
  - status: proved
  - theorems: `C17_interior_is_intersection` (VolumeProps, D), `C17_interior_of_point_volume` (VolumeProps, D), `C17_order_irrelevant` (VolumeProps, D), `C17_adding_only_removes` (VolumeProps, D), `C17_unbounded_volume` (VolumeProps, D), `C17_batch_is_pointwise` (VolumeProps, D)
* **C18 Rigid motions commute with interiority** - induction over transform sequences, per-object isometry lemmas.
  - status: proved
  - theorems: `C18_rigid_motion_of_object` (AlgebraicProps, D), `C18_rigid_motion_of_volume` (VolumeProps, D), `C18_rigid_motion_of_multivolume` (VolumeProps, D)
* **C19 Reflections can be applied to algebraic objects** - universal refutation.
  - status: partial. False: the code does not reflect planes and cylinders. The partial theorem: a MatrixTransform with the matrix and origin of the Reflection does mirror every surface.
  - theorems: `C19_reflection_of_object_refuted` (AlgebraicProps, A), `C19_reflection_in_sequence_refuted` (AlgebraicProps, D), `C19_mirror_matrix_partial` (RestProps, D)
* **C20 General matrix transforms move algebraic interiors** - counterexamples; positive part is C18.
  - status: partial
  - theorems: `C20_general_matrix_refuted` (AlgebraicProps, D), `C20_general_matrix_partial` (AlgebraicProps, D)
* **C21 Plane distance and projection laws** - vector algebra.
  - status: proved. Projection is stated for Nx3 arrays: for a single point of shape (3,) project_point raises IndexError, which is what breaks s2s_alignment (C32).
  - theorems: `C21_projection_laws` (AlgebraicProps, D), `C21_distance_laws` (AlgebraicProps, D), `C21_flip` (AlgebraicProps, D)
* **C22 Algebraic objects are always valid** - invariant over a transition system of setters/transforms.
  - status: proved
  - theorems: `C22_always_valid` (AlgebraicProps, D), `C22_setters_exact` (AlgebraicProps, D), `C22_constructors_exact` (AlgebraicProps, D)
* **C23 Sphere and cylinder interiors are the padded ball and padded finite cylinder** - vector algebra (Lagrange identity).
  - status: proved
  - theorems: `C23_sphere_interior_is_ball` (AlgebraicProps, D), `C23_cylinder_interior` (AlgebraicProps, D)
* **C24 convex_hull_to_planes faces inward** - convexity; Delaunay facets are an argument.
  - status: partial. Fails for hulls thinner than the tolerance.
  - theorems: `C24_thin_hull_refuted` (AlgebraicProps, D), `C24_hull_planes_face_inward_partial` (AlgebraicProps, D), `C24_succeeds` (AlgebraicProps, D)
* **C25 get_bounding_box of planes finds non-empty regions** - counterexample polytope; linprog specified by its documented default bounds.
  - status: partial. linprog's default non-negativity bounds make regions in the negative octants look empty; true when the shifted region meets the positive octant; and when status 0 is reported for a bounded region, the returned points are its corners.
  - theorems: `C25_negative_octant_refuted` (TransformProps, D), `C25_bounding_box_partial` (TransformProps, D), `C25_vertices_partial` (RegionProps, D)
* **C26 snap_plane_near_point returns a lattice plane** - integrality proof, nearest for single index, refutations for shifted origin and multi-index.
  - status: partial. The point is not shifted by the generator's origin; proved in full for generators at the coordinate origin.
  - theorems: `C26_snap_plane_partial` (TransformProps, D), `C26_origin_refuted` (TransformProps, D), `C26_multi_index_refuted` (TransformProps, D)
* **C27 MultiTransform is sequential composition on points, bases and objects** - induction on sequences.
  - status: proved
  - theorems: `C27_sequential_composition` (TransformProps, D), `C27_nesting_irrelevant` (TransformProps, D), `C27_concatenation` (TransformProps, D)
* **C28 Transforming a generator by a MultiTransform equals transforming step by step** - induction for uniform flags, counterexample for mixed flags.
  - status: partial
  - theorems: `C28_sequence_at_once_refuted` (GeneratorProps, D), `C28_sequence_at_once_partial` (GeneratorProps, D)
* **C29 Reflection is the mirror image** - vector algebra.
  - status: proved
  - theorems: `C29_reflection_is_mirror` (TransformProps, D)
* **C30 rot_vtv aligns one vector with another** - Rodrigues matrix algebra + acos; counterexample for the negative axis.
  - status: partial. NaN for opposite directions along a coordinate axis; exact whenever the directions are parallel, exactly opposite with a usable fallback axis, or separated by at least machine epsilon.
  - theorems: `C30_rot_vtv_refuted` (TransformProps, E), `C30_always_rotation` (TransformProps, E), `C30_aligns_partial` (TransformProps, E), `C30_parallel` (TransformProps, E), `C30_antiparallel_partial` (TransformProps, E)
* **C31 rot_zxz intrinsic and extrinsic conventions agree** - matrix algebra; expected refutation.
  - status: partial. The extrinsic branch passes its angles in the wrong order.
  - theorems: `C31_extrinsic_refuted` (TransformProps, D), `C31_extrinsic_partial` (TransformProps, D), `C31_rotation_and_intrinsic_partial` (TransformProps, D)
* **C32 s2s_alignment returns an alignment** - array shapes as a sum type; universal refutation.
  - status: partial. No call returns: refuted for every input. The partial theorem says what is left behind: for planes that are not nearly parallel the caller's moving plane has been turned to face the target.
  - theorems: `C32_s2s_alignment_refuted` (TransformProps, E), `C32_argument_mutated_refuted` (TransformProps, E), `C32_planes_face_partial` (RestProps, E)
* **C33 Accepted rotation matrices are near-isometries** - Cauchy-Schwarz argument from M.M^T to M^T.M.
  - status: proved
  - theorems: `C33_near_isometry` (TransformProps, C), `C33_distances` (TransformProps, D), `C33_exact_rotations_accepted` (TransformProps, C)
* **C34 Rigid motions are invertible isometries on points** - vector algebra.
  - status: proved
  - theorems: `C34_isometries` (TransformProps, D), `C34_inverses` (TransformProps, D)
* **C35 supply_atoms covers the requested region** - convex hull as explicit convex combinations; floor/ceil bounds.
  - status: proved. For site coordinates in [0,1); see C76 for the others.
  - theorems: `C35_supply_covers_box` (GeneratorProps, C)
* **C36 supply_atoms returns only crystal sites, each once, with the right species** - list membership / NoDup over integer ranges.
  - status: proved
  - theorems: `C36_supply_sites_once` (GeneratorProps, C)
* **C37 Transforming a generator moves its crystal** - affine algebra with the scale variants.
  - status: partial
  - theorems: `C37_transform_moves_crystal_partial` (GeneratorProps, D), `C37_row_scaled_refuted` (GeneratorProps, D)
* **C38 Supplied atoms sit on the structure's lattice** - counterexample; positive for symmetric lattice matrices.
  - status: partial
  - theorems: `C38_structure_lattice_refuted` (GeneratorProps, D), `C38_structure_lattice_partial` (GeneratorProps, D)
* **C39 Accepted voxel bases are linearly independent** - counterexamples; what the check does guarantee.
  - status: partial
  - theorems: `C39_accepted_bases_refuted` (GeneratorProps, D), `C39_accepted_bases_partial` (GeneratorProps, D)
* **C40 Homogeneous strain is linear about its origin** - matrix algebra; expected refutation for the mode setter.
  - status: partial
  - theorems: `C40_modes_refuted` (GeneratorProps, A), `C40_strain_laws_partial` (GeneratorProps, C)
* **C41 Strained crystals also fill the volume** - counterexample; positive when the strain is the identity.
  - status: partial
  - theorems: `C41_strained_fill_refuted` (GeneratorProps, C), `C41_strained_fill_partial` (GeneratorProps, C)
* **C42 AmorphousGenerator fills the requested region at the requested density** - state machine with cache; refutations and what holds.
  - status: partial. False as stated: the density attribute is never used and the block is placed at the origin. The partial theorem gives number, species, separation and reuse.
  - theorems: `C42_amorphous_fills_box_refuted` (AmorphousProps, C), `C42_amorphous_fills_box_partial` (AmorphousProps, D), `C42_density_ignored` (AmorphousProps, C)
* **C43 IStrain can be constructed** - universal refutation.
  - status: partial. The constructor fails for every input.
  - theorems: `C43_istrain_construction_refuted` (GeneratorProps, A)
* **C44 Amorphous blocks respect the minimum bond distance** - invariant over every stream of draws, voxel adjacency lemma.
  - status: proved. For any stream of draws on which the call returns.
  - theorems: `C44_amorphous_separated` (AmorphousProps, D)
* **C45 Amorphous blocks respect periodic boundaries** - counterexample; proof when box is a multiple of min_dist.
  - status: partial. False unless the x and y sizes are multiples of min_dist, which is the partial theorem.
  - theorems: `C45_periodic_separation_refuted` (AmorphousProps, D), `C45_periodic_separation_partial` (AmorphousProps, D)
* **C46 Batched amorphous generation respects the minimum bond distance** - invariant over every stream of batches.
  - status: proved
  - theorems: `C46_batched_separated` (AmorphousProps, D)
* **C47 Periodic distance is the minimum-image distance** - min over integer images.
  - status: proved
  - theorems: `C47_minimum_image` (AmorphousProps, D)
* **C48 get_voxel_grid lists exactly the neighbours** - index arithmetic on Z (div/mod).
  - status: proved
  - theorems: `C48_voxel_neighbours` (AmorphousProps, A), `C48_neighbourhood_symmetric` (AmorphousProps, A)
* **C49 get_N_splits returns separated sorted indices** - invariant over draws.
  - status: proved
  - theorems: `C49_splits_separated` (MiscProps, A)
* **C50 get_N_splits terminates or raises** - reachability of a finishing state; refutation of the guard.
  - status: partial. False in the boundary case l-2m=(n-1)m, which passes the check but loops forever for every stream; the partial theorem classifies all other requests.
  - theorems: `C50_splits_terminate_refuted` (MiscProps, A), `C50_splits_terminate_partial` (MiscProps, A)
* **C51 round_away rounds away from zero** - floor/ceil.
  - status: proved
  - theorems: `C51_round_away` (TransformProps, C), `C51_bracket` (TransformProps, C)
* **C52 get_sdist_fun works for every periodicity choice** - case analysis; expected refutation for the default arguments.
  - status: partial. Without a box size the function raises IndexError even with no periodic direction.
  - theorems: `C52_sdist_always_refuted` (AmorphousProps, A), `C52_sdist_always_partial` (AmorphousProps, D)
* **C53 calc_rdf counts every pair** - counterexample(s), universal IndexError on sparse inputs.
  - status: partial. False: the neighbour table is indexed with the voxel of the i-th particle, so the call fails with fewer particles than voxels, and a flat or linear configuration has no voxels and counts nothing. Proved for non-periodic configurations whose extents are not multiples of the cutoff when the i-th particle lies in voxel i, which covers every configuration smaller than the cutoff. Bin 0 is always reset to zero by the code.
  - theorems: `C53_rdf_counts_refuted` (RdfProps, D), `C53_flat_refuted` (RdfProps, D), `C53_sparse_refuted` (RdfProps, D), `C53_rdf_counts_partial` (RdfProps, D), `C53_small_cluster_partial` (RdfProps, D)
* **C54 makeRectPrism is the rectangular box** - convex hull of corners.
  - status: proved
  - theorems: `C54_prism_is_box` (BoxProps, C), `C54_centred_prism_is_box` (BoxProps, C)
* **C55 Chemical substitution only substitutes targets** - list induction.
  - status: proved. Draws are any reals in [0,1).
  - theorems: `C55_substitution` (PostProps, C), `C55_reproducible` (PostProps, C)
* **C56 PostSequence applies its members in order** - induction.
  - status: proved
  - theorems: `C56_sequence` (PostProps, C), `C56_pairing` (PostProps, C)
* **C57 Molecules always have one species per position** - invariant over command histories.
  - status: partial. The pairing holds after any history. The last clause is false in one case: set_origin with an index out of range raises but leaves the molecule tracking an atom without an index, and the next transform moves the atoms and then raises AttributeError while formatting its warning (C57_failed_call_refuted; print_warnings at its default). C57_failed_call_partial: this is the only case.
  - theorems: `C57_paired` (MoleculeProps, C), `C57_failed_call_partial` (MoleculeProps, C), `C57_failed_call_refuted` (MoleculeProps, C)
* **C58 The origin moves with the molecule** - induction over transform sequences.
  - status: proved
  - theorems: `C58_origin_moves` (MoleculeProps, C), `C58_origin_stays` (MoleculeProps, C)
* **C59 The tracked atom survives removals** - counterexample; positive when removed indices are larger.
  - status: partial. False: the tracked index is not adjusted when an earlier atom (later, for a negative index) is removed. The partial theorems cover the other removals.
  - theorems: `C59_tracked_origin_refuted` (MoleculeProps, C), `C59_tracked_origin_partial` (MoleculeProps, B), `C59_tracked_origin_end_partial` (MoleculeProps, B)
* **C60 remove_atoms removes exactly the given atoms** - list algebra.
  - status: proved
  - theorems: `C60_remove_exact` (MoleculeProps, A)
* **C61 A rejected origin leaves the molecule usable** - counterexample; characterisation.
  - status: partial. False: tracking is switched on before the index is checked, so a fixed origin is lost. True for molecules already tracking an atom.
  - theorems: `C61_rejected_origin_refuted` (MoleculeProps, C), `C61_rejected_origin_partial` (MoleculeProps, B)
* **C62 get_nearest_neighbors returns the ball of N_shells bonds** - walks in graphs made of tetrahedra.
  - status: partial. With surface_only=False the selection by the tuple np.nonzero returns adds a dimension: only the first four tetrahedra are read, and their vertices are joined by position.
  - theorems: `C62_shells_partial` (SurfaceProps, A), `C62_all_tetrahedra_refuted` (SurfaceProps, A), `C62_wrong_neighbours_refuted` (SurfaceProps, A)
* **C63 tetrahedron_circumradii is the circumradius** - field identities.
  - status: proved
  - theorems: `C63_circumsphere` (CircumProps, D), `C63_flat` (CircumProps, D), `C63_translation` (CircumProps, D), `C63_relabelling` (CircumProps, D)
* **C64 alpha_shape finds the surface** - adjacency model; refutation for missing vertices.
  - status: partial. Completeness is false for tetrahedra with two or more exposed faces (for instance a lone tetrahedron): their vertices are missed. Soundness, and completeness for tetrahedra with one exposed face, are proved.
  - theorems: `C64_surface_points_refuted` (SurfaceProps, D), `C64_surface_tetrahedra_partial` (SurfaceProps, D), `C64_returned_on_surface_partial` (SurfaceProps, D), `C64_single_face_partial` (SurfaceProps, D), `C64_no_repeats` (SurfaceProps, D)
* **C65 Adsorbates are placed rigidly at the bond length** - rigid-motion algebra.
  - status: proved
  - theorems: `C65_rigid_placement` (AdsorbateProps, E), `C65_add_adsorbate` (AdsorbateProps, E), `C65_placement_succeeds` (AdsorbateProps, E)
* **C66 The approximate surface normal is a unit vector** - loop with fuel = max_steps; counterexample.
  - status: partial. The initial guess is returned un-normalised when no point triggers an update.
  - theorems: `C66_unit_normal_refuted` (AdsorbateProps, D), `C66_unit_normal_partial` (AdsorbateProps, D), `C66_terminates` (AdsorbateProps, D)
* **C67 The adsorption site satisfies every filter** - fold over filters.
  - status: proved
  - theorems: `C67_candidates` (AdsorbateProps, A), `C67_target` (AdsorbateProps, E), `C67_unknown_key` (AdsorbateProps, A)
* **C68 Stacking-fault prefabs partition the host volume** - priority resolution applied to nested half-spaces.
  - status: partial. Proved for 0 <= N, 0 <= min_sep and hosts without points or with the default tolerance and an up to date triangulation. For a host with points and its own tolerance from_volume drops the tolerance and part of the host is lost (C68_tolerance_refuted).
  - theorems: `C68_fcc_partition_partial` (PrefabProps, D), `C68_wurtzite_partition_partial` (PrefabProps, D), `C68_tolerance_refuted` (PrefabProps, D)
* **C69 Defect planes are separated** - C49 + arithmetic progression.
  - status: proved. Stated for non-negative N and min_sep.
  - theorems: `C69_fcc_planes_separated` (PrefabProps, D), `C69_wurtzite_planes_separated` (PrefabProps, D)
* **C70 Wulff grains receive their own facets** - div arithmetic on lists.
  - status: proved. For n = 5 and n = 20 in particular. Facet normals are assumed to be unit vectors, as wulffpack returns them. A facet count that is not a multiple of n raises (ZeroDivisionError or IndexError).
  - theorems: `C70_facets_dealt` (WulffProps, D), `C70_only_multiples` (WulffProps, D)
* **C71 Wulff convenience constructors work** - universal refutation.
  - status: partial. False for every input: cls(generator, natoms) passes natoms as the surface energies (AttributeError); Cylinder(radius=1e-3) lacks three required arguments and _strain_from_111() lacks its points (TypeError). The direct constructor WulffSingle(generator, energies, natoms) works: C91.
  - theorems: `C71_convenience_refuted` (WulffProps, D), `C71_decahedron_refuted` (WulffProps, D), `C71_icosahedron_refuted` (WulffProps, D)
* **C72 Grain boundaries partition the volume** - C01 for two grains.
  - status: partial. False for hosts with points and their own tolerance: from_volume drops it, and points of the host are in neither grain. Proved for hosts without points or with the default tolerance and an up to date triangulation and a Plane as boundary.
  - theorems: `C72_tolerance_refuted` (PrefabMore, E), `C72_grain_boundary_partition_partial` (GrainProps, E)
* **C73 Volumes own private copies of generators and surfaces** - heap model with references, frame theorem over histories.
  - status: proved. Over all histories of calls, raising calls included, except that the caller does not assign a strain field by reference to a generator inside a volume (v.generator.strain_field = s); numpy arrays are values in the heap model.
  - theorems: `C73_volumes_isolated` (HeapProps, D), `C73_clients_isolated` (HeapProps, D), `C73_volumes_isolated_ever` (HeapProps, D), `C73_clients_isolated_ever` (HeapProps, D), `C73_new_objects_free` (HeapProps, D), `C73_added_surface` (HeapProps, D), `C73_added_generator` (HeapProps, D), `C73_volume_copies` (HeapProps, D), `C73_generator_copies` (HeapProps, D), `C73_populate_own` (HeapProps, D)
* **C74 Transforming a MultiVolume moves each member once** - heap model, refutation for shared members, proof for unshared.
  - status: partial. False when a volume occurs twice (add_volume does not check). C74_counts says exactly what happens: each volume is transformed as often as it occurs; once in particular without sharing, and always for copies made by from_volume.
  - theorems: `C74_refuted` (HeapProps, D), `C74_counts` (HeapProps, D), `C74_once_partial` (HeapProps, D), `C74_copies_once` (HeapProps, D)
* **C75 Any volume can be transformed by a locked transformation** - transforms carry a locked flag; populate of generators follows it; refutation for a locked sphere/points volume plus the cases that work.
  - status: partial. Amorphous and null generators have no transform method.
  - theorems: `C75_locked_transform_refuted` (VolumeProps, D), `C75_locked_transform_partial` (VolumeProps, D)
* **C76 Supplied atoms cover the region for every choice of site coordinates** - convex-combination argument of C35 with the site coordinates left free: coverage holds while sites are within a cell of the origin cell, refutation otherwise.
  - status: partial. False as stated; proved for site coordinates in the open interval (-1,1), which includes the unit cell.
  - theorems: `C76_sites_outside_cell_refuted` (GeneratorProps, C), `C76_near_cell_partial` (GeneratorProps, C)
* **C77 Batched amorphous blocks respect periodic boundaries** - invariant over batches for the periodic distance; counterexample when the box is not a multiple of the minimum distance.
  - status: partial. False when the last voxel along x or y is thinner than min_dist; proved otherwise.
  - theorems: `C77_batched_periodic_refuted` (AmorphousProps, D), `C77_batched_periodic_partial` (AmorphousProps, D)
* **C78 A zero substitution fraction changes nothing** - list reasoning over the draws of the random generator.
  - status: partial. False when a draw is exactly 0.
  - theorems: `C78_zero_fraction_refuted` (PostProps, C), `C78_zero_fraction_partial` (PostProps, C)
* **C79 The tracked atom cannot be removed** - the tracked index as Python index (negative allowed); refutation through negative indices, proof for the rest.
  - status: partial. False for an index written in the other (negative/positive) form.
  - theorems: `C79_tracked_atom_protected_refuted` (MoleculeProps, C), `C79_tracked_atom_protected_partial` (MoleculeProps, A)
* **C80 Sampling only adds tetrahedra to the alpha shape** - fold over an arbitrary list of samples; membership characterised by existence of a passing sample.
  - status: proved
  - theorems: `C80_sampling` (SurfaceProps, D), `C80_monotone` (SurfaceProps, D)
* **C81 The molecule's vector ends up along the surface normal** - rot_vtv (C30) composed with the placement; refutation at antiparallel directions.
  - status: partial. Proved when mol_vector is neither parallel nor antiparallel to the normal (up to machine epsilon); an exactly antiparallel vector makes the call fail with AssertionError.
  - theorems: `C81_orientation_refuted` (AdsorbateProps, E), `C81_orientation_partial` (AdsorbateProps, E)
* **C82 Rotating a molecule rotates its orientation** - record field unchanged by transform; universal refutation.
  - status: partial. transform never updates the stored orientation, for any transformation; a quarter turn is the concrete counterexample. C82_unturned_partial: directions between atoms keep their coordinates in the molecule's frame exactly when the transformation leaves them unturned, in particular for translations.
  - theorems: `C82_orientation_follows_refuted` (AdsorbateProps, C), `C82_quarter_turn_refuted` (AdsorbateProps, C), `C82_unturned_partial` (AdsorbateProps, C)
* **C83 calc_rdf leaves its argument unchanged** - the input array is returned as part of the result of the model of calc_rdf; refutation.
  - status: partial. False: the array is shifted in place; the partial theorem says exactly when it is unchanged.
  - theorems: `C83_argument_kept_refuted` (RdfProps, D), `C83_argument_shifted_partial` (RdfProps, D)
* **C84 Defect prefabs build whenever the request fits** - existence of a finishing stream of draws against ValueError, decided by a count of planes.
  - status: proved
  - theorems: `C84_fcc_builds` (PrefabProps, D)
* **C85 Grains are mirrored at twins and shifted at faults** - induction over the list of defects; matrix algebra for the mirror.
  - status: partial. False for crystals with a per-row voxel scale: the twin is not a mirror image in any plane. Proved for unstrained crystals with any other scale.
  - theorems: `C85_rows_refuted` (PrefabMore, D), `C85_grain_crystals_partial` (PrefabProps, D)
* **C86 Stacking faults slide within the fault plane** - dot product of the shift with the plane normal.
  - status: partial. Proved for all {111} planes; for other planes the displacement leaves the plane, for (001) it is along the normal.
  - theorems: `C86_fault_in_plane_partial` (PrefabProps, D), `C86_other_planes_refuted` (PrefabProps, D)
* **C87 Requested defects lie in the host** - plane positions in terms of floor/ceil of projections of the bounding box; counterexample with a displaced host; for a ball about the origin the first and last plane enclose it by at most three spacings.
  - status: partial. False: the centre of a spherical host is ignored, so that all defect planes can miss it. C87_centred_ball_partial proves the claim for balls centred at the coordinate origin, cubic unstrained crystals and a minimum separation of at least the number of non-zero Miller indices (three, the default, always suffices).
  - theorems: `C87_planes_miss_host_refuted` (PrefabProps, D), `C87_centred_ball_partial` (AcrossProps, D)
* **C88 Grain boundary phases rotate the grains** - rotation matrices applied to the two grains; refutation for the phase convention.
  - status: partial. False: r1, r2 and point are never read; anything but a single Volume and an algebraic surface fails. True for phases that are whole turns.
  - theorems: `C88_phases_ignored_refuted` (GrainProps, E), `C88_plane_required_refuted` (GrainProps, E), `C88_whole_turns_partial` (GrainProps, E)
* **C89 Zone axes of the grains are aligned with z** - rot_vtv on the zone axis; counterexample for antiparallel axes.
  - status: partial. Proved for axes parallel to z or at least machine epsilon away from z and -z; an axis exactly along -z makes the build fail.
  - theorems: `C89_zone_axes_partial` (GrainProps, E), `C89_antiparallel_refuted` (GrainProps, E)
* **C90 Any volume can host planar defects** - bounding-box result as a sum type; refutation for multi volumes and plane-bounded hosts.
  - status: partial. False for MultiVolumes and volumes bounded by planes only; hosts with points or a sphere are accepted.
  - theorems: `C90_hosts_refuted` (PrefabProps, D), `C90_hosts_partial` (PrefabProps, D)
* **C91 Wulff particles are the intersection of their facets' half spaces** - facets as planes, interior as conjunction; exact characterisation.
  - status: proved. What wulffpack computes is an argument of the model; it may also raise.
  - theorems: `C91_single_shape` (WulffProps, D), `C91_winterbottom_shape` (WulffProps, D)
* **C92 Wulff particles can be filled with atoms** - plane-bounded volumes have no bounding box; universal refutation.
  - status: partial. False for every particle with at least four facets: populate_atoms raises ValueError. After an enclosing sphere has been added it works and gives exactly the atoms inside all facets.
  - theorems: `C92_populate_refuted` (WulffProps, D), `C92_with_sphere_partial` (RestProps, D)
* **C93 Wulff constructions follow the current settings** - state machine of setters; the construct call reads the current fields.
  - status: partial. False: the particle is cached at the first call and the setters do not clear the cache. The second half (repeatability) holds for all objects.
  - theorems: `C93_settings_refuted` (WulffProps, D), `C93_repeatable_partial` (WulffProps, D)
* **C94 Icosahedral strain acts perpendicular to [111]** - matrix algebra of the strain in the 111 frame.
  - status: proved. A basis sending [1,1,1] to the zero vector gives NaN and is excluded by the hypothesis. The icosahedron construction itself never gets to apply it (C71).
  - theorems: `C94_strain_111` (WulffProps, D), `C94_scale_expands` (WulffProps, D)
* **C95 WulffSingle accepts exactly dictionaries of index tuples and floats** - Python values as an inductive type; decision procedure characterised.
  - status: proved
  - theorems: `C95_accepted` (WulffProps, C), `C95_stored` (WulffProps, C)
* **C96 Facet areas of a Wulff object are available** - attribute access on the wulffpack object modelled as a lookup; refutation.
  - status: partial. False before the first get_construction (AttributeError on None). After it, the areas are those of the particle last computed.
  - theorems: `C96_areas_refuted` (WulffProps, C), `C96_areas_partial` (WulffProps, D)
* **C97 A strain field can be used by several generators** - heap model with shared strain objects; histories of uses.
  - status: proved. For homogeneous strain fields (IStrain cannot be constructed, C43).
  - theorems: `C97_strain_reusable` (HeapProps, C), `C97_strain_changed` (HeapProps, C)
* **C98 Scaling a voxel dilates the crystal** - numpy shapes as lists of sizes, broadcasting decided by cases; matrix algebra for the effect; composed with C36 for supply_atoms.
  - status: proved. Arrays of more than two dimensions are not modelled.
  - theorems: `C98_scale_effect` (StateProps, C), `C98_scale_accepted` (StateProps, B), `C98_scaled_supply` (StateProps, C)
* **C99 The orientation of a molecule is always a rotation** - invariant over all histories of calls; quadratic-form bound for matrices whose Gram matrix is near the identity.
  - status: proved. Writing into the array given to or returned by the orientation property is outside this model: the molecule stores it by reference, see C132.
  - theorems: `C99_orientation_ever` (StateProps, C), `C99_orientation_assigned` (StateProps, C)
* **C100 Moving a volume moves its atoms** - bounding spheres, interior (C18) and crystal (C37) are moved by the same map; both populates characterised by C10.
  - status: proved. For volumes bounded by surfaces with at least one sphere (others have no bounding box or cannot be transformed, C11, C14), crystals without strain and post transformation and without per-row voxel scale (C37_row_scaled_refuted); inside the nominal sphere radii, not in the padding of 1e-5.
  - theorems: `C100_atoms_move` (RestProps, D), `C100_crystal_stays` (RestProps, D)
* **C101 Wurtzite stacking faults shift the grains alternately** - the grain invariant of C68 with the loop state (-1)^k; translation of the voxel origin; reciprocal vector for the in-plane claim.
  - status: proved. For unstrained crystals and hosts without points or with the default tolerance and an up to date triangulation (see C68_tolerance_refuted).
  - theorems: `C101_wurtzite_grains` (WurtziteProps, D)
* **C102 Wurtzite stacking faults are built whenever they fit** - as C84, with every step of the loop total for non-degenerate bases.
  - status: proved
  - theorems: `C102_wurtzite_builds` (WurtziteProps, D)
* **C103 Collections hold exactly what was added** - arguments as an inductive type (object, re-readable iterable, iterator with what is left of it); the check loop and extend each run through it; induction over histories.
  - status: partial. False for iterators: the class check uses the iterator up, and extend then adds nothing, without an error. True for single objects and for iterables that can be read twice.
  - theorems: `C103_iterator_refuted` (CollectProps, D), `C103_added_partial` (CollectProps, A), `C103_history_partial` (CollectProps, A), `C103_effect_partial` (CollectProps, D), `C103_constructors_refuse_partial` (CollectProps, D), `C103_iterator_wrong_partial` (CollectProps, A)
* **C104 A scene takes every volume and molecule it is given** - the same argument type; induction over the elements.
  - status: proved
  - theorems: `C104_scene_holds` (CollectProps, C)
* **C105 The transformation keyword reaches every part of a MultiVolume** - the argument is threaded through the recursion over the volume tree; nested induction over volumes.
  - status: partial. False for iterators: only the first part is moved. A bare transformation instead of a list raises TypeError. True for lists.
  - theorems: `C105_iterator_refuted` (CollectProps, D), `C105_every_part_partial` (CollectProps, D), `C105_single_refused` (CollectProps, D)
* **C106 Rounding does not change interiors beyond the tolerance** - Flocq's binary64 rounding applied to every operation of the tests (Model/Float.v); error analysis with the relative/absolute error bound of one rounding.
  - status: proved. IEEE binary64 as defined by Flocq, every operation rounded to nearest even, no overflow; np.dot is any dot product whose error is within the usual bound (C106_accurate: the plain one is). The convex-hull test is scipy's.
  - theorems: `C106_surface` (FloatProps, E), `C106_volume` (FloatProps, E), `C106_agrees` (FloatProps, E), `C106_no_gap` (FloatProps, E), `C106_sphere_band` (FloatProps, E), `C106_plane_band` (FloatProps, E), `C106_accurate` (FloatProps, E)
* **C107 Strain tensors mean what their notation says** - squeeze and the branches of the setter on shapes; the tensor is specified by index formulas; induction over assignments.
  - status: proved
  - theorems: `C107_notation` (StrainProps, C), `C107_constructed` (StrainProps, C), `C107_refused` (StrainProps, B), `C107_history` (StrainProps, C)
* **C108 The origin given with a generator moves the volume's crystal there** - from the model of add_generator and C10: the moved lattice is the lattice at the new origin.
  - status: proved
  - theorems: `C108_origin` (StrainProps, C), `C108_no_origin` (StrainProps, A), `C108_populated` (StrainProps, D), `C108_others` (StrainProps, A)
* **C109 An amorphous generator's settings and results over any history** - the generator as a state machine; invariant by induction over the history, with C42 and C44 for a fresh block.
  - status: proved. C109_reuse_ignores_settings shows that with use_old_result on the result can contradict the current settings.
  - theorems: `C109_history` (AmorphHistory, D), `C109_refused` (AmorphHistory, C), `C109_reuse_ignores_settings` (AmorphHistory, D)
* **C110 A translation moves every point by its shift** - shifts keep their shape in Model/TransformObj.v and addition broadcasts; induction over the history.
  - status: partial. False: a column of shape (3,1) passes the setter's checks but broadcasts the wrong way. True for flat shifts; C110_column_wrong_partial says what a column does.
  - theorems: `C110_unset` (TransformObjProps, C), `C110_column_refuted` (TransformObjProps, C), `C110_translates_partial` (TransformObjProps, C), `C110_column_wrong_partial` (TransformObjProps, C), `C110_accepted` (TransformObjProps, C)
* **C111 Matrix transformations act by the last accepted matrix and origin** - the objects' setters as a state machine (Model/TransformObj.v); induction over the history, C33 for rotations.
  - status: proved
  - theorems: `C111_last_values` (TransformObjProps, C), `C111_rotation_rigid` (TransformObjProps, D), `C111_inversion` (TransformObjProps, C), `C111_refused` (TransformObjProps, C)
* **C112 A reflection is the mirror in the plane it reports** - as C111; the mirror image is specified by midpoint and direction.
  - status: partial. False after assigning the inherited origin or matrix: the mirror moves (or is no isometry any more) while params still reports the old plane. True for histories that assign the plane only.
  - theorems: `C112_origin_refuted` (TransformObjProps, D), `C112_flat_normal_refuted` (TransformObjProps, D), `C112_mirror_partial` (TransformObjProps, D), `C112_unset` (TransformObjProps, B)
* **C113 A generator made from a unit cell has that cell** - the formula of pymatgen in Model/Generator.v; the spec asks for translations that leave the crystal invariant; a parity-style argument shows that no lattice vector has length 1.
  - status: partial. False: the rows of pymatgen's matrix are used as columns. In the crystal of a hexagonal cell with a = b = 1 no two atoms are at distance 1. True for right angles; the cell volume, hence the number density, is right for all angles. lattice_from_parameters transcribes the formula of pymatgen's Lattice.from_parameters, which is external.
  - theorems: `C113_hexagonal_refuted` (UnitCellProps, E), `C113_orthogonal_partial` (UnitCellProps, E), `C113_rows_partial` (UnitCellProps, E), `C113_volume_partial` (UnitCellProps, E)
* **C114 from_spacegroup uses the group the caller names** - the tables as function arguments; the counterexample uses groups 1 and 2, whose crystals differ in an observable atom.
  - status: partial. False with both: the symbol decides and the number is ignored, against the docstring. The rest holds. pymatgen's tables and site expansion are arguments of the model.
  - theorems: `C114_number_overrides_refuted` (UnitCellProps, E), `C114_single_partial` (UnitCellProps, E), `C114_symbol_wins` (UnitCellProps, E)
* **C115 Rounding neither loses nor adds atoms away from the surface** - binary64 versions of get_extents and supply_atoms (Model/Float.v); error bounds on the positions, combined with the rounded interior tests of C106.
  - status: proved. The error of np.linalg.solve on the box corners is a hypothesis (delta); rounding of the products and sums is modelled with Flocq. Strain, post transforms and triangulations are excluded.
  - theorems: `C115_complete` (FloatSupplyProps, E), `C115_sound` (FloatSupplyProps, E), `C115_once` (FloatSupplyProps, E), `C115_positions` (FloatSupplyProps, E)
* **C116 A molecule takes its arrays as they are meant** - reshape((-1,3)) and astype(int) as functions on nparray (Model/Molecule.v), rows and columns of an array in Spec/ArraySpec.v.
  - status: partial. True for (N,3) arrays and whole species. False otherwise: any array with 3N entries is accepted and read in row-major order, so a transposed (3,N) array is silently scrambled (C116_transposed_refuted), and fractional species are truncated (C116_fraction_refuted). C116_reading_order says what any accepted array does. NaN and overflow of astype(int) are not modelled.
  - theorems: `C116_rows_partial` (MolArrayProps, C), `C116_update_partial` (MolArrayProps, B), `C116_species_partial` (MolArrayProps, C), `C116_reading_order` (MolArrayProps, C), `C116_transposed_refuted` (MolArrayProps, C), `C116_fraction_refuted` (MolArrayProps, C)
* **C117 A transformation keeps the values it was given** - the caller's arrays and planes as a store, attributes as values or references (Model/Sharing.v); simulation between the store and the values at the time of assignment.
  - status: partial. True of translations, inversions and what reflections do to points, and of shift, origin and flags of all kinds (C117_copied_partial). False of the matrix of a MatrixTransform or Rotation, which is kept by reference: a validated rotation can be turned into a scaling (C117_rotation_refuted), and of the plane a Reflection reports (C117_plane_refuted). If such arrays and planes are left alone after being handed over, the object is the one described by the assignments (C117_left_alone_partial). Arrays obtained from the getters are not modelled.
  - theorems: `C117_copied_partial` (SharingProps, C), `C117_left_alone_partial` (SharingProps, C), `C117_rotation_refuted` (SharingProps, C), `C117_plane_refuted` (SharingProps, C)
* **C118 Adding an object changes a scene only where the object is** - the contents of the enlarged list of objects split, as multisets, into kept, dropped and own atoms; populating again leaves the objects already present as they are.
  - status: proved. The objects already present must not use ChemicalSubstitution (whose random draws would differ between the two populates).
  - theorems: `C118_adding_is_local` (WholeProps, D)
* **C119 Cutting a volume and joining the parts changes no atom** - a position of the whole is held by the part with the smallest priority number among those containing it; counting atoms by NoDup of both sides gives the permutation.
  - status: partial. True when the parts have pairwise different priorities. With equal priorities, which is the default, the halves overlap within the plane's tolerance and every atom there is removed by both: an atom on the cutting plane is lost (C119_equal_priorities_refuted).
  - theorems: `C119_parts_make_whole` (PartsProps, D), `C119_cut_and_joined` (PartsProps, D), `C119_equal_priorities_refuted` (PartsProps, D)
* **C120 What fills a volume depends on the crystal, not on how it is described** - the atoms of a filled volume are, as a set, the crystal's atoms inside; a lattice shift and a permutation of sites leave that set.
  - status: proved. Exact arithmetic; positions within the nominal spheres.
  - theorems: `C120_same_crystal_same_atoms` (PartsProps, D), `C120_lattice_shift` (PartsProps, D), `C120_site_order` (PartsProps, D)
* **C121 Moving everything moves the picture** - each object's atoms, priority and interior move (C100, C18; induction over nested volumes); a lemma on contents of lists of objects carries this through conflict resolution.
  - status: proved. Exact arithmetic, and away from the margin that the tolerance adds around a sphere. Scenes whose generators are not carried along (locked=False), strained crystals and amorphous blocks are not covered.
  - theorems: `C121_scene_moves` (MotionProps, D)
* **C122 A view shows every atom of the scene once, from the labelled sides** - np.unique gives the strictly increasing list of species present; grouping by it is a permutation of the atoms (induction on the atoms).
  - status: proved. What matplotlib does with the data is outside the model; its camera convention (azimuth, elevation) is stated in Spec/ViewSpec.v. Ticks, labels and grids are not modelled.
  - theorems: `C122_view_shows_scene` (ViewProps, D), `C122_view_shows_points` (ViewProps, D)
* **C123 The bounds of a scene are the last two rows assigned** - induction over the history with the array's shape analysed.
  - status: proved. The order of the two rows is not checked: bounds given in the wrong order are accepted and the exported cell then has negative lengths.
  - theorems: `C123_bounds` (ViewProps, C), `C123_refused` (ViewProps, B), `C123_cell` (ViewProps, B), `C123_default_bounds` (MolSceneProps, C), `C123_given_bounds` (MolSceneProps, C)
* **C124 Exports hold exactly the atoms, and a molecule made from one has them again** - positions and species of a populated volume have equal lengths (C04), so the export and the constructor of the molecule succeed and keep the lists.
  - status: proved. The imported molecule has origin 0, the standard orientation and priority 0, whatever the exported one had: ASE atoms carry none of these. ASE and pymatgen are external and taken to keep the arrays they are given.
  - theorems: `C124_volume_export` (ViewProps, D), `C124_molecule_export` (ViewProps, C), `C124_unpopulated` (ViewProps, B), `C124_pymatgen` (ViewProps, C)
* **C125 A prefab keeps the last accepted settings and builds with them** - one assignment changes one attribute (case analysis), lifted over histories with last_of.
  - status: proved. A count given as a float is cut off towards zero, not refused. The ratio of the pure prefabs and of the wurtzite prefab can be assigned without error and has no effect. Strings (which int() parses) and planes that are not integer triples are not modelled.
  - theorems: `C125_settings` (PrefabObjProps, C), `C125_refused` (PrefabObjProps, C), `C125_build_uses_last` (PrefabObjProps, D), `C125_new` (PrefabObjProps, C), `C125_defaults` (PrefabObjProps, D)
* **C126 The reported defect types are those placed** - induction over the passes of the loop with the list of draws; case analysis of the loop for an empty range.
  - status: proved. The wurtzite prefab always reports a stacking fault, also for N = 0; this is outside the statement. A negative N is accepted and acts as 0.
  - theorems: `C126_defect_types` (PrefabObjProps, D), `C126_pure` (PrefabObjProps, D), `C126_no_defects` (PrefabObjProps, D)
* **C127 The second zone axis of a grain boundary defaults to the first** - fold over the history; the counterexample turns the second grain of a ball.
  - status: partial. The default is taken at the moment z2 is assigned, not at the build: when z1 is changed after construction the second grain keeps the old axis (C127_default_axis_refuted exhibits two different results). True as long as z1 is not assigned after z2 (C127_second_axis_partial).
  - theorems: `C127_first_axis` (PrefabObjProps, A), `C127_second_axis_partial` (PrefabObjProps, A), `C127_refused` (PrefabObjProps, A), `C127_default_axis_refuted` (PrefabObjProps, E)
* **C128 Angles between vectors** - Cauchy-Schwarz for lists of reals gives the cosine in [-1,1]; the triangle inequality follows from it for the parts of a and c across b.
  - status: proved. Exact arithmetic: in floating point the cosine of parallel vectors can exceed 1 by rounding, and arccos then gives NaN; this is not modelled.
  - theorems: `C128_angle` (AngleProps, E), `C128_no_angle` (AngleProps, E), `C128_laws` (AngleProps, E)
* **C129 Surfaces are what was last assigned, whatever the shape of the arrays** - arrays as shape and data, numpy squeeze and broadcasting as total functions; induction over the history, case analysis of shapes.
  - status: partial. False for a sphere whose centre is a 3x1 column, the shape its documentation names: the centre is accepted, but three points are tested against one coordinate each and any other number of points raises (C129_column_refuted). The point setter of planes accepts arrays with a second long axis, for which the later test raises. True for centres and points with three entries along one axis, and for cylinders without exception. Assigning values that are not arrays is not modelled.
  - theorems: `C129_sphere_partial` (AlgShapeProps, D), `C129_sphere_shapes` (AlgShapeProps, D), `C129_column_refuted` (AlgShapeProps, D), `C129_plane_partial` (AlgShapeProps, D), `C129_plane_shapes_refuted` (AlgShapeProps, D), `C129_plane_table` (AlgShapeProps, D), `C129_cylinder` (AlgShapeProps, D), `C129_refused_unchanged` (AlgShapeProps, D), `C129_refusals` (AlgShapeProps, D)
* **C130 Surfaces refuse values that are not finite numbers** - IEEE rules for the four kinds of numbers as total functions on an inductive type; case analysis.
  - status: partial. False: NaN is accepted for a sphere's centre, a plane's point and a cylinder's axis, point, radius and length, and infinities in most places (C130_accepted_refuted). What is true: NaN is refused for tolerances, sphere radii and plane normals; an object with a NaN among its parameters, or with an infinite direction, contains no point at all, so that its volume is silently empty; a sphere of infinite radius contains all of space when its centre is finite.
  - theorems: `C130_empty_partial` (AlgNanProps, D), `C130_infinite_direction_partial` (AlgNanProps, D), `C130_refused_partial` (AlgNanProps, D), `C130_accepted_refuted` (AlgNanProps, D), `C130_finite` (AlgNanProps, D), `C130_infinite_sphere` (AlgNanProps, D)
* **C131 Priorities, tolerances and warnings of objects** - class tests as functions on an inductive type of values; induction over the history.
  - status: partial. The last clause is false: numpy integers are priorities for molecules but not for volumes, True and False for volumes but not for molecules (C131_priority_refuted), and the constructor of Volume takes tolerances that the setter refuses (C131_tolerance_refuted). Python ints are accepted by all. The set of accepted values and the exceptions are given exactly by C131_refused.
  - theorems: `C131_settings` (SettingsProps, A), `C131_refused` (SettingsProps, A), `C131_ints` (SettingsProps, A), `C131_priority_refuted` (SettingsProps, A), `C131_tolerance_refuted` (SettingsProps, B), `C131_made` (SettingsProps, B), `C131_molecule_ever` (SettingsProps, C)
* **C132 A molecule keeps the values it was given** - a heap of arrays with references; invariants over histories of calls and writes.
  - status: partial. True for positions, species and points given to the molecule, which are copied. False for the orientation, which is stored by reference, so that later writes can make it any matrix (C132_orientation_refuted), and for the arrays read from the molecule: .atoms and the origin that tracks an atom are live (C132_atoms_shared_refuted, C132_origin_atom_refuted). An array read earlier parts from the molecule with the next call that stores new positions.
  - theorems: `C132_copied_partial` (MolShareProps, C), `C132_left_alone_partial` (MolShareProps, C), `C132_orientation_refuted` (MolShareProps, C), `C132_atoms_shared_refuted` (MolShareProps, C), `C132_parted_partial` (MolShareProps, C), `C132_old_arrays_kept_partial` (MolShareProps, C), `C132_origin_point_partial` (MolShareProps, C), `C132_origin_atom_refuted` (MolShareProps, C)
* **C133 Generators assembled step by step** - one step at a time with the invariant that scale is 1 and lattice and origin are the latest accepted; collinearity test characterised as parallelism.
  - status: partial. False for structures: one whose lattice has two parallel vectors is refused by an exception, but its sites are stored before the check and are from then on supplied on the lattice of the structure before (C133_structure_refuted). The _partial theorems state exactly what the generator then has: the sites of the last structure assigned, the lattice of the last structure accepted. They cover histories without transformations and assigned voxels; C133_structure_resets says what a new structure does after those.
  - theorems: `C133_history_partial` (GenObjProps, D), `C133_refused_partial` (GenObjProps, D), `C133_structure_refuted` (GenObjProps, D), `C133_no_voxel` (GenObjProps, D), `C133_supplies_partial` (GenObjProps, D), `C133_order` (GenObjProps, D), `C133_structure_resets` (GenObjProps, D), `C133_complete` (GenObjProps, D), `C133_moves` (GenObjProps, D), `C133_remembers` (GenObjProps, C)
* **C134 A strain field acts as last configured** - a step function on the object's attributes; induction over the history with the relational notion of the latest accepted value.
  - status: partial. False for fields made without an origin: their origin_type stays 'generator', so that an origin assigned later is overwritten by that of the generator at the next use (C134_origin_refuted). True for fields made with an origin of their own, and for all fields once origin_type is set to something else (C134_freed_partial). Modes are not checked; unknown ones act as 'standard'.
  - theorems: `C134_settings` (StrainObjProps, C), `C134_used_partial` (StrainObjProps, C), `C134_origin_refuted` (StrainObjProps, C), `C134_assigned_origin_refuted` (StrainObjProps, C), `C134_freed_partial` (StrainObjProps, C), `C134_refused` (StrainObjProps, C), `C134_made` (StrainObjProps, B)
* **C135 A volume is what was added to it** - a step function with the hull as an oracle; invariant over the history relating the stored triangulation to the first point set of which a hull could be made.
  - status: partial. False for points: those given after the first hull never change the interior (C135_later_points_refuted), an array of points of which no hull can be made raises but leaves a volume that contains all of space (C135_no_hull_refuted), and assigning to points always raises ValueError and loses the points (C135_assign_refuted). C135_interior_partial states exactly what the interior is: the hull of the points given up to the first successful hull, and all surfaces. True for surfaces and generators.
  - theorems: `C135_interior_partial` (VolumeObjProps, D), `C135_generator` (VolumeObjProps, A), `C135_refused` (VolumeObjProps, A), `C135_later_points_refuted` (VolumeObjProps, D), `C135_no_hull_refuted` (VolumeObjProps, D), `C135_assign_refuted` (VolumeObjProps, D)
* **C136 Rounding does not spoil scenes** - the rounded interior test of C106 and supply of C115 put into the generic conflict resolution, whose correctness holds for any interior test.
  - status: proved. Volumes given by surfaces of which one is a sphere, so that the bounding box is the sphere's. Sites within three tolerances of a boundary may go either way. Matrix products, dot products and np.linalg.solve are functions with an error bound; the rest is Flocq's binary64.
  - theorems: `C136_complete` (FloatSceneProps, E), `C136_sound` (FloatSceneProps, E), `C136_once` (FloatSceneProps, E)
* **C137 A Wulff object after any history** - the object as a state, histories by induction from the right; the specification names the settings and the remembered particle by relations on the history alone, shown to be functional.
  - status: proved. wulffpack's answers are arguments. Editing the generator in place changes what fills the particle but not the atoms its shape is computed from, which were read at assignment. C93 has the complaint that the particle does not follow the settings.
  - theorems: `C137_any_history` (WulffObjProps, D), `C137_determined` (WulffObjProps, C)
* **C138 Near neighbours weigh most and the bond has its length** - weights by calculation; the margin search by induction over the runs: a run that returns the starting guess improves the margin and therefore is never the last.
  - status: proved. Draws and the alpha shape are arguments. Without draws of every neighbour the starting guess of length 1.7e-10 can be returned (C66).
  - theorems: `C138_weights` (NormalProps, D), `C138_bond_length` (NormalProps, E)
* **C139 The surface normal points away from the neighbours** - an explicit run with two neighbours for any number of draws; induction over the runs for the rest.
  - status: partial. False: the search keeps the best margin but returns the last normal, which comes from a run that did not beat it; with two neighbours a normal can be returned that has one of them in front, although the first run had found one with both behind, for runs of any length that draw both. True: what is returned is the result of the last of ten runs in a row that all missed the best margin.
  - theorems: `C139_points_away_refuted` (NormalProps, D), `C139_last_of_ten_partial` (NormalProps, D)
* **C140 remove_atoms(new_origin_idx=k) makes atom k the origin** - evaluation of the removal; the kept atoms from C60.
  - status: partial. False for every molecule: the new index is checked and then ignored, so the origin stays what it was. True: which removals are refused, with which exception and without touching the molecule, and exactly what the others leave. An index is compared with the list literally, so -1 does not count as the last atom.
  - theorems: `C140_new_origin_refuted` (MolOriginProps, C), `C140_removal_partial` (MolOriginProps, C)
* **C141 The origin of a molecule after any history** - induction over the history from the end.
  - status: proved. The history is described by three relations (following or not, last accepted index, point) that never mention the attributes; each is shown to have exactly one value.
  - theorems: `C141_origin` (MolOriginProps, C), `C141_determined` (MolOriginProps, C)
* **C142 Molecules take no space in a scene** - from C01, by induction over the objects with the preceding objects as a parameter.
  - status: proved
  - theorems: `C142_molecules_take_no_space` (MolSceneProps, D)
* **C143 A populate that raises leaves the scene as it was** - a populate that threads the state left behind, shown equal to the modelled one; induction over the history from the end.
  - status: partial. False: objects before the failing one have new atoms and the masks are old, so the scene then reports an atom inside an object of higher precedence. True: exactly which objects are repopulated; the masks never change without a populate that returns; a scene never populated with success has nothing to read; and a populate that returns gives the specified contents whatever happened before.
  - theorems: `C143_failed_populate_refuted` (SceneRunProps, D), `C143_left_behind_partial` (SceneRunProps, D), `C143_group_left_behind_partial` (SceneRunProps, D), `C143_masks_partial` (SceneRunProps, D), `C143_nothing_to_read_partial` (SceneRunProps, D), `C143_populate_recovers_partial` (SceneRunProps, D)
* **C144 A transformation that raises leaves the volume where it was** - induction over the surfaces, the members and the nesting of the transformation; C75 iterated.
  - status: partial. False: a Volume with an amorphous or no-atom generator raises under every locked rigid motion and moves once more at every call, and in a MultiVolume the members after the failing one stay behind. True: exactly what is left in every case, down to the surface at which the call stopped.
  - theorems: `C144_retry_refuted` (TransAbortProps, D), `C144_parts_drift_refuted` (TransAbortProps, D), `C144_left_behind_partial` (TransAbortProps, D), `C144_multivolume_partial` (TransAbortProps, D), `C144_reflection_partial` (TransAbortProps, D)
* **C145 rot_vtv in double precision** - binary64 rounding written out for the counterexamples; forward error analysis of the cosine, cross product, normalisation and Rodrigues formula for the rest.
  - status: partial. False: rot_vtv of [111], [110] or [112] with itself or its opposite is a matrix of NaNs (so s2s_alignment of surfaces that already face each other along such a direction raises AssertionError), and for (0.3, 0.4, 0.5) against (-1.5, -2, -2.5) the result is an accepted rotation that makes the vectors perpendicular. True: exactly when rot_vtv(v, v) is the identity; the identity for whole-number vectors of whole length; whatever is not NaN is within 2^-40 of a rotation and accepted; and for directions at an angle of sine at least s >= 2^-13 the result is within 2^-40/s of the exact matrix and aligns.
  - theorems: `C145_same_direction_refuted` (FloatRotProps, E), `C145_misaligned_refuted` (FloatRotProps, E), `C145_itself_partial` (FloatRotProps, E), `C145_opposite_partial` (FloatRotProps, E), `C145_whole_partial` (FloatRotProps, E), `C145_rotation_partial` (FloatRotProps, E), `C145_accurate_partial` (FloatRotProps, E)
* **C146 Angles in double precision** - error bound of the cosine (C145), Hoelder continuity of arccos and its derivative away from 1.
  - status: partial. False: vangle of [111] or [112] with itself is NaN and of [110] with itself is not 0. True: when it is a number it is the true angle up to 2^-20, and for directions at an angle of sine at least s >= 2^-13 it is a number and accurate to 2^-44/s.
  - theorems: `C146_itself_refuted` (FloatAngleProps, E), `C146_close_partial` (FloatAngleProps, E), `C146_accurate_partial` (FloatAngleProps, E)
* **C147 Voxel refuses collinear basis vectors in double precision** - error bound of the cosine (C145); the rounding of 3/(sqrt 3 * sqrt 3) written out.
  - status: partial. False: bases with [111] twice are accepted, although exact arithmetic refuses them. True: vectors at pairwise angles of sine at least 2^-13 are always accepted, and parallel or opposite whole-number vectors of whole length are always refused.
  - theorems: `C147_collinear_refuted` (FloatAngleProps, E), `C147_independent_partial` (FloatAngleProps, E), `C147_whole_partial` (FloatAngleProps, E)
* **C148 Amorphous blocks in double precision** - voxel numbers and the distance test with one rounding each, the loop invariant of C44 for the relaxed distance; pred and ulp of Flocq for the half-open box.
  - status: partial. False: with side 14 and the default spacing 1.4 the largest draw falls in voxel 10 of 10 and IndexError is raised, and in a cube of side 4 with spacing 1 two atoms closer than 1 are accepted. True: the count is right up to rounding, every atom is inside the box, atoms are min_dist apart up to 2^-50 of it and 2^-52 of the longest side, and nothing is raised if no side divided by min_dist rounds to a whole number.
  - theorems: `C148_index_refuted` (FloatAmorphProps, E), `C148_separation_refuted` (FloatAmorphProps, E), `C148_separated_partial` (FloatAmorphProps, E), `C148_no_error_partial` (FloatAmorphProps, E)
* **C149 Batched amorphous blocks in double precision** - voxel numbers and the distance test with one rounding each, the loop invariant of C46 for the relaxed distance; the counterexamples are runs evaluated rounding by rounding.
  - status: partial. False: in a block of 28 x 16 x 16 with the default spacing 1.4 and voxel scale 2, the largest draw along x gives voxel 10 of 10, which is the number of a voxel in the next row; the atom is compared with the wrong neighbours and accepted 0.07 from another one. In a cube of side 28 the largest draw along all axes raises IndexError. True if no side divided by the voxel size rounds to a whole number: the batches run out or the count is right up to rounding, every atom is inside the box, and atoms are min_dist apart up to 2^-50 of it and 2^-52 of the longest side.
  - theorems: `C149_separation_refuted` (FloatBatchProps, E), `C149_index_refuted` (FloatBatchProps, E), `C149_separated_partial` (FloatBatchProps, E)
* **C150 An object listed twice counts once** - contents of concatenated lists of objects: a copy contributes nothing next to one of smaller or equal number, and removes nothing that the first does not remove.
  - status: partial. False: the two entries of a volume have the same priority number and contain each other's atoms, so both lose all of them; what is left inside the volume comes from objects of strictly smaller number, and a scene holding nothing but one volume twice is empty. A molecule listed twice has every atom twice. True for a second copy of a volume with a larger priority number: the multiset of atoms and species is unchanged.
  - theorems: `C150_twice_refuted` (GroupProps, D), `C150_molecule_refuted` (GroupProps, D), `C150_second_copy_partial` (GroupProps, D)
* **C151 Grouping volumes into a MultiVolume changes no atom** - contents of concatenated lists of objects; a MultiVolume's atoms are the contents of its members (C05), and losing to an outsider filters them by the same condition.
  - status: partial. False: outside, only the MultiVolume's own number counts, so a member can lose atoms to an object it took precedence over. True whenever the MultiVolume's number compares with every other object as those of its members do, in particular for a MultiVolume alone in the scene whatever its number: the grouped scene populates too and has the same multiset of (position, species).
  - theorems: `C151_grouping_refuted` (GroupProps, D), `C151_grouping_partial` (GroupProps, D), `C151_alone` (GroupProps, D)
* **C152 Rotations, orientations and cells refuse matrices that are not of numbers** - IEEE special values over exact reals (Model/AlgNan.v, Model/MatNan.v): a non-finite entry makes the Gram matrix infinite or NaN; comparisons with NaN are false.
  - status: partial. True of Rotation, whatever the determinant routine answers. False of Molecule.orientation, which raises on `x > 1e-6` and so lets every matrix with a NaN pass whose determinant comes out NaN; what it accepts is finite or makes the orthogonality test NaN. False of Voxel.bases: a vector with a NaN or an infinity is never found collinear, and a cell is accepted exactly if no two of its finite vectors are parallel.
  - theorems: `C152_rotation` (MatNanProps, C), `C152_rotation_exact` (MatNanProps, C), `C152_orientation_refuted` (MatNanProps, C), `C152_orientation_partial` (MatNanProps, C), `C152_orientation_exact` (MatNanProps, C), `C152_bases_refuted` (MatNanProps, D), `C152_bases_partial` (MatNanProps, D)
* **C153 Only the order of the priorities matters** - Order-keeping renumberings commute with the stable sort, with np.unique and with the comparison of levels (Proofs in Props/RenumberProps.v); induction over the nesting of volumes.
  - status: proved. Random generators, failing volumes and objects of equal priority are included; the lists are equal, not only equal up to order.
  - theorems: `C153_order_only` (RenumberProps, D)
* **C154 The search for a surface normal stops at the first rest** - Induction over the drawn points, relating the loop's reversed list of cosines to the history of corrections.
  - status: proved. The specification describes one correction and the rest on its own (Spec/StopSpec.v); a guess that becomes NaN is covered and is never corrected again.
  - theorems: `C154_first_rest` (StopProps, D)
* **C155 A larger priority number only shifts overlaps** - From the order-free description of contents (Spec/PrioritySpec.v): losing positions is monotone in the priority numbers.
  - status: proved. Boundaries are exact: lost atoms lie in objects with old < number <= new, gained atoms belong to objects with old <= number < new.
  - theorems: `C155_larger_number` (RankProps, D)
* **C156 Undoing a transformation restores the object** - Inverse transformations as an inductive relation (Spec/UndoSpec.v); induction over the nesting of transformations and of volumes.
  - status: partial. False as stated: after a large dilation the way back raises, as the normal made a unit vector in between is then too short for the setter. Whenever neither call raises, the object is exactly what it was, scalings and shears included; rigid motions never raise on surfaces, nor on the way back of a crystal. Exact arithmetic.
  - theorems: `C156_undo_refuted` (UndoProps, D), `C156_points_partial` (UndoProps, D), `C156_restored_partial` (UndoProps, D), `C156_rigid_partial` (UndoProps, D)
* **C157 calc_rdf depends on the cloud of points only** - Model/Rdf.v; the shift by the minimum absorbs a translation; permutations act on the parts and their products of pairs, and np.histogram counts a multiset.
  - status: partial. C157_moved and C157_called_again prove independence of the place and of earlier calls for every cloud. The order does matter (C157_order_refuted: the same four points in two orders give different counts, as the neighbour table is looked up with the voxel of the i-th point instead of voxel i; C157_order_error_refuted: in one order the call fails). C157_order_partial: two orders agree, counts or failure, as soon as their first points (as many as there are voxels) lie in the same voxels one by one; C157_tail_order_partial and C157_small_order_partial are the cases of the points after those, and of a cloud smaller than the cutoff.
  - theorems: `C157_moved` (CloudProps, D), `C157_called_again` (CloudProps, D), `C157_order_refuted` (CloudProps, D), `C157_order_error_refuted` (CloudProps, D), `C157_order_partial` (CloudProps, D), `C157_tail_order_partial` (CloudProps, D), `C157_small_order_partial` (CloudProps, D)
* **C158 The surface found by the alpha shape functions moves with the cloud** - Spec/ComplexSpec.v; circumradii under similarities by the Gram determinant; the returned points are characterised by (vertex, neighbour) pairs only.
  - status: proved. Delaunay and the noise are arguments: the theorems are about any two calls whose triangulations are of the same tetrahedra (Spec/ComplexSpec.v), which holds for points in general position. Exact real arithmetic. C158_translated: a translated cloud with the same noise gives literally the same answer. C64 says which points are returned.
  - theorems: `C158_tetrahedra` (ComplexProps, D), `C158_points` (ComplexProps, D), `C158_similarities` (ComplexProps, D), `C158_translated` (ComplexProps, D)
* **C159 Rounding in long histories of transformations** - Model/FloatMove.v, Spec/DriftSpec.v; one step errs by at most 2^-40 B (Proofs/DriftFacts.v), induction on the history from its end.
  - status: proved. Model/FloatMove.v: every operation is rounded to nearest even, dot products are any accurate ones (Spec/FloatSpec.v), no overflow. The bound needs n (1 + d)^n <= 2^40. The matrix of a reflection is computed with rounding too.
  - theorems: `C159_drift` (DriftProps, E), `C159_accepted` (DriftProps, D), `C159_rigid` (DriftProps, E), `C159_undone` (DriftProps, E)
* **C160 Rounding in crystals moved many times** - Model/FloatMove.v, Spec/DriftSpec.v; each cell vector runs through the linear parts of the elementary transformations, induction as in C159.
  - status: proved. Model/FloatMove.v (f_move). The exact history is one in which no call raises. The test for collinear bases in double precision is C147, the rounding of the sites themselves C115. Same conventions as C159.
  - theorems: `C160_crystal` (DriftProps, E)
* **C161 Rounding in surfaces moved many times** - Model/FloatMove.v, Spec/DriftSpec.v, Proofs/DriftSurfFacts.v; the unit vectors of two vectors are at most as far apart as the vectors divided by the smaller length, so renormalising does not amplify the error; induction over the elementary steps, then C106.
  - status: proved. Model/FloatMove.v (f_apply_alg). Reflections are not accepted (C19). The matrices are near isometries: what the Rotation class accepts has d = 1e-6, orthogonal matrices d = 0 (C161_accepted); for rigid motions and n up to 2^30 the turn is at most n 2^-38 (C161_rigid_turn). Surfaces with a stored direction that is of length 1 up to rounding. Volumes without points. Same conventions as C106 and C159.
  - theorems: `C161_surface` (DriftSurfProps, E), `C161_decides` (DriftSurfProps, E), `C161_volume` (DriftSurfProps, E), `C161_accepted` (DriftSurfProps, D), `C161_rigid_turn` (DriftSurfProps, C)
* **C162 Moved many times, then populated, in double precision** - Props/DriftFillProps.v, Spec/DriftSpec.v (carried, site_drift): the computed surfaces and lattice follow the exact ones (C161, C160); the rounding of populating is C115; the distances add up.
  - status: proved. Composition of C115, C160 and C161. Volumes without points; voxel of scale 1; no strain field. The completeness half assumes of the linear solver what C115 assumes (corners_within, for the computed cell and bounding box). The other conditions (solid_cell, moderate_site, clear_of) speak of the exact crystal. A hundred rigid motions within 1000 Angstrom stay below a third of the default tolerance (C162_rigid).
  - theorems: `C162_filled` (DriftFillProps, E), `C162_rigid` (DriftFillProps, C)

## 4. What is modelled and what is not

Modelled (all of `czone` except the list below): scene, volumes and multivolumes, algebraic objects, transforms,
voxels, crystal and amorphous generators with the block algorithms, strain fields, post-processing, molecules,
alpha shapes, adsorbates, radial distribution functions, prefabs, Wulff constructions, object identity and aliasing,
histories of assignments (to surfaces, generators, prefabs, molecules and settings, with arrays of any shape),
views and exports.

Not modelled:

* Floating-point rounding outside the parts listed at the top of this file; overflow; NaN propagation except
  in the algebraic objects (`Model/AlgNan.v`, C130), in matrices (`Model/MatNan.v`, C152) and where a definition's comment says that a division by zero or a NaN is returned as an error value.
* Performance, what matplotlib draws from the data handed to it (`Model/Views.v` models the data), the slider widgets, printing and warnings, string formatting of the writers.
* The internals of numpy, scipy, ASE, pymatgen and wulffpack.  What is assumed of each is an explicit
  hypothesis of the theorem that needs it (for instance that the Delaunay membership test is exact convex-hull
  membership).

### Functions of /repo/czone cited by the model

* `czone/generator/amorphous_algorithms.py`: cited: get_p_dist, get_p_dist_batch, get_tuples, get_voxels, gen_p_substrate, gen_p_substrate_batched.
* `czone/generator/generator.py`: cited: BaseGenerator.from_generator, Generator.__init__, Generator.structure, Generator.lattice, Generator.species, Generator.coords, Generator.orientation, Generator.origin, Generator.voxel, Generator.strain_field, Generator.post_transform, Generator.supply_atoms, Generator.transform, Generator.from_spacegroup, Generator.from_unit_cell, AmorphousGenerator.__init__, AmorphousGenerator.origin, AmorphousGenerator.species, AmorphousGenerator.density, AmorphousGenerator.min_dist, AmorphousGenerator.supply_atoms. Not cited separately (accessors that return a field, abstract bases, or code listed above as not modelled): AmorphousGenerator.origin, AmorphousGenerator.old_result, NullGenerator.__init__, NullGenerator.supply_atoms.
* `czone/molecule/molecule.py`: cited: BaseMolecule.print_warnings, BaseMolecule.set_atoms, BaseMolecule.update_positions, BaseMolecule.update_species, BaseMolecule.remove_atoms, BaseMolecule.ase_atoms, BaseMolecule.origin, BaseMolecule.priority, BaseMolecule.transform, BaseMolecule.set_origin, BaseMolecule.orientation, BaseMolecule.reset_orientation, BaseMolecule.populate_atoms, BaseMolecule.checkIfInterior, BaseMolecule.from_ase_atoms, BaseMolecule.from_pmg_molecule, BaseMolecule.from_molecule. Not cited separately (accessors that return a field, abstract bases, or code listed above as not modelled): BaseMolecule.atoms, BaseMolecule.species, BaseMolecule._origin_tracking, BaseMolecule._origin_idx, BaseMolecule.orientation, Molecule.__init__.
* `czone/prefab/prefab.py`: cited: fccMixedTwinSF.__init__, fccMixedTwinSF.N, fccMixedTwinSF.min_sep, fccMixedTwinSF.plane, fccMixedTwinSF.ratio, fccMixedTwinSF.generator, fccMixedTwinSF.volume, fccMixedTwinSF.build_object, fccStackingFault.__init__, fccStackingFault.ratio, fccTwin.__init__, fccTwin.ratio, wurtziteStackingFault.__init__, wurtziteStackingFault.N, wurtziteStackingFault.min_sep, wurtziteStackingFault.plane, wurtziteStackingFault.generator, wurtziteStackingFault.volume, wurtziteStackingFault.build_object, SimpleGrainBoundary.__init__, SimpleGrainBoundary.z1, SimpleGrainBoundary.z2, SimpleGrainBoundary.build_object.
* `czone/prefab/wulff.py`: cited: WulffBase.generator, WulffBase.p_atoms, WulffBase.natoms, WulffBase.surface_energies, WulffBase.planes_from_wulff, WulffBase.planes_from_form, WulffSingle.__init__, WulffSingle.wulff, WulffSingle.get_construction, WulffSingle.get_areas, WulffSingle.winterbottom, WulffSingle.cube, WulffSingle.cuboctohedron, WulffSingle.octohedron, WulffSingle.truncated_octohedron, WulffDecahedron.__init__, WulffDecahedron.twin_energy, WulffDecahedron.get_construction, WulffIcosahedron.icosahedral_scale_factor, WulffIcosahedron._strain_from_111, WulffIcosahedron.get_construction. Not cited separately (accessors that return a field, abstract bases, or code listed above as not modelled): WulffBase.generator.
* `czone/scene/scene.py`: cited: Scene.__init__, Scene.bounds, Scene.add_object, Scene._checks, Scene.all_atoms, Scene.all_species, Scene.ase_atoms, Scene.species_from_object, Scene._get_priorities, Scene.populate, Scene.to_file. Not cited separately (accessors that return a field, abstract bases, or code listed above as not modelled): Scene.bounds, Scene.objects, Scene._checks.
* `czone/surface/adsorbate.py`: cited: sparse_matrix_from_tri, find_approximate_normal, get_nearest_neighbors, add_adsorbate.
* `czone/surface/alpha_shape.py`: cited: tetrahedron_circumradii, alpha_shape_alg_3D, alpha_shape_alg_3D_with_sampling.
* `czone/transform/post.py`: cited: ChemicalSubstitution.__init__, ChemicalSubstitution._replace_species, ChemicalSubstitution.apply_function, ArbitraryPostTransform.apply_function, PostSequence.__init__, PostSequence.add_transform, PostSequence.apply_function. Not cited separately (accessors that return a field, abstract bases, or code listed above as not modelled): BasePostTransform.__init__, ArbitraryPostTransform.__init__.
* `czone/transform/strain.py`: cited: BaseStrain.__init__, BaseStrain.scrape_params, BaseStrain.origin, BaseStrain.origin_type, BaseStrain.mode, BaseStrain.bases, HStrain.__init__, HStrain.matrix, HStrain.apply_strain, IStrain.__init__, IStrain.strain_fun. Not cited separately (accessors that return a field, abstract bases, or code listed above as not modelled): IStrain.fun_kwargs, IStrain.strain_fun, IStrain.apply_strain.
* `czone/transform/transform.py`: cited: BaseTransform.locked, BaseTransform.basis_only, Translation.__init__, Translation.shift, Translation.params, Translation.applyTransformation, Translation.applyTransformation_bases, Translation.applyTransformation_alg, MatrixTransform.__init__, MatrixTransform.matrix, MatrixTransform.origin, MatrixTransform.params, MatrixTransform.applyTransformation, MatrixTransform.applyTransformation_bases, MatrixTransform.applyTransformation_alg, Rotation.matrix, Reflection.__init__, Reflection.matrix, Reflection.plane, Reflection.params, Reflection.applyTransformation_alg, MultiTransform.__init__, MultiTransform.locked, MultiTransform.basis_only, MultiTransform.add_transform, MultiTransform.applyTransformation, MultiTransform.applyTransformation_bases, MultiTransform.applyTransformation_alg, rot_v, rot_vtv, rot_zxz, s2s_alignment. Not cited separately (accessors that return a field, abstract bases, or code listed above as not modelled): BaseTransform.__init__, Translation.shift, MatrixTransform.matrix, Inversion.matrix, Rotation.__init__, MultiTransform.transforms, MultiTransform.params, rot_align.
* `czone/util/measure.py`: cited: get_voxel_grid, get_sdist_fun, calc_rdf.
* `czone/util/misc.py`: cited: round_away, get_N_splits, vangle.
* `czone/viz/viz.py`: cited: simple_view_with_rotate, simple_scene_view, simple_scene_view_with_rotate. Not cited separately (accessors that return a field, abstract bases, or code listed above as not modelled): simple_view_widget, simple_scene_widget.
* `czone/volume/algebraic.py`: cited: BaseAlgebraic.tol, BaseAlgebraic.from_alg_object, Sphere.__init__, Sphere.checkIfInterior, Sphere.params, Sphere.radius, Sphere.center, Plane.__init__, Plane.params, Plane.point, Plane.normal, Plane.checkIfInterior, Plane.flip_orientation, Plane.sdist_from_plane, Plane.dist_from_plane, Plane.project_point, Cylinder.__init__, Cylinder.params, Cylinder.axis, Cylinder.point, Cylinder.radius, Cylinder.length, Cylinder.checkIfInterior, Cylinder.get_bounding_box, convex_hull_to_planes, get_bounding_box, snap_plane_near_point. Not cited separately (accessors that return a field, abstract bases, or code listed above as not modelled): BaseAlgebraic.__init__, BaseAlgebraic.tol.
* `czone/volume/volume.py`: cited: BaseVolume.atoms, BaseVolume.species, BaseVolume.ase_atoms, BaseVolume.priority, BaseVolume.to_file, Volume.__init__, Volume.points, Volume.alg_objects, Volume.add_alg_object, Volume.hull, Volume.tri, Volume.generator, Volume.tolerance, Volume.add_generator, Volume.createHull, Volume.addPoints, Volume.transform, Volume.checkIfInterior, Volume.get_bounding_box, Volume.populate_atoms, Volume.from_volume, MultiVolume.__init__, MultiVolume.add_volume, MultiVolume._get_priorities, MultiVolume.transform, MultiVolume.checkIfInterior, MultiVolume.populate_atoms, MultiVolume.from_volume, makeRectPrism. Not cited separately (accessors that return a field, abstract bases, or code listed above as not modelled): MultiVolume.volumes.
* `czone/volume/voxel.py`: cited: Voxel.__init__, Voxel.scale, Voxel.bases, Voxel.origin, Voxel.sbases, Voxel.reciprocal_bases, Voxel._collinear, Voxel.get_extents. Not cited separately (accessors that return a field, abstract bases, or code listed above as not modelled): Voxel.scale, Voxel.bases, Voxel.origin.
