{"id": "C01", "title": "Scene precedence is exact", "statement": "After Scene.populate(), the atoms reported by all_atoms/all_species are, with multiplicity, exactly the (position, species) pairs supplied by each object o that are not interior to any other object in the scene whose priority number is less than or equal to o's.", "quantifier": "every list of objects (any number, any priorities including ties and negatives), every populated atom list, every interiority predicate", "why_tests_cant": "The rule couples a sort, np.unique first-occurrence indices, relative levels and offsets; an off-by-one only shows for particular tie patterns among arbitrarily many objects.", "anchors": ["czone/scene/scene.py:Scene.populate", "czone/scene/scene.py:Scene._get_priorities", "czone/scene/scene.py:Scene.all_atoms", "czone/scene/scene.py:Scene.all_species"]}
{"id": "C02", "title": "No double occupancy of overlaps", "statement": "For two different objects in a populated scene, an atom that lies inside both is contributed by at most one of them: by the one with the strictly smaller priority number, and by neither when the priorities are equal; every atom contributed by o is outside every other object with priority <= o's.", "quantifier": "every scene, every pair of objects, every atom", "why_tests_cant": "It is a statement about all pairs of objects and all points; sampled scenes never cover all tie/overlap patterns.", "anchors": ["czone/scene/scene.py:Scene.populate", "czone/volume/volume.py:MultiVolume.populate_atoms"]}
{"id": "C03", "title": "Scene contents do not depend on insertion order", "statement": "Adding the same objects to a scene in any order yields the same multiset of (position, species) pairs after populate(); only the listing order may change, and it is by ascending priority with ties in insertion order.", "quantifier": "every list of objects and every permutation of it", "why_tests_cant": "n! orders for every n; the implementation sorts in place and then indexes by position.", "anchors": ["czone/scene/scene.py:Scene.add_object", "czone/scene/scene.py:Scene._get_priorities", "czone/scene/scene.py:Scene.populate"]}
{"id": "C04", "title": "Populate is idempotent and keeps positions and species aligned", "statement": "Calling populate() a second time on an unmodified scene leaves all_atoms and all_species unchanged, and all_atoms and all_species always have equal length.", "quantifier": "every scene whose objects populate deterministically", "why_tests_cant": "populate() reorders the object list in place, so the second call runs on a different state; alignment must hold for every mask.", "anchors": ["czone/scene/scene.py:Scene.populate", "czone/scene/scene.py:Scene.all_atoms", "czone/scene/scene.py:Scene.all_species"]}
{"id": "C05", "title": "MultiVolume: union interior and internal precedence, at any nesting depth", "statement": "MultiVolume.checkIfInterior(p) is true exactly when some member contains p; after populate_atoms() a MultiVolume (possibly nested) holds exactly the atoms of its members that are outside every other member of priority <= theirs, every such atom is interior to the MultiVolume, and atoms and species have equal length.", "quantifier": "every finite tree of volumes, all priorities, all points", "why_tests_cant": "Nesting depth and member count are unbounded.", "anchors": ["czone/volume/volume.py:MultiVolume.checkIfInterior", "czone/volume/volume.py:MultiVolume.populate_atoms", "czone/volume/volume.py:MultiVolume._get_priorities"]}
{"id": "C06", "title": "A scene can be read after it changes", "statement": "After populate(), adding another object must not change what all_atoms reports for the already populated objects (expected by users; the code raises IndexError until populate() is called again).", "quantifier": "every populated scene and every added object", "why_tests_cant": "It is about every history of add/populate/read calls.", "anchors": ["czone/scene/scene.py:Scene.add_object", "czone/scene/scene.py:Scene.all_atoms", "czone/scene/scene.py:Scene.species_from_object"]}
{"id": "C07", "title": "Scene.to_file writes the scene", "statement": "Scene.to_file(fname, **kwargs) hands the scene's atoms to the ASE writer exactly once for every set of keyword arguments; with format='prismatic' it supplies default Debye-Waller factors for every species unless the caller supplies a dictionary.", "quantifier": "every keyword-argument dictionary", "why_tests_cant": "The keyword space is open-ended; the failing branch is silent.", "anchors": ["czone/scene/scene.py:Scene.to_file"]}
{"id": "C08", "title": "Empty objects carve voids", "statement": "An object that supplies no atoms (NullGenerator) contributes nothing to a scene and removes every atom inside it that comes from an object of equal or larger priority number, and removes no other atom.", "quantifier": "every scene, every position of the void object in it, all points", "why_tests_cant": "Must hold for every other object set and every priority pattern.", "anchors": ["czone/generator/generator.py:NullGenerator.supply_atoms", "czone/scene/scene.py:Scene.populate", "czone/volume/volume.py:Volume.populate_atoms"]}
{"id": "C09", "title": "Volume.populate_atoms keeps exactly the supplied atoms that are interior", "statement": "After a successful populate_atoms(), a Volume's atoms/species are the generator's supplied (position, species) pairs, in order and with multiplicity, restricted to those for which checkIfInterior is true; nothing is invented, moved or re-labelled.", "quantifier": "every volume, generator and bounding box", "why_tests_cant": "Quantifies over all supplied atom lists and all masks.", "anchors": ["czone/volume/volume.py:Volume.populate_atoms", "czone/volume/volume.py:Volume.checkIfInterior"]}
{"id": "C10", "title": "Crystal volumes are completely filled", "statement": "For a Volume with a crystalline, unstrained Generator with invertible basis and fractional coordinates in [0,1)^3, after populate_atoms() every site of the infinite crystal that lies in the convex hull of the volume's bounding box and passes checkIfInterior is present, and no other atom is; for sphere-, cylinder- and point-bounded volumes that box contains the whole nominal region, so the region is completely filled.", "quantifier": "every lattice, basis, origin, scale, site list, and every sphere/cylinder/point-bounded region", "why_tests_cant": "Coverage is a statement about all real positions and orientations; floor/ceil extents fail only at particular alignments.", "anchors": ["czone/volume/volume.py:Volume.populate_atoms", "czone/volume/volume.py:Volume.get_bounding_box", "czone/volume/voxel.py:Voxel.get_extents", "czone/generator/generator.py:Generator.supply_atoms"]}
{"id": "C11", "title": "Polyhedral (plane-bounded) volumes can be populated", "statement": "A Volume bounded only by four or more Planes, with a crystalline generator, can be populated (as every Wulff construction requires).", "quantifier": "every such volume and generator", "why_tests_cant": "The user relies on it for all polyhedra; the negation is universal: populate_atoms raises for every such volume because get_bounding_box returns a tuple.", "anchors": ["czone/volume/volume.py:Volume.get_bounding_box", "czone/volume/algebraic.py:get_bounding_box", "czone/prefab/wulff.py:WulffSingle.get_construction"]}
{"id": "C12", "title": "Cylinder bounding box contains the cylinder", "statement": "For every Cylinder, get_bounding_box returns eight points, centred on the cylinder, whose convex hull contains every point within radius of the axis and half-length of the centre.", "quantifier": "every axis, centre, radius, length and every point of the cylinder", "why_tests_cant": "Fails only on the measure-zero set of axes parallel to (1,1,1), which random tests never hit.", "anchors": ["czone/volume/algebraic.py:Cylinder.get_bounding_box"]}
{"id": "C13", "title": "Sphere bounding box contains the sphere and uses the smallest sphere", "statement": "For a volume without points but with spheres, get_bounding_box returns the eight corners of the axis-aligned cube circumscribing a sphere of minimal radius, and the convex hull of these corners contains that whole ball; hence it contains the volume's region up to the tolerance shell.", "quantifier": "every list of algebraic objects with at least one sphere, every point", "why_tests_cant": "All reals, all lists.", "anchors": ["czone/volume/volume.py:Volume.get_bounding_box", "czone/volume/volume.py:makeRectPrism"]}
{"id": "C14", "title": "Volumes defined by points can be transformed", "statement": "Volume.transform moves the points (and hull) of a point-defined volume by the transformation and keeps the volume usable.", "quantifier": "every point set with a valid hull and every transformation", "why_tests_cant": "The negation is universal: every such call raises ValueError after clearing the points.", "anchors": ["czone/volume/volume.py:Volume.transform", "czone/volume/volume.py:Volume.points"]}
{"id": "C15", "title": "Adding points enlarges the interior", "statement": "After addPoints on a volume that already has a hull, checkIfInterior reflects the hull of all points.", "quantifier": "every initial point set and every batch of added points", "why_tests_cant": "A history property (add after add); the triangulation used for the check is only built once.", "anchors": ["czone/volume/volume.py:Volume.addPoints", "czone/volume/volume.py:Volume.createHull", "czone/volume/volume.py:Volume.checkIfInterior"]}
{"id": "C16", "title": "from_volume is a faithful copy", "statement": "Volume.from_volume() yields a volume with the same points, algebraic objects, priority, generator and tolerance, hence the same interior for every point; with transformation=[...] it equals copying then transforming in order; the original is unchanged.", "quantifier": "every volume, every keyword combination, every point", "why_tests_cant": "Copies must agree on all points and all attributes, for all inputs.", "anchors": ["czone/volume/volume.py:Volume.from_volume", "czone/volume/volume.py:MultiVolume.from_volume"]}
{"id": "C17", "title": "Volume interior is the intersection of its parts", "statement": "checkIfInterior(p) is true exactly when p is inside the hull (if the volume has points) and inside every algebraic object; it does not depend on the order in which algebraic objects were added; adding one can only remove points; with neither points nor objects every point is interior; the answer for a batch is the point-wise answer.", "quantifier": "every volume, every list and permutation of algebraic objects, every batch of points", "why_tests_cant": "Unbounded number of objects and points.", "anchors": ["czone/volume/volume.py:Volume.checkIfInterior", "czone/volume/volume.py:Volume.add_alg_object"]}
{"id": "C18", "title": "Rigid motions commute with interiority", "statement": "Applying a Translation, Rotation, Inversion, any orthogonal MatrixTransform, or any MultiTransform of these to an algebraically defined Volume moves its interior exactly: p is interior to the original iff T(p) is interior to the transformed volume.", "quantifier": "every volume built from spheres, planes and cylinders, every sequence of rigid motions, every point", "why_tests_cant": "All reals and all finite sequences.", "anchors": ["czone/volume/volume.py:Volume.transform", "czone/transform/transform.py:Translation.applyTransformation_alg", "czone/transform/transform.py:MatrixTransform.applyTransformation_alg", "czone/transform/transform.py:MultiTransform.applyTransformation_alg"]}
{"id": "C19", "title": "Reflections can be applied to algebraic objects", "statement": "Reflection.applyTransformation_alg maps algebraic objects to their mirror image.", "quantifier": "every reflection and algebraic object", "why_tests_cant": "The negation is universal: isinstance is called with one argument so every call raises TypeError.", "anchors": ["czone/transform/transform.py:Reflection.applyTransformation_alg", "czone/volume/volume.py:Volume.transform"]}
{"id": "C20", "title": "General matrix transforms move algebraic interiors", "statement": "MatrixTransform with an arbitrary invertible matrix maps the interior of a plane or sphere to its image (expected by users of the general class).", "quantifier": "every invertible matrix, plane/sphere, and point", "why_tests_cant": "Only non-orthogonal matrices expose that normals are not transformed by the inverse transpose and radii are not scaled.", "anchors": ["czone/transform/transform.py:MatrixTransform.applyTransformation_alg"]}
{"id": "C21", "title": "Plane distance and projection laws", "statement": "For every Plane: the projection of every row of an Nx3 array of points lies on the plane, differs from the point by a multiple of the normal, is idempotent and is the closest point of the plane; dist_from_plane is the Euclidean distance to the plane and |signed distance|; flipping the orientation negates the signed distance, and classifies every point farther than tol from the plane oppositely.", "quantifier": "every non-zero normal, point on plane, tolerance, and test point", "why_tests_cant": "All reals.", "anchors": ["czone/volume/algebraic.py:Plane.project_point", "czone/volume/algebraic.py:Plane.sdist_from_plane", "czone/volume/algebraic.py:Plane.dist_from_plane", "czone/volume/algebraic.py:Plane.flip_orientation", "czone/volume/algebraic.py:Plane.checkIfInterior"]}
{"id": "C22", "title": "Algebraic objects are always valid", "statement": "Whatever sequence of constructor calls, setter calls and transformations is applied, an algebraic object that exists has a positive radius/length, a unit normal/axis and a positive tolerance; setters reject (with an exception, leaving the object unchanged) exactly the values outside the documented domain.", "quantifier": "every history of constructor, setter and transformation calls", "why_tests_cant": "Histories are unbounded.", "anchors": ["czone/volume/algebraic.py:Sphere", "czone/volume/algebraic.py:Plane", "czone/volume/algebraic.py:Cylinder", "czone/volume/algebraic.py:BaseAlgebraic.tol"]}
{"id": "C23", "title": "Sphere and cylinder interiors are the padded ball and padded finite cylinder", "statement": "Sphere.checkIfInterior(p) iff |p-c| < radius+tol; Cylinder.checkIfInterior(p) iff the distance of p from the axis line is < radius+tol and the distance of its foot point from the centre is < length/2+tol, whatever scaling of the axis was supplied.", "quantifier": "every parameter set and point", "why_tests_cant": "All reals; the cylinder check is written with a cross product and a dot product.", "anchors": ["czone/volume/algebraic.py:Sphere.checkIfInterior", "czone/volume/algebraic.py:Cylinder.checkIfInterior"]}
{"id": "C24", "title": "convex_hull_to_planes faces inward", "statement": "Given the facets of a point set's convex hull, every returned plane has the centroid and all the points in its (closed) interior side, so the hull is contained in the region the planes bound.", "quantifier": "every point set and facet list with supporting facets", "why_tests_cant": "All point sets.", "anchors": ["czone/volume/algebraic.py:convex_hull_to_planes", "czone/volume/algebraic.py:Plane.flip_orientation"]}
{"id": "C25", "title": "get_bounding_box of planes finds non-empty regions", "statement": "get_bounding_box(planes) reports status 2 (no valid intersection) only if the half-spaces have no common point.", "quantifier": "every list of planes", "why_tests_cant": "Requires all placements of the region relative to the coordinate octants; linprog's default non-negativity bounds interact with the chosen shift.", "anchors": ["czone/volume/algebraic.py:get_bounding_box"]}
{"id": "C26", "title": "snap_plane_near_point returns a lattice plane", "statement": "For an unstrained generator, the returned plane is a plane h.u = k (k integer) of the requested Miller family in the generator's own crystal frame, for every mode; for single-index Miller indices 'nearest' is the closest such plane to the point, 'floor' the next one towards and 'ceil' the next one away from the origin.", "quantifier": "every basis, origin, Miller index triple, point and mode", "why_tests_cant": "All reals and all integer triples.", "anchors": ["czone/volume/algebraic.py:snap_plane_near_point", "czone/util/misc.py:round_away"]}
{"id": "C27", "title": "MultiTransform is sequential composition on points, bases and objects", "statement": "Applying MultiTransform([t1..tn]) to points, bases or algebraic objects equals applying t1, then t2, ... tn; nesting and concatenating sequences is associative; the empty sequence is the identity.", "quantifier": "every finite (nested) sequence of transformations, every point", "why_tests_cant": "Unbounded sequences.", "anchors": ["czone/transform/transform.py:MultiTransform"]}
{"id": "C28", "title": "Transforming a generator by a MultiTransform equals transforming step by step", "statement": "Generator.transform(MultiTransform([t1..tn])) has the same effect as Generator.transform(t1); ...; Generator.transform(tn).", "quantifier": "every sequence of transformations with any basis_only flags", "why_tests_cant": "Holds for all uniform sequences and fails for mixed basis_only flags; a flag pattern property over unbounded sequences.", "anchors": ["czone/transform/transform.py:MultiTransform.basis_only", "czone/generator/generator.py:Generator.transform"]}
{"id": "C29", "title": "Reflection is the mirror image", "statement": "Reflection(plane) applied to points fixes the plane pointwise, negates the signed distance to the plane, preserves all distances, and is its own inverse, for every orientation and length of the supplied normal.", "quantifier": "every plane and all points", "why_tests_cant": "All reals.", "anchors": ["czone/transform/transform.py:Reflection.matrix", "czone/transform/transform.py:Reflection.plane", "czone/transform/transform.py:MatrixTransform.applyTransformation"]}
{"id": "C30", "title": "rot_vtv aligns one vector with another", "statement": "rot_vtv(v, vt) is a proper rotation (orthogonal, determinant 1) that maps the direction of v to the direction of vt, for all non-zero v and vt.", "quantifier": "every pair of non-zero vectors", "why_tests_cant": "The failing inputs (anti-parallel vectors along a negative coordinate axis) have measure zero.", "anchors": ["czone/transform/transform.py:rot_vtv"]}
{"id": "C31", "title": "rot_zxz intrinsic and extrinsic conventions agree", "statement": "The documented convention: intrinsic rotations alpha-beta-gamma about Z, X', Z'' and extrinsic rotations gamma-beta-alpha about z, x, z with the same angles give the same orientation.", "quantifier": "all angle triples", "why_tests_cant": "All reals; special angles coincide.", "anchors": ["czone/transform/transform.py:rot_zxz"]}
{"id": "C32", "title": "s2s_alignment returns an alignment", "statement": "s2s_alignment(M_plane, T_plane, M_point, T_point) returns a rotation followed by a translation that makes the planes anti-parallel and coincident, and does not modify its arguments.", "quantifier": "all planes and points, in any admissible array shape", "why_tests_cant": "The negation is universal over inputs: no array shape makes the call succeed, and M_plane has already been rotated.", "anchors": ["czone/transform/transform.py:s2s_alignment", "czone/transform/transform.py:Translation.shift", "czone/volume/algebraic.py:Plane.project_point"]}
{"id": "C33", "title": "Accepted rotation matrices are near-isometries", "statement": "Every matrix accepted by Rotation (or as a Molecule orientation) changes squared lengths by at most a relative 1e-6, so distances are preserved to that tolerance; exactly orthogonal matrices of determinant 1 are always accepted.", "quantifier": "every real 3x3 matrix and every vector", "why_tests_cant": "All reals: the check bounds M.M^T, the effect is through M.", "anchors": ["czone/transform/transform.py:Rotation.matrix", "czone/molecule/molecule.py:BaseMolecule.orientation"]}
{"id": "C34", "title": "Rigid motions are invertible isometries on points", "statement": "Translation, Rotation, Inversion and Reflection preserve all pairwise distances; applying the opposite translation, the transposed rotation about the same origin, or the same inversion/reflection again restores every point.", "quantifier": "all points, all parameters", "why_tests_cant": "All reals.", "anchors": ["czone/transform/transform.py:Translation.applyTransformation", "czone/transform/transform.py:MatrixTransform.applyTransformation", "czone/transform/transform.py:Inversion.matrix"]}
{"id": "C35", "title": "supply_atoms covers the requested region", "statement": "Generator.supply_atoms(bbox) returns every site of the infinite crystal (basis, origin, fractional coordinates in [0,1)) lying in the convex hull of bbox.", "quantifier": "every invertible basis, origin, site list in the unit cell, box, and lattice site", "why_tests_cant": "All reals; floor/ceil boundary cases.", "anchors": ["czone/generator/generator.py:Generator.supply_atoms", "czone/volume/voxel.py:Voxel.get_extents"]}
{"id": "C36", "title": "supply_atoms returns only crystal sites, each once, with the right species", "statement": "Every supplied atom is the site B(n+f)+origin for an integer cell n and a unit-cell site f with that site's species; each (cell, site) in the covering block occurs exactly once; if sites are distinct modulo the lattice no position occurs twice.", "quantifier": "every generator and box", "why_tests_cant": "All lattices and block sizes.", "anchors": ["czone/generator/generator.py:Generator.supply_atoms"]}
{"id": "C37", "title": "Transforming a generator moves its crystal", "statement": "After Generator.transform(t) (t not basis_only) the infinite crystal is the image of the original under t, for translations and matrix transforms about any origin; with basis_only=True only directions change and the origin is kept.", "quantifier": "every generator, transformation and lattice site", "why_tests_cant": "All reals; scale broadcasting matters (row scaling breaks it).", "anchors": ["czone/generator/generator.py:Generator.transform", "czone/volume/voxel.py:Voxel.sbases", "czone/transform/transform.py:MatrixTransform.applyTransformation_bases"]}
{"id": "C38", "title": "Supplied atoms sit on the structure's lattice", "statement": "The atoms supplied by a Generator are translations by the lattice vectors of its pymatgen structure (rows of lattice.matrix, as the documentation states).", "quantifier": "every structure", "why_tests_cant": "Orthogonal cells hide the row/column confusion; it appears for every non-symmetric lattice matrix.", "anchors": ["czone/generator/generator.py:Generator.structure", "czone/generator/generator.py:Generator.supply_atoms", "czone/volume/voxel.py:Voxel.bases"]}
{"id": "C39", "title": "Accepted voxel bases are linearly independent", "statement": "Voxel.bases accepts only linearly independent vectors, so get_extents and reciprocal_bases never fail.", "quantifier": "every 3x3 matrix", "why_tests_cant": "Dependent-but-pairwise-non-collinear triples and zero vectors pass the check.", "anchors": ["czone/volume/voxel.py:Voxel.bases", "czone/volume/voxel.py:Voxel._collinear", "czone/volume/voxel.py:Voxel.get_extents"]}
{"id": "C40", "title": "Homogeneous strain is linear about its origin", "statement": "HStrain with the identity matrix changes nothing; the strain origin is a fixed point; in crystal mode fractional coordinates are multiplied by the strain matrix; only the modes 'crystal' and 'standard' are accepted.", "quantifier": "every strain matrix, basis, origin and point; every mode string", "why_tests_cant": "All reals, all strings.", "anchors": ["czone/transform/strain.py:HStrain.apply_strain", "czone/transform/strain.py:BaseStrain.mode", "czone/transform/strain.py:HStrain.matrix"]}
{"id": "C41", "title": "Strained crystals also fill the volume", "statement": "With a strain field attached, supply_atoms still returns every strained site lying in the box.", "quantifier": "every strain and box", "why_tests_cant": "Needs all strains; the extents are computed before straining.", "anchors": ["czone/generator/generator.py:Generator.supply_atoms", "czone/transform/strain.py:HStrain.apply_strain"]}
{"id": "C42", "title": "AmorphousGenerator fills the requested region at the requested density", "statement": "AmorphousGenerator.supply_atoms(bbox) returns atoms inside bbox with the generator's density and species; with use_old_result it repeats the previous result.", "quantifier": "every bounding box, density and history of calls", "why_tests_cant": "History property plus all boxes; only boxes with a corner at the origin and the default density behave.", "anchors": ["czone/generator/generator.py:AmorphousGenerator.supply_atoms", "czone/generator/amorphous_algorithms.py:gen_p_substrate"]}
{"id": "C43", "title": "IStrain can be constructed", "statement": "IStrain(fun) accepts a strain function with the documented signature.", "quantifier": "every function", "why_tests_cant": "The negation is universal: the validating setter raises TypeError for every function.", "anchors": ["czone/transform/strain.py:IStrain.__init__", "czone/transform/strain.py:IStrain.strain_fun"]}
{"id": "C44", "title": "Amorphous blocks respect the minimum bond distance", "statement": "Whenever gen_p_substrate returns, the result has round(volume*density) atoms, all inside the block, and any two atoms are at Euclidean distance >= min_dist.", "quantifier": "every block size, min_dist, density and every stream of random draws", "why_tests_cant": "Any number of atoms and all random streams; the voxel neighbour search must never miss a close pair.", "anchors": ["czone/generator/amorphous_algorithms.py:gen_p_substrate", "czone/generator/amorphous_algorithms.py:get_voxels", "czone/generator/amorphous_algorithms.py:get_p_dist"]}
{"id": "C45", "title": "Amorphous blocks respect periodic boundaries", "statement": "Any two atoms of gen_p_substrate's result are at least min_dist apart also across the periodic x and y boundaries.", "quantifier": "every block size and random stream", "why_tests_cant": "Violations need a block size that is not a multiple of min_dist and two specific draws.", "anchors": ["czone/generator/amorphous_algorithms.py:gen_p_substrate", "czone/generator/amorphous_algorithms.py:get_voxels"]}
{"id": "C46", "title": "Batched amorphous generation respects the minimum bond distance", "statement": "Whenever gen_p_substrate_batched returns, it has exactly round(volume*density) atoms inside the block, pairwise at Euclidean distance >= min_dist, for every batch size and voxel scale >= 1.", "quantifier": "all sizes, batch sizes and random streams", "why_tests_cant": "In-batch conflicts, truncation of the last batch and voxel bookkeeping interact over an unbounded run.", "anchors": ["czone/generator/amorphous_algorithms.py:gen_p_substrate_batched", "czone/generator/amorphous_algorithms.py:get_p_dist_batch", "czone/util/measure.py:get_voxel_grid"]}
{"id": "C47", "title": "Periodic distance is the minimum-image distance", "statement": "get_p_dist, get_p_dist_batch and the function returned by get_sdist_fun give, for points inside the box, the smallest squared distance between any periodic images (in the periodic directions).", "quantifier": "every box, all points in it, all integer image shifts", "why_tests_cant": "Minimum over infinitely many images.", "anchors": ["czone/generator/amorphous_algorithms.py:get_p_dist", "czone/generator/amorphous_algorithms.py:get_p_dist_batch", "czone/util/measure.py:get_sdist_fun"]}
{"id": "C48", "title": "get_voxel_grid lists exactly the neighbours", "statement": "For every grid size and every choice of periodic directions, the neighbour list of voxel (x,y,z) is exactly the set of voxels reached by steps -1,0,1 in each direction, wrapped in periodic directions and clipped in the others; neighbourhood is reflexive and symmetric; with all directions periodic entry j is the j-th offset.", "quantifier": "all dim >= 1, all periodicity flags, all voxels", "why_tests_cant": "All grid sizes including 1 and 2, where wrapped neighbours coincide.", "anchors": ["czone/util/measure.py:get_voxel_grid"]}
{"id": "C49", "title": "get_N_splits returns separated sorted indices", "statement": "Whenever get_N_splits(n,m,l) returns (n>=1), it returns n integers in ascending order, each in [m, l-m), consecutive ones at least m apart.", "quantifier": "all n, m, l and all random draws", "why_tests_cant": "All random streams, including those that dead-end and reseed.", "anchors": ["czone/util/misc.py:get_N_splits"]}
{"id": "C50", "title": "get_N_splits terminates or raises", "statement": "get_N_splits raises ValueError when the request cannot be met and otherwise can always still finish: from every point of every run some continuation of the random stream makes it return.", "quantifier": "all n, m, l and all prefixes of random streams", "why_tests_cant": "Non-termination is invisible to tests; the guard is off by one, so some infeasible requests loop forever on every stream.", "anchors": ["czone/util/misc.py:get_N_splits"]}
{"id": "C51", "title": "round_away rounds away from zero", "statement": "round_away(x) is the integer of smallest magnitude with magnitude >= |x| and the sign of x; np.fix and round_away bracket x.", "quantifier": "all reals", "why_tests_cant": "All reals.", "anchors": ["czone/util/misc.py:round_away"]}
{"id": "C52", "title": "get_sdist_fun works for every periodicity choice", "statement": "get_sdist_fun returns a function for every combination of periodicity flags; without periodic directions it is the plain squared Euclidean distance and needs no box size.", "quantifier": "all flag and dims combinations", "why_tests_cant": "Default-argument combination raises; all inputs.", "anchors": ["czone/util/measure.py:get_sdist_fun"]}
{"id": "C53", "title": "calc_rdf counts every pair", "statement": "calc_rdf counts, for every pair of distinct particles closer than the cutoff (under the chosen periodicity), that pair in the histogram bin of its distance.", "quantifier": "every particle set, cutoff, and periodicity", "why_tests_cant": "The voxel loop indexes the neighbour table with a particle index; only sparse or unordered inputs expose it.", "anchors": ["czone/util/measure.py:calc_rdf"]}
{"id": "C54", "title": "makeRectPrism is the rectangular box", "statement": "makeRectPrism(a,b,c[,center]) returns the 8 corners whose convex hull is exactly the axis-parallel box of the given dimensions with the given centre (or with a corner at the origin).", "quantifier": "all dimensions, centres and points", "why_tests_cant": "All reals.", "anchors": ["czone/volume/volume.py:makeRectPrism"]}
{"id": "C55", "title": "Chemical substitution only substitutes targets", "statement": "ChemicalSubstitution leaves positions unchanged, keeps the number of atoms, changes only atoms whose original species is a target, into that target's substitute; frac=1 replaces all of them; a species that is both substitute and target is not substituted twice; the same seed gives the same result.", "quantifier": "all species arrays, target lists, fractions and random draws", "why_tests_cant": "All draws and array sizes.", "anchors": ["czone/transform/post.py:ChemicalSubstitution"]}
{"id": "C56", "title": "PostSequence applies its members in order", "statement": "PostSequence(ts).apply_function equals applying the members in list order, nested sequences flatten, and adding a transform composes it last; a sequence of length-preserving transforms preserves the pairing length.", "quantifier": "all sequences and inputs", "why_tests_cant": "Unbounded nesting.", "anchors": ["czone/transform/post.py:PostSequence"]}
{"id": "C57", "title": "Molecules always have one species per position", "statement": "After any sequence of constructor, set_atoms, update_positions, update_species, remove_atoms, transform calls (including ones that raise), species and atoms have equal length; a raising call leaves atoms and species unchanged.", "quantifier": "every history of calls with arbitrary arguments", "why_tests_cant": "Unbounded histories with exceptions.", "anchors": ["czone/molecule/molecule.py:BaseMolecule.set_atoms", "czone/molecule/molecule.py:BaseMolecule.update_positions", "czone/molecule/molecule.py:BaseMolecule.update_species", "czone/molecule/molecule.py:BaseMolecule.remove_atoms"]}
{"id": "C58", "title": "The origin moves with the molecule", "statement": "Under any sequence of transformations the origin of a molecule is the image of its previous origin, whether it is a fixed point or tracks an atom; with transform_origin=False a fixed origin stays.", "quantifier": "every molecule and every sequence of transformations", "why_tests_cant": "Unbounded sequences, two modes.", "anchors": ["czone/molecule/molecule.py:BaseMolecule.transform", "czone/molecule/molecule.py:BaseMolecule.set_origin", "czone/molecule/molecule.py:BaseMolecule.origin"]}
{"id": "C59", "title": "The tracked atom survives removals", "statement": "If the origin tracks an atom that is not removed, remove_atoms keeps the origin at that atom's position.", "quantifier": "every molecule, tracked index and removal set", "why_tests_cant": "Depends on the relative order of removed and tracked indices, including negative indices.", "anchors": ["czone/molecule/molecule.py:BaseMolecule.remove_atoms", "czone/molecule/molecule.py:BaseMolecule.origin"]}
{"id": "C60", "title": "remove_atoms removes exactly the given atoms", "statement": "A successful remove_atoms(indices) keeps exactly the atoms whose index (negative indices counted from the end) is not listed, in their original order, positions and species together; out-of-range indices raise IndexError.", "quantifier": "every molecule and index list (with repeats and negatives)", "why_tests_cant": "All index lists.", "anchors": ["czone/molecule/molecule.py:BaseMolecule.remove_atoms"]}
{"id": "C61", "title": "A rejected origin leaves the molecule usable", "statement": "If set_origin raises, the molecule's origin is unchanged.", "quantifier": "every molecule and every rejected argument", "why_tests_cant": "Exception-safety over all states.", "anchors": ["czone/molecule/molecule.py:BaseMolecule.set_origin", "czone/molecule/molecule.py:BaseMolecule._origin_idx"]}
{"id": "C62", "title": "get_nearest_neighbors returns the ball of N_shells bonds", "statement": "get_nearest_neighbors returns exactly the vertices different from the target that can be reached from it by at most N_shells edges of the selected tetrahedra.", "quantifier": "every set of tetrahedra, target vertex and number of shells", "why_tests_cant": "The code takes exactly-N-step walks; equality with the ball needs a parity argument over all graphs made of tetrahedra.", "anchors": ["czone/surface/adsorbate.py:get_nearest_neighbors", "czone/surface/adsorbate.py:sparse_matrix_from_tri"]}
{"id": "C63", "title": "tetrahedron_circumradii is the circumradius", "statement": "For every non-degenerate tetrahedron the computed centre is equidistant from the four vertices at the returned radius, and the radius is invariant under translation and under relabelling of vertices.", "quantifier": "all quadruples of points in general position", "why_tests_cant": "All reals.", "anchors": ["czone/surface/alpha_shape.py:tetrahedron_circumradii"]}
{"id": "C64", "title": "alpha_shape finds the surface", "statement": "The tetrahedra selected as surface are exactly those passing the probe test that are on the outside of the triangulation or touch an outside tetrahedron failing it (sentinel -1 neighbours never change this), and every vertex of a face between the alpha shape and the outside is returned.", "quantifier": "every triangulation and probe outcome", "why_tests_cant": "All adjacency patterns; the -1 sentinel silently indexes the last tetrahedron.", "anchors": ["czone/surface/alpha_shape.py:alpha_shape_alg_3D", "czone/surface/alpha_shape.py:alpha_shape_alg_3D_with_sampling"]}
{"id": "C65", "title": "Adsorbates are placed rigidly at the bond length", "statement": "add_adsorbate returns a rigid copy of the molecule (all interatomic distances kept, species kept, original untouched) whose bonding atom sits at target + bond_length*normal, and the success flag is true exactly when no atom of it lies inside the volume.", "quantifier": "every molecule, index, bond length, volume, normal and rotation angle", "why_tests_cant": "All reals and molecules.", "anchors": ["czone/surface/adsorbate.py:add_adsorbate", "czone/molecule/molecule.py:BaseMolecule.from_molecule"]}
{"id": "C66", "title": "The approximate surface normal is a unit vector", "statement": "find_approximate_normal always stops within max_steps and returns a normalized vector.", "quantifier": "every point set, random sequence, and parameters", "why_tests_cant": "All random sequences; fails when no sampled point triggers an update.", "anchors": ["czone/surface/adsorbate.py:find_approximate_normal"]}
{"id": "C67", "title": "The adsorption site satisfies every filter", "statement": "The target atom chosen by add_adsorbate is a surface atom that satisfies every valid filter supplied; unknown filter keys do not change the candidate set.", "quantifier": "every filter dictionary and surface set", "why_tests_cant": "All dictionaries.", "anchors": ["czone/surface/adsorbate.py:add_adsorbate"]}
{"id": "C68", "title": "Stacking-fault prefabs partition the host volume", "statement": "The MultiVolume built by fccMixedTwinSF/wurtziteStackingFault has N+1 members with priorities N..0, its interior equals the host volume's interior, and every interior point of the host is served by exactly one member: the one with the lowest defect plane above it.", "quantifier": "every host volume, number of defects, plane stack and defect type sequence", "why_tests_cant": "Any N and any random defect sequence; depends on priorities, reversed splits and nested half-spaces together.", "anchors": ["czone/prefab/prefab.py:fccMixedTwinSF.build_object", "czone/prefab/prefab.py:wurtziteStackingFault.build_object"]}
{"id": "C69", "title": "Defect planes are separated", "statement": "The defect planes chosen by the prefab are members of the evenly spaced plane stack, and any two of them are at least min_sep*d_hkl apart.", "quantifier": "all N, min_sep, stacks and random draws", "why_tests_cant": "All random streams.", "anchors": ["czone/prefab/prefab.py:fccMixedTwinSF.build_object", "czone/util/misc.py:get_N_splits"]}
{"id": "C70", "title": "Wulff grains receive their own facets", "statement": "When a form has 5k (20k) facets, facet i goes to grain i//k, so every grain receives exactly k consecutive facets of each form and no facet is lost; facet planes bound exactly n.x < distance (+tol).", "quantifier": "all forms and facet counts", "why_tests_cant": "All k and numbers of forms.", "anchors": ["czone/prefab/wulff.py:WulffDecahedron.get_construction", "czone/prefab/wulff.py:WulffIcosahedron.get_construction", "czone/prefab/wulff.py:WulffBase.planes_from_form"]}
{"id": "C71", "title": "Wulff convenience constructors work", "statement": "WulffSingle.cube/cuboctohedron/octohedron/truncated_octohedron and the decahedron/icosahedron constructions return a volume.", "quantifier": "every generator and particle size", "why_tests_cant": "The negation is universal: argument lists do not match for any input.", "anchors": ["czone/prefab/wulff.py:WulffSingle.cube", "czone/prefab/wulff.py:WulffDecahedron.get_construction", "czone/prefab/wulff.py:WulffIcosahedron.get_construction"]}
{"id": "C72", "title": "Grain boundaries partition the volume", "statement": "SimpleGrainBoundary builds two grains: grain 1 serves exactly the host points on the interior side of the plane, grain 2 exactly the remaining host points; together they cover the host.", "quantifier": "every host volume, plane and point", "why_tests_cant": "All points; priority arithmetic on the copied volumes.", "anchors": ["czone/prefab/prefab.py:SimpleGrainBoundary.build_object"]}
{"id": "C73", "title": "Volumes own private copies of generators and surfaces", "statement": "After a generator or algebraic object is added to a volume, no later operation on that volume (or on copies made by from_volume/from_generator/from_alg_object) changes the caller's object or any other volume, and vice versa.", "quantifier": "every history of add/copy/transform operations over any number of objects", "why_tests_cant": "Aliasing bugs appear only for particular sharing patterns in unbounded histories.", "anchors": ["czone/volume/volume.py:Volume.add_generator", "czone/volume/volume.py:Volume.add_alg_object", "czone/generator/generator.py:BaseGenerator.from_generator", "czone/volume/algebraic.py:BaseAlgebraic.from_alg_object"]}
{"id": "C74", "title": "Transforming a MultiVolume moves each member once", "statement": "MultiVolume.transform(t) transforms every owned volume exactly once.", "quantifier": "every MultiVolume, including nested ones with shared members", "why_tests_cant": "Members are held by reference; only sharing patterns (a volume listed twice or shared by two groups) expose repeated transformation.", "anchors": ["czone/volume/volume.py:MultiVolume.add_volume", "czone/volume/volume.py:MultiVolume.transform"]}
{"id": "C75", "title": "Any volume can be transformed by a locked transformation", "statement": "Volume.transform with a transformation that is locked (not basis-only) moves the volume together with whatever generator fills it, and never stops half-way.", "quantifier": "every volume, generator kind and transformation", "why_tests_cant": "Needs every combination of generator class and transformation flags; the failure leaves a half-moved object.", "anchors": ["czone/volume/volume.py:Volume.transform", "czone/generator/amorphous_algorithms.py:AmorphousGenerator", "czone/generator/generator.py:NullGenerator"]}
{"id": "C76", "title": "Supplied atoms cover the region for every choice of site coordinates", "statement": "Generator.supply_atoms returns every atom of the infinite crystal inside the bounding box, whichever representatives (inside or outside [0,1)) are used for the fractional site coordinates.", "quantifier": "every structure, including fractional coordinates outside the unit cell, and every bounding box", "why_tests_cant": "The extents are computed from the cell corners only, so the failure depends on arbitrary real coordinates.", "anchors": ["czone/generator/generator.py:Generator.supply_atoms", "czone/volume/voxel.py:Voxel.get_extents"]}
{"id": "C77", "title": "Batched amorphous blocks respect periodic boundaries", "statement": "Any two atoms of gen_p_substrate_batched's result are at least min_dist apart also across the periodic x and y boundaries.", "quantifier": "every block size, batch size, voxel scale >= 1 and random stream", "why_tests_cant": "The neighbour search is too narrow only when the last voxel is thinner than min_dist, and only for particular draws.", "anchors": ["czone/generator/amorphous_algorithms.py:gen_p_substrate_batched", "czone/util/measure.py:get_voxel_grid"]}
{"id": "C78", "title": "A zero substitution fraction changes nothing", "statement": "ChemicalSubstitution with frac=0 returns the species unchanged.", "quantifier": "every species array, every target/substitute list, every draw in [0,1)", "why_tests_cant": "It fails only when the generator draws exactly 0, which no test run will show.", "anchors": ["czone/transform/post.py:ChemicalSubstitution"]}
{"id": "C79", "title": "The tracked atom cannot be removed", "statement": "remove_atoms raises when the atom tracked by the origin is among those to be removed.", "quantifier": "every molecule, tracked index (positive or negative) and index list", "why_tests_cant": "The alias of an index counted from the end must be covered for every molecule size.", "anchors": ["czone/molecule/molecule.py:BaseMolecule.remove_atoms"]}
{"id": "C80", "title": "Sampling only adds tetrahedra to the alpha shape", "statement": "alpha_shape_alg_3D_with_sampling works on the triangulation of the unperturbed points; a boundary tetrahedron belongs to the returned alpha shape iff its circumradius is at most the probe radius in at least one sample, so further samples only add tetrahedra and never remove one.", "quantifier": "every point set, probe radius, number of samples and random perturbation", "why_tests_cant": "It ranges over all perturbations and all triangulations returned for them.", "anchors": ["czone/surface/alpha_shape.py:alpha_shape_alg_3D_with_sampling"]}
{"id": "C81", "title": "The molecule's vector ends up along the surface normal", "statement": "After add_adsorbate the direction mol_vector of the molecule (in its own frame) points along the surface normal used for placement.", "quantifier": "every molecule, orientation, mol_vector, normal and rotation angle", "why_tests_cant": "Ranges over all vectors and rotations; it fails off a measure-zero set of orientations only.", "anchors": ["czone/surface/adsorbate.py:add_adsorbate", "czone/molecule/molecule.py:BaseMolecule.transform"]}
{"id": "C82", "title": "Rotating a molecule rotates its orientation", "statement": "Transforming a molecule by a rotation R replaces its orientation matrix Q by R Q, so directions fixed to the molecule keep the same coordinates in the molecule's frame.", "quantifier": "every molecule and every rotation", "why_tests_cant": "All rotations; sampled tests with the identity orientation or commuting rotations agree with the wrong formula.", "anchors": ["czone/molecule/molecule.py:BaseMolecule.transform", "czone/molecule/molecule.py:BaseMolecule.orientation"]}
{"id": "C83", "title": "calc_rdf leaves its argument unchanged", "statement": "calc_rdf(coords) does not modify the array passed in.", "quantifier": "every coordinate array and cutoff", "why_tests_cant": "Whether an aliasing effect is visible depends on the data: arrays that already start at the origin hide it.", "anchors": ["czone/util/measure.py:calc_rdf"]}
{"id": "C84", "title": "Defect prefabs build whenever the request fits", "statement": "fccMixedTwinSF.build_object succeeds for every host with a usable bounding box and every unstrained crystal when N planes min_sep apart fit in the plane stack; whatever random numbers have been drawn so far, the run can still finish.", "quantifier": "every host, crystal, N, min_sep, defect ratio, prefix of the random stream", "why_tests_cant": "Ranges over all prefixes of the random stream and all hosts.", "anchors": ["czone/prefab/prefab.py:fccMixedTwinSF.build_object", "czone/util/misc.py:get_N_splits"]}
{"id": "C85", "title": "Grains are mirrored at twins and shifted at faults", "statement": "In the object built by fccMixedTwinSF, going from a grain to the one below, the crystal is the mirror image in the plane between them when the defect is a twin, and the rigidly shifted crystal when it is a stacking fault; the random number compared with ratio decides.", "quantifier": "every host, crystal, number of defects and random sequence", "why_tests_cant": "The crystal of the k-th grain depends on the whole history of defects above it.", "anchors": ["czone/prefab/prefab.py:fccMixedTwinSF.build_object", "czone/generator/generator.py:Generator.transform"]}
{"id": "C86", "title": "Stacking faults slide within the fault plane", "statement": "A stacking fault displaces the crystal parallel to the fault plane, by the same vector up to sign however many defects precede it, and never stacks a close-packed layer straight on top of the next.", "quantifier": "every plane family, crystal, number of defects and random sequence", "why_tests_cant": "The sign of the displacement depends on the parity of the number of twins so far; a wrong sign shows only in particular sequences.", "anchors": ["czone/prefab/prefab.py:fccMixedTwinSF.build_object"]}
{"id": "C87", "title": "Requested defects lie in the host", "statement": "The planes among which defects are chosen run across the host volume.", "quantifier": "every host volume, crystal and plane family", "why_tests_cant": "Hosts centred at the origin, the usual test case, hide the error.", "anchors": ["czone/prefab/prefab.py:fccMixedTwinSF.build_object", "czone/prefab/prefab.py:wurtziteStackingFault.build_object"]}
{"id": "C88", "title": "Grain boundary phases rotate the grains", "statement": "SimpleGrainBoundary's r1 and r2 rotate the grains about their zone axes, plane may be a Plane or Miller indices, and volume a Volume or MultiVolume.", "quantifier": "every grain boundary specification", "why_tests_cant": "The negation is universal: the arguments have no effect for any input.", "anchors": ["czone/prefab/prefab.py:SimpleGrainBoundary"]}
{"id": "C89", "title": "Zone axes of the grains are aligned with z", "statement": "After SimpleGrainBoundary.build_object the zone axis z1 of grain 1 and z2 of grain 2 point along +z.", "quantifier": "every crystal and every pair of zone axes", "why_tests_cant": "Fails only for directions antiparallel to z.", "anchors": ["czone/prefab/prefab.py:SimpleGrainBoundary.build_object", "czone/transform/transform.py:rot_vtv"]}
{"id": "C90", "title": "Any volume can host planar defects", "statement": "The defect prefabs accept every Volume or MultiVolume as host.", "quantifier": "every host volume", "why_tests_cant": "Ranges over all ways of bounding a volume.", "anchors": ["czone/prefab/prefab.py:fccMixedTwinSF.volume", "czone/volume/volume.py:Volume.get_bounding_box"]}
{"id": "C91", "title": "Wulff particles are the intersection of their facets' half spaces", "statement": "get_construction of a fresh WulffSingle, and winterbottom, return a volume whose interior is exactly the set of points with n.x < d (+1e-5) for every facet of the computed particle, carrying the given crystal.", "quantifier": "every crystal, every dictionary of surface energies, every size, every particle wulffpack can return with unit normals", "why_tests_cant": "Any number of facets in any position.", "anchors": ["czone/prefab/wulff.py:WulffSingle.get_construction", "czone/prefab/wulff.py:WulffSingle.winterbottom", "czone/prefab/wulff.py:WulffBase.planes_from_wulff"]}
{"id": "C92", "title": "Wulff particles can be filled with atoms", "statement": "populate_atoms succeeds on the volume returned by WulffSingle.get_construction.", "quantifier": "every particle with at least four facets", "why_tests_cant": "The negation is universal: the bounding box of a plane-only volume is a tuple, for every particle.", "anchors": ["czone/prefab/wulff.py:WulffSingle.get_construction", "czone/volume/volume.py:Volume.populate_atoms", "czone/volume/volume.py:Volume.get_bounding_box"]}
{"id": "C93", "title": "Wulff constructions follow the current settings", "statement": "After natoms, surface_energies or generator of a WulffSingle is reassigned, the next get_construction returns the particle for the new settings; without reassignment, repeated calls return the same particle.", "quantifier": "every sequence of reassignments and constructions", "why_tests_cant": "Depends on the order of calls: only histories with a construction before the reassignment show it.", "anchors": ["czone/prefab/wulff.py:WulffSingle.wulff", "czone/prefab/wulff.py:WulffSingle.get_construction", "czone/prefab/wulff.py:WulffBase.natoms"]}
{"id": "C94", "title": "Icosahedral strain acts perpendicular to [111]", "statement": "The strain function of the icosahedral particle keeps the component of each position along the crystal's [111] direction and scales the perpendicular component by the scale factor; the icosahedral scale factor is greater than 1.", "quantifier": "all bases, scale factors and position arrays", "why_tests_cant": "Real-valued positions and bases.", "anchors": ["czone/prefab/wulff.py:WulffIcosahedron._strain_from_111", "czone/prefab/wulff.py:WulffIcosahedron.icosahedral_scale_factor"]}
{"id": "C95", "title": "WulffSingle accepts exactly dictionaries of index tuples and floats", "statement": "WulffSingle(generator, surface_energies, natoms) succeeds iff natoms is a number and surface_energies is a dictionary whose keys are tuples and whose values are floats, and then stores exactly these.", "quantifier": "every argument", "why_tests_cant": "Dictionaries of any size with a bad entry anywhere.", "anchors": ["czone/prefab/wulff.py:WulffBase.surface_energies", "czone/prefab/wulff.py:WulffBase.natoms", "czone/prefab/wulff.py:WulffSingle.__init__"]}
{"id": "C96", "title": "Facet areas of a Wulff object are available", "statement": "get_areas returns the facet fractions of the particle described by the object.", "quantifier": "every WulffSingle object in every state", "why_tests_cant": "Depends on whether get_construction was called before.", "anchors": ["czone/prefab/wulff.py:WulffSingle.get_areas"]}
{"id": "C97", "title": "A strain field can be used by several generators", "statement": "The atoms a crystal generator supplies do not depend on which generators its strain field was used with before.", "quantifier": "every strain field, generator, region and sequence of earlier uses", "why_tests_cant": "The field stores origin and bases of its last user; only particular orders of use would show leftovers.", "anchors": ["czone/transform/strain.py:BaseStrain.scrape_params", "czone/generator/generator.py:Generator.supply_atoms"]}
{"id": "C98", "title": "Scaling a voxel dilates the crystal", "statement": "Assigning a number to Voxel.scale dilates the crystal uniformly about the voxel's origin; three numbers stretch it along the three lattice vectors used by supply_atoms, a (3,1) column along the coordinate axes; bases and origin stay; arrays whose sizes are not 1 or 3 are rejected with ValueError.", "quantifier": "every voxel, every array of at most two dimensions, every cell and site", "why_tests_cant": "Real-valued scales and sites; a row/column mix-up is invisible for symmetric bases or equal factors.", "anchors": ["czone/volume/voxel.py:Voxel.scale", "czone/volume/voxel.py:Voxel.sbases", "czone/generator/generator.py:Generator.supply_atoms"]}
{"id": "C99", "title": "The orientation of a molecule is always a rotation", "statement": "After any sequence of calls on a molecule, raising ones included, molecule.orientation is a rotation matrix up to 1e-6; every rotation can be assigned and changes only the orientation, a matrix that is not a rotation is rejected with ValueError and changes nothing; reset_orientation sets the identity.", "quantifier": "every molecule and every history of calls", "why_tests_cant": "Histories of any length; the set of rotations is infinite.", "anchors": ["czone/molecule/molecule.py:BaseMolecule.orientation", "czone/molecule/molecule.py:BaseMolecule.reset_orientation"]}
{"id": "C100", "title": "Moving a volume moves its atoms", "statement": "Transforming a volume with a locked rigid transformation and then populating it gives the images of the atoms obtained by populating it where it was; with an unlocked transformation the moved volume is filled with the crystal that stayed in place.", "quantifier": "every volume bounded by at least one sphere, every crystal, every composition of rigid transformations", "why_tests_cant": "Surfaces, lattice and origin take different code paths for each kind of transformation; only all combinations show that they agree.", "anchors": ["czone/volume/volume.py:Volume.transform", "czone/volume/volume.py:Volume.populate_atoms", "czone/generator/generator.py:Generator.transform", "czone/volume/algebraic.py:Sphere.transform"]}
{"id": "C101", "title": "Wurtzite stacking faults shift the grains alternately", "statement": "In the object built by wurtziteStackingFault every grain's crystal is the one above it shifted by one or two thirds of [1 -1 0], in the fault plane, and by -c/2; the sign of the in-plane shift alternates from fault to fault; two thirds is used exactly when the (001) and (002) planes snapped to the fault coincide.", "quantifier": "every host, crystal, number of faults, separation and stream of random draws for which build_object returns", "why_tests_cant": "Any number of faults at any height; the sign depends on the whole history of the loop.", "anchors": ["czone/prefab/prefab.py:wurtziteStackingFault.build_object"]}
{"id": "C102", "title": "Wurtzite stacking faults are built whenever they fit", "statement": "For every host with points or a sphere: if N faults min_sep planes apart fit between the (002) planes laid through the host, every stream of draws can be continued so that build_object returns; if there are too few planes, it raises ValueError.", "quantifier": "every crystal with non-degenerate basis, every host with points or a sphere, all N >= 1 and min_sep >= 0", "why_tests_cant": "Termination depends on random draws; the boundary depends on real-valued positions.", "anchors": ["czone/prefab/prefab.py:wurtziteStackingFault.build_object", "czone/util/misc.py:get_N_splits"]}
{"id": "C103", "title": "Collections hold exactly what was added", "statement": "Giving a MultiTransform, MultiVolume or PostSequence one member or any iterable of members (in the constructor or through add_transform / add_volume) appends all of them in order; if one is of the wrong class the call raises AssertionError and nothing changes; so after any history of calls the collection holds the members of the accepted calls, in order, and acts through them.", "quantifier": "every history of additions, every argument: single object, list, tuple or iterator, with wrong elements anywhere", "why_tests_cant": "Unbounded histories and argument lengths; tests use lists.", "anchors": ["czone/transform/transform.py:MultiTransform.add_transform", "czone/volume/volume.py:MultiVolume.add_volume", "czone/transform/post.py:PostSequence.add_transform"]}
{"id": "C104", "title": "A scene takes every volume and molecule it is given", "statement": "Scene(objects=x) holds exactly the volumes and molecules among x in the order given, whatever other objects are among them and whether x is a single object, a list or an iterator; it is the same scene as adding them one by one with add_object.", "quantifier": "every bounds argument and every single object, list or iterator, with any mix of other objects", "why_tests_cant": "Unbounded argument lengths and mixtures.", "anchors": ["czone/scene/scene.py:Scene.__init__", "czone/scene/scene.py:Scene.add_object"]}
{"id": "C105", "title": "The transformation keyword reaches every part of a MultiVolume", "statement": "from_volume(transformation=ts) on a (nested) MultiVolume copies every part and moves each of them by all of ts in order, keeping nesting and priorities; ts may be any iterable of transformations.", "quantifier": "every nested MultiVolume, every list or iterator of transformations", "why_tests_cant": "Unbounded nesting depth and number of parts.", "anchors": ["czone/volume/volume.py:MultiVolume.from_volume", "czone/volume/volume.py:Volume.from_volume"]}
{"id": "C106", "title": "Rounding does not change interiors beyond the tolerance", "statement": "With float64 arithmetic and coordinates up to a million, checkIfInterior of a Sphere, Plane, Cylinder or a Volume made of them reports every point of the nominal body as interior and every point farther than twice the tolerance from one of the bodies as exterior; outside the padding it answers as exact arithmetic would; and two half spaces on either side of one plane leave no gap.", "quantifier": "all surfaces with tolerance between 1e-6 and 1, all points with coordinates up to 2^20, all rounding orders of np.dot", "why_tests_cant": "Rounding errors depend on every bit of the inputs; tests sample a few.", "anchors": ["czone/volume/algebraic.py:Sphere.checkIfInterior", "czone/volume/algebraic.py:Plane.checkIfInterior", "czone/volume/algebraic.py:Cylinder.checkIfInterior", "czone/volume/volume.py:Volume.checkIfInterior"]}
{"id": "C107", "title": "Strain tensors mean what their notation says", "statement": "HStrain reads three numbers as the diagonal of the strain tensor, six as Voigt's xx yy zz yz xz xy and nine (flat or 3x3) as its rows, whatever axes of length one surround them. Points then move by that tensor: their displacement from the origin in standard mode, their fractional coordinates in crystal mode. Any other shape raises ValueError and the strain keeps its tensor; after any sequence of assignments it acts by the last accepted one.", "quantifier": "all arrays of any shape, all strain fields, all points, all assignment histories", "why_tests_cant": "Voigt's numbering and the row/column convention only show up for particular entries; tests use a few tensors.", "anchors": ["czone/transform/strain.py:HStrain.matrix", "czone/transform/strain.py:HStrain.apply_strain", "czone/transform/strain.py:HStrain.__init__"]}
{"id": "C108", "title": "The origin given with a generator moves the volume's crystal there", "statement": "Volume.add_generator (and the gen_origin argument) with an origin gives the volume the same crystal moved rigidly so that its origin is the given point; populating the volume then gives exactly the moved atoms that lie inside. Without an origin the crystal is the given one. An amorphous generator is not affected by the origin, and a NullGenerator with an origin raises AttributeError.", "quantifier": "all volumes, generators, origins and points", "why_tests_cant": "Which atoms appear depends on the whole lattice; tests compare a few.", "anchors": ["czone/volume/volume.py:Volume.add_generator", "czone/volume/volume.py:Volume.__init__", "czone/volume/volume.py:Volume.populate_atoms"]}
{"id": "C109", "title": "An amorphous generator's settings and results over any history", "statement": "After any history of assignments to an AmorphousGenerator's min_dist, density, species, origin and use_old_result and of calls to supply_atoms, the settings are the last accepted values, min_dist and density are positive, and values that are not positive raise AssertionError without effect. The next successful supply_atoms returns atoms of the current species at least the current min_dist apart if use_old_result is off or nothing was supplied before; otherwise exactly the atoms supplied last, even when species, min_dist or the box have changed since.", "quantifier": "all histories of assignments and calls, all draws", "why_tests_cant": "Histories are unbounded, and the stale result shows only for particular interleavings.", "anchors": ["czone/generator/generator.py:AmorphousGenerator.supply_atoms", "czone/generator/generator.py:AmorphousGenerator.min_dist", "czone/generator/generator.py:AmorphousGenerator.density"]}
{"id": "C110", "title": "A translation moves every point by its shift", "statement": "For every shift a Translation accepts and after any history of assignments, applyTransformation moves every point of an Nx3 array by the last accepted shift; arrays that are not three numbers along the first axis raise AssertionError and leave the old shift.", "quantifier": "all histories of shift assignments with arrays of any shape, all point sets", "why_tests_cant": "Shapes and numbers of points interact through broadcasting; tests use flat shifts.", "anchors": ["czone/transform/transform.py:Translation.shift", "czone/transform/transform.py:Translation.applyTransformation"]}
{"id": "C111", "title": "Matrix transformations act by the last accepted matrix and origin", "statement": "After any history of assignments to a MatrixTransform or Rotation, refused ones included, points go to M(p-o)+o with the last accepted matrix and origin, and params reports these. A Rotation, whatever was assigned, keeps squared distances to one part in a million; an Inversion stays a point inversion about its last accepted origin. A refused assignment changes nothing.", "quantifier": "all histories of assignments, all points", "why_tests_cant": "Histories are unbounded.", "anchors": ["czone/transform/transform.py:MatrixTransform.matrix", "czone/transform/transform.py:MatrixTransform.origin", "czone/transform/transform.py:Rotation.matrix", "czone/transform/transform.py:Inversion.matrix"]}
{"id": "C112", "title": "A reflection is the mirror in the plane it reports", "statement": "After any history of assignments to a Reflection, applyTransformation maps every point to its mirror image in the plane reported by params.", "quantifier": "all histories of assignments to plane and the inherited matrix and origin, all points", "why_tests_cant": "Histories are unbounded; the inherited setters are easily overlooked.", "anchors": ["czone/transform/transform.py:Reflection.plane", "czone/transform/transform.py:Reflection.matrix", "czone/transform/transform.py:MatrixTransform.origin", "czone/transform/transform.py:Reflection.params"]}
{"id": "C113", "title": "A generator made from a unit cell has that cell", "statement": "For every cell with edges a, b, c and angles alpha, beta, gamma, Generator.from_unit_cell gives a crystal that repeats along three vectors of these lengths with these angles between them, and its cell has the volume of that cell.", "quantifier": "all cells, atoms and origins", "why_tests_cant": "Cells are a continuum of six parameters; the usual test crystals are cubic.", "anchors": ["czone/generator/generator.py:Generator.from_unit_cell", "czone/generator/generator.py:Generator.supply_atoms"]}
{"id": "C114", "title": "from_spacegroup uses the group the caller names", "statement": "With a number only or a symbol only, Generator.from_spacegroup expands the sites by that space group; with both, the number decides; with neither or an unknown one it fails.", "quantifier": "all tables of symbols and numbers that agree with each other, all sites and cells", "why_tests_cant": "Combinations of arguments with every pair of groups.", "anchors": ["czone/generator/generator.py:Generator.from_spacegroup"]}
{"id": "C115", "title": "Rounding neither loses nor adds atoms away from the surface", "statement": "When a volume with a sphere and any further surfaces is filled with a crystal in binary64 arithmetic, every site of the crystal inside all bodies yields an atom within 2^-25 of it, every atom is such a rounded site of the right species within three tolerances of every body, and no site is used twice.", "quantifier": "all such volumes, crystals and orders of summation, coordinates up to half a million, and all site coordinates that stay delta away from the far cell faces, where delta bounds the error of the solver on the box corners", "why_tests_cant": "Rounding errors depend on every number and on the BLAS in use.", "anchors": ["czone/volume/volume.py:Volume.populate_atoms", "czone/generator/generator.py:Generator.supply_atoms", "czone/volume/voxel.py:Voxel.get_extents"]}
{"id": "C116", "title": "A molecule takes its arrays as they are meant", "statement": "Molecule.set_atoms with an (N,3) array and N whole species stores exactly these rows and species; a different number of species, an array of another shape, or species that are not whole numbers are refused; update_positions and update_species likewise and keep the number of atoms.", "quantifier": "all molecules and arrays", "why_tests_cant": "Array shapes and contents are unbounded; tests try the intended shape.", "anchors": ["czone/molecule/molecule.py:BaseMolecule.set_atoms", "czone/molecule/molecule.py:BaseMolecule.update_positions", "czone/molecule/molecule.py:BaseMolecule.update_species"]}
{"id": "C117", "title": "A transformation keeps the values it was given", "statement": "After an array or Plane has been assigned to a transformation, what the program later does to that array or Plane does not change the transformation.", "quantifier": "all five kinds of transformation and all histories of assignments, in-place writes to arrays and changes of planes", "why_tests_cant": "Aliasing shows only in histories that reuse an array after the assignment.", "anchors": ["czone/transform/transform.py:Translation.shift", "czone/transform/transform.py:MatrixTransform.matrix", "czone/transform/transform.py:MatrixTransform.origin", "czone/transform/transform.py:Rotation.matrix", "czone/transform/transform.py:Reflection.plane"]}
{"id": "C118", "title": "Adding an object changes a scene only where the object is", "statement": "Adding an object to a populated scene and populating again keeps every atom that is not inside the new object; the only new atoms are those the new object supplies at positions that no object of smaller or equal priority number contains, and all of those appear. An object whose priority number is larger than all others removes no atom.", "quantifier": "all scenes of volumes (nested to any depth, with any generators without random post-processing) and molecules, and every added object", "why_tests_cant": "Ranges over all scenes, priorities and geometries; a test fixes one arrangement.", "anchors": ["czone/scene/scene.py:Scene.add_object", "czone/scene/scene.py:Scene.populate", "czone/scene/scene.py:Scene.all_atoms"]}
{"id": "C119", "title": "Cutting a volume and joining the parts changes no atom", "statement": "If a volume is replaced by several volumes with the same crystal whose interiors together are the volume's interior, a MultiVolume of the parts supplies exactly the atoms of the volume, each once; in particular so for the two halves that a plane makes of a volume.", "quantifier": "all crystals, volumes, numbers of parts and priorities", "why_tests_cant": "Ranges over all crystals, planes and families of parts; the failing atoms lie within a plane's tolerance.", "anchors": ["czone/volume/volume.py:MultiVolume.populate_atoms", "czone/volume/volume.py:Volume.populate_atoms", "czone/volume/volume.py:Volume.add_alg_object", "czone/volume/algebraic.py:Plane.checkIfInterior"]}
{"id": "C120", "title": "What fills a volume depends on the crystal, not on how it is described", "statement": "Two crystal generators with the same set of atoms fill every volume they both cover with the same atoms: moving a generator's origin by a lattice vector, or listing the cell's sites in another order, changes nothing.", "quantifier": "all crystals, volumes bounded by a sphere and any other surfaces, lattice vectors and site orders", "why_tests_cant": "Ranges over all lattices, volumes and infinitely many descriptions of the same crystal.", "anchors": ["czone/generator/generator.py:Generator.supply_atoms", "czone/volume/volume.py:Volume.populate_atoms", "czone/generator/generator.py:Generator.from_unit_cell"]}
{"id": "C121", "title": "Moving everything moves the picture", "statement": "If every object of a scene is moved by the same rigid motion (translations, rotations, reflections and inversions, one after another, that carry the generators along), the moved scene populates to exactly the moved atoms with their species: precedence between objects does not depend on where the scene is.", "quantifier": "all scenes of molecules and of volumes, nested to any depth, bounded by spheres and other surfaces and filled with unstrained crystals of a single scale; all rigid motions and priorities", "why_tests_cant": "Ranges over all scenes and motions; a test compares one scene in one place.", "anchors": ["czone/scene/scene.py:Scene.populate", "czone/scene/scene.py:Scene.all_atoms", "czone/volume/volume.py:Volume.transform", "czone/volume/volume.py:MultiVolume.transform", "czone/generator/generator.py:Generator.transform", "czone/molecule/molecule.py:BaseMolecule.transform"]}
{"id": "C122", "title": "A view shows every atom of the scene once, from the labelled sides", "statement": "For every populated scene, each panel of the scene view shows every atom exactly once, grouped in one series for each species that is present and with the scene's bounds as limits; the YZ, XZ and XY panels look along the x, y and z axes and the last one from the requested angles.", "quantifier": "all scenes of any objects and priorities that populate; all view angles", "why_tests_cant": "Ranges over all scenes, numbers of species and angles; a test looks at one figure.", "anchors": ["czone/viz/viz.py:simple_scene_view", "czone/viz/viz.py:simple_scene_view_with_rotate", "czone/scene/scene.py:Scene.all_atoms"]}
{"id": "C123", "title": "The bounds of a scene are the last two rows assigned", "statement": "After any history of adding objects and assigning bounds, the bounds of a scene are the rows of the last 2x3 array assigned (or those it was made with), arrays of other shapes are refused and change nothing, and the exported cell is the second row minus the first.", "quantifier": "all scenes, histories of additions and assignments and array shapes", "why_tests_cant": "Ranges over all histories and array shapes.", "anchors": ["czone/scene/scene.py:Scene.bounds", "czone/scene/scene.py:Scene.add_object", "czone/scene/scene.py:Scene.ase_atoms"]}
{"id": "C124", "title": "Exports hold exactly the atoms, and a molecule made from one has them again", "statement": "Exporting a populated volume or a molecule as ASE atoms gives exactly its positions and species in their order; a molecule made from such an export, or from a pymatgen molecule, has exactly these atoms. A volume that was never populated is refused and nothing is written.", "quantifier": "all volumes, nested volumes and molecules; all generators and file formats", "why_tests_cant": "Ranges over all volumes and molecules of any size.", "anchors": ["czone/volume/volume.py:BaseVolume.ase_atoms", "czone/volume/volume.py:BaseVolume.to_file", "czone/molecule/molecule.py:BaseMolecule.ase_atoms", "czone/molecule/molecule.py:BaseMolecule.from_ase_atoms", "czone/molecule/molecule.py:BaseMolecule.from_pmg_molecule"]}
{"id": "C125", "title": "A prefab keeps the last accepted settings and builds with them", "statement": "After any history of assignments to a defect prefab, each attribute is the last value accepted for it and the object that is built is the one a new prefab with these values builds. Refused are exactly: counts that are not numbers, separations that are not whole numbers, ratios outside [0,1], generators and volumes of another type, and the plane of the wurtzite prefab; a refused assignment changes nothing. New prefabs have the documented defaults and cannot be built without a generator and a volume.", "quantifier": "all four defect prefabs, histories of assignments of any length, values of any type", "why_tests_cant": "Ranges over all histories of accepted and refused assignments.", "anchors": ["czone/prefab/prefab.py:fccMixedTwinSF", "czone/prefab/prefab.py:fccStackingFault", "czone/prefab/prefab.py:fccTwin", "czone/prefab/prefab.py:wurtziteStackingFault"]}
{"id": "C126", "title": "The reported defect types are those placed", "statement": "A build with defect types reports a stacking fault if and only if one of the N random draws is below the ratio and a twin if and only if one is not; the stacking fault prefab never places a twin, the twin prefab never a stacking fault, and both place a defect as soon as N is at least 1. With N at most 0 the result is the whole host with the given crystal.", "quantifier": "all fcc prefabs, crystals, hosts, planes, numbers of defects and random draws in [0,1)", "why_tests_cant": "Ranges over all sequences of random draws.", "anchors": ["czone/prefab/prefab.py:fccMixedTwinSF.build_object", "czone/prefab/prefab.py:fccStackingFault.ratio", "czone/prefab/prefab.py:fccTwin.ratio"]}
{"id": "C127", "title": "The second zone axis of a grain boundary defaults to the first", "statement": "A grain boundary that is given no second zone axis uses the first one for both grains, and after any assignments the axes are the last accepted ones; lists that do not have three entries are refused.", "quantifier": "all axes and histories of assignments", "why_tests_cant": "Ranges over all histories of assignments.", "anchors": ["czone/prefab/prefab.py:SimpleGrainBoundary"]}
{"id": "C128", "title": "Angles between vectors", "statement": "For vectors of any dimension other than zero, the computed angle is the number t from 0 to pi with a.b = |a||b| cos t. It does not depend on the order or the lengths of the vectors, becomes its supplement when one is reversed, and satisfies the triangle inequality; vectors of different dimensions are refused and a zero vector gives no number.", "quantifier": "all vectors of all dimensions", "why_tests_cant": "Ranges over all dimensions and vectors.", "anchors": ["czone/util/misc.py:vangle"]}
{"id": "C129", "title": "Surfaces are what was last assigned, whatever the shape of the arrays", "statement": "After any history of assignments to a sphere, plane or cylinder, its parameters are the last accepted ones, a refused assignment changes nothing, and the interior test gives one answer per tested point, the one for these parameters, whatever shape of array was accepted for them.", "quantifier": "all spheres, planes and cylinders, histories of assignments of any length, arrays of all shapes, all lists of test points", "why_tests_cant": "Ranges over all histories and all array shapes.", "anchors": ["czone/volume/algebraic.py:Sphere.center", "czone/volume/algebraic.py:Plane.point", "czone/volume/algebraic.py:Plane.normal", "czone/volume/algebraic.py:Cylinder.axis", "czone/volume/algebraic.py:Cylinder.point", "czone/volume/algebraic.py:Sphere.checkIfInterior", "czone/volume/algebraic.py:Plane.checkIfInterior"]}
{"id": "C130", "title": "Surfaces refuse values that are not finite numbers", "statement": "The constructors of spheres, planes and cylinders refuse NaN and infinities in every parameter; with finite parameters they accept exactly what the exact-arithmetic model accepts.", "quantifier": "all parameters over the reals extended with the two infinities and NaN", "why_tests_cant": "Ranges over all combinations of finite and non-finite parameters.", "anchors": ["czone/volume/algebraic.py:Sphere", "czone/volume/algebraic.py:Plane", "czone/volume/algebraic.py:Cylinder", "czone/volume/algebraic.py:BaseAlgebraic.tol"]}
{"id": "C131", "title": "Priorities, tolerances and warnings of objects", "statement": "After any history of assignments the priority, hull tolerance and warning flag of a volume, multivolume or molecule are the last accepted values, a refused value changes nothing, and all kinds of objects accept the same values, in the constructor as in the setter.", "quantifier": "volumes, multivolumes and molecules, histories of assignments of any length, values of any class", "why_tests_cant": "Ranges over all histories and classes of values.", "anchors": ["czone/volume/volume.py:BaseVolume.priority", "czone/volume/volume.py:Volume.tolerance", "czone/volume/volume.py:MultiVolume", "czone/molecule/molecule.py:BaseMolecule.priority", "czone/molecule/molecule.py:BaseMolecule.print_warnings"]}
{"id": "C132", "title": "A molecule keeps the values it was given", "statement": "A molecule keeps the values of the arrays it was given when the program later writes into these arrays, and arrays read from it are not changed by, and do not change, the molecule.", "quantifier": "all molecules, histories of calls and of writes into any array the program holds", "why_tests_cant": "Ranges over all interleavings of calls and in-place writes.", "anchors": ["czone/molecule/molecule.py:BaseMolecule.set_atoms", "czone/molecule/molecule.py:BaseMolecule.orientation", "czone/molecule/molecule.py:BaseMolecule.origin", "czone/molecule/molecule.py:BaseMolecule.atoms"]}
{"id": "C133", "title": "Generators assembled step by step", "statement": "After any history of assignments a crystal generator supplies the crystal of the last accepted structure at the last accepted origin with the last accepted strain field and post transform, in whichever order they were assigned, and a refused assignment changes nothing.", "quantifier": "histories of assignments of any length, all structures, origins of any array shape, strain fields, post transforms and regions", "why_tests_cant": "Ranges over all histories of accepted and refused assignments.", "anchors": ["czone/generator/generator.py:Generator.__init__", "czone/generator/generator.py:Generator.structure", "czone/generator/generator.py:Generator.origin", "czone/generator/generator.py:Generator.voxel", "czone/generator/generator.py:Generator.supply_atoms"]}
{"id": "C134", "title": "A strain field acts as last configured", "statement": "After any history of assignments to origin, origin_type, mode and matrix, and of uses with any generators, a strain field moves every atom by the last accepted tensor about the last assigned origin, in the last assigned mode.", "quantifier": "all strain fields, histories of assignments and uses of any length, all lattices and atoms", "why_tests_cant": "Ranges over all interleavings of assignments and uses.", "anchors": ["czone/transform/strain.py:BaseStrain.origin", "czone/transform/strain.py:BaseStrain.origin_type", "czone/transform/strain.py:BaseStrain.mode", "czone/transform/strain.py:HStrain.matrix", "czone/transform/strain.py:HStrain.apply_strain", "czone/transform/strain.py:BaseStrain.scrape_params"]}
{"id": "C135", "title": "A volume is what was added to it", "statement": "After any history of addPoints, assignments to points, add_alg_object and add_generator the interior of a volume is the convex hull of all points given, cut by all surfaces given, and its generator is the last accepted one, moved to the origin given with it.", "quantifier": "all histories of calls of any length, points, surfaces and generators; all triangulation oracles", "why_tests_cant": "Ranges over all histories of accepted and refused calls.", "anchors": ["czone/volume/volume.py:Volume.addPoints", "czone/volume/volume.py:Volume.points", "czone/volume/volume.py:Volume.add_alg_object", "czone/volume/volume.py:Volume.add_generator", "czone/volume/volume.py:Volume.createHull"]}
{"id": "C136", "title": "Rounding does not spoil scenes", "statement": "A scene or multivolume of crystal-filled volumes computed in binary64 arithmetic has exactly the sites the exact geometry gives it, up to the tolerances: each site in its own bodies and clear of every object that takes precedence is there within 2^-25, every atom is such a rounded site of the right species, not in an object that takes precedence, and no site occurs twice.", "quantifier": "all finite lists of volumes with surfaces (coordinates up to half a million) and crystals, all priorities, all roundings of dot products and linear solves of the stated accuracy", "why_tests_cant": "Ranges over all scenes, and over all floating-point evaluation orders.", "anchors": ["czone/scene/scene.py:Scene.populate", "czone/volume/volume.py:MultiVolume.populate_atoms", "czone/volume/volume.py:Volume.populate_atoms", "czone/volume/volume.py:Volume.checkIfInterior"]}
{"id": "C137", "title": "A Wulff object after any history", "statement": "After any sequence of assignments (accepted or refused), in-place edits of the dictionary and generator it was given, and calls, a WulffSingle reports the settings last accepted; get_construction returns the particle wulffpack computed for the settings in force at the first call for which that computation succeeded, or computes it now, filled with the generator in force now; get_areas gives that particle's facet fractions and raises if none was computed; winterbottom follows the settings in force now.", "quantifier": "all crystals, energies and sizes, all finite histories of assignments, edits and calls, all answers of wulffpack", "why_tests_cant": "Ranges over all histories, in which the remembered particle and the current settings drift apart.", "anchors": ["czone/prefab/wulff.py:WulffBase", "czone/prefab/wulff.py:WulffSingle.wulff", "czone/prefab/wulff.py:WulffSingle.get_construction", "czone/prefab/wulff.py:WulffSingle.get_areas", "czone/prefab/wulff.py:WulffSingle.winterbottom"]}
{"id": "C138", "title": "Near neighbours weigh most and the bond has its length", "statement": "In add_adsorbate the direction to a neighbour at distance d counts with weight dmin/d, where dmin is the distance of the nearest; and if every seeded run draws each neighbour at least once, the normal has length 1, so the bonding atom ends up exactly at the bond length from the target atom.", "quantifier": "all volumes, alpha shapes, molecules, filters, bond lengths and rotations; all sequences of draws that reach every neighbour; neighbour distances within a factor of 10^9 of each other", "why_tests_cant": "Ranges over all surfaces and all random draws; depends on how many runs the margin search takes.", "anchors": ["czone/surface/adsorbate.py:add_adsorbate", "czone/surface/adsorbate.py:find_approximate_normal"]}
{"id": "C139", "title": "The surface normal points away from the neighbours", "statement": "When the neighbours of the target lie on one side of some plane, the normal used by add_adsorbate has all of them behind it and is the best one found.", "quantifier": "all sets of neighbours, all sequences of draws", "why_tests_cant": "Ranges over all surfaces and all random draws.", "anchors": ["czone/surface/adsorbate.py:add_adsorbate", "czone/surface/adsorbate.py:find_approximate_normal"]}
{"id": "C140", "title": "remove_atoms(new_origin_idx=k) makes atom k the origin", "statement": "Removing atoms from a molecule with a new origin index makes the atom with that index the origin; removals that would leave the molecule without its origin are refused.", "quantifier": "all molecules, index lists, new origin indices, and states of the origin", "why_tests_cant": "Ranges over all molecules, index lists and histories of the origin.", "anchors": ["czone/molecule/molecule.py:BaseMolecule.remove_atoms"]}
{"id": "C141", "title": "The origin of a molecule after any history", "statement": "After any history of calls, accepted or refused, the origin of a molecule last told to keep a point is that point carried along by the transformations that moved origins since; one last told to follow an atom (even with a refused index) has as origin the atom that its last accepted index denotes now, raises IndexError if it denotes none, and AttributeError if no index was ever accepted.", "quantifier": "all constructor arguments, all sequences of calls with all arguments", "why_tests_cant": "Ranges over all histories, including refused calls.", "anchors": ["czone/molecule/molecule.py:BaseMolecule.set_origin", "czone/molecule/molecule.py:BaseMolecule.origin", "czone/molecule/molecule.py:BaseMolecule.transform"]}
{"id": "C142", "title": "Molecules take no space in a scene", "statement": "The atoms of a populated scene are those its volumes have among themselves, plus the atoms of every molecule outside every volume of smaller or equal priority number. Molecules never cost another object an atom, overlapping molecules keep all their atoms, and populating leaves molecules as they are.", "quantifier": "all scenes with any number of volumes and molecules, priorities and overlaps", "why_tests_cant": "Ranges over all scenes and all overlaps.", "anchors": ["czone/scene/scene.py:Scene.populate", "czone/molecule/molecule.py:BaseMolecule.checkIfInterior"]}
{"id": "C143", "title": "A populate that raises leaves the scene as it was", "statement": "When Scene.populate() raises, the scene still reports the atoms it reported before; after any history of additions, edits and failed populates the contents of the scene are those of the last populate that returned.", "quantifier": "all scenes, worlds, and histories of adding objects, changing bounds, editing objects and populating", "why_tests_cant": "Ranges over all histories and over the object at which populate raises.", "anchors": ["czone/scene/scene.py:Scene.populate", "czone/scene/scene.py:Scene.all_atoms", "czone/volume/volume.py:Volume.populate_atoms", "czone/volume/volume.py:MultiVolume.populate_atoms"]}
{"id": "C144", "title": "A transformation that raises leaves the volume where it was", "statement": "When transform() of a Volume or MultiVolume raises, the object has not moved, so the call can be repeated.", "quantifier": "all volumes, MultiVolumes of any nesting, transformations, and numbers of repeated calls", "why_tests_cant": "Ranges over all volumes, transformations, positions of the failing part and numbers of repeated calls.", "anchors": ["czone/volume/volume.py:Volume.transform", "czone/volume/volume.py:MultiVolume.transform", "czone/transform/transform.py:MatrixTransform.applyTransformation_alg"]}
{"id": "C145", "title": "rot_vtv in double precision", "statement": "In double precision rot_vtv(v, vt) returns, for all non-zero vectors, a rotation that aligns v with vt; rot_vtv(v, v) is the identity.", "quantifier": "all vectors of binary64 numbers that are zero or at least 2^-100 in size, and all numerical libraries with the stated accuracy", "why_tests_cant": "Ranges over all pairs of floating-point vectors and over the orders in which sums may be evaluated; the failures occur at roundings a test would have to hit.", "anchors": ["czone/transform/transform.py:rot_vtv", "czone/transform/transform.py:s2s_alignment", "czone/transform/transform.py:Rotation.matrix"]}
{"id": "C146", "title": "Angles in double precision", "statement": "vangle(v1, v2) is, in double precision, the angle between any two non-zero vectors up to rounding; the angle between a vector and itself is 0.", "quantifier": "all vectors that are not so small that squares underflow, and all numerical libraries with the stated accuracy", "why_tests_cant": "Ranges over all pairs of floating-point vectors and orders of summation; the failures occur at particular roundings.", "anchors": ["czone/util/misc.py:vangle"]}
{"id": "C147", "title": "Voxel refuses collinear basis vectors in double precision", "statement": "In double precision Voxel raises for bases two of which are collinear, and accepts bases every two of which are not.", "quantifier": "all bases whose vectors are not so small that squares underflow, and all numerical libraries with the stated accuracy", "why_tests_cant": "Ranges over all triples of floating-point vectors; the comparison is with 1.0 exactly, so the outcome depends on roundings.", "anchors": ["czone/volume/voxel.py:Voxel.bases", "czone/volume/voxel.py:Voxel._collinear"]}
{"id": "C148", "title": "Amorphous blocks in double precision", "statement": "In double precision, for every seed, gen_p_substrate returns the rounded number of atoms for the volume and density, all of them inside the half-open box and pairwise at least min_dist apart, and raises nothing.", "quantifier": "all box sides and spacings that do not underflow, all densities, and all streams of numpy's uniform draws (multiples of 2^-53)", "why_tests_cant": "Ranges over all random streams; the failures occur for single draws out of 2^53 and at particular roundings.", "anchors": ["czone/generator/amorphous_algorithms.py:gen_p_substrate", "czone/generator/amorphous_algorithms.py:get_voxels", "czone/generator/amorphous_algorithms.py:get_p_dist"]}
{"id": "C149", "title": "Batched amorphous blocks in double precision", "statement": "In double precision, for every seed, gen_p_substrate_batched returns the rounded number of atoms for the volume and density, all of them inside the half-open box and pairwise at least min_dist apart, and raises nothing.", "quantifier": "all box sides and spacings that do not underflow, all voxel scales of at least 1, all densities, and all batches of numpy's uniform draws (multiples of 2^-53)", "why_tests_cant": "Ranges over all random streams; the failures need one particular draw out of 2^53.", "anchors": ["czone/generator/amorphous_algorithms.py:gen_p_substrate_batched", "czone/generator/amorphous_algorithms.py:get_p_dist_batch", "czone/util/measure.py:get_voxel_grid"]}
{"id": "C150", "title": "An object listed twice counts once", "statement": "Adding an object to a scene a second time does not change the atoms of the populated scene.", "quantifier": "all scenes of volumes (nested to any depth, any generators without random post-processing) and molecules, and every volume or molecule of them that is added again", "why_tests_cant": "A statement about every scene and every object in it; a test shows one scene.", "anchors": ["czone/scene/scene.py:Scene.populate", "czone/scene/scene.py:Scene.add_object", "czone/volume/volume.py:MultiVolume.populate_atoms"]}
{"id": "C151", "title": "Grouping volumes into a MultiVolume changes no atom", "statement": "Replacing volumes of a scene by one MultiVolume made of them leaves the populated scene with the same atoms and species.", "quantifier": "all scenes of volumes and molecules, all choices of members (nested to any depth, without random post-processing), all priorities", "why_tests_cant": "Ranges over all scenes, all groupings and all priority assignments.", "anchors": ["czone/volume/volume.py:MultiVolume.populate_atoms", "czone/volume/volume.py:MultiVolume.checkIfInterior", "czone/scene/scene.py:Scene.populate"]}
{"id": "C152", "title": "Rotations, orientations and cells refuse matrices that are not of numbers", "statement": "Rotation.matrix, Molecule.orientation and Voxel.bases refuse every 3x3 array with a NaN or an infinity among its entries; on arrays of finite numbers they decide as exact arithmetic does.", "quantifier": "all 3x3 arrays of finite numbers, infinities and NaN, and all answers np.linalg.det may give for them", "why_tests_cant": "Every combination of special values in nine entries, for every determinant routine.", "anchors": ["czone/transform/transform.py:Rotation.matrix", "czone/molecule/molecule.py:BaseMolecule.orientation", "czone/volume/voxel.py:Voxel.bases"]}
{"id": "C153", "title": "Only the order of the priorities matters", "statement": "Replacing the priorities of a scene's objects by other numbers in the same order (equal ones staying equal) changes neither the atoms nor their order, nor the species, nor the random draws made, nor the exception raised; the members of each MultiVolume can be renumbered in the same way, independently at every depth.", "quantifier": "all scenes, worlds, states of the random generator and all order-keeping renumberings at every level of nesting", "why_tests_cant": "The renumberings and the depths of nesting are unbounded.", "anchors": ["czone/scene/scene.py:Scene.populate", "czone/scene/scene.py:Scene.check_against_object", "czone/volume/volume.py:MultiVolume.populate_atoms", "czone/volume/volume.py:BaseVolume.priority"]}
{"id": "C154", "title": "The search for a surface normal stops at the first rest", "statement": "find_approximate_normal corrects its guess by each drawn point in turn and stops after the first point at which at least six corrections have been made, the last five of them turning the guess by a cosine above 1 - tol; otherwise it uses all max_steps points.", "quantifier": "all point sets, decay rates, tolerances, margins and sequences of drawn points", "why_tests_cant": "The moment of the stop depends on the whole history of corrections, for every sequence of draws.", "anchors": ["czone/surface/adsorbate.py:find_approximate_normal"]}
{"id": "C155", "title": "A larger priority number only shifts overlaps", "statement": "Raising the priority number of one object of a scene changes nothing about how the scene is populated; the atoms that disappear are atoms of that object lying in another object with a number between the old and the new one, and the atoms that appear are atoms of such objects lying in that object.", "quantifier": "all scenes, objects (volumes, MultiVolumes, molecules), positions in the list, numbers, worlds and states of the random generator", "why_tests_cant": "All pairs of objects and every larger number.", "anchors": ["czone/scene/scene.py:Scene.populate", "czone/scene/scene.py:Scene.check_against_object", "czone/volume/volume.py:BaseVolume.priority"]}
{"id": "C156", "title": "Undoing a transformation restores the object", "statement": "Applying a transformation and then the inverse one (the opposite shift, the inverse matrix about the same origin, the same inversion or reflection, the inverses of the members in reverse order) succeeds and leaves points, surfaces, crystals, molecules and volumes exactly as they were.", "quantifier": "all transformations with an inverse, nested to any depth, all objects and all trees of volumes bounded by surfaces", "why_tests_cant": "All transformations, nestings and objects; tests can only compare a few up to rounding.", "anchors": ["czone/transform/transform.py:BaseTransform", "czone/transform/transform.py:MultiTransform.applyTransformation_alg", "czone/generator/generator.py:Generator.transform", "czone/molecule/molecule.py:BaseMolecule.transform", "czone/volume/volume.py:Volume.transform", "czone/volume/volume.py:MultiVolume.transform"]}
{"id": "C157", "title": "calc_rdf depends on the cloud of points only", "statement": "The counts returned by calc_rdf depend only on the set of points, the cutoff and the periodicity: not on where the cloud lies in space, not on an earlier call with the same array, and not on the order in which the points are listed.", "quantifier": "every list of points, translation, permutation, cutoff and periodicity", "why_tests_cant": "Tests fix one cloud in one place and one order; the order only matters when the cloud spans several voxels.", "anchors": ["czone/util/measure.py:calc_rdf", "czone/util/measure.py:get_voxel_grid"]}
{"id": "C158", "title": "The surface found by the alpha shape functions moves with the cloud", "statement": "If a cloud of points is moved, mirrored or scaled (with the probe radius), its points are listed in another order, or scipy lists the tetrahedra and their vertices in another order, then both alpha shape functions mark the same tetrahedra and return the same points under their new numbers.", "quantifier": "every cloud, triangulation, similarity, renumbering of points, tetrahedra and vertices, probe radius, and noise moved with the points", "why_tests_cant": "Every rigid motion, scale and numbering; a test compares a few orientations of one cloud, and only a mistake in one of the cofactors or in the use of the index -1 shows up in some of them.", "anchors": ["czone/surface/alpha_shape.py:alpha_shape_alg_3D", "czone/surface/alpha_shape.py:alpha_shape_alg_3D_with_sampling", "czone/surface/alpha_shape.py:tetrahedron_circumradii"]}
{"id": "C159", "title": "Rounding in long histories of transformations", "statement": "A point moved by any number of translations, rotations, inversions and reflections, one after the other or nested in MultiTransforms, ends in double precision within n * (1 + d)^n * 2^-40 * B of its exact place, where n is the number of elementary transformations, B bounds the shifts, the origins and the places passed, and d is how much the matrices stretch (0 for orthogonal ones, at most 1e-6 for whatever Rotation accepts). Distances between atoms moved together change by at most twice that, and a transformation followed by the one undoing it brings a point back up to it.", "quantifier": "every history of transformations in any nesting, every point, every bound B >= 1, every order of evaluation of the products (fused or not)", "why_tests_cant": "Errors accumulate over histories of any length; a test runs a few short ones.", "anchors": ["czone/transform/transform.py:Translation.applyTransformation", "czone/transform/transform.py:MatrixTransform.applyTransformation", "czone/transform/transform.py:Reflection.matrix", "czone/transform/transform.py:MultiTransform.applyTransformation"]}
{"id": "C160", "title": "Rounding in crystals moved many times", "statement": "After any history of Generator.transform calls, basis_only ones and MultiTransforms included, the cell vectors and the origin held in double precision are within n * (1 + d)^n * 2^-40 times their size bound of the exact ones, and so each lattice site with coordinates (x, y, z) in the cell is displaced by at most (|x| + |y| + |z|) times the first bound plus the second.", "quantifier": "every crystal, every history of transformations in any nesting, every lattice site, every order of evaluation of the products", "why_tests_cant": "Errors accumulate in the cell and are multiplied by the cell index; a test looks at a few sites after one or two calls.", "anchors": ["czone/generator/generator.py:Generator.transform", "czone/transform/transform.py:MatrixTransform.applyTransformation_bases", "czone/transform/transform.py:MultiTransform.applyTransformation_bases", "czone/volume/voxel.py:Voxel.bases"]}
{"id": "C161", "title": "Rounding in surfaces moved many times", "statement": "A ball, plane or finite cylinder moved by any transformation that applyTransformation_alg accepts, however many elementary steps it consists of, keeps its radius, length and tolerance in double precision; its centre or point is within n * (1 + d)^n * 2^-40 * B of the exact place and its normal or axis, renormalised at every step, has turned by no more than n * (1 + 3d + 2^-40)^n * 2^-39. As long as the first plus the second times the distance of the test point is below an eighth of the tolerance, every point of the exactly moved body is found inside by the computed surface and every point more than three tolerances outside it is found outside. The same holds for a volume bounded by several surfaces moved together.", "quantifier": "every ball, plane and cylinder of moderate size, every list of them, every nesting of translations, accepted matrices and inversions, every test point, every order of evaluation of the products", "why_tests_cant": "The error of the direction is renormalised and fed back at every step; a test compares a few moved surfaces after one or two calls.", "anchors": ["czone/transform/transform.py:MatrixTransform.applyTransformation_alg", "czone/transform/transform.py:Translation.applyTransformation_alg", "czone/transform/transform.py:MultiTransform.applyTransformation_alg", "czone/volume/algebraic.py:Plane.normal", "czone/volume/algebraic.py:Cylinder.axis", "czone/volume/algebraic.py:Sphere.checkIfInterior", "czone/volume/algebraic.py:Plane.checkIfInterior", "czone/volume/algebraic.py:Cylinder.checkIfInterior"]}
{"id": "C162", "title": "Moved many times, then populated, in double precision", "statement": "A volume and its crystal are moved together by any sequence of transformations, computed in double precision, and then populated in double precision. Every atom returned is the site of the crystal moved exactly, up to the rounding of one site plus the drift of the whole history, and, as long as the drift is below the slack of the interior test, that site is in the exactly moved volume enlarged by four times the slack. Conversely, for a volume bounded by a ball among other surfaces, populating succeeds and every site of the exactly moved crystal that lies inside the exactly moved volume by more than the drift is returned, within the same distance, with its species.", "quantifier": "every volume bounded by balls, planes and cylinders of moderate size, every crystal, every sequence of nested translations, accepted matrices and inversions, every site, every order of evaluation of the products", "why_tests_cant": "The errors of the surfaces, of the lattice and of the interior test combine over the whole history; a test looks at a few bodies after one or two moves.", "anchors": ["czone/volume/volume.py:Volume.populate_atoms", "czone/volume/volume.py:Volume.transform", "czone/generator/generator.py:Generator.transform", "czone/generator/generator.py:Generator.supply_atoms", "czone/transform/transform.py:MultiTransform.applyTransformation_alg"]}
