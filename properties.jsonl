{"id": "C01", "title": "Memoisation of influence matrices returns fresh values and is size bounded", "statement": "A function wrapped by the strict-size cache always returns exactly what the undecorated function returns on the same arguments; a successful wrapped call never leaves more than maxsize entries stored; the entry evicted on a miss is the one inserted first (a hit does not refresh an entry); when the wrapped function raises, the exception is propagated and no new value is stored.", "quantifier": "every function, every maxsize, every finite history of calls (hits, misses and failing calls)", "why_tests_cant": "The claim is about every history of calls; tests exercise a handful of short histories.", "anchors": ["capytaine/tools/lru_cache.py: lru_cache_with_strict_maxsize"]}
{"id": "C02", "title": "Caching of influence matrices is transparent for the engine", "statement": "Building matrices through an engine with a cache gives the same matrices as through an engine without cache, for every history of calls on any meshes.", "quantifier": "every history of build_matrices calls on arbitrary meshes, including meshes that compare equal", "why_tests_cant": "Only a particular pair of meshes (equal as unordered sets of faces, but with another face order or another orientation) in a particular order of calls reveals a difference.", "anchors": ["capytaine/bem/engines.py: BasicMatrixEngine.build_matrices", "capytaine/meshes/meshes.py: Mesh.__eq__, Mesh.__hash__", "capytaine/tools/lru_cache.py"]}
{"id": "C03", "title": "Symbolic zero and infinity follow the limit calculus", "statement": "Arithmetic on the symbolic zero and infinity used for limit frequencies behaves as the product symbol*value: multiplication and division by ordinary numbers act on the value only, dividing two numbers with the same symbol gives the ordinary quotient, inverting 0 gives infinity and conversely, and conversion to float or comparison agrees with the concrete product.", "quantifier": "every pair of symbolic/ordinary numbers and every finite expression built from them", "why_tests_cant": "Algebraic laws over all values and all nestings.", "anchors": ["capytaine/tools/symbolic_multiplication.py: SymbolicMultiplication, supporting_symbolic_multiplication"]}
{"id": "C04", "title": "Water depth resolution", "statement": "The depth used by the solver is the given water_depth when it is positive, free_surface - sea_bottom when only the deprecated sea_bottom is given, the default when none is given, and an error when both are given or the given depth is not positive; hence an accepted problem always has a positive water depth.", "quantifier": "every combination of optional free_surface, water_depth and sea_bottom", "why_tests_cant": "The decision table ranges over all reals and infinities and all presence patterns.", "anchors": ["capytaine/tools/deprecation_handling.py: _get_water_depth", "capytaine/bem/problems_and_results.py: LinearPotentialFlowProblem._check_data"]}
{"id": "C05", "title": "Frequency inputs are converted consistently", "statement": "Whichever one of omega, period, wavenumber or wavelength is given, the problem stores four values with omega*period = 2 pi, wavenumber*wavelength = 2 pi and omega^2 = g k tanh(k h) (omega^2 = g k in infinite depth), the given one being stored unchanged; giving more than one is rejected and giving none means omega = 1; zero and infinite frequencies are stored as the dual symbolic limits.", "quantifier": "every positive real or limit value of the input frequency, every depth and gravity", "why_tests_cant": "Holds for all reals; a test checks a few frequencies.", "anchors": ["capytaine/bem/problems_and_results.py: LinearPotentialFlowProblem._get_frequencies"]}
{"id": "C06", "title": "Encounter frequency and direction", "statement": "With forward speed U the encounter frequency is |omega - k U cos(beta)|, the encounter direction is reversed (plus pi) exactly when the Doppler-shifted frequency is negative, and without forward speed every encounter quantity equals its earth-fixed counterpart; the encounter frequency is never negative.", "quantifier": "every omega, wavenumber, speed and direction", "why_tests_cant": "Continuum of inputs with sign changes.", "anchors": ["capytaine/bem/problems_and_results.py: LinearPotentialFlowProblem.__init__"]}
{"id": "C07", "title": "Problem validation accepts exactly the documented inputs", "statement": "Building a problem raises the documented exception for unsupported free surface positions, negative depth, limit frequencies with forward speed, empty meshes, bodies with dofs of the wrong shape, and boundary conditions of the wrong size, and otherwise succeeds with a body that lies strictly under the free surface and above the sea bottom.", "quantifier": "every combination of body, free surface, depth, frequency and boundary condition", "why_tests_cant": "The order and coverage of the checks over all combinations.", "anchors": ["capytaine/bem/problems_and_results.py: LinearPotentialFlowProblem._check_data", "capytaine/bem/problems_and_results.py: RadiationProblem, DiffractionProblem"]}
{"id": "C08", "title": "Problems that compare equal are the same physical problem, and sorting is consistent", "statement": "Two problems comparing equal define the same boundary value problem; the order used to sort problems is a strict weak order so that sorting is well defined.", "quantifier": "every pair/triple of problems", "why_tests_cant": "Two problems differing in one attribute only; tests do not enumerate attributes.", "anchors": ["capytaine/bem/problems_and_results.py: _astuple, __eq__, __lt__"]}
{"id": "C09", "title": "Solving many problems returns one result per problem and isolates failures", "statement": "solve_all returns, for every list of problems, exactly one result per problem, each being the result of solving that problem alone (or a failed result carrying that problem if its resolution raised), whether sequentially or split in parallel groups: the two modes give the same multiset of results. The failure of one problem does not affect the others.", "quantifier": "every list of problems, every pattern of failures, every number of jobs", "why_tests_cant": "All failure patterns and all groupings.", "anchors": ["capytaine/bem/solver.py: BEMSolver.solve_all, _solve_and_catch_errors", "capytaine/bem/problems_and_results.py: _group_for_parallel_resolution"]}
{"id": "C10", "title": "Results of solve_all come in the order of the given problems", "statement": "The i-th result returned by solve_all is the result of the i-th problem of the list given by the user.", "quantifier": "every list of problems", "why_tests_cant": "Tests use lists that are already sorted.", "anchors": ["capytaine/bem/solver.py: BEMSolver.solve_all"]}
{"id": "C11", "title": "The potential on a mesh does not depend on the chunk size", "statement": "Evaluating the potential of a result on a mesh chunk by chunk gives the same values, in face order, as a single evaluation, for every chunk size.", "quantifier": "every mesh, every chunk size, every source distribution", "why_tests_cant": "All sizes, including chunk sizes that do not divide the number of faces.", "anchors": ["capytaine/bem/solver.py: BEMSolver.get_potential_on_mesh", "capytaine/meshes/meshes.py: Mesh.extract_faces"]}
{"id": "C12", "title": "Block matrices are faithful to the full matrices they represent", "statement": "For matrices of nested blocks, sums, differences, scalings, transposition-like unary operations, products with vectors and matrices, and equality give the same values as the corresponding operation on the assembled full matrices; shapes agree with the full matrix.", "quantifier": "every nesting of block structures, every ring of coefficients, every vector", "why_tests_cant": "All nestings and shapes.", "anchors": ["capytaine/matrices/block.py: BlockMatrix"]}
{"id": "C13", "title": "Block Toeplitz and circulant structures place every block", "statement": "For each of the block Toeplitz, symmetric Toeplitz, circulant and even/odd symmetric circulant structures, every position of the full block matrix receives exactly one stored block, which depends only on the difference of the indices (modulo n for circulant, absolute value for symmetric ones).", "quantifier": "every number of blocks", "why_tests_cant": "All sizes.", "anchors": ["capytaine/matrices/block_toeplitz.py: _block_indices_of, _positions_of_index, _stored_block_positions"]}
{"id": "C14", "title": "Fast products through circulant embedding and FFT are exact", "statement": "The product of a block Toeplitz (or symmetric Toeplitz, circulant) matrix with a vector computed with the discrete Fourier transform of the embedding circulant matrix equals the product with the full matrix, in exact arithmetic.", "quantifier": "every number and size of blocks, every vector, over any field with a suitable root of unity", "why_tests_cant": "Requires the convolution theorem for all sizes.", "anchors": ["capytaine/matrices/block_toeplitz.py: matvec, circulant_super_matrix, block_diagonalize", "capytaine/matrices/block.py: fft_of_list"]}
{"id": "C15", "title": "Left multiplication of structured matrices", "statement": "rmatvec of every block matrix structure returns v @ A for the full matrix A.", "quantifier": "every structure, every complex vector", "why_tests_cant": "Complex vectors only reveal conjugations.", "anchors": ["capytaine/matrices/block.py: rmatvec", "capytaine/matrices/block_toeplitz.py: BlockCirculantMatrix.rmatvec"]}
{"id": "C16", "title": "The direct linear solver solves the full system for structured matrices", "statement": "The solution returned by the structured direct solver for 2x2 symmetric block matrices (recursively) and block circulant matrices satisfies A x = b for the full matrix A, provided the solver used on the unstructured leaves is exact.", "quantifier": "every nesting of structures, every right-hand side", "why_tests_cant": "All nestings and sizes.", "anchors": ["capytaine/matrices/linear_solvers.py: solve_directly"]}
{"id": "C17", "title": "The LU solver with cache always solves the system it is given", "statement": "A solver that keeps the last LU decomposition returns for every history of calls the solution of the system just passed, never that of a previously decomposed matrix.", "quantifier": "every history of solves, with repeated, alternating, singular and mutated matrices", "why_tests_cant": "Only particular histories (failure then retry, in-place mutation) misbehave.", "anchors": ["capytaine/matrices/linear_solvers.py: LUSolverWithCache"]}
{"id": "C18", "title": "Low-rank blocks represent the product of their factors", "statement": "For low-rank matrices, the full matrix is left @ right, and matrix-vector products, negation, scaling and products with full matrices give the same values as on the full matrix, with the same shapes; the rank of a compressed matrix never exceeds the requested bound.", "quantifier": "every pair of factors and every vector", "why_tests_cant": "All shapes and ranks.", "anchors": ["capytaine/matrices/low_rank.py: LowRankMatrix"]}
{"id": "C19", "title": "Cutting a full matrix in blocks is lossless", "statement": "Cutting a full matrix along given row and column sizes gives a block matrix whose full matrix is the original one.", "quantifier": "every matrix and every pair of partitions of the rows and columns", "why_tests_cant": "Only unequal row and column partitions reveal a wrong offset.", "anchors": ["capytaine/matrices/builders.py: cut_matrix"]}
{"id": "C20", "title": "Exploiting mesh symmetries gives the same matrices", "statement": "For a mesh with a reflection, translation or axial symmetry, the structured influence matrix built by the engine from part of the interactions has the same full matrix as the dense assembly over all faces, when the Green function is invariant under that symmetry.", "quantifier": "every mesh, every number of repetitions, every invariant Green function", "why_tests_cant": "All meshes and numbers of slices.", "anchors": ["capytaine/bem/engines.py: BasicMatrixEngine.build_matrices, HierarchicalToeplitzMatrixEngine.build_matrices", "capytaine/meshes/symmetric.py"]}
{"id": "C21", "title": "Extracting faces keeps their geometry", "statement": "Extracting a list of faces from a valid mesh gives a valid mesh whose i-th face has the same vertex coordinates, in the same order, as the i-th requested face, and in which every vertex is used.", "quantifier": "every mesh and every list of face indices (with repetitions)", "why_tests_cant": "All meshes and index lists.", "anchors": ["capytaine/meshes/meshes.py: Mesh.extract_faces", "capytaine/meshes/quality.py: remove_unused_vertices"]}
{"id": "C22", "title": "Merging duplicate vertices preserves the geometry", "statement": "Merging duplicate vertices gives a valid mesh with the same number of faces, whose vertices each are vertices of the original mesh, such that every corner of every face moved by at most the tolerance in each coordinate; with zero tolerance the faces are geometrically unchanged and no two vertices coincide.", "quantifier": "every mesh and tolerance", "why_tests_cant": "All vertex configurations, including chains of close vertices.", "anchors": ["capytaine/meshes/quality.py: merge_duplicates, merge_duplicate_rows"]}
{"id": "C23", "title": "Healing and triangulating faces preserve the surface", "statement": "Normalising triangles and triangulating quadrangles keep each face's boundary and orientation: the healed face is a cyclic rotation of the original, and splitting a quadrangle gives two triangles whose area vectors add up to that of the quadrangle; flipping normals twice is the identity and flipping reverses every area vector.", "quantifier": "every mesh", "why_tests_cant": "All index patterns of faces.", "anchors": ["capytaine/meshes/quality.py: heal_triangles", "capytaine/meshes/meshes.py: triangulate_quadrangles, flip_normals"]}
{"id": "C24", "title": "A collection of meshes behaves like its merged mesh", "statement": "The vertices, faces and per-face properties of a collection are the concatenations of those of its parts with shifted vertex indices; locating the part containing a face inverts the concatenation; extracting faces from a collection gives the faces of the flattened mesh in the requested order up to grouping by part.", "quantifier": "every nested collection and every face index", "why_tests_cant": "All nestings and indices.", "anchors": ["capytaine/meshes/collections.py: CollectionOfMeshes"]}
{"id": "C25", "title": "Rigid transformations are isometries and mirror through the given plane", "statement": "Translating or rotating a mesh preserves distances, rotation fixes the axis and composes additively; mirroring fixes every point of the given plane, is an involution and reverses orientation, for every plane.", "quantifier": "every point, axis, angle and plane", "why_tests_cant": "Continuum of planes; the sign of the plane's offset matters.", "anchors": ["capytaine/meshes/geometry.py: Axis, Plane", "capytaine/meshes/meshes.py: translate, rotate, mirror"]}
{"id": "C26", "title": "Symmetric meshes stay what they claim under transformations", "statement": "After translating, rotating, mirroring or clipping a symmetric mesh, the parts are still images of the first part by the stored symmetry, so that a copy of the mesh has the same faces.", "quantifier": "every symmetric mesh and every transformation", "why_tests_cant": "Depends on axis positions and clipping planes not used in tests.", "anchors": ["capytaine/meshes/symmetric.py", "capytaine/meshes/geometry.py: Plane.rotate", "capytaine/meshes/collections.py: clip"]}
{"id": "C27", "title": "Clipping keeps exactly the part under the plane", "statement": "Clipping a mesh by a plane keeps unchanged every face lying under the plane, drops every face above, and replaces each face crossing the plane by pieces whose vertices all lie under or on the plane and which cover the part of the face under it; each resulting face is labelled with the face it comes from.", "quantifier": "every mesh of planar convex faces and every plane in general position", "why_tests_cant": "All sign patterns and positions.", "anchors": ["capytaine/meshes/clipper.py: clip, _partition_mesh, _clip_crown, _clip"]}
{"id": "C28", "title": "Clipping a body keeps its degrees of freedom aligned with the faces", "statement": "After clipping a body, every degree of freedom has one row per face of the clipped mesh, namely the row of the original face it comes from.", "quantifier": "every body and every clipping plane", "why_tests_cant": "Only meshes with tiny clipped panels reveal the misalignment.", "anchors": ["capytaine/bodies/bodies.py: FloatingBody.clip", "capytaine/meshes/clipper.py: clip"]}
{"id": "C29", "title": "Connected components partition the faces", "statement": "The connected components of a mesh are a partition of its faces; two faces sharing a vertex are in the same component, and two faces in different components are not connected by any chain of faces sharing vertices.", "quantifier": "every mesh", "why_tests_cant": "All graphs.", "anchors": ["capytaine/meshes/properties.py: connected_components, clustering, faces_in_group"]}
{"id": "C30", "title": "Closed surfaces have zero total area vector and translation invariant volume", "statement": "For a watertight mesh the sum of the area-weighted normals is zero; hence the volume computed by surface integrals is invariant under translation and the three volume estimates agree.", "quantifier": "every closed triangulated mesh, every translation", "why_tests_cant": "Discrete divergence theorem for all meshes.", "anchors": ["capytaine/meshes/properties.py: compute_faces_properties", "capytaine/meshes/surface_integrals.py: volumes, volume"]}
{"id": "C31", "title": "Rigid body degrees of freedom are rigid motions", "statement": "Translation dofs are constant fields and rotation dofs are the velocity fields of rotations about the chosen axis; the rotation centre inferred back from the dofs is the one used to define them.", "quantifier": "every mesh, axis and rotation centre", "why_tests_cant": "Continuum of geometries.", "anchors": ["capytaine/bodies/bodies.py: add_translation_dof, add_rotation_dof, _infer_rotation_center"]}
{"id": "C32", "title": "Joining bodies combines their degrees of freedom block-wise", "statement": "Joining bodies gives one dof per dof of each body, equal to the dof of that body on its faces and zero on the faces of the others; joining is associative up to names of the body.", "quantifier": "every list of bodies", "why_tests_cant": "All numbers of bodies and dofs, and name clashes.", "anchors": ["capytaine/bodies/bodies.py: join_bodies, combine_dofs, __add__"]}
{"id": "C33", "title": "Regular arrays have dofs matching their faces", "statement": "Assembling a regular array gives a body whose mesh faces are, in order, the faces of the copies in the same order as the dofs of the copies.", "quantifier": "every body, every nx, ny and spacing", "why_tests_cant": "Index arithmetic for all sizes.", "anchors": ["capytaine/bodies/bodies.py: assemble_regular_array", "capytaine/meshes/symmetric.py: build_regular_array_of_meshes"]}
{"id": "C34", "title": "Hydrodynamic coefficients recombine to the force", "statement": "Added mass and radiation damping of a radiation result determine the complex force on each dof: F = omega_e^2 A + i omega_e B, and pressure integration is linear in the pressure and in the dof.", "quantifier": "every force, encounter frequency, pressure and dof", "why_tests_cant": "For all reals.", "anchors": ["capytaine/bem/problems_and_results.py: RadiationResult", "capytaine/bodies/bodies.py: integrate_pressure"]}
{"id": "C35", "title": "The response amplitude operator solves the equation of motion", "statement": "The RAO X returned for a dataset satisfies, for every influenced dof i, sum_j H[i, j] X_j = F_i, where H[i, j] is the coefficient of the motion of dof j in the force on dof i.", "quantifier": "every dataset", "why_tests_cant": "Transposition is invisible on symmetric matrices used in tests.", "anchors": ["capytaine/post_pro/rao.py: rao", "capytaine/post_pro/impedance.py"]}
{"id": "C36", "title": "Airy waves satisfy the linear water wave equations", "statement": "The undisturbed wave velocity is the gradient of the undisturbed wave potential, which satisfies Laplace's equation, the linearised free surface condition and the impermeability of the sea bottom.", "quantifier": "every point, frequency, depth, direction and forward speed", "why_tests_cant": "Differential identities over a continuum.", "anchors": ["capytaine/bem/airy_waves.py"]}
{"id": "C37", "title": "A dataset of parameters is expanded to all its problems", "statement": "From a dataset of parameters, one radiation problem per frequency, depth, speed, density and radiating dof, and one diffraction problem per frequency, depth, speed, density and wave direction are created for each body, each combination exactly once.", "quantifier": "every parameter ranges", "why_tests_cant": "All ranges, including empty ones.", "anchors": ["capytaine/io/xarray.py: problems_from_dataset"]}
{"id": "C38", "title": "Assembling results in a dataset keeps every value", "statement": "In the assembled dataset, the value at given coordinates is that of the result with these parameters; when several results share the coordinates the first one is kept.", "quantifier": "every list of results", "why_tests_cant": "All parameter combinations.", "anchors": ["capytaine/io/xarray.py: _dataset_from_dataframe, assemble_dataset"]}
{"id": "C39", "title": "Complex datasets round-trip through their real representation", "statement": "Separating the complex values of a dataset and merging them again gives back the same values for every variable.", "quantifier": "every dataset with any mix of real and complex variables", "why_tests_cant": "All mixes and shapes.", "anchors": ["capytaine/io/xarray.py: separate_complex_values, merge_complex_values"]}
{"id": "C40", "title": "Mesh files round-trip", "statement": "Writing a mesh to a file and loading it back gives the same vertices (up to the printed precision) and faces, for each format with both a writer and a loader.", "quantifier": "every valid mesh, including those with few or many faces and with large coordinates", "why_tests_cant": "All meshes; small and large ones break header or column conventions.", "anchors": ["capytaine/io/mesh_writers.py: write_MAR, write_NAT, write_GDF, write_HST, write_NEM, write_PNL", "capytaine/io/mesh_loaders.py"]}
{"id": "C41", "title": "Writing a mesh does not modify it", "statement": "Exporting a mesh to a file leaves the vertices and faces of the mesh unchanged.", "quantifier": "every mesh and every format", "why_tests_cant": "Aliasing is not observed by tests comparing only the file.", "anchors": ["capytaine/io/mesh_writers.py: write_STL"]}
{"id": "C42", "title": "Lazily computed mesh properties are never stale", "statement": "After any sequence of property accesses and transformations, a per-face property of a mesh equals the value recomputed from the current vertices and faces.", "quantifier": "every history of accesses and transformations", "why_tests_cant": "All histories.", "anchors": ["capytaine/meshes/meshes.py: __internals__", "capytaine/meshes/geometry.py: inplace_transformation", "capytaine/meshes/meshes.py: extract_faces"]}
{"id": "C43", "title": "Quantities cached on a body are never stale", "statement": "The mesh with lid and the irregular frequency estimate of a body always correspond to its current mesh and lid.", "quantifier": "every history of accesses, transformations and attribute assignments", "why_tests_cant": "Only particular histories show staleness.", "anchors": ["capytaine/bodies/bodies.py: mesh_including_lid, first_irregular_frequency_estimate"]}
{"id": "C44", "title": "Structured grids are complete and conformal", "statement": "Rectangular grids (rectangle meshes and free surface grids) have nx*ny faces whose corners are the four corners of the corresponding cell, all indices are valid, all vertices are used, and neighbouring cells share an edge.", "quantifier": "every resolution", "why_tests_cant": "All sizes.", "anchors": ["capytaine/meshes/predefined/rectangles.py: mesh_rectangle", "capytaine/post_pro/free_surfaces.py: FreeSurface._generate_mesh"]}
{"id": "C45", "title": "The maximal panel radius is respected", "statement": "When a maximal panel radius is requested for a rectangle, every panel of the generated mesh has at most this radius.", "quantifier": "every size, resolution and radius", "why_tests_cant": "For all reals.", "anchors": ["capytaine/meshes/predefined/rectangles.py: mesh_rectangle"]}
{"id": "C46", "title": "Point lists of any accepted shape are normalised losslessly", "statement": "Any accepted description of points (single point, list, mesh grid) is turned into a list of points in an order such that reshaping per-point values to the returned output shape puts each value at the position of its point.", "quantifier": "every array shape", "why_tests_cant": "All shapes.", "anchors": ["capytaine/tools/lists_of_points.py: _normalize_points, _normalize_free_surface_points"]}
{"id": "C47", "title": "The entries of the influence matrices do not depend on the evaluation order", "statement": "The assembled S and K matrices do not depend on the order in which the parallel loop visits the columns, every entry is written exactly once, and permuting the faces of the meshes permutes the rows and columns.", "quantifier": "every schedule and every permutation of faces", "why_tests_cant": "All interleavings.", "anchors": ["capytaine/green_functions/libDelhommeau/src/matrices.f90: build_matrices"]}
{"id": "C48", "title": "Importing multi-body data from other solvers keeps all bodies", "statement": "Converting a multi-body dataset of another BEM code yields records for every body, for every supported code.", "quantifier": "every number of bodies and every code", "why_tests_cant": "Tests use single-body WAMIT data.", "anchors": ["capytaine/io/bemio.py: dataframe_from_bemio"]}
{"id": "C49", "title": "Quadrature weights integrate the face area", "statement": "The quadrature points of a face are convex combinations of its corners and, for parallelogram and triangular faces, the weights sum to the area of the face.", "quantifier": "every face and each built-in scheme", "why_tests_cant": "For all reals.", "anchors": ["capytaine/meshes/quadratures.py: compute_quadrature_on_faces"]}
{"id": "C50", "title": "Rigid body inertia is symmetric and consistent with translations", "statement": "The computed rigid body inertia matrix is symmetric for every body and rotation centre, and is diagonal in translation with the mass; each coefficient is the integral over the body of the scalar product of the velocities of the two motions (with one integration point by face for two rotations).", "quantifier": "every mesh and rotation centre", "why_tests_cant": "For all reals.", "anchors": ["capytaine/bodies/bodies.py: compute_rigid_body_inertia"]}
{"id": "C51", "title": "A result satisfies the discretised boundary integral equation", "statement": "The result of solve contains sources (or a potential) that solve the linear system of the chosen method for the boundary condition of the problem, the pressure derived from the potential at the (encounter) frequency of the problem, plus the speed term, and the forces obtained by integrating this pressure on the hull only, lid excluded.", "quantifier": "every problem, both methods, every engine and exact linear solver", "why_tests_cant": "Tests compare a few coefficients with references; the equations must hold for every problem.", "anchors": ["capytaine/bem/solver.py: BEMSolver.solve"]}
{"id": "C52", "title": "The hydrostatic stiffness of a freely floating body is symmetric", "statement": "For a body whose weight and buoyancy balance each other about its rotation centre, the hydrostatic stiffness matrix of its rigid dofs is symmetric. The coefficients for two rigid motions are those of the motion of the waterplane and of the moment of buoyancy and weight, with their signs.", "quantifier": "every mesh, mass, centre of mass, density and set of rigid dofs", "why_tests_cant": "For all reals and all meshes.", "anchors": ["capytaine/bodies/bodies.py: compute_hydrostatic_stiffness, each_hydrostatic_stiffness"]}
{"id": "C53", "title": "Healing the normals makes them consistent and outward", "statement": "heal_normals leaves the vertices in place and at most reverses the order of the corners of some faces. On a conformal mesh that can be oriented, any two faces sharing a side are then consistently oriented, whatever the number of pieces; a mesh already consistent is left as it is or completely reversed, and a closed mesh ends up with outward normals.", "quantifier": "every mesh: any number of faces, of pieces and any initial orientation, any enumeration order of the sets", "why_tests_cant": "The flooding of the mesh must be right for every connectivity and every order of visit; tests use a few shapes.", "anchors": ["capytaine/meshes/quality.py: heal_normals", "capytaine/meshes/properties.py: compute_connectivity"]}
{"id": "C54", "title": "Symmetric variants of a generated rectangle describe the same rectangle", "statement": "A rectangle generated with a reflection or translation symmetry has the same panels as the rectangle generated without symmetry from the same arguments, and the normals of its panels have the requested direction.", "quantifier": "every size, centre, resolution and normal", "why_tests_cant": "Tests use the default normal; the variants are drawn in different planes before being rotated.", "anchors": ["capytaine/meshes/predefined/rectangles.py: mesh_rectangle", "capytaine/meshes/geometry.py: rotate_around_center_to_align_vectors"]}
{"id": "C55", "title": "Pressure and elevation agree on the free surface", "statement": "At points of the undisturbed free surface, the pressure computed for a solved problem is rho g times the computed free surface elevation.", "quantifier": "every solved problem, with or without forward speed, and every list of points of the free surface", "why_tests_cant": "The two quantities are computed by two functions; the identity must hold for all flows and speeds.", "anchors": ["capytaine/bem/solver.py: BEMSolver.compute_pressure, compute_free_surface_elevation"]}
{"id": "C56", "title": "Quantities computed on a mesh are those at the centres of its faces", "statement": "Giving a mesh, a collection or a body to the functions computing the potential, the velocity, the pressure or the elevation returns the values at the centres of its faces, in the order of the faces.", "quantifier": "every mesh, solved problem and incoming wave", "why_tests_cant": "For all meshes, including the mesh of the body itself.", "anchors": ["capytaine/tools/lists_of_points.py: _normalize_points", "capytaine/bem/solver.py: BEMSolver.compute_velocity", "capytaine/green_functions/abstract_green_function.py: _get_colocation_points_and_normals"]}
{"id": "C57", "title": "The frequency limits use the source and its image with the right sign", "statement": "At zero frequency the influence matrices are those of the source plus its image by the free surface, at infinite frequency those of the source minus its image, and without free surface those of the source alone, whatever the settings of the Green function.", "quantifier": "every mesh, list of points, setting of the singularities, number of threads and method", "why_tests_cant": "The limits are special cases of one general loop with coefficients and must hold for every setting; tests use the default one.", "anchors": ["capytaine/green_functions/delhommeau.py: Delhommeau.evaluate", "capytaine/green_functions/libDelhommeau/src/matrices.f90: BUILD_MATRICES"]}
{"id": "C58", "title": "The early dot product is the dot product of the full gradient", "statement": "The matrix K computed with the early dot product is the product of the matrix of gradients with the normal vectors of the receiving points (adjoint double layer) or of the source panels (double layer).", "quantifier": "every mesh, list of points and frequency", "why_tests_cant": "Must hold for every entry of every matrix.", "anchors": ["capytaine/green_functions/delhommeau.py: Delhommeau.evaluate", "capytaine/green_functions/abstract_green_function.py: _get_colocation_points_and_normals"]}
{"id": "C59", "title": "Transforming a body leaves the other bodies unchanged", "statement": "Translating, rotating, mirroring or clipping a body in place, copying it or joining it with others does not change the mesh or the lid of any other body.", "quantifier": "every sequence of constructions, transformations, copies, joins and clips of any number of bodies", "why_tests_cant": "Depends on which mesh objects are shared, for all histories.", "anchors": ["capytaine/bodies/bodies.py: FloatingBody.__init__, copy, join_bodies, translate, rotate, mirror, clip"]}
{"id": "C60", "title": "Imported results keep their frequencies and units", "statement": "Each coefficient and force of the dataset of another BEM code appears in the imported records with the frequency at which it was computed, and converted from the units of that code.", "quantifier": "every dataset: any order of the frequencies, any code", "why_tests_cant": "Tests use sorted frequencies and a single code.", "anchors": ["capytaine/io/bemio.py: dataframe_from_bemio"]}
{"id": "C61", "title": "The influence of a face on another is the same after a symmetry of the fluid", "statement": "Moving two faces together by a horizontal translation, a rotation around a vertical axis or a reflection in a vertical plane does not change the entries of the influence matrices; without free surface and bottom, neither does any other isometry.", "quantifier": "every pair of faces, frequency, depth, setting, quadrature and tabulation", "why_tests_cant": "The symmetric meshes rely on it for all positions, while tests compare a few meshes up to a tolerance.", "anchors": ["capytaine/green_functions/delhommeau.py: Delhommeau.evaluate", "capytaine/green_functions/libDelhommeau/src/Green_Rankine.f90", "capytaine/green_functions/libDelhommeau/src/Green_wave.f90", "capytaine/green_functions/libDelhommeau/src/matrices.f90: BUILD_MATRICES"]}
{"id": "C62", "title": "No flow goes through the sea bottom", "statement": "At every point of the sea bottom the vertical component of the velocity induced by each panel, as returned by the evaluation of the Green function in finite depth, is zero.", "quantifier": "every point of the bottom, panel, depth, wavenumber, setting, tabulation and exponential decomposition", "why_tests_cant": "Tests evaluate a few points with a tolerance, and one of the settings.", "anchors": ["capytaine/green_functions/delhommeau.py: Delhommeau.evaluate", "capytaine/green_functions/libDelhommeau/src/Green_Rankine.f90", "capytaine/green_functions/libDelhommeau/src/Green_wave.f90", "capytaine/green_functions/libDelhommeau/src/matrices.f90: BUILD_MATRICES"]}
{"id": "C63", "title": "The free surface condition holds", "statement": "At every point of the free surface, in infinite depth, the vertical velocity induced by each panel is the wavenumber times its potential; the velocity is zero at zero frequency and the potential is zero at infinite frequency.", "quantifier": "every point of the free surface, panel, wavenumber, setting and tabulation", "why_tests_cant": "Holds exactly for all positions, while tests compare a few values with tolerances.", "anchors": ["capytaine/green_functions/delhommeau.py: Delhommeau.evaluate", "capytaine/green_functions/libDelhommeau/src/Green_Rankine.f90", "capytaine/green_functions/libDelhommeau/src/Green_wave.f90", "capytaine/green_functions/libDelhommeau/src/matrices.f90: BUILD_MATRICES"]}
{"id": "C64", "title": "The velocities are the gradients of the potentials", "statement": "The velocity induced by a panel at a point is the gradient of the potential that the same evaluation returns, as a function of the point.", "quantifier": "every panel and every point", "why_tests_cant": "A statement about derivatives at all the points; finite differences on a few points cannot settle it.", "anchors": ["capytaine/green_functions/libDelhommeau/src/Green_Rankine.f90: COMPUTE_INTEGRAL_OF_RANKINE_SOURCE, EXACT_INTEGRAL_OF_RANKINE_SOURCE", "capytaine/green_functions/libDelhommeau/src/matrices.f90: BUILD_MATRICES"]}
{"id": "C65", "title": "The results do not depend on the unit of length", "statement": "When all the coordinates, the depth and the wavelength are multiplied by the same positive number, the matrix of the potentials is multiplied by this number and the matrix of the velocities does not change.", "quantifier": "every positive factor, set of panels and points, depth, wavenumber and setting", "why_tests_cant": "Fixed tolerances in metres are only met for some sizes of panels, which tests do not use.", "anchors": ["capytaine/green_functions/delhommeau.py: Delhommeau.evaluate", "capytaine/green_functions/libDelhommeau/src/Green_Rankine.f90", "capytaine/green_functions/libDelhommeau/src/Green_wave.f90", "capytaine/green_functions/libDelhommeau/src/matrices.f90: BUILD_MATRICES"]}
{"id": "C66", "title": "The tabulated integrals are interpolated from their neighbours", "statement": "For every grid of at least three by three coordinates, the integrals read in the tabulation are defined everywhere below the free surface, are the computed ones at the coordinates of the table, and are elsewhere the values of the quadratic polynomials through the three by three neighbours; the computed values follow Simpson's rule.", "quantifier": "every shape and size of the grid, number of integration points, and point", "why_tests_cant": "The index of the neighbours comes from closed formulas with logarithms and fixed constants, that must agree with the spacing for all sizes.", "anchors": ["capytaine/green_functions/delhommeau.py: Delhommeau._create_tabulation", "capytaine/green_functions/libDelhommeau/src/Delhommeau_integrals.f90", "capytaine/green_functions/libDelhommeau/src/Green_wave.f90: WAVE_PART_INFINITE_DEPTH"]}
{"id": "C67", "title": "A tabulation read from the disk is that of the parameters", "statement": "Every Green function that is constructed has the tabulation of its own parameters, whatever the files left by the previous constructions; a construction with correct arguments does not fail, and a tabulation that has been saved is not computed again.", "quantifier": "every history of constructions with any parameters and directories, interleaving of processes, process killed at any step, and removal of files", "why_tests_cant": "The files are shared by all the runs on a machine; tests use a fresh directory and a single process.", "anchors": ["capytaine/green_functions/delhommeau.py: Delhommeau.__init__, Delhommeau._create_or_load_tabulation", "capytaine/tools/cache_on_disk.py: cache_directory"]}
{"id": "C68", "title": "The dataset of a test matrix has the coefficients of all its problems", "statement": "The dataset filled from a test matrix gives, under the labels of each combination of its values, the added mass, damping, diffraction, Froude-Krylov and excitation forces of this very problem solved alone; the call succeeds when the problems can be built, and the failed resolutions are recorded as nan.", "quantifier": "every test matrix, bodies, number of jobs, method, order of resolution and failures of single resolutions", "why_tests_cant": "The tests fill a few small matrices with one parameter varying at a time; a value under a wrong label looks plausible.", "anchors": ["capytaine/bem/solver.py: BEMSolver.fill_dataset", "capytaine/io/xarray.py: problems_from_dataset, assemble_dataset", "capytaine/bem/problems_and_results.py: RadiationResult, DiffractionResult"]}
{"id": "C69", "title": "Far field coefficients", "statement": "The far field coefficient in a direction is the sum of the sources weighted by the conjugate of the wave of this direction; another point of reference changes its phase only, it is linear in the sources, and a dataset filled with angles has one coefficient for each problem and each angle.", "quantifier": "every result, angles, point of reference and superposition of sources; every test matrix with angles", "why_tests_cant": "The tests compare a few values on one mesh; the phases depend on all the coordinates.", "anchors": ["capytaine/post_pro/kochin.py: compute_kochin", "capytaine/io/xarray.py: kochin_data_array", "capytaine/bem/solver.py: BEMSolver.fill_dataset"]}
{"id": "C70", "title": "A box has the requested panels whatever the symmetries", "statement": "A generated rectangular box is made of exactly the panels of the regular grids of the requested sides, all with their normals outwards, with or without reflection or translation symmetry; with all its sides it is watertight and its volume is the product of its dimensions; with a maximal radius no panel is larger.", "quantifier": "every size, centre, resolution, set of missing sides, option about symmetries and maximal radius", "why_tests_cant": "The pieces are generated, merged, healed, mirrored or translated; the tests count the panels of a few boxes.", "anchors": ["capytaine/meshes/predefined/rectangles.py: mesh_parallelepiped"]}
{"id": "C71", "title": "A Nemoh.cal file gives the problems it describes", "statement": "Every file with the documented lines gives one problem for each frequency and each direction or degree of freedom, with the water, units, meshes and motions it describes; a file cut anywhere gives an error or the same problems; a body that is missing or an unknown unit is an error.", "quantifier": "every content of the file, number of bodies, degrees of freedom, frequencies and directions, free text at the end of the lines, and truncation", "why_tests_cant": "The reader counts lines and words, and free comments may be anywhere; the tests read one file.", "anchors": ["capytaine/io/legacy.py: import_cal_file", "capytaine/bodies/bodies.py: FloatingBody.from_file, add_translation_dof, add_rotation_dof"]}
{"id": "C72", "title": "A problem exported to a Nemoh directory is read back", "statement": "Importing the directory written for a radiation problem gives radiation problems for the same water, the same mesh up to the digits of the file, and the exported range of frequencies.", "quantifier": "every problem, name of body, directory, earlier content of the disk, and range of frequencies", "why_tests_cant": "The names of the files come from the name of the body; the tests do not read back what they export.", "anchors": ["capytaine/io/legacy.py: export_as_Nemoh_directory, import_cal_file", "capytaine/io/mesh_writers.py: write_MAR"]}
{"id": "C73", "title": "The advised position of a lid removes the irregular frequencies up to a given frequency", "statement": "With a horizontal lid at the height advised for a frequency, the estimate of the first irregular frequency is above this frequency; without lid, or with a lid at any depth, the estimate is the least frequency of parallelepipeds with the dimensions of the waterlines.", "quantifier": "every immersed mesh, with any number of waterlines of any dimensions, every frequency and every gravity", "why_tests_cant": "The tests use one hull with one waterline; the claim is about a minimum over all the waterlines of any mesh.", "anchors": ["capytaine/meshes/meshes.py: Mesh.lowest_lid_position", "capytaine/bodies/bodies.py: FloatingBody.first_irregular_frequency_estimate", "capytaine/meshes/properties.py: connected_components_of_waterline"]}
{"id": "C74", "title": "A generated lid covers the inside of the hull", "statement": "The generated lid is a horizontal mesh at the requested height, with panels not larger than requested and normals downwards, made of the panels of a regular grid around the hull whose corners are inside of the hull; there is none if nothing is below it.", "quantifier": "every mesh, height and size of panels", "why_tests_cant": "Being inside is decided at each point of a grid by counting panels; only all positions of the panels with respect to the grid show when the count is wrong.", "anchors": ["capytaine/meshes/meshes.py: Mesh.generate_lid", "capytaine/meshes/predefined/rectangles.py: mesh_rectangle"]}
{"id": "C75", "title": "The preconditioned engine solves the same systems", "statement": "For bodies assembled by clustering, the vector returned by the solver with a preconditioner is a solution of the linear system that the other engines solve: every solution of it satisfies the preconditioned equation, and nothing else does.", "quantifier": "every tree of clusters, sizes of the parts, Green function, low rank approximation, right-hand side, and exact iterative solver", "why_tests_cant": "The preconditioned matrix is never assembled: it is applied through blocks of the matrix and a coarse problem whose indices are recomputed along each path; the tests compare one case with another engine.", "anchors": ["capytaine/bem/engines.py: HierarchicalPrecondMatrixEngine.build_matrices", "capytaine/matrices/linear_solvers.py: solve_precond_gmres, _block_Jacobi_coarse_corr", "capytaine/matrices/block.py: access_block_by_path", "capytaine/meshes/collections.py: CollectionOfMeshes.path_to_leaf"]}
{"id": "C76", "title": "The preconditioned engine accepts or refuses a mesh, and never solves another system", "statement": "A mesh is either solved as with the other engines or refused by an exception: single meshes, collections of any number of meshes, and meshes with symmetries.", "quantifier": "every mesh and Green function", "why_tests_cant": "The restriction on the meshes is in no test and no documentation; a silent error would be taken for a converged result.", "anchors": ["capytaine/bem/engines.py: HierarchicalPrecondMatrixEngine.build_matrices"]}
{"id": "C77", "title": "A cluster of bodies is the join of these bodies", "statement": "Clustering bodies gives the same body as joining them in the order of the leaves of the dendrogram: each dof of each body is found under the same name, with the same motion on the faces of this body and none on the others; mass, center of mass, inertia and stiffness are those of the join. Each body appears exactly once. The mesh is made of pairs, as the preconditioned engine needs. Clustering fewer than two bodies, or a body without volume, raises ValueError.", "quantifier": "every list of bodies, every linkage of their positions, with or without a name", "why_tests_cant": "The nodes are joined one by one following a matrix computed by another library; a wrong index merges a node twice or forgets one, only for some positions of the bodies. There is no test on the dofs.", "anchors": ["capytaine/bodies/bodies.py: FloatingBody.cluster_bodies, FloatingBody.join_bodies"]}
{"id": "C78", "title": "The hydrostatic stiffness agrees with the metacentric heights", "statement": "In the hydrostatics of a body the stiffness is labelled by the dofs of the body; its coefficient for heave is the density times gravity times the waterplane area. If the mass is that of the displaced water, or not given, and the body rotates about a point of the symmetry plane, its coefficients for roll and pitch are the weight of displaced water times the transversal and longitudinal metacentric heights, all of the same dictionary.", "quantifier": "every body with a center of mass, every mesh, dofs in any order, density and gravity", "why_tests_cant": "The two quantities are computed by different functions from different integrals over the mesh; the tests compare each with analytical values for a few shapes.", "anchors": ["capytaine/bodies/bodies.py: FloatingBody.compute_hydrostatics, compute_hydrostatic_stiffness, transversal_metacentric_radius, longitudinal_metacentric_radius, transversal_metacentric_height, longitudinal_metacentric_height"]}
{"id": "C79", "title": "The metacentric radii and heights are intrinsic to the hull", "statement": "Translating a body along the free surface changes neither its metacentric radii nor its metacentric heights.", "quantifier": "every hull open at the free surface, every horizontal translation", "why_tests_cant": "The second moment of the waterplane is taken about the axes of the reference frame: only a body away from the origin shows it, and the tests put the bodies at the origin.", "anchors": ["capytaine/bodies/bodies.py: FloatingBody.transversal_metacentric_radius, longitudinal_metacentric_radius, transversal_metacentric_height, longitudinal_metacentric_height"]}
{"id": "C80", "title": "The computed hydrostatics are those of the immersed part of the body", "statement": "The dictionary of hydrostatics holds the wet surface, volumes, displaced mass, center of buoyancy and waterplane of the part of the body below the free surface, and the overall lengths of the whole body; it does not change the body except its stored matrices, which are those of the dictionary; a body without center of mass or without dofs is refused. With no given mass, the inertia is that of the displaced mass.", "quantifier": "every body, partly, fully or not immersed, with any dofs", "why_tests_cant": "Part of the dictionary is computed from the clipped body and part from the whole one; the tests use bodies that are entirely immersed.", "anchors": ["capytaine/bodies/bodies.py: FloatingBody.compute_hydrostatics, compute_rigid_body_inertia", "capytaine/meshes/geometry.py: ClippableMixin.immersed_part"]}
{"id": "C81", "title": "Slicing a body by a plane only regroups its panels", "statement": "The body sliced by a plane has the panels of the body, grouped in parts that have all their panels on one side of the plane; it has the same name, the same lid panels, the same motion of each panel for each dof, and the same mass and center of mass.", "quantifier": "every body with a mesh of any hierarchy, with or without lid, every plane", "why_tests_cant": "The dofs are arrays indexed by the rank of the panels and slicing reorders the panels; only a dof that changes from a panel to the next on a mesh whose panels are not already sorted shows it.", "anchors": ["capytaine/bodies/bodies.py: FloatingBody.sliced_by_plane", "capytaine/meshes/meshes.py: Mesh.sliced_by_plane", "capytaine/meshes/collections.py: CollectionOfMeshes.sliced_by_plane"]}
{"id": "C82", "title": "A minced body is divided in the requested slices", "statement": "Mincing a body gives a body with the same panels. In each direction the extent of the mesh is divided in slices of the same width, as many as the greatest power of two that is not above the requested number, and no part of the minced mesh has panels in two slices. Asking for one slice in each direction only copies the body and asking for none is refused.", "quantifier": "every body, every number of slices in each direction", "why_tests_cant": "The planes are applied one after the other on the hierarchy made by the previous ones, with heals of the mesh in between; the tests only count the parts of one body.", "anchors": ["capytaine/bodies/bodies.py: FloatingBody.minced, FloatingBody.sliced_by_plane"]}
{"id": "C83", "title": "A vertical cylinder is made of its panels, whatever the symmetry", "statement": "A generated vertical cylinder has exactly the panels of its bottom, side and top for the requested resolution, each of them once with a normal pointing outwards, whether it is built as one mesh, as two halves with a plane symmetry or as slices with an axial symmetry. With panels on its ends its surface is closed and its volume is that of the prism whose base is the regular polygon. With a maximal radius, half of the diagonal of each cell of the resolution used is at most this radius, and the given resolution is used when it is fine enough.", "quantifier": "every length, radius, center, resolution and symmetry option for which the panels are not smaller than the tolerance of the healing", "why_tests_cant": "The panels of the three constructions are built along different paths, the mesh is healed by merging close nodes and removing small panels, and the panels next to the axis are degenerated into triangles; tests look at a few resolutions.", "anchors": ["capytaine/meshes/predefined/cylinders.py: mesh_vertical_cylinder", "capytaine/meshes/symmetric.py: AxialSymmetricMesh, ReflectionSymmetricMesh", "capytaine/meshes/meshes.py: Mesh.heal_mesh"]}
{"id": "C84", "title": "A sphere and a turned profile are made of their panels, with or without symmetry", "statement": "A mesh made from a profile around the vertical axis has exactly the panels between successive points of the profile and successive meridians, all around the axis, in as many equal slices as asked; if both ends of the profile are on the axis its surface is closed and its volume is the exact volume of the polyhedron. A generated sphere is such a mesh, whether the axial symmetry is kept or not, at the requested center and with normals pointing outwards. With a maximal radius, half of the diagonal of an equatorial cell of the resolution used is at most this radius, and the given resolution is used when it is fine enough.", "quantifier": "every radius, center, resolution, symmetry option and profile for which the panels are not smaller than the tolerance of the healing", "why_tests_cant": "The first and last strips of panels degenerate into triangles, the slices are produced by rotations and glued by merging close nodes, and healing reorients the panels; tests look at a few resolutions.", "anchors": ["capytaine/meshes/predefined/spheres.py: mesh_sphere", "capytaine/meshes/symmetric.py: AxialSymmetricMesh.from_profile", "capytaine/meshes/meshes.py: Mesh.heal_mesh, Mesh.merge_duplicates"]}
{"id": "C85", "title": "The maximal panel radius of spheres and vertical cylinders", "statement": "When a maximal radius of the panels is given for a sphere or a vertical cylinder, the radius of every panel of the mesh that is returned, as reported by the mesh, is at most this maximal radius.", "quantifier": "every size, center, initial resolution, symmetry option and maximal radius for which the panels are not smaller than the tolerance of the healing", "why_tests_cant": "The number of panels is chosen from an estimate for rectangular cells, whereas panels are trapezoids and triangles whose radius is measured from their centroid; tests only compare a few cases.", "anchors": ["capytaine/meshes/predefined/spheres.py: mesh_sphere", "capytaine/meshes/predefined/cylinders.py: mesh_vertical_cylinder", "capytaine/meshes/properties.py: compute_radiuses"]}
{"id": "C86", "title": "The warnings displayed before a resolution", "statement": "Before solving, a warning about the mesh is displayed if and only if some wavelength is lower than eight times the radius of a panel of the hull or of the lid, and a warning about irregular frequencies if and only if some frequency is higher than the first irregular frequency of a parallelepiped with the dimensions of a waterline of the body and the draft of the body or of its lid. The message gives the number of problems concerned, the range of their frequencies, the radius that exceeds one eighth of the wavelength and the advice that fits the body concerned.", "quantifier": "every list of problems, bodies with and without lid, frequencies and frequency types", "why_tests_cant": "Tests check that a message appears or not for a few problems; they do not check what it says, and cannot tell that no risky problem is ever silent.", "anchors": ["capytaine/bem/solver.py: _check_wavelength_and_mesh_resolution, _check_wavelength_and_irregular_frequencies", "capytaine/bodies/bodies.py: minimal_computable_wavelength, first_irregular_frequency_estimate"]}
{"id": "C87", "title": "The bare matrices of a list of results", "statement": "From results at one frequency, the added mass and the radiation damping are returned as matrices with one line for each radiating dof and one column for each influenced dof, each entry being the coefficient of the first result with these dofs, and the excitation force for one wave direction is a vector with one entry for each influenced dof, the sum of the Froude-Krylov and of the diffraction forces. With a single dof the matrices have one line and one column for each frequency. None is returned for the quantities of a class without results.", "quantifier": "every list of results of radiation and diffraction problems, every number of dofs, every order of the results", "why_tests_cant": "Tests read the shapes for one body; they cannot tell that the removal of the dimensions of length one never mixes lines, columns and frequencies.", "anchors": ["capytaine/io/xarray.py: assemble_matrices, assemble_dataset"]}
{"id": "C88", "title": "The hydrostatics of several bodies in a dataset", "statement": "The dataset of hydrostatics holds, under the name of each body and the names of an influenced and of a radiating dof, the coefficient of the inertia matrix or of the stiffness matrix of this body, and nan where the body has no such coefficient. A matrix that no body has is absent from the dataset.", "quantifier": "every list of bodies, with or without each of the matrices, and with any dofs", "why_tests_cant": "Tests use one or two bodies with the same dofs; they cannot tell that the alignment of different dofs and the removal of the dimension of a single body never give the matrix of another body.", "anchors": ["capytaine/io/xarray.py: hydrostatics_dataset, assemble_dataset"]}
{"id": "C89", "title": "The files of results and of hydrostatics", "statement": "Writing a dataset of results gives a file of radiation coefficients, with a block for each radiating dof, a row for each frequency, and the added mass and the damping for each influenced dof, and a file of excitation forces, with a block for each wave direction and the modulus and phase of the sum of the Froude-Krylov and diffraction forces. The hydrostatics of each body are written in two files bearing its number. No other file is changed.", "quantifier": "every dataset assembled from results, every list of bodies and every disk", "why_tests_cant": "Tests write the files of one dataset and check that nothing fails; they do not read the numbers back, and cannot tell that each coefficient is in the row of its frequency, in the block of its dof and in the column of its influenced dof.", "anchors": ["capytaine/io/legacy.py: write_dataset_as_tecplot_files, export_hydrostatics, _hydrostatics_writer"]}
{"id": "C90", "title": "The Green functions of HAMS and the evanescent waves", "statement": "For each positive wavenumber and depth, the roots given to the finite depth Green function are the wavenumber followed by the smallest evanescent wavenumbers, in increasing order and without omission. The Green function of HAMS uses in each depth and at each frequency the same images and wave part as the default Green function, and refuses the limit frequencies in finite depth.", "quantifier": "every wavenumber, depth, condition on the free surface and number of roots, given an exact search of zeros in an interval", "why_tests_cant": "Tests compare the Green functions at a few frequencies; they cannot tell that no root is skipped, nor find the wavelengths for which the intervals of the search do not contain their root.", "anchors": ["capytaine/green_functions/hams.py: LiangWuNoblesseGF, FinGreen3D, HAMS_GF", "capytaine/green_functions/libDelhommeau/src/Green_wave.f90: integral_of_wave_part_fingreen3D"]}
{"id": "C91", "title": "The times displayed by the solver", "statement": "For each history of resolutions and evaluations with a solver, including those that fail, each timer records the exact duration of each of its blocks, the number of calls of the total is the number of resolutions, and the Green function and the linear solver never count the same time twice nor, for resolutions, more than the total. The mean of the summary is the total divided by the number of calls, and is missing only when there was no call.", "quantifier": "every history of calls of a solver in one process, every duration of their parts and every place where an exception is raised", "why_tests_cant": "Tests time one call that succeeds; they cannot cover each place of an exception nor each order of nested timers.", "anchors": ["capytaine/tools/timer.py: Timer", "capytaine/bem/solver.py: BEMSolver.timer_summary, BEMSolver.solve, BEMSolver.compute_potential"]}
{"id": "C92", "title": "Approximation by a sum of exponentials", "statement": "A decomposition that is accepted meets the tolerance on a grid twice finer than that of its computation, with distinct rates between -20 and 0. A function that is a sum of exponentials with such rates is found exactly, at every point, when its number of terms is tried, and an error is raised exactly when no tried size meets the tolerance.", "quantifier": "every function, interval, tolerance and list of sizes; for the exactness, every number of terms, coefficients and rates, given exact solvers", "why_tests_cant": "Tests decompose a few functions; they cannot show that the method recovers each sum of exponentials, nor exhibit the functions that are far from their approximation between the points.", "anchors": ["capytaine/tools/prony_decomposition.py: exponential_decomposition, error_exponential_decomposition, find_best_exponential_decomposition"]}
{"id": "C93", "title": "The decomposition of the finite depth Green function", "statement": "The function that is decomposed has a value at each point of the interval of the decomposition for each dimensionless wavenumber, and does not jump where its expression is replaced by an interpolation. With the method python the decomposition returned meets the tolerance, and a failure of the search is reported as such; an unknown method is refused.", "quantifier": "every dimensionless wavenumber, point of the interval, name of the method and result of the numerical solvers", "why_tests_cant": "Tests compare the two methods at a few wavenumbers; they miss the range of wavenumbers for which the function has a pole in the interval, and the search that fails.", "anchors": ["capytaine/green_functions/delhommeau.py: Delhommeau.find_best_exponential_decomposition", "capytaine/green_functions/libDelhommeau/src/old_Prony_decomposition.f90: FF"]}
