# Formal model of capytaine in Rocq (Coq 8.16.1)

The source under study is `/repo/capytaine` (Python, plus one Fortran file). It is read as text. Nothing is executed.

## Layout

For each subsystem `X` there are up to four files in `rocq/theories`:

* `Model_X.v`: total Gallina functions that mirror the code branch by branch. Exceptions are values. No proofs.
  Every definition cites the file and lines it models and says where it simplifies.
* `Spec_X.v` (only where useful): a small specification that does not use the model's helpers.
* `Proofs_X.v`: lemmas.
* `Props_X.v`: the property theorems only. Each is closed by `exact`, followed by `Print Assumptions`,
  with an `Example` showing that a concrete, non-trivial case meets its hypotheses.

Suffixes: `_partial` means that only part of the property is proved (the note in `MANIFEST.json` says what is missing).
`_refuted` means that the full statement is false of the faithful model; the theorem exhibits a witness.

## Modelling conventions

* Floating point numbers are replaced by exact numbers: `Z`, `Q`, `R`, or an abstract ring/field.
  Rounding, NaN and signed zeros are outside the model unless a definition says otherwise.
  Infinity is modelled explicitly where the code tests for it.
* numpy arrays are lists (or lists of lists). Shapes are checked where the code checks them.
* External numerical routines are section variables (oracles): the Green function, dense linear solvers,
  root finding, SVD. Theorems hold for every value of the oracle satisfying the hypotheses that they state.
* Python objects with identity are modelled with explicit identifiers where the code depends on identity.
* Logging, plotting, progress bars and pretty printing are not modelled.

## Trusted base

* Coq's kernel (and `coqchk`).
* The axioms printed by `Print Assumptions` under each theorem. Only the standard library's axioms appear:
  the classical reals (`ClassicalDedekindReals.sig_forall_dec`, `ClassicalDedekindReals.sig_not_dec`),
  `FunctionalExtensionality.functional_extensionality_dep`, and `Classical_Prop.classic`
  (the last one through Coquelicot's derivatives). Files about integers, lists and abstract rings are axiom free.
* The faithfulness of the models to the Python text. This is by reading only.

## Plan per property

| Id | What is modelled | How it is proved |
|----|------------------|------------------|
| C01 | The decorator as a state machine: an ordered list of (key, value), `call` returning value or exception. | Invariant over call lists; freshness by induction on histories. |
| C02 | The engine's cached `build_matrices`, with mesh equality on unordered face sets. | Refuted by two meshes equal as sets with another face order. Positive theorem when equality implies identical face lists. |
| C03 | `SymbolicMultiplication` as symbol and value over a field, with extended floats. | Case analysis and field laws. |
| C04 | `_get_water_depth` and the depth part of `_check_data` over extended reals. | Decision table. Positivity refuted for the `sea_bottom` path. |
| C05 | `_get_frequencies` over R with an oracle for the dispersion root. | Case analysis, oracle assumed to return a root. |
| C06 | Encounter quantities over R. | Case analysis. |
| C07 | `_check_data` and the constructors of the two problem classes, as a function to exceptions or problems. | Case analysis. |
| C08 | `_astuple`, `__eq__`, `__lt__`. | Refuted for the wave direction; order theorem proved for what holds. |
| C09 | `solve_all`, `_solve_and_catch_errors`, grouping. | Permutation reasoning. |
| C10 | Same model. | Refuted by an unsorted list; proved for the sorted permutation. |
| C11 | `get_potential_on_mesh` over an abstract kernel. | Induction on chunks. |
| C12 | Nested block matrices as an inductive type over a ring. | Induction on the nesting. |
| C13 | Index sets of the five structures. | Arithmetic over all sizes. |
| C14 | DFT over a commutative ring with a principal root of unity. | Convolution theorem and embedding. |
| C15 | `rmatvec` over complex-like rings. | Refuted for circulant; proved for the others. |
| C16 | `solve_directly` with an oracle for leaves. | Algebra on blocks. |
| C17 | LU cache state machine with object identities. | Refuted by fail/retry and mutation histories; proved otherwise. |
| C18 | Low-rank factors. | Ring algebra. |
| C19 | `cut_matrix`. | Refuted for unequal partitions; proved for equal ones. |
| C20 | Engine symmetric branches over an abstract kernel. | Invariance of the kernel. |
| C21-C24 | Meshes as vertex and face lists; collections as trees. | List induction. |
| C25, C26 | Axis, plane and symmetric meshes over R. | `ring`/`nsatz`, trigonometry; refuted for negative offsets and axes off the origin. |
| C27, C28 | Clipper over an ordered field. | Case analysis over face types. |
| C29 | `clustering` and connected components. | Fixpoint and partition invariants. |
| C30 | Area vectors and centroids of triangulated meshes over R. | Edge pairing (discrete divergence theorem). |
| C31-C33 | Bodies and dofs. | Vector algebra; list induction. |
| C34-C36 | Results, RAO, Airy waves. | Algebra; Coquelicot derivatives. |
| C37-C39 | Dataset enumeration, assembly, complex round trip. | List induction. |
| C40, C41 | The text of the files, character by character: printing with `%u`, `%f` and `%E` (rounding to nearest, ties to even), splitting lines and words, parsing numbers; writers and loaders of six formats (Model_Text, Model_Files); the array of faces modified by the STL writer. | The printed numbers are words that parse to close values, and fields are separated by a blank as long as they fit their width; induction on the lines; refuted where a header or a column does not fit. |
| C42 | Meshes with lazily computed properties as a state machine. | Invariant over histories. |
| C43 | Bodies as objects that refer to mesh objects in a heap, with the remembered `mesh_including_lid` and estimates; any history of operations. | Invariants over histories: the remembered objects are the current ones, or an empty lid; refuted by assignments and by estimates asked before a modification. |
| C44, C45 | Free surfaces and rectangles: nodes, panels, healing, symmetric constructors, translation and rotation, as in the code. | A grid of rectangles is followed through healing and rigid motions. |
| C46 | numpy arrays with shapes, `_normalize_points` and the functions evaluated at points (Model_Points); the Green function is an oracle. | Row-major positions; each function returns the value of each point at the place of the point. |
| C47 | The body of the loops as a list of statements on private variables and on the shared matrices; threads executing them in any interleaving and taking columns in any order. | Invariant of the executions: the entries already written have their specified values, and the pending, running and finished columns are a partition; a decreasing cost for termination. |
| C48, C60 | `dataframe_from_bemio` on arrays with three axes (Model_Bemio); the local variable that is only bound for WAMIT. | The rows are those of the last turn of the loop; they are compared with the entries of the arrays. |
| C61 | The integrals of the Rankine part and of the wave part over a panel (Model_Rankine, Model_Wave), branch by branch, given the elementary integrals and the exponential decomposition. | Each integral is written with dot and cross products and is shown to be equivariant under an isometry; an isometry that keeps the heights commutes with the images by the free surface and the bottom. |
| C62 | The same models; the points are on the plane z = -h. | The terms of the Green function in finite depth cancel by pairs: each image by the bottom has the opposite vertical component. |
| C63 | The same models; the points are on the plane z = 0. | The wave term gives k times the potential by its definition; the Rankine terms are equal to their images by the free surface. |
| C64 | The integrals of the Rankine source (Model_Rankine) as functions of the point, with the derivatives of Coquelicot. | The derivative of each side is computed; the terms that remain cancel because the sides close the face. |
| C65 | The same models with all the lengths multiplied by a factor. | Each quantity of a side is homogeneous; the branches compare lengths with the radius of the panel, except for fixed distances. |
| C66 | `Model_Tabulation`: the spacings, the nearest indices, the Lagrange interpolation, Simpson's rule and the choice of the asymptotic values, with undefined reads as values. | Both formulas for the index are inverted on each part of the grid: the window of three coordinates brackets the point. |
| C67 | `Model_TabCache`: the name of the file, the directory, and the constructions of several processes as interleaved accesses to the disk, with kills and removals. | The names are injective; invariant: each complete file has the table of its name. The refutations are an invariant too: the unfinished file stays. |
| C68 | `Model_Fill`: `fill_dataset` as the composition of the models of the test matrix, the solver, the results and the dataset. | Each combination is read back under its labels: the labels determine the combination (the ranges have one kind of frequency), the results are a permutation of the problems solved alone. Success: the radiation and diffraction problems share the values of the common parameters. |
| C69 | `Model_Fill`: `compute_kochin` and the records of `kochin_data_array`. | Induction on the panels with the addition formulas of sine and cosine; the refutations come from the inversion of `fill_dataset`. |
| C70 | `Model_Box`: `mesh_parallelepiped` with its six rectangles, merging, healing, reflections and translations. | A panel is named by its side and two integers, its corners by integer points of a grid: distinct names have distinct panels and neighbours share edges in opposite directions, by integer arithmetic. Merging, healing, mirroring and translating are shown to carry lists of names, so that each construction gives a permutation of the names of the requested sides; the volume by the divergence formula on the panels. |
| C71 | `Model_Nemoh`: the lines and words of Nemoh.cal, `os.path`, the loading of bodies, on a disk that maps paths to texts. | A relation says which lines describe a study, with free text where it is allowed; the reader is followed line by line. Truncation by a relation between the lines of a text and those of its beginning, kept by each step of the reader or ending in an error. |
| C72 | `Model_Nemoh`: `export_as_Nemoh_directory` with its four files. | The written text is shown to be in the relation of C71, the mesh by the round trip of C40, and the paths of the four files are distinct except for a body called ID. |
| C73 | `Model_Lid`: `lowest_lid_position`, `first_irregular_frequency_estimate`, the waterlines of a mesh; numpy's infinities and nan are values. | The faces around each waterline are the classes of a relation between faces, and the minimum over them is characterised; the frequency of a parallelepiped decreases with its draft, by the monotony of tanh. |
| C74 | `Model_Lid`: `generate_lid`, with the clipping of C10, the rectangles of C68 and the healing of C53. | The test of each point is the parity of the panels whose vertical projection contains it; the selection of the faces of the grid is followed through the removal of the unused vertices and the healing. |
| C75 | `Model_Precond`: paths to the parts, diagonal blocks and their LU, coarse matrix along the paths, zeroed blocks, one step of block Jacobi with coarse correction, GMRES as an oracle. | The step is written with the splitting K = D + Z and the restriction R: a solution is a fixed point, and a fixed point is a solution because the coarse correction of the residual is multiplied by the sums of the diagonal blocks. The descent along a path is proved to compute the row of R K. |
| C76 | The same model, on the matrices of `Model_Engine` for the refused meshes. | Execution of the preparation; for symmetric meshes a 4 x 4 witness where the block setting has no effect because `all_blocks` is a new array. |
| C77 | `cluster_bodies` on top of `join_bodies`, the linkage matrix of scipy being any matrix that merges each node once. | Invariant of the loop: the nodes left to merge partition the bodies, and each node can stand for its bodies in a join; the join of two such nodes can stand for all their bodies. |
| C78 | `Model_Hydro`: metacentric radii and heights, `compute_hydrostatics` with the clipped body. | The integrals of the waterplane written as sums over the faces; the diagonal coefficients of the stiffness are compared with them by algebra, for any list of dofs. |
| C79 | The same functions, on translated bodies. | Flux of (y - y0)^2 through the waterplane and the closed surface; refuted by a pyramid translated by one metre. |
| C80 | The whole dictionary, the stored matrices and the exceptions; the draught, lengths and breadths from the vertices. | Inversion of the chain of computations; extrema of lists; witness of two solids, one of them above the water. |
| C81 | `Model_Body.fb_sliced`, `t_sliced`, with the heal of the mesh made by the constructor of the body. | Induction on the hierarchy: the panels are permuted and rolled, each part is on one side; the panels of a healed mesh stay proper so that their centres do not move. Witness of two panels stored in the other order for the dofs. |
| C82 | `Model_Slice`: bounding box, dyadic planes, interleaving of the directions, successive slices. | Invariant on the list of planes already applied; the dyadic positions of all depths are the multiples of the width of a slice. |
| C83 | `Model_Cylinder`: rows of nodes, panels, refinement, plain, reflection-symmetric and axisymmetric constructions, healing. | The panels are indexed by a row and a meridian. Healing merges the nodes on the axis and the doubled rows and meridian, removes the flat strips and drops nothing else. The mirrored half and the turned slices are other columns of the same grid. The volume is a telescoping sum of the fluxes of the strips. |
| C84 | `Model_Cylinder` (`mesh_sphere`) and `Model_Tree` (`from_profile`): slice, merge of its doubled nodes, turned copies, merge of the slices, healing. | A slice is one column of a grid of rows and meridians, its turned copies are the other columns (the grid is the one of C83 with another first meridian). The normals are oriented by the lowest panel. The volume telescopes along the meridian. |
| C85 | As C83 and C84. | The centroid computed by the code for an isosceles trapezoid, from any first corner, is on its axis, between one third and two thirds of its height; this bounds the radius from both sides. Chords are shorter than arcs. |
| C86 | The two checks with the messages as values (`Model_Warnings`), on top of `Model_Lid` for the irregular frequencies. | The comprehension is characterised by membership, count and first element; the bounds of the radiuses by the maximum of an array; the frequencies by the theorems of C73 on the estimate. Two explicit bodies refute parts of the messages. |
| C87 | Shapes and flat lists of values, `squeeze`, `atleast_1d`, `atleast_2d` and `assemble_matrices` (`Model_Matrices`) on top of `Model_Dataset`. | The place of the labels of an array of three dimensions in its list of values; every label of a coordinate comes from a row and appears once; then the theorem of C38 on the selected values. |
| C88 | The dictionary by name, the concatenation with alignment and the merges (`Model_Hydroset`), on top of the datasets of `Model_Dataset`. | Each array holds a function of the labels, kept by the merges of C38; the dictionary of distinct names is the list itself. Two explicit lists of bodies refute the rest. |
| C89 | The texts passed to `write` until the first exception, the selections in the dataset, the files of hydrostatics on a disk (`Model_Tecplot`). | The text is a list of lines, split back into words; the values are those of C38 and C87; the names of the files are different. |
| C90 | The choice of the Green function, the coefficients and the roots passed to Fortran (`Model_Hams`); the search of zeros is an argument. | y tan y increases in each second half of a turn (its derivative is positive), its signs at the ends of the intervals are bounded, and each solution is in one of these half turns. |
| C91 | The timers as a state with a clock, run along any sequence of timed blocks, exceptions and handlers; the blocks of the solver (`Model_Timer`). | Induction on the activity: a timer that is not used inside a block keeps its start time; then sums of durations. |
| C92 | The linear system, the polynomial, the selection of the rates, the loop on the sizes (`Model_Prony`); the numerical solvers are arguments. | Powers of distinct numbers are independent, so that each solution of the system is the polynomial whose roots are the exponentials; a monic polynomial is the product given by its roots. |
| C93 | The function FF with its divisions, and the choice of the method with its exceptions (`Model_PronyGreen`). | k tanh k increases, so that the denominator is zero only at the wavenumber and its opposite; the rest follows from C92. |
| C49, C50 | Quadratures, inertia. | Case analysis and algebra. |
| C51 | `solve` with both methods and any engine satisfying its contract. | The linear system, the pressure and the forces are related to the problem. |
| C52 | Hydrostatic stiffness of rigid dofs. | Algebra on surface integrals of a watertight mesh. |
| C53 | `compute_connectivity` and the flooding of `heal_normals`, branch by branch; Python sets are lists enumerated in an arbitrary order. | Invariant of the flooding: the faces seen are consistent and their unseen neighbours are in the stack. |
| C54 | The same model of rectangles, with and without symmetries. | Directions computed from the rotation; witnesses for the refutations. |
| C55 | The post-processing functions of the solver at points (Model_Points). | The values at each point are computed; algebra; witness with forward speed. |
| C56 | The same functions on a mesh, with the term of the diagonal of the matrices. | The mesh and the array of the centres are normalised to the same points; the term of the diagonal is isolated in the sum. |
| C57 | `Delhommeau.evaluate`: choice of the coefficients and errors, then the assembly. | The entries of the specification with the coefficients of the limits; refuted by the nan of one setting. |
| C58 | The two forms of K in the same model. | Comparison of the entries; refuted for lists of points, whose normals are zero. |
| C59 | The same heap of objects. | Frame lemma per operation, and an invariant saying that bodies share no object; refuted by two bodies built from one mesh. |

## Code that is modelled and code that is not

Each definition of a `Model_*.v` file cites the lines that it models and says what it leaves out. In summary:

| Source in `/repo/capytaine` | Modelled | Not modelled |
|---|---|---|
| `tools/lru_cache.py` | everything (`Model_Cache`) | the cache shared by threads |
| `tools/symbolic_multiplication.py` | everything except the ufunc machinery of numpy (`Model_Symbolic`) | |
| `tools/lists_of_points.py` | everything (`Model_Points`) | arrays with objects |
| `tools/deprecation_handling.py` | `_get_water_depth` (`Model_Problem`) | the warnings |
| `tools/timer.py` | everything (`Model_Timer`) | |
| `tools/prony_decomposition.py` | everything, given the numerical solvers (`Model_Prony`) | errors of floats |
| `tools/optional_imports.py` | | everything |
| `bem/problems_and_results.py` | problems, their validation, conversions, comparison; results, forces, records (`Model_Problem`, `Model_Results`, `Model_Dataset`) | printing, rich representations |
| `bem/airy_waves.py` | everything (`Model_Problem`, `Model_Points`, `Props_Airy`) | |
| `bem/solver.py` | `solve`, `solve_all`, `_solve_and_catch_errors`, sorting and grouping, `compute_potential`, `compute_velocity`, `compute_pressure`, `compute_free_surface_elevation`, `get_potential_on_mesh`, `fill_dataset`, warnings on the resolution and on irregular frequencies (`Model_Solver`, `Model_Points`, `Model_Engine`, `Model_Fill`, `Model_Warnings`), `timer_summary` and the timed blocks (`Model_Timer`) | joblib processes (a parallel map), wording of the messages |
| `bem/engines.py` | `BasicMatrixEngine`, `HierarchicalToeplitzMatrixEngine` (`Model_Cache`, `Model_Engine`), `HierarchicalPrecondMatrixEngine` (`Model_Precond`) | `exportable_settings` of the preconditioned engine |
| `green_functions/delhommeau.py`, `abstract_green_function.py` | `evaluate` and its collocation points and normals (`Model_Assembly`, `Model_Points`), `_create_tabulation` (`Model_Tabulation`), `_create_or_load_tabulation` and `tools/cache_on_disk.py` (`Model_TabCache`), `find_best_exponential_decomposition` (`Model_PronyGreen`) | |
| `green_functions/libDelhommeau/src/matrices.f90`, `constants.f90` | the assembly loop with its parallel directive, statement by statement (`Model_Assembly`) | |
| `libDelhommeau/src/Green_Rankine.f90` | everything (`Model_Rankine`) | |
| `libDelhommeau/src/Green_wave.f90` | everything, given the elementary integrals and the exponential decomposition (`Model_Wave`) | |
| `libDelhommeau/src/Delhommeau_integrals.f90` | everything else (`Model_Tabulation`) | the rational approximations in `exp_e1`, an arbitrary function here |
| `green_functions/hams.py` | the parameters given to the Fortran core (`Model_Hams`) | printing |
| `libDelhommeau/src/old_Prony_decomposition.f90` | `FF` (`Model_PronyGreen`) | `LISC` and its subroutines |
| the other Fortran files | | everything |
| `matrices/block.py`, `block_toeplitz.py`, `builders.py` | everything except drawing (`Model_Block`) | dtypes |
| `matrices/low_rank.py` | everything except SVD itself (`Model_LowRank`) | |
| `matrices/linear_solvers.py` | `solve_directly`, LU with its cache, `solve_gmres` for its shape (`Model_LinSolve`), `solve_precond_gmres` (`Model_Precond`) | convergence of the iterations |
| `meshes/geometry.py` | axes, planes, transformations (`Model_Geometry`) | the sets of axes and planes used for printing |
| `meshes/meshes.py` | construction, extraction, transformations, comparison, lazily computed properties, lids (`Model_Mesh`, `Model_Lazy`, `Model_Lid`) | display |
| `meshes/properties.py`, `meshes/quality.py` | the functions used by healing, merging, components, waterlines, normals (`Model_Quality`, `Model_Normals`, `Model_Mesh`, `Model_Lid`) | |
| `meshes/collections.py`, `meshes/symmetric.py` | everything except display (`Model_Tree`) | |
| `meshes/clipper.py` | everything (`Model_Clip`) | |
| `meshes/quadratures.py` | everything, for the schemes listed in the source (`Model_Quadrature`) | `quadpy` tables |
| `meshes/surface_integrals.py` | everything (`Model_Integrals`) | |
| `meshes/predefined/rectangles.py` | `mesh_rectangle` and its symmetric variants (`Model_Grid`); `mesh_parallelepiped` (`Model_Box`) | the names; `geometric_center` |
| `meshes/predefined/cylinders.py` | `mesh_vertical_cylinder` and its symmetric variants (`Model_Cylinder`) | `mesh_disk`, `mesh_horizontal_cylinder` |
| `meshes/predefined/spheres.py` | `mesh_sphere` (`Model_Cylinder`) | |
| `bodies/predefined/*` | | everything |
| `bodies/bodies.py` | construction, dofs, transformations, copies, joining, arrays, clipping, hydrostatic stiffness, inertia, remembered objects, irregular frequencies, clusters, metacentric quantities, `compute_hydrostatics`, `sliced_by_plane`, `minced` (`Model_Body`, `Model_Bodies`, `Model_Clip`, `Model_Lid`, `Model_Cluster`, `Model_Hydro`, `Model_Slice`) | printing, display |
| `io/xarray.py` | `problems_from_dataset`, `assemble_dataframe`, `assemble_dataset`, `assemble_matrices`, `hydrostatics_dataset`, `separate_complex_values`, `merge_complex_values`, the records of `kochin_data_array` (`Model_TestMatrix`, `Model_Dataset`, `Model_Matrices`, `Model_Hydroset`, `Model_Separate`, `Model_Fill`) | the options of `assemble_dataset` on meshes and attributes |
| `io/mesh_loaders.py` | `load_mesh` for, and the loaders of, NEM, MAR, NAT, GDF, HST, PNL, on the text of the file | the other formats, missing files, encodings |
| `io/mesh_writers.py` | `write_mesh` for, and the writers of, NEM, MAR, NAT, GDF, HST, PNL, STL, with the effect on the arrays of the caller | the other formats |
| `io/bemio.py` | `dataframe_from_bemio` | the secant method of scipy (an argument), the column types of pandas |
| `io/legacy.py` | `import_cal_file`, `export_as_Nemoh_directory`, `write_dataset_as_tecplot_files`, `export_hydrostatics` (`Model_Tecplot`) | `run_cal_file`, the creation of the directories, the log |
| `io/meshio.py` | | everything |
| `post_pro/free_surfaces.py`, `impedance.py`, `rao.py` | everything (`Model_Grid`, `Model_Rao`) | |
| `post_pro/kochin.py` | `compute_kochin` (`Model_Fill`) | |
| `ui/*` | | everything |

## Not expressible here

Accuracy of floating point results, convergence of iterative solvers, accuracy of the tabulated Green function,
time and memory consumption, and the behaviour of numpy/scipy/xarray themselves are not expressible in these models.

## Assumptions of each theorem

What `Print Assumptions` answers, theorem by theorem (grouped by answer, then by file).

### Closed under the global context (no axiom)

* `Props_Block.v`: `every_position_gets_its_block`, `stored_block_positions`, `toeplitz_even_number_refused`, `full_matrix_faithful`, `represented_matrix_exists_and_is_unique`, `no_toeplitz_faithful`, `scaling_faithful_partial`, `scaling_low_rank_refuted`, `negation_faithful`, `entrywise_operation_faithful_partial`, `product_with_array_faithful_partial`, `product_of_block_matrices_partial`, `full_like_faithful`, `identity_like_faithful_partial`, `fast_product_exact_partial`, `left_product_plain_partial`, `left_product_real_vector_partial`, `left_product_conjugates_refuted`, `cut_matrix_faithful_partial`, `cut_matrix_refuted`, `cut_matrix_wrong_column_refuted`
* `Props_Cache.v`: `cache_transparent`, `cache_fifo`, `cache_runs_on_misses_only`, `cache_size_zero_fails`, `cache_reentrant_transparent`, `cache_strict_bound_refuted`, `cache_reentrant_bound`, `engine_cache_refuted`, `engine_cache_orientation_refuted`, `engine_cache_transparent_partial`
* `Props_LinSolve.v`: `direct_solver_solution_partial`, `direct_solver_succeeds_partial`, `direct_solver_low_rank_refuted`, `direct_solver_wrong_length`, `lu_cache_transparent_partial`, `lu_solution_partial`
* `Props_LowRank.v`: `low_rank_operations_partial`, `low_rank_complex_division_refuted`, `low_rank_joined_sum_partial`, `recompress_fails_refuted`, `truncated_svd_partial`
* `Props_Mesh.v`: `extract_faces_bad_index`
* `Props_Precond.v`: `preconditioned_system_is_equivalent`, `preconditioned_gmres_solves`, `preconditioned_system_is_equivalent_refuted`
* `Props_Quality.v`: `merge_empty_mesh_refuted`
* `Props_Rigid.v`: `kept_dofs`, `keeping_dofs_succeeds`
* `Props_Separate.v`: `separated_values`
* `Props_Solver.v`: `cached_engine_transparent`
* `Props_TabCache.v`: `cached_tables_are_right`, `constructions_succeed`, `saved_table_is_read`, `versions_do_not_share`, `killed_while_saving_refuted`, `simultaneous_constructions_refuted`
* `Props_Tabulation.v`: `one_point_refuted`
* `Props_Tecplot.v`: `hydrostatics_files`, `hydrostatics_files_stop`
* `Props_Tree.v`: `every_face_in_a_part`, `submesh_containing_face_locates`, `collection_extract_one_face`, `collection_extract_one_face_beyond`, `paths_lead_to_leaves`, `prune_keeps_faces`

### Axioms: `ClassicalDedekindReals.sig_forall_dec`

* `Props_Body.v`: `translation_dof_is_constant`, `named_translation_dofs`
* `Props_Mesh.v`: `new_mesh_accepts_valid`
* `Props_Points.v`: `values_determined`
* `Props_Results.v`: `integrate_pressure_formula`
* `Props_Separate.v`: `single_precision_refuted`

### Axioms: `ClassicalDedekindReals.sig_forall_dec`, `FunctionalExtensionality.functional_extensionality_dep`

* `Props_Assembly.v`: `assembly_any_schedule`, `assembly_schedules_agree`, `assembly_finishes`, `assembly_permuted_faces`, `early_dot_product_consistent`, `early_dot_product_of_points_refuted`, `evaluate_limits_partial`, `infinite_frequency_refuted`, `evaluate_outcomes`, `evaluate_limits_in_finite_depth`, `evaluate_finishes`
* `Props_Bodies.v`: `whole_mesh_current_partial`, `whole_mesh_current_refuted`, `estimate_current_partial`, `estimate_current_refuted`, `other_bodies_unchanged_partial`, `undisturbed_bodies_unchanged`, `other_bodies_unchanged_refuted`
* `Props_Body.v`: `unnamed_dof_refuted`
* `Props_Clip.v`: `face_is_cut_exactly`
* `Props_Dataset.v`: `dataset_values_partial`, `dataset_records`, `dataset_accepted`
* `Props_Grid.v`: `free_surface_is_the_grid`
* `Props_Hydroset.v`: `hydrostatics_values`, `hydrostatics_missing_partial`, `hydrostatics_absent`, `hydrostatics_refused`, `hydrostatics_missing_refuted`, `hydrostatics_same_name_refuted`
* `Props_Matrices.v`: `matrices_of_radiation`, `matrices_labels`, `matrices_of_one_dof`, `matrices_of_diffraction`, `matrices_absent`
* `Props_Nemoh.v`: `nemoh_motion_refuted`, `nemoh_no_frequency`, `nemoh_written_sizes`
* `Props_Problem.v`: `depth_resolution`, `depth_errors`, `order_strict_weak_partial`
* `Props_Quality.v`: `merge_duplicates_keeps_geometry_partial`, `merge_leaves_close_vertices_refuted`
* `Props_Rao.v`: `impedance_relates_velocities`
* `Props_Results.v`: `coefficients_recombine`, `coefficients_limits`, `force_linear_in_pressure`, `force_linear_in_dof`
* `Props_Separate.v`: `complex_round_trip_partial`, `complex_round_trip_refuted`
* `Props_Solver.v`: `solve_all_each_alone_partial`, `solve_all_checks_do_not_matter`, `solve_all_generic_refuted`, `solve_all_empty_refuted`, `solve_all_bodyless_refuted`, `solve_all_sorted_order`, `solve_all_input_order_partial`, `solve_indirect_equations`, `solve_direct_equations`, `solve_speed_equations`, `solve_speed_zero_encounter`, `solve_errors`
* `Props_Symbolic.v`: `symbolic_mul`, `symbolic_div`, `symbolic_float_zero`, `symbolic_float_inf`, `symbolic_float_mixed_refuted`, `symbolic_hash_refuted`, `symbolic_array_sign_refuted`
* `Props_Tecplot.v`: `tecplot_files_partial`, `tecplot_several_conditions_refused`, `tecplot_other_frequency_refused`, `tecplot_several_excitations_refused`, `tecplot_other_frequency_excitation_refused`
* `Props_Timer.v`: `timers_exact`, `timers_share`, `timers_restarted_refuted`, `solver_timers_exact`, `solver_parts_partial`, `solver_parts_refuted`, `summary_rows`, `solve_times`
* `Props_Tree.v`: `collection_negative_index_refuted`, `merged_keeps_faces`, `collection_center_of_nodes_partial`, `collection_center_empty_part_refuted`

### Axioms: `ClassicalDedekindReals.sig_forall_dec`, `ClassicalDedekindReals.sig_not_dec`, `FunctionalExtensionality.functional_extensionality_dep`

* `Props_Airy.v`: `airy_sea_bottom`, `airy_unit_amplitude`, `airy_surface_pressure`
* `Props_Bemio.v`: `single_body_import_partial`, `imported_waves`, `all_bodies_refuted`, `wide_matrices_refuted`, `other_codes_refuted`, `frequencies_refuted`, `units_refuted`
* `Props_Block.v`: `sum_of_different_structures_refuted`, `product_of_nested_matrices_refuted`, `real_vector_refuted`, `fast_product_single_block_refuted`, `fast_product_mixed_blocks_refuted`, `left_product_nested_refuted`
* `Props_Body.v`: `rigid_dofs_and_their_center`, `rotation_dofs_of_moved_bodies`, `translated_rotation_center`, `rotated_center_refuted`, `joined_bodies_partial`, `join_associative_partial`, `joined_same_name_refuted`, `joined_inertia_refuted`, `joined_collision_with_inertia`, `regular_array_partial`, `array_of_joined_body_refuted`, `inertia_is_symmetric`, `inertia_of_translations`, `stiffness_of_floating_body`, `stiffness_symmetry_refuted`
* `Props_Clip.v`: `clip_keeps_part_below_partial`, `clip_small_face_refuted`, `clip_aligned_corners_refuted`, `clip_at_tolerance_refuted`, `collection_clip_is_clip_of_parts`, `body_clip_aligns_dofs_partial`, `body_clip_misaligned_refuted`, `body_clip_wrong_dof`
* `Props_Cluster.v`: `cluster_is_join_partial`, `cluster_mesh_is_clustered`, `cluster_needs_two_bodies`, `cluster_needs_volumes`
* `Props_Cylinder.v`: `cylinder_radius_refuted`, `cylinder_is_its_panels`, `cylinder_is_closed`, `cylinder_errors_raised`, `cylinder_radius_resolution`
* `Props_Dataset.v`: `dataset_broadcast_refuted`, `dataset_direction_refuted`
* `Props_Engine.v`: `basic_engine_is_dense`, `hierarchical_engine_is_dense`, `hierarchical_engine_exact_without_aca`, `built_meshes_are_regular`, `quarter_meshes_are_regular`, `opposite_axes_refuted`, `potential_independent_of_chunks`, `potential_same_for_two_chunk_sizes`, `potential_errors`, `negative_chunk_size_refuted`
* `Props_Fill.v`: `fill_dataset_radiation`, `fill_dataset_diffraction`, `fill_dataset_progress_bar_refuted`
* `Props_Geometry.v`: `translate_is_rigid`, `rotate_is_rigid`, `rotation_group`, `rotation_direction`, `mirror_is_reflection_partial`, `mirror_wrong_plane_refuted`, `degenerate_center_refuted`
* `Props_Grid.v`: `free_surface_area_is_covered`
* `Props_Hams.v`: `hams_deep_water`, `fingreen_size_refuted`
* `Props_Hydro.v`: `stiffness_and_metacentric_heights`, `stiffness_and_metacentric_heights_ex`, `metacentres_of_translated_hull_partial`, `metacentric_radius_moves_refuted`, `hydrostatics_of_immersed_part`, `hydrostatics_inertia_partial`, `hydrostatics_inertia_refuted`, `hydrostatics_refused`, `hydrostatics_without_dofs`, `body_clip_follows_panels`
* `Props_Integrals.v`: `closed_surface_normals_partial`, `closed_surface_volumes_partial`, `closed_surface_volume_invariant_partial`, `center_of_buoyancy_translates_partial`, `center_of_buoyancy_refuted`, `immersed_hull_partial`, `closed_warped_surface_refuted`, `closed_tiny_triangle_refuted`, `surface_integral_wrong_length`
* `Props_Kochin.v`: `kochin_values`, `kochin_reference_point`, `kochin_superposition`, `kochin_dataset`, `kochin_failure_refuted`, `kochin_direct_refuted`, `kochin_lid_refuted`, `kochin_limit_refuted`
* `Props_Lazy.v`: `properties_never_stale_partial`, `quadrature_never_stale_partial`, `accesses_do_not_matter_partial`, `transformations_use_right_properties`, `write_vertex_refuted`, `assign_method_refuted`, `column_refuted`
* `Props_Lid.v`: `waterline_of_immersed_part`
* `Props_LinSolve.v`: `lu_cache_after_failure_refuted`, `lu_cache_after_mutation_refuted`
* `Props_LowRank.v`: `low_rank_sum_refuted`, `recompress_refuted`, `aca_rank_bound`, `aca_interpolates_partial`, `aca_pivots`, `aca_tolerance_partial`, `aca_one_face_refuted`
* `Props_Mesh.v`: `extract_faces_keeps_geometry`, `extract_one_face_keeps_geometry`, `sliced_by_plane_shares_faces`, `extract_lid_shares_faces`, `remove_unused_vertices_keeps_faces`, `remove_degenerated_faces_by_area`, `heal_triangles_partial`, `heal_changes_area_refuted`, `triangulate_keeps_surface`, `flip_normals_partial`, `normal_follows_orientation`
* `Props_Nemoh.v`: `nemoh_problems`, `nemoh_cut`, `nemoh_no_body`, `nemoh_missing_body`, `nemoh_unknown_unit`, `nemoh_export_import_partial`, `nemoh_blank_name_refuted`, `nemoh_name_ID_refuted`
* `Props_Normals.v`: `heal_normals_reverses_faces`, `heal_normals_consistent`, `heal_normals_all_or_none`, `heal_normals_outwards_partial`, `heal_normals_parts_refuted`, `heal_normals_no_face`
* `Props_Points.v`: `airy_waves_at_points`, `airy_elevation_at_points`, `airy_waves_wrong_points`, `flow_at_points`, `elevation_at_points`, `flow_wrong_points`, `flow_without_sources`, `surface_pressure_elevation_partial`, `surface_pressure_elevation_difference`, `flow_on_mesh_partial`, `velocity_on_own_mesh`, `airy_waves_on_mesh`, `surface_pressure_elevation_refuted`, `velocity_on_mesh_refuted`
* `Props_Precond.v`: `preconditioned_engine_solves`, `single_mesh_is_refused`, `three_parts_are_refused`, `symmetric_mesh_is_solved_refuted`
* `Props_Problem.v`: `depth_positive_partial`, `depth_default_infinite`, `depth_positive_sea_bottom_partial`, `depth_positive_refuted`, `freq_limits`, `freq_at_most_one`, `freq_default`, `encounter_without_speed`, `problem_body_immersed`, `problem_given_boundary_condition`, `problem_wrong_boundary_condition`, `diffraction_boundary_condition`, `radiation_boundary_condition`, `problem_empty_body_refuted`, `radiation_limit_with_lid_refuted`, `equal_problems_refuted`, `order_refuted`
* `Props_Quadrature.v`: `quadrature_area`, `triangles_convex`, `parallelograms_convex`, `quadrature_face_area`, `scheme_area`, `quadrature_moment`, `quadrature_default`, `quadrature_unknown`, `quadrature_warped_refuted`
* `Props_Quality.v`: `components_partition_faces`
* `Props_Rao.v`: `rao_solves_equation_of_motion_partial`, `rao_exists_partial`, `rao_not_symmetric_refuted`, `rao_errors`
* `Props_Rigid.v`: `stiffness_coefficients`, `stiffness_matrix_coefficients`
* `Props_Slice.v`: `sliced_body_keeps_panels`, `sliced_dofs_partial`, `sliced_rotation_refuted`, `sliced_mass_refuted`, `minced_body_partial`, `minced_in_no_slice`, `minced_in_one_slice`
* `Props_Solver.v`: `solve_all_input_order_refuted`
* `Props_Sphere.v`: `profile_is_its_panels`, `profile_is_closed`, `sphere_is_its_panels`, `sphere_is_closed`, `sphere_errors_raised`, `sphere_radius_resolution`
* `Props_Tabulation.v`: `integration_is_simpson`, `asymptotic_singularities`
* `Props_TestMatrix.v`: `test_matrix_problems`, `test_matrix_accepted`, `test_matrix_refused`
* `Props_Tree.v`: `collection_is_concatenation`, `empty_collection_fails`, `collection_extract_faces`, `copy_of_symmetric_mesh`, `copy_depth_irrelevant`, `constructors_build_symmetric_meshes`, `translate_keeps_symmetry_partial`, `translate_then_copy_refuted`, `rotate_keeps_symmetry_partial`, `rotate_then_copy_refuted`, `tilt_then_copy_refuted`, `mirror_keeps_symmetry_partial`, `mirror_axial_then_copy_refuted`, `mirror_integer_translation_refuted`, `join_keeps_parts`, `join_is_symmetric`, `regular_array_of_meshes`, `mesh_of_revolution`
* `Props_Warnings.v`: `resolution_warning_is_right`, `resolution_warning_errors`, `displayed_radius_refuted`, `displayed_radius_partial`

### Axioms: `ClassicalDedekindReals.sig_forall_dec`, `ClassicalDedekindReals.sig_not_dec`, `Classical_Prop.classic`, `FunctionalExtensionality.functional_extensionality_dep`

* `Props_Airy.v`: `airy_velocity_is_gradient_partial`, `airy_laplace`, `airy_divergence_free_partial`, `airy_free_surface_partial`, `airy_sea_bottom_deep_partial`, `airy_reversed_refuted`
* `Props_Assembly.v`: `normalisation_error`
* `Props_Body.v`: `rotation_dof_is_rotation_velocity`
* `Props_Boundary.v`: `sea_bottom_condition_partial`, `sea_bottom_condition_refuted`, `free_surface_condition_partial`, `free_surface_condition_up_to_quadrature`, `free_surface_at_limits`
* `Props_Box.v`: `box_is_its_sides`, `box_is_closed`, `box_errors_raised`, `box_single_strip`, `box_radius_at_most`, `box_radius_reached`, `box_radius_symmetric_refuted`, `box_is_its_sides_refuted`
* `Props_Cylinder.v`: `cylinder_radius_partial`
* `Props_Dataset.v`: `dataset_frequencies`, `problems_travel`
* `Props_Files.v`: `nem_files`, `hst_files`, `mar_files_partial`, `mar_files_no_faces_refuted`, `mar_files_large_coordinate_refuted`, `nat_files_partial`, `nat_files_few_faces_refuted`, `nat_files_many_faces_refuted`, `pnl_files_partial`, `pnl_files_single_vertex_refuted`, `gdf_files_partial`, `gdf_files_few_faces_refuted`, `gdf_symmetric_files_partial`, `writing_keeps_mesh_partial`, `stl_keeps_mesh_refuted`, `stl_second_export_refuted`
* `Props_Fill.v`: `fill_dataset_succeeds`, `fill_dataset_failure_refuted`
* `Props_Geometry.v`: `align_vectors_partial`, `align_not_unit_refuted`
* `Props_Green.v`: `green_function_respects_symmetries`, `evaluate_is_green_function`, `symmetric_meshes_give_evaluated_matrices`, `symmetric_meshes_give_evaluated_hierarchical_matrices`, `unbounded_fluid_respects_isometries`, `unbounded_fluid_diagonal_refuted`
* `Props_Grid.v`: `rectangle_is_the_grid`, `rectangle_errors`, `rectangle_single_strip`, `rectangle_radius_at_most`, `rectangle_radius_reached`, `rectangle_symmetry_same_panels_partial`, `rectangle_symmetry_same_panels_refuted`, `rectangle_normal_direction_refuted`
* `Props_Hams.v`: `dispersion_roots_partial`, `dispersion_roots_refused`, `hams_long_waves_refuted`, `hams_finite_depth`
* `Props_Lid.v`: `lid_position_value`, `irregular_frequency_without_lid`, `irregular_frequency_with_lid`, `lid_position_removes_partial`, `lid_position_two_waterlines_refuted`, `generated_lid_panels`, `generated_lid_limits`, `lid_above_keel_refuted`
* `Props_Problem.v`: `freq_consistent`, `freq_unique`, `freq_round_trip`, `encounter_with_speed`, `problem_accepted_iff`, `equal_radiation_problems_partial`
* `Props_Prony.v`: `prony_tolerance`, `prony_gives_up`, `prony_exact`, `prony_converges`, `prony_between_points_refuted`
* `Props_PronyGreen.v`: `ff_defined_partial`, `ff_defined_refuted`, `green_decomposition_python`, `green_decomposition_refuted`, `green_decomposition_others`
* `Props_Rankine.v`: `rankine_gradient_partial`, `reflected_rankine_gradient_partial`, `velocity_is_gradient_partial`, `rankine_gradient_refuted`
* `Props_Rigid.v`: `inertia_coefficients`
* `Props_Scale.v`: `scaling_partial`, `small_panel_refuted`
* `Props_Sphere.v`: `sphere_radius_at_most`
* `Props_Symbolic.v`: `limit_value_is_limit`
* `Props_Tabulation.v`: `tabulation_is_defined`, `tabulation_at_nodes`, `tabulation_of_polynomials`, `tabulation_uses_neighbours`, `simpson_exact_on_cubics`, `two_coordinates_refuted`, `free_surface_index_refuted`
* `Props_Warnings.v`: `warnings_are_right`, `lid_advice_refuted`
