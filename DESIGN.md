# A Rocq (Coq 8.16) model of lohedges/slsm

## 1. Approach

The model is a set of total, computable Gallina functions in `rocq/theories/*Model.v`,
one per C++ function, each with a comment citing the file and lines it models.

* **Outcomes.** Every function that can fail returns `outcome A`:
  `Ok a`, `Exit` (the `slsm_check`/`exit(EXIT_FAILURE)` path), `UB` (an
  out-of-bounds vector access, a read of an uninitialised member, an undefined float→int
  conversion) or `OutOfFuel`. Vector accesses go through `vget`/`vset`, which return `UB`
  out of bounds. Loops are structural recursion or `for_`; `while` loops take fuel, and
  theorems exclude `OutOfFuel`.
* **Numbers.** `double` is a type `T` with a class `Num T` (C++ operations: `+ - * /`,
  unary minus, `abs`, `sqrt`, comparisons returning `bool`, conversions). No laws are in the class.
  Structural theorems (memory safety, termination, frame properties) are proved for *every* `Num T`,
  so they hold for IEEE doubles including NaN, with any rounding.
  Some need a few laws: `NumInt` (32-bit integers are exact), `NumOrd` (`<` is a strict weak order on the
  values used), `NumSgn` (`sqrt` and `abs` are not negative). Each class has an instance for the reals and one
  for binary64, proved in the same file.
  Quantitative theorems are proved for `T = R` (exact arithmetic). There are two instances of `Num`: `R` and
  Flocq's executable binary64 (round-to-nearest-even), on which the model runs by `vm_compute`. The theorems named
  `_refuted` that involve numbers are about binary64, that is about what the program computes.
* **Integers.** Indices and sizes are `nat`; where wrap-around of `unsigned int` matters
  (the Mesh constructor, the file names, the text loader), it is written explicitly as `mod 2^32`.
* **Files.** `*Model.v`: the code. `*Spec*.v`: what the theorems talk about. `Prop*.v`: the theorems, the examples
  that meet their hypotheses, and `Print Assumptions`. `*Cases.v`: concrete fields and boundaries for examples.
  All other files are proofs.

## 2. What each property became

| Property | Model | Theorems in | Proof |
|---|---|---|---|
| C01-C05 | `HeapModel` | `PropHeap` | heap invariant and refinement to a map from handles to entries, any history of calls |
| C06-C11 | `MeshModel` | `PropMesh` | induction over the construction loops; real arithmetic for the point queries |
| C12, C13, C15-C17 | `FmmModel` | `PropFmm` | transition system of the heap loop (`fstep`), invariants, ghost counting |
| C14 | `FmmModel` | `PropFmm` | invariant `SG`: proved for results without jumps; the full claim is refuted |
| C18-C27, C29 | `LevelSetModel` | `PropLevelSet` | invariants over any history of calls (`reached`); real analysis for C23, C26, C27, C29 |
| C28 | `LevelSetModel` (cutArea, polygonArea) | `PropArea` | case analysis over all cut patterns of an element, sorting lemma, shoelace formula |
| C30 | `LevelSetModel`, `FmmModel` | `PropVel` | accumulation invariant, weighted averages, C16 |
| C31-C34, C36, C51 | `BoundaryModel` | `PropBoundary` | loop invariants over nodes, elements and points |
| C35 | `BoundaryModel` | `PropClosed` | each element depends on its own edges only (`BoundaryLocal`), then counting |
| C37, C43, C44 | `SensModel`, `BoundaryModel` | `PropSens` | frame lemmas, field arithmetic |
| C38-C42, C53 | `OptModel`, NLopt as an oracle | `PropOpt` | all behaviours of the oracle; linear arithmetic over sums |
| C45-C47, C52 | `IOModel` at byte level | `PropIO` | round trip through digits and bits |
| C48 | `RngModel`, engine as oracle | `PropRng` | simulation |
| C54, C55 | all of `BoundaryModel`, `OptModel`, `LevelSetModel`, `FmmModel` | `PropCycle` | composition of C30, C38, C24 and C14; real arithmetic |
| C56 | `LevelSetModel` | `PropCycle` | marching reads only neighbours and field (`FmmSame`); acceptance from C03 and C12 (`LevelSetTarget`) |
| C57, C58 | `LevelSetModel`, `BoundaryModel`, `SensModel`; programs as trees of calls (`TwinSpec`) | `PropTwin` | relational proof, function by function (`Twin`, `TwinLs`), then induction on the program (`TwinRun`) |
| C59-C62, C68 | `DemoModel` (functions of `demos/`) | `PropDemo` | sums over the boundary's incidence lists, real arithmetic; runs in doubles for the refutations |
| C63 | `DemoModel`, `exp` of the standard library | `PropLoop` | case analysis |
| C64-C66 | `DemoModel` (main loops), histories (`DemoSpec`) | `PropLoop` | induction on the history; C66 uses C58 |
| C67 | `DemoModel`, `OptModel`, `LevelSetModel` | `PropLoop` | composition of C35, C41, C49 |
| C69 | `DemoModel`, `SensModel` | `PropTurn`, `PropRecord` | loop invariants over the points, composition with C28, C38, C59, C60 |
| C70 | `DemoModel`, shapes in `DemoShape` | `PropTurn` | composition of C35, C41, C49, C69 |
| C71 | `DemoModel` | `PropRecord` | induction on the samples of a turn; computing areas is idempotent |
| C72 | `DemoSetup` (files), texts in `DemoSetupSpec` | `PropSetup` | induction on the words of the text, from C46's parser |
| C73 | `DemoSetup` (`parse`), options in `DemoSetupSpec` | `PropSetup` | induction on the command line |
| C74 | `DemoSetup` (`brolly_begin`) | `PropSetup` | C45's round trip, C58 without the boundary status of elements |
| C75 | `DemoSetup` (starts, constants), specification `StartSpec` | `PropSetup` | induction on the loops over nodes; real arithmetic |
| C76 | `LevelSetModel` (polygons), specification `PolySpec` | `PropPolygon` | crossings of a closed polygon cancel; sides of whole points are whole; partial: see section 5 |
| C77 | `OptModel`, specification `UnitsSpec` | `PropUnits` | two runs side by side (`Units`) |
| C78 | `LevelSetModel`, `BoundaryModel`, specification `AreaOrderSpec` | `PropAreaOrder` | one corner at a time, then round the element (`AreaOrder`) |
| C79 | `OptModel`, specification `SafeSpec` | `PropSafe` | sizes of all vectors as an invariant (`SolveSafe`) |
| C80 | `FmmModel`, `LevelSetModel`, `BoundaryModel`, specification `ComplementSpec` | `PropComplement` | two runs side by side: opposite values, equal states and heap (`Complement`, `ComplementStep`, `ComplementBoundary`) |
| C81 | `FmmModel`, `LevelSetModel`, `BoundaryModel`, specification `ContourSpec` | `PropContour` | the functions commute with the scaling; the distance along mesh lines to the contour does not depend on it (`Contour`) |
| C82 | `LevelSetModel`, `BoundaryModel`, specification `DrawnSpec` | `PropDrawn` | every call but discretise keeps what the areas read (`Drawn`) |
| C83 | `LevelSetModel`, `BoundaryModel`, specification `SymmetrySpec` | `PropSymmetry` | area and length of an element as functions of its corners, symmetric; sums over elements permuted (`Symmetry`, `Perimeter`) |
| C84 | `LevelSetModel`, `BoundaryModel`, specification `ShiftSpec` | `PropShift` | elements without an inside corner add nothing; the others correspond one to one (`Shift`) |
| C85 | `OptModel`, specifications `OrderSpec`, `UnitsSpec` | `PropOrder` | steps of sums and maxima change places; the two runs side by side (`Order`) |
| C86 | `LevelSetModel`, `BoundaryModel`, specification `SeparateSpec` | `PropSeparate` | every element has the area and length of the part it belongs to (`Separate`) |
| C87 | `LevelSetModel`, `BoundaryModel`, specification `ExtremeSpec` | `PropExtreme` | strict bounds on area and length of an element with corners on both sides; neighbouring elements share corners (`Extreme`) |
| C88 | `OptModel`, specification `ReuseSpec` | `PropReuse` | a relation between an object with leftovers and a new one, kept by each step of solve while more and more entries are overwritten; an invariant over histories (`Reuse`); the full claim is refuted twice in doubles |
| C49, C50 | `LevelSetModel`, `BoundaryModel` | `PropLevelSet` | the history invariant `sound` |

Partial: C14, C22, C59, C76 and C88. What is missing, and why, is said beside the theorems and in the manifest: the unconditional
claims are false of the code, and a concrete run that falsifies them is proved as a theorem.

## 3. Trusted base

1. **Coq's kernel** (8.16.1), including `vm_compute`, which the `_refuted` theorems and the examples use.
2. **The axioms of the standard library** that `Print Assumptions` lists, and no others:
   * F: `FunctionalExtensionality.functional_extensionality_dep`
   * S1: `ClassicalDedekindReals.sig_forall_dec`
   * S2: `ClassicalDedekindReals.sig_not_dec`
   * EM: `Classical_Prop.classic`

   They come with the real numbers (`Reals`) and with Flocq's proofs about rounding. Section 6 lists them per theorem.
3. **That the model is the code.** No tool checks this; every definition cites the lines it models and says where it simplifies.
4. **The specifications**: `HeapSpec`, `MeshSpec`, `FmmSpec`, `LevelSetSpec`, `LevelSetSpecR`, `LevelSetCalls`, `BoundarySpec*`,
   `OptSpec`, `NormSpec`, `IOSpec`, `DemoSpec`, `DemoSetupSpec`, `StartSpec`, `PolySpec`, `UnitsSpec`, `AreaOrderSpec`, `SafeSpec`, `ComplementSpec`, `ContourSpec`, `DrawnSpec`, `SymmetrySpec`, `ShiftSpec`, `OrderSpec`, `SeparateSpec`, `ExtremeSpec`, `ReuseSpec`.
5. **External code, modelled as oracles or assumptions:**
   * NLopt: an arbitrary sequence of calls of the callback followed by an arbitrary result (return code, value,
     multipliers, exception). C40 alone assumes that the reported value is the objective at the reported multipliers.
   * `std::mt19937` and the standard distributions: arbitrary functions of the engine state; the normal distribution keeps
     a second number as libstdc++'s does.
   * `std::sort`: insertion sort, which libstdc++ uses for at most 16 elements (the code sorts at most 6 angles, and the constraint changes;
     for the latter only the largest one matters).
   * `fprintf("%lf")` and `istream >> double` are correctly rounded, as glibc's are; the parsing of a field follows libstdc++'s `num_get`.
   * `atof`, `atoi`, `exp`, `asin` and pi in the demo programs: arbitrary functions and numbers.
   * The file system: a file that can be opened takes all that is written to it.
   * User callbacks (sensitivities): arbitrary functions with a state that may exit.
6. **The compiler**: doubles are IEEE binary64, evaluated one operation at a time (no x87 excess precision and no contraction to fused multiply-add;
   `-ffast-math` is not among the flags in CMakeLists.txt). This matters only for theorems about binary64; the generic ones hold for any operations.

## 4. What is modelled and what is not

| File | Modelled | Not modelled |
|---|---|---|
| `Heap.h/.cpp` | all functions | wrap of `2*pos+1` above 2^31 entries; allocation failure |
| `Mesh.h/.cpp`, `Common.h` (Coord) | all functions | allocation failure |
| `FastMarchingMethod.h/.cpp` | all functions, both `march` overloads | the leak of the previous heap when an object marches twice |
| `Hole.h/.cpp` | data | constructors only store their arguments |
| `LevelSet.h/.cpp` | all six constructors, all public and private functions | stack overflow of the variable-length arrays; the Python overload only forwards |
| `Boundary.h/.cpp` | all functions | unused member `weight` |
| `Optimise.h/.cpp` | constructor, `solve` and all it calls, the callback | `queryReturnCode` (prints), the Python overload |
| `Sensitivity.h/.cpp` | all functions | a callback that writes to the point through a pointer it kept |
| `InputOutput.h/.cpp` | all functions | text of error messages; short writes |
| `MersenneTwister.h` | all functions | the numbers themselves (oracle) |
| `Debug.h` | `slsm_check` as `Exit`; `sentinel`, logging: not | printing |
| `demos/*.cpp` | all functions, command lines, configuration, shape and restart files, starting shapes, main loops, sampling, umbrella trials | the command lines of the other programs (one or two numbers by `atof`/`atoi`), most constants set by `main` (parameters of the loops), printing |
| `MinUnit.h`, `tests/`, `python/` | | not part of the library's behaviour |

Uninitialised members are modelled where a call can read them: the area fraction and status of elements before the first `discretise`,
the entries of local arrays. Elsewhere a constructor initialises everything that is read.

## 5. Findings

Behaviour of the code that a user may not expect; each is a `_refuted` theorem, or an `Example` in the same file, unless marked *(read)*.

Fast marching
* A node can change side: `solveQuadratic` falls back to the old value when the discriminant is not positive, and a later update combines
  a stale second-order neighbour with a fresh first-order one (`C14_sign_flip_refuted`). A masked node can so join the structure (`C22_masked_node_joins_structure_refuted`).
* One object cannot march twice (`C12_second_march_on_same_object_refuted`): the heap is full after the first march.
* A heap accepts `maxLength` pushes in its lifetime, not at a time (`C03_heap_lifetime_bound_refuted`).
* A positive value of at most machine epsilon is treated as outside (`C14_tiny_value_refuted`); in doubles a tiny value next to the contour can underflow to 0.

Level set
* `computeGradients` reads outside meshes with width or height 3 (`C25_small_meshes_refuted`).
* The flag `isMine` is never reset (`C20_flag_isMine_outdated_refuted`); the list of mines is right.
* Small polygons do not contain their inside (`C24_small_polygons_refuted`): the cross product is truncated to an integer.
* Empty point lists are read out of bounds (`C49_empty_point_list_refuted`).
* Masked nodes on the front leak un-normalised velocity sums (`C30_masked_front_refuted`).
* `getClosestNode` right of the domain (`C11_beyond_width_refuted`), meshes of zero width (`C07_zero_width_refuted`).
* `isLeftOfLine` returns an `int`, so areas below 1/2 count as zero: nodes inside a small polygon, or close to an edge of a larger one, can be lost
  (`C76_inside_refuted`, `C76_small_polygons_are_missed`). Corners far outside overflow it (`C76_far_corners_refuted`); an empty list of points
  is read out of bounds (`C76_no_points_refuted`).

Boundary
* A node on the contour can lead to a write past the boundary points of a node or the segments of an element (`C35_nodes_on_contour_refuted`), e.g. a hole of
  radius 0.3 near the border; an interior zero line gets duplicate segments.
* A saddle whose corner values add up to zero gets segments and status that disagree (`C35_balanced_saddle_refuted`).
* The inside of a balanced saddle and of its complement add to half the element (`C78_complement_refuted`): the centre value 0 counts as outside both times.
* The mirror image of a balanced saddle has a boundary of another length (`C83_balanced_saddle_refuted`): the corners 0 and 2 are cut off, whichever side they are on.
* Boundary normals on the domain border are not normalised (`C37_border_normals_refuted`).
* `computeAreaFractions` before `discretise` reads uninitialised status (`C82_areas_before_discretise`); after later moves it still gives the areas of the old contour.

Optimise
* The far side limit can be exceeded when a negative limit is positive or beyond the displacement limit (`C38_far_side_limit_refuted`).
* The returned value is wrong when a border point is held at its limit and another is scaled back (`C40_rescaled_side_limit_refuted`).
* Dropping some but not all inequality constraints is undefined behaviour (`C41_dropping_some_constraints_refuted`).
* An exception in the first attempt leaves no usable result (`C41_exception_at_first_attempt_refuted`).
* `lambda_0 = 0` and all-zero sensitivities give velocities that are NaN (`C79_no_sensitivity_refuted`).
* Re-using an object after constraints were removed keeps a wrong index map and stale displacements of fixed points *(read)*.

Sensitivity, files, random numbers
* `itoCorrection` without sensitivities is out of bounds (`C44_no_sensitivity_refuted`).
* A text file loaded with the other `isXY` flag is read shifted and past the end (`C46_other_flag_refuted`); infinities do not load back
  (`C46_infinite_value_refuted`); a short binary file is loaded in part without an error (`C45_any_file`).
* `saveLevelSetVTK` with a data point ignores its flags (`C52_vtk_flags_of_a_data_point_refuted`).
* `setSeed` does not reset the default normal distribution (`C48_default_normal_refuted`).

Demo programs
* A second `solve` on the same object sees leftovers of the first: a point that became fixed where a free one was keeps its displacement
  (`C88_fixed_refuted`), and a constraint once out of reach is never looked at again (`C88_dropped_refuted`).
* The mismatch sensitivity reads outside its arrays for a boundary point whose closest node is on the border (`C59_sensitivity_at_border_refuted`,
  `C59_match_sensitivities_refuted`: a hole of radius 1/3 on the border).
* `shape_match` never computes normals, so its Ito correction does nothing (`C68_shape_match_uncorrected`).
* "Reinitialise at least every 20 iterations" takes 21 the first time (`C64_first_reinitialisation_refuted`).
* In `bimodal_brolly` the position and bias before the first accepted trial are not relative to the middle (`C66_first_position_refuted`); a rejected trial
  keeps its multipliers and continues from the reinitialised backup, not the backup (`C66_rejection_restarts`).
* `dumbbell` and `bimodal` record the mismatch, and `minimise_perimeter` the mean curvature, from before the step beside the length after it
  (`C71_one_shape_refuted`). `bimodal` shifts y by half the width instead of half the height; `minimise_perimeter`
  divides by zero if two samples fall into one turn *(read)*.
* `dumbbell` reads its configuration file without a bound: more numbers than nodes, or a level set the library itself saved as text, are written
  out of bounds (`C72_configuration_is_read`, `C72_saved_level_set_as_configuration_refuted`).
* `bimodal_brolly` documents `--umbrella-interval` but knows only `--unmbrella-interval` (`C73_documented_spelling_refuted`). An option without its value reads
  past the arguments and a restart name of 100 or more characters overflows its buffer (`C73_every_command_line`).
* A restarted `bimodal_brolly` takes position and bias from the centre of mass without the shift every sample is given (`C74_position_refuted`).

## 6. Print Assumptions

As printed by the build, theorem by theorem. F, S1, S2 and EM are defined in section 3.

### Closed under the global context (no axioms)

* `PropArea.v`: `C28_total_of_the_elements`
* `PropBoundary.v`: `C31_node_status`, `C31_element_status`, `C31_rest_unchanged`, `C50_settings_never_change`, `C50_target_only_written_by_caller`, `C51_points_know_their_segments`
* `PropCycle.v`: `C56_constructors_mask_nothing`, `C56_targets_are_independent`, `C56_targets_accepted`
* `PropDemo.v`: `C60_target_areas`, `C60_mismatch_short`
* `PropDrawn.v`: `C82_areas_of_the_last_boundary`, `C82_areas_before_discretise`
* `PropFmm.v`: `C12_built_meshes_qualify`, `C12_march_safe_and_total`, `C13_contour_nodes_unchanged`, `C15_velocity_extension_frame`
* `PropHeap.v`: `C01_heap_is_priority_queue`, `C01_peek_is_next_pop`, `C02_heap_keeps_entries_unordered`, `C03_heap_memory_safe`, `C04_heap_drain_sorts`, `C05_self_test_transparent`
* `PropIO.v`: `C46_line_count_checked`, `C46_lines_are_newlines`, `C46_loaded_level_sets_are_sound`, `C47_names_are_distinct`, `C47_four_digits`, `C47_other_files_kept`, `C52_level_set_txt`, `C52_level_set_vtk`, `C52_areas_txt`, `C52_areas_vtk`, `C52_boundary_points`, `C52_boundary_segments`, `C52_vtk_flags_of_a_data_point_refuted`
* `PropLevelSet.v`: `C18_invalid_parameters_exit`, `C18_valid_parameters_accepted`, `C19_band_after_construction`, `C19_band_after_reinitialisation`, `C19_band_between_reinitialisations`, `C20_mines_after_reinitialisation`, `C20_update_reports_mines`, `C21_update_moves_only_the_band`, `C22_masked_nodes_frozen_between_reinitialisations_partial`, `C22_masks_are_permanent_partial`, `C24_mask_circles`, `C24_mask_rectangle`, `C24_mask_is_set_like`, `C25_gradients_safe_zero_outside_nonneg_inside`, `C25_gradient_values`, `C49_every_history_is_safe`
* `PropLoop.v`: `C64_reinitialisation_cadence`, `C64_turn_moves_the_field`, `C64_loop_history`, `C65_samples_due`, `C66_trials_ledger`, `C66_last_accepted`, `C66_rejection_restarts`, `C66_trials_keep_setup`
* `PropMesh.v`: `C06_mesh_construction_succeeds`, `C06_mesh_sizes`, `C06_mesh_numbering_bijection`, `C06_element_centres`, `C07_mesh_neighbours`, `C07_marker_is_no_node`, `C08_element_corners`, `C08_incidence_agrees`, `C09_domain_flag`, `C09_fresh_flags`
* `PropOpt.v`: `C41_some_dropped_never_returns`, `C53_attempts_until_success`, `C53_no_success_no_result`
* `PropPolygon.v`: `C76_no_points_refuted`
* `PropRecord.v`: `C71_minimise_area`, `C71_minimise_perimeter`, `C71_minimise_perimeter_constrained`, `C71_shape_match`, `C71_dumbbell`, `C71_bimodal`, `C71_brolly`
* `PropReuse.v`: `C88_use_again_partial`, `C88_leftovers_partial`
* `PropRng.v`: `C48_reseeding_reproduces`, `C48_reseeding_with_normal`, `C48_default_normal_refuted`, `C48_getSeed`, `C48_returns`
* `PropSafe.v`: `C79_no_values_break_solve`
* `PropSens.v`: `C37_only_normals_change`, `C43_two_calls_and_the_point_restored`, `C43_returns`, `C44_zero_temperature`, `C44_only_the_first_sensitivity`, `C44_returns_after_discretise`
* `PropSetup.v`: `C72_configuration_is_read`, `C72_every_configuration`, `C72_dumbbell_from_file`, `C72_shape_is_read`, `C72_every_shape_file`, `C73_options`, `C73_every_command_line`, `C73_documented_spelling_refuted`, `C74_target_areas`, `C74_restart_from_file`, `C74_start_is_reached`
* `PropTurn.v`: `C70_states_of_a_run`
* `PropTwin.v`: `C57_future_depends_on_visible_state`, `C58_restart_with_written_fields`, `C58_restart_with_computed_fields`

### **F + S1**

* `PropDemo.v`: `C60_mismatch_triangle`, `C61_mean_weight`
* `PropOpt.v`: `C41_largest_change_exists`, `C41_single_constraint`

### **F + S1 + S2**

* `PropArea.v`: `C28_areas_of_the_elements`, `C28_areas_with_nodes_on_the_contour`
* `PropAreaOrder.v`: `C78_more_material_more_area`, `C78_complement`, `C78_complement_refuted`, `C78_only_the_contour_counts`
* `PropBoundary.v`: `C32_points_on_contour`, `C33_segments_well_formed`, `C33_segments_in_elements`, `C34_length_by_segments`, `C34_length_by_points`
* `PropClosed.v`: `C35_closed_curves`, `C35_segments_of_an_element`, `C35_built_by_the_element_rules`
* `PropComplement.v`: `C80_opposite_distances`, `C80_opposite_velocities`, `C80_same_motion`, `C80_same_boundary`
* `PropContour.v`: `C81_same_boundary`, `C81_same_normals`, `C81_same_areas`, `C81_same_distances`
* `PropCycle.v`: `C54_noise_keeps_the_move_limit`
* `PropDemo.v`: `C59_match_sensitivities_partial`, `C59_sensitivity_between_partial`, `C59_inner_shapes`, `C59_sensitivity_at_border_refuted`, `C60_mismatch_is_distance`, `C61_weighted_perimeter`, `C61_weights`, `C61_unreduced`, `C62_centre_in_box`, `C62_centre_in_domain`, `C62_centre_moves`, `C68_shape_match_uncorrected`
* `PropExtreme.v`: `C87_extreme_areas`, `C87_no_boundary`
* `PropFmm.v`: `C12_self_test_passes`, `C13_front_nodes_get_contour_distance`, `C16_extended_velocities_in_range`, `C17_vertical_line_exact`, `C17_horizontal_line_exact`
* `PropLevelSet.v`: `C21_border_stays_outside`, `C23_initial_field_is_nearest_feature`, `C23_order_and_repetition_of_holes_irrelevant`, `C26_affine_gradient_exact`, `C27_weno_is_convex_combination`, `C27_weno_within_candidates`, `C27_weno_exact_on_constant_and_linear`, `C29_distance_to_segment`, `C29_short_segments_within_a_thousandth`
* `PropLoop.v`: `C63_accepted_iff`, `C63_trial_decision`, `C65_samples_on_schedule`, `C65_sampling_ends`, `C67_area_turn_general`
* `PropMesh.v`: `C10_getElement_contains_point`, `C11_getClosestNode_nearest`
* `PropOpt.v`: `C38_displacements_within_the_limits`, `C39_velocities_reproduce_the_displacements`, `C40_value_is_the_change_of_the_objective`, `C41_constraints_kept`, `C41_all_or_none`, `C41_solve_ends`, `C41_solve_returns`, `C42_value_of_the_callback`, `C42_gradient_of_the_callback`
* `PropOrder.v`: `C85_order_of_points`
* `PropPolygon.v`: `C76_inside_whole_polygons`, `C76_inside_partial`, `C76_small_polygons_are_missed`, `C76_inside_refuted`, `C76_polygon_level_set`, `C76_whole_polygon_level_set`, `C76_shape_match`
* `PropRecord.v`: `C69_areas`, `C69_area_distance`, `C69_mismatch_distance`, `C69_normals`, `C71_mean_curvature`
* `PropSens.v`: `C37_normals_are_gathered`, `C37_unit_normals`, `C37_normals_of_a_plane`, `C43_exact_on_quadratics`, `C44_correction`, `C44_sign`
* `PropSeparate.v`: `C86_areas_add`, `C86_lengths_add`
* `PropSetup.v`: `C75_discs`, `C75_square_R`, `C75_bimodal`, `C75_dumbbell`, `C75_weights`, `C75_mismatch_allowed`
* `PropShift.v`: `C84_moved_areas`, `C84_moved_length`
* `PropSymmetry.v`: `C83_mirrored_areas`, `C83_upside_down_areas`, `C83_transposed_areas`, `C83_length_of_values`, `C83_mirrored_length`, `C83_upside_down_length`, `C83_transposed_length`, `C83_balanced_saddle_refuted`
* `PropTurn.v`: `C69_perimeter_sensitivities`, `C69_constrained_sensitivities`, `C69_weighted_sensitivities`, `C70_measures_keep_the_field`
* `PropUnits.v`: `C77_units_do_not_matter`
* `PropVel.v`: `C30_velocities_next_to_boundary`, `C30_velocities_in_range`

### **F + S1 + S2 + EM**

* `PropBoundary.v`: `C36_move_limits_and_flags`
* `PropClosed.v`: `C35_nodes_on_contour_refuted`, `C35_balanced_saddle_refuted`
* `PropCycle.v`: `C55_a_step_stays_within_the_move_limit`, `C55_reinitialise_covers_the_boundary`
* `PropDemo.v`: `C59_match_sensitivities_refuted`
* `PropFmm.v`: `C12_second_march_on_same_object_refuted`, `C14_signs_kept_if_result_has_no_jump_partial`, `C14_sign_flip_refuted`, `C14_tiny_value_refuted`
* `PropHeap.v`: `C01_heap_is_priority_queue_f64`, `C03_heap_lifetime_bound_refuted`
* `PropIO.v`: `C45_binary_round_trip`, `C45_any_file`, `C45_no_file`, `C46_text_round_trip`, `C46_other_flag_refuted`, `C46_infinite_value_refuted`
* `PropLevelSet.v`: `C22_reinitialised_masks_stay_outside_partial`, `C20_flag_isMine_outdated_refuted`, `C22_masked_node_joins_structure_refuted`, `C25_small_meshes_refuted`, `C24_small_polygons_refuted`, `C49_empty_point_list_refuted`
* `PropLoop.v`: `C63_downhill`, `C63_detailed_balance`, `C64_first_reinitialisation_refuted`, `C66_first_position_refuted`, `C67_area_turn`, `C67_first_area_turn`
* `PropMesh.v`: `C07_zero_width_refuted`, `C11_beyond_width_refuted`
* `PropOpt.v`: `C38_discretised_points_qualify`, `C38_far_side_limit_refuted`, `C40_rescaled_side_limit_refuted`, `C41_dropping_some_constraints_refuted`, `C41_exception_at_first_attempt_refuted`
* `PropOrder.v`: `C85_rounding_refuted`
* `PropPolygon.v`: `C76_polygon_mask`, `C76_far_corners_refuted`
* `PropRecord.v`: `C71_one_shape_refuted`
* `PropReuse.v`: `C88_fixed_refuted`, `C88_dropped_refuted`
* `PropSafe.v`: `C79_no_sensitivity_refuted`
* `PropSens.v`: `C37_border_normals_refuted`, `C44_no_sensitivity_refuted`
* `PropSetup.v`: `C72_value_of_a_word`, `C72_saved_level_set_as_configuration_refuted`, `C74_position_refuted`, `C75_square_f64`
* `PropTurn.v`: `C70_boundary_of_a_shape`, `C70_minimise_area`, `C70_minimise_perimeter`, `C70_minimise_perimeter_constrained`, `C70_shape_match`, `C70_weighted_programs`
* `PropVel.v`: `C30_masked_front_refuted`

## 7. Tests of the theorems

`seeded/LOG.jsonl` records edits of the model that a realistic bug would make, each in a scratch copy that is rebuilt, with the theorems that failed.
