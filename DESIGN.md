# Formal model of OSLL/slam-constructor in Rocq (Coq 8.16.1)

## 1. Layout

    rocq/theories/Base/    numbers (double interface, exact-real and IEEE binary64 instances), outcomes
    rocq/theories/Model/   executable Gallina model of the C++ code, function by function; every
                           definition cites file and lines in /repo
    rocq/theories/Spec/    small specifications, written without looking at model helpers
    rocq/theories/Proofs/  lemmas and proofs
    rocq/theories/Props/   the theorems (named Cnn_...), each followed by `Print Assumptions`, plus `Example`s
                           that meet the hypotheses
    tools/                 mkmanifest.py (MANIFEST.json from theorem names and notes.json),
                           mkassumptions.py (section 6)
    seeded/LOG.jsonl       wrong programs tried against the theorems

## 2. Modelling decisions

* **Integers**: C++ `int` is modelled by `Z`. Where wrap-around/overflow is the issue (unsigned growth
  arithmetic, scan margins, `ge_pow`), the wrap is written into the model.
* **Doubles**: code that computes with `double` is written once over the interface `DOps D`
  (`Base/Num.v`), then instantiated (a) with exact reals `R` ("exact arithmetic" theorems), (b) with IEEE-754
  binary64 from Flocq (round to nearest even, infinities, NaN; computable). A property is stated about
  binary64 whenever the claim survives rounding, otherwise about R and said so. x87 excess precision, FMA
  contraction and `-ffast-math` are not modelled (the build uses plain `-O3` on x86-64).
* **Outcomes**: `Ok v | Abort | UB | OutOfFuel`: failing `assert` (enabled in the shipped build: no
  NDEBUG), undefined behaviour (out-of-range access, out-of-range double->int conversion), exhausted fuel for
  loops with no structural measure. Theorems exclude or establish these explicitly.
* **Pointers and sharing**: lazily tiled maps are modelled with an explicit heap of tiles and cells with
  reference counts (the `use_count()` tests are the logic of the code); other objects are values.
* **Virtual calls / template parameters / callbacks** (cells, scoring functions, pose enumerators, random
  engines, transform availability) are Section variables, universally quantified in the theorems.

## 3. Trusted base

Coq's kernel (vm_compute included), the reading of the C++ sources recorded in the comments of the model,
and the axioms printed by `Print Assumptions` (section 6). No axiom is declared in this development.

## 4. Plan per property

(C-numbers refer to properties.jsonl; "refuted" = the unchanged code violates the full statement; we prove
`..._refuted` with a witness, and the strongest conditional version that does hold.)

| property | model | method |
|---|---|---|
| C01 | DiscreteSegment2D as the loop with error term, over Z | invariant on error, induction on remaining steps |
| C02 | world_to_cell, cell_to_world, bounds, over DOps | real instance: floor lemmas |
| C03 | world_to_cells loop with FP decisions over DOps | generic induction; direction consistency proved for R and binary64 |
| C04 | GridRasterizedRectangle state machine | enumeration equals the nested-range spec, NoDup; binary64: floor of a rounded quotient is monotone, so every point's cell is between the corners' cells |
| C05, C06, C07 | vector-of-vectors map with origin, UPDATE_DIM arithmetic | refinement to total function Z*Z -> cell |
| C08, C09, C10 | heap with refcounts, tiles, copy-on-write | heap invariant + refinement for any number of maps; C10 refuted by aliasing witness |
| C11, C12, C13 | byte lists, little endian, double as 64-bit pattern | round trips; C13 refuted for the mean cell |
| C14-C19 | cells over DOps; TBM as 4 masses | float invariants with Flocq (C14, C15), exact otherwise; C19 refuted for the consistent cell |
| C20, C21 | scan adder over abstract map and ray | frame property; C21 refuted by size_t underflow |
| C22, C23 | matcher loop with abstract enumerator, event trace | loop invariant on trace |
| C24-C28 | enumerators as state machines | explicit enumeration; C25 refuted; C24 also in binary64 (accumulated rounding of the steps: which poses are visited, and when the walk ends) |
| C29, C30 | fold over points/cells | convexity lemmas over R; binary64: recursive summation error, comparisons exact |
| C31-C34 | pyramid of levels, branch-and-bound queue | invariants; C32 refuted |
| C35-C38 | particle filter | sums over R and error bounds of rounded sums in binary64 (add error at most 2^-53 of the rounded partial sum, which never exceeds the rounded total); master-flag invariant; C38 refuted |
| C39 | world state machine with observers | trace semantics; rounding error of the pose in binary64 |
| C40, C41 | message conversion, bag queue | list functions / schedules; C41 refuted at end of bag; C40 also with binary32 fields and binary64 scans (Model/LaserFloat.v), error bound of the accumulated additions by induction |
| C42, C43 | properties parser on char lists | maps; C42 refuted for includes |
| C44 | trig table | real trigonometry; machine numbers: rounded index within 1/4 of the beam's index, table long enough, accuracy by Lipschitz bounds |
| C45, C46 | rectangles | reals; C45 refuted for crossing rectangles |
| C47 | comparisons on binary64 | Flocq |
| C48, C49 | renderers | list/byte level |
| C50 | config arithmetic | refuted (width/height swapped) |
| C51 | histogram | counting; exact arithmetic |
| C52 | cache keyed by coordinate | refuted by history witness |
| C53 | string parser | round trip |
| C54 | discrepancies of the cell models, observation impact | ranges over R; binary64 for all cell classes (GMapping: std::exp a parameter that is at most 1 on non-positive arguments) |
| C55 | GMapping odometry step with noise | real trigonometry (rotation keeps lengths); binary64 error bound |
| C56, C57 | component selection by configured names, all keys read | string level; C57 refuted for four keys |
| C58 | bag runner's command line | list functions |
| C59-C62 | AreaOccupancyEstimator: beams against a cell | binary64 ranges (C59); exact reals with areas as Riemann integrals (C61, C62); C60 and C62 refuted |
| C63-C65 | connect-the-dots drift detector | state of a wall-clustering loop; reals and binary64 (abstract libm); C64, C65 refuted |
| C66 | quality reported by TBM cells | binary64 error bounds; refuted by one ulp |
| C67, C70 | tf correction publisher, ROS node callbacks | rigid transforms as matrices over R; event traces |
| C68 | trajectory dumper's time stamps | decimal strings; refuted |
| C69 | launch properties provider | map semantics; refuted for large unsigned defaults |
| C71, C73-C75 | GMapping filter with logs of matcher and adder calls | histories of a new filter, induction; C74, C75 refuted |
| C72 | offline bag run | composition of bag topic, world and dumper models |
| C76 | single-hypothesis world with logs | histories, induction |
| C77-C80 | text rasters, cecum primitive, laser scan generator | composition with the map refinement (C05); R for geometry; C80 refuted |
| C81-C82 | the two threads of the asynchronous correction publisher as a small-step system, one shared access per step | inductive invariant over all interleavings (lock ownership, memory contents, bookkeeping of updates and sends); measure for progress; C82 refuted: the std::thread is never joined, so ending the node calls std::terminate |
| C83 | the probability of a match (m3rsm_engine.h:156-182: rescale, area of the drift around every point, maximal impact, weighted mean) on the pyramid of C31; the search of C34 run with these scores | nesting of the rasterised areas across levels gives an admissible score up to 1e-7 per level (C31 chain), hence C34 with slack; refuted in binary64 for unknown cells (impact 1/2 above the coarse cell's) and for windows without width |
| C84 | point filter and weighted mean (C29, C30) composed with the three pose enumerating matchers, hill climbing with fixed steps and the multi-resolution search | the filter leaves the empty list, the estimate is 0/0; NaN compares false everywhere, so enumeration never accepts; the multi-resolution search asserts on NaN: refuted, it never answers |
| C85 | weights of the GMapping filter (Model/Gmapping.v, ParticleFilter.v) through `gf_run` | relation of the weight vectors before and after a scan; NaN absorbs the normalisation: refuted, and the loss is permanent; positive answers keep the weights a distribution (exact arithmetic) |
| C86 | save_state/load_state of every map type and of the rescalable map over it (Model/MapFile.v, over MapState.v) | chunk by chunk: each level's bytes load back (C12), the level list is closed under ensure_map_cache_is_continuous; plain and lazy types save nothing: refuted |
| C87 | validate() over the levels of Model/Pyramid.v with a parameter for operator[] (Model/SelfCheck.v) | the raster of a coarse cell is exactly the covered finest cells; the running maximum is the greatest known impact; totality from the level sizes of a new map; bounded maps: the first checked cell lies outside, refuted |
| C88 | scans and poses as lists of words, six-digit decimals through Flocq's radix-10 rounding (Model/ScanText.v) | the nearest six-digit decimal of a double is within 5e-6; a double is restored exactly when it is the nearest double of some six-digit decimal (spacing argument in the normal range, symmetric spacing among subnormals); 1/3 and NaN refute the full claim |
| C89 | show_grid_map over a parameter reading cells (Model/ConsoleView.v) | the nested loops print exactly the rectangle of cells around the center's cell (any arithmetic); exact arithmetic: the rectangle misses at most one row or column per side, none if the distances are whole numbers of cells; refuted in general |
| C90 | the adapter's two callbacks and the timer loop as a transducer of events (Model/RosTools.v) | induction on the history; the remembered transform is the first correction of the history |
| C91 | get_current_pose and the publishing loop over the sequence of look-ups (Model/RosTools.v) | induction on the look-ups; zero quaternions and the pose invented on shutdown refute the full claim |
| C92 | the observer of the search-space tool and its map (Model/SearchSpace.v) over Matchers.v and PlainMap.v | observer protocol (C23) and refinement of the unbounded map (C05); the 201 accumulated steps and their cells are computed in binary64 by the kernel |
| C93 | scan points in both forms and their conversions (Model/Sensor.v, Model/M3Score.v), place / shift / turn and the mathematical atan2 in Spec/ScanPointSpec.v | addition theorems over R; case analysis on binary64 values (zeros, infinities, NaN, overflow) for the pre-rotated scan |
| C94 | all parts put together: a cell, map, estimator and quality estimator of any class (Model/WholeSlam.v) under the scan adder (Model/ScanAdder.v) and the two worlds (World.v, Gmapping.v), on binary64 | one invariant of cells (C17-C20 on binary64), ranges of all observations made (C59 without its condition on the cell's size), invariants of the heaps of the maps, induction over the run |
| C95 | the whole single-hypothesis SLAM of C94, its scan margin a number of points; what it should build: Spec/WholeMapSpec.v (observations per cell and scan: ScanSpec.v of C20) | scan insertion = a list of updates when the components answer; the four map classes refine the total map (C05, C07, C08-C10); induction over the run. Rescalable maps: writing a cell raises only levels from 1 on, so level 0 has had the same updates; that such a run returns is assumed |
| C96 | two such worlds with different unbounded maps and a matcher given only `operator[]` | both maps have had the same list of updates (C95's lemmas); induction over the run. The program's matchers (Model/MapView.v: what they see of a map) agree on both maps, as only infinite areas depend on a map's size |
| C97 | the graph world (oracle, estimate by the previous scan, pose graph with nodes and edges as vector positions) over the generic world run | invariant: the graph is the chain of the kept scans and its current node is the last one; induction over the history, from any state |
| C98 | the particle filter of Gmapping over the scan adder, cells and map classes of WholeSlam, watched: the map comes with the list of what was added | invariant of a scan: the list grows by a subsequence of the particles' corrected poses, resampling only copies poses; cells by C95's lemmas; erasing the lists gives the program's run |
| C99 | the matcher object with its alignment flag, the histogram's direction queries and the enumerator's constructor (which drops the angle) | exact reals: induction over the edges for sums and counts of the columns, uniqueness of a line's direction; any arithmetic: the enumerator state that survives a reset does not depend on the angle, so histories with and without alignment give equal answers (refuted); wall at 45 degrees as witness |
| C100 | the random variables (Model/RandomVars.v: uniform limits, master's zero Gaussians, clones that drop the kept normal value) in the GMapping filter (Model/Gmapping.v) through `gf_run` | a relation of particle, way since its last matching and descent over whole histories (every particle of every reachable filter has one); invariant: ways along the axes against the path length (Cauchy), limits in the configured box or zero; exact reals. REFUTED for the maximum: two independently drawn limits are compared as lx^2+ly^2, so 5/4 of the maximum may pass without a match; partial: twice the maximum suffices |
| C101 | the single-hypothesis world (Model/World.v) over the scan adder, a whole pose enumeration matcher (Model/WholeMatcher.v: filter, enumerator, estimator, observation probability) and any map whose updates are cell-wise; two worlds side by side, over the reals | relational (two-run) proof: a displacement relation of cells, maps, poses, enumerator states and announcements, kept by every step; the cell walks (floor, rounding walk, Bresenham fallback, rectangles) commute with whole-cell displacements; the excluded overlap weighting is refuted by two rectangles |
| C102 | the estimators (Model/Spe.v, WholeMatcher.v) with the configured impact over the virtual discrepancy of all cell classes (Model/Impact.v), on the maps a run can leave (C94), in binary64; std::exp a parameter | invariant of the two accumulators (NaN, or 0 <= total <= weight, infinities included) under rounded addition and multiplication; every impact of a cell reachable in a run is in [0, 1] exactly (C17, C19, C54); the exceptions are shown by runs |
| C103 | observers of any world (Model/World.v) and of the pose enumeration matcher inside the single-hypothesis world (Model/WatchedRun.v) | histories with the same scans are compared: the state is a function of the scans (no observer in it); each observer's calls are compared with the history restricted to it, by an invariant on its live registrations |
| C104 | such a world with the enumeration matcher of C101 over a view of its map (Model/MapView.v), with a bounded plain and with an unbounded map | both maps have had the same updates; whatever the matcher reads in the bounded map it reads in the other; tested poses with a score under one map have it under the other; filtering agrees where the scans see only the map |
| C105 | is_prob_unknown, is_multiple_of, min_i and minor_direction | NaN comparison; truncation over R; the histogram invariant of C51 and C99; all three refuted |
| C106 | the no-action matcher in the single-hypothesis world (Model/NoAction.v, Model/World.v) | induction over the history for any arithmetic in which adding zero is the identity on the poses reached; over R always, in binary64 because a sum is never the negative zero unless both summands are |
| C107 | GMapping (Model/Gmapping.v, ParticleFilter.v) over the no-action matcher, any random variables, over R | invariant of reachable filters: same pointers, all weights 1/n, the last particle (the heaviest of equals, hence the first master) has pose = raw pose = odometry and zero-only random variables; binary64: rounding bound of the sums of up to 2^20 equal doubles (Proofs/EvenWeightsProofs.v) keeps N_eff·(1+ε) above the threshold, and adding the zero delta is exact on finite doubles (-0 excluded since sums of +0 never give -0) |
| C108 | GMapping (Model/Gmapping.v, ParticleFilter.v), any matcher and adder that do not fail, any arithmetic D (so binary64 with NaN) | the filter invariant (pointers valid and distinct, one master, map index valid) makes every step total: the drawn indices of resampling stay below n whatever the weights, the heaviest of a non-empty list exists even when no comparison holds; for failing matchers and adders the same invariant, every bind either carries on or passes on the failure of one of the two (Spec/FailureSpec.v names the kinds) |

## 5. What is modelled, and what is not

Modelled function by function (every definition cites file and lines):

| Model file | code |
|---|---|
| MathUtils, Geometry | core/math_utils.h, geometry_primitives.h, geometry_discrete_primitives.h, geometry_utils.h (rectangles, segments, discrete segments, tolerant comparisons) |
| Grid | core/maps/regular_squares_grid.h, grid_rasterization.h |
| PlainMap, LazyMap, MapState, MapFile, Pyramid, SelfCheck | core/maps/plain_grid_map.h, lazy_tiled_grid_map.h, grid_map.h, rescalable_caching_grid_map.h |
| Serialization | core/serialization.h, save_state/load_state of maps and cells |
| Cells | core/maps/grid_cell.h, naive_grid_cells.h, tbm_grid_cells.h, transferable_belief_model.h, slams/gmapping/gmapping_grid_cell.h, slams/credibilist/*.h |
| AreaEstimator, ScanAdder | core/maps/area_occupancy_estimator.h, const_occupancy_estimator.h, grid_map_scan_adders.h |
| WholeMatcher | core/scan_matchers/pose_enumeration_scan_matcher.h over weighted_mean_point_probability_spe.h and occupancy_observation_probability.h |
| Impact | core/scan_matchers/observation_impact_estimators.h over the virtual discrepancy of the cell classes; the configured matcher |
| Sensor, Trig, World, ParticleFilter | core/states/*.h, core/trigonometry_utils.h, core/particle_filter.h |
| Matchers, HcAlign, Spe, M3Engine, M3Score, Histogram, DriftDetector | core/scan_matchers/*.h, core/features/angle_histogram.h |
| Gmapping, GmappingOope, RandomVars | slams/gmapping/*.h, core/random_utils.h, RobotPoseDeltaRV of core/states/robot_pose.h |
| Config, Properties | utils/init_*.h, slams/*/init_*.h, ros/init_utils.h, ros/launch_properties_provider.h, utils/properties_providers.h |
| Render, BagTopic, BagRunner, RosNode, AsyncPublisher, LaserObserver | utils/map_dumpers.h, ros/occupancy_grid_publisher.h, bag_topic_with_transform.h, lslam2D_bag_runner.cpp, topic_with_transform.h, pose_correction_tf_publisher.h, robot_pose_observers.h, single_hypoth_slam_node.cpp, laser_scan_observer.h |
| LaserFloat | ros/laser_scan_observer.h with binary32 message fields and binary64 scans |
| DataGen | utils/data_generation/*.h |
| ConsoleView, RosTools, SearchSpace | utils/console_view.h, ros/wg_pr2_bag_adapter.cpp, ros/path_publisher.cpp, utils/pose2D_search_space_evaluator.cpp (the observer and the search) |
| WholeSlam | the choice of classes of utils/init_occupancy_mapping.h, slams/*/init_*.h over the models of cells, maps, estimators, scan adder; GMapping's counter overflow (C16) is left out: such a cell keeps its value |
| PoseGraph | slams/graph/pose_graph_map.h, graph_slam_world.h |
| MapView | width, height, origin, scale, has_cell and operator[] of every map class (regular_squares_grid.h, plain_grid_map.h, lazy_tiled_grid_map.h, rescalable_caching_grid_map.h) as a scan matcher sees them |
| WatchedRun | add_sm_observer/remove_sm_observer of single_state_hypothesis_laser_scan_grid_world.h over pose_enumeration_scan_matcher.h and the observer registry of grid_scan_matcher.h |
| NoAction | core/scan_matchers/no_action_scan_matcher.h |
| Helpers | math_utils.h is_multiple_of, grid_scan_matcher.h is_prob_unknown, angle_histogram.h min_i and minor_direction |
| ScanText | sensor_data.h stream operators, dump_state of lslam2D_bag_runner.cpp, loading in utils/sm_runner.cpp |

Not modelled:

* libraries: libm (parameters of the theorems; in exact-arithmetic theorems the real cos, sin, acos, sqrt), std::mt19937
  and the distributions (streams of draws are parameters), iostream/locale number parsing (`stod` a parameter; C88: default formatting and parsing of doubles at the level of words), file
  system (a parameter), ROS, tf and rosbag (message filters, tf cache: parameters; tf's matrix algebra is modelled);
* threads other than the correction publisher's (C81, C82: two threads, sequentially consistent, all shared accesses under the mutex); memory reclamation after use counts reach zero;
* slams/vinyx and the viewer of slams/graph (their targets are commented out in CMakeLists.txt; the graph world and its map are modelled),
  the main of sm_runner.cpp (command line front end), python scripts, tests;
* x87 excess precision, FMA contraction.

Simplifications are stated in the comments of the definitions. The most frequent: int overflow outside the places where it is
the subject (C06, C21, C33) is excluded by hypotheses on sizes; virtual functions are parameters.

Arithmetic instances besides R and binary64: `XReal`/`EReal` (reals with NaN/infinity or -infinity, used where the code relies
on NaN as "unknown" but the claim is about exact values), binary32 for the published message fields (C49), and `OrdLaws`
(laws of `<`, `<=` true in both R and binary64, so that one proof serves both).

## 6. What Print Assumptions lists

Only axioms of Coq's standard library: `ClassicalDedekindReals.sig_forall_dec`, `ClassicalDedekindReals.sig_not_dec`,
`FunctionalExtensionality.functional_extensionality_dep` (the construction of R) and `Classical_Prop.classic` (Flocq's
binary64 and Coquelicot's integrals use it). Per theorem (generated by tools/mkassumptions.py):

<!-- assumptions -->
* **no axioms** (106 theorems): C01_discrete_segment_is_digital_line, C04_raster_enumerates_box, C04_infinite_area_is_whole_grid, C07_bounded_plain_map_access, C07_reset_outside_is_undefined, C08_copies_are_independent, C08_copies_are_independent_128, C09_unbounded_lazy_map_refines_total_map, C10_access_characterisation, C10_out_of_range_rejected_refuted, C22_best_tested_pose, C23_observer_protocol, C23_others_not_called, C23_subscription, C24_brute_force_sequence, C25_search_stays_at_first_pose_partial, C26_no_improvement, C27_monte_carlo_budgets, C27_monte_carlo_samples, C29_filter_keeps_exactly_the_usable_points, C33_rescale_selects_the_finest_adequate_level, C36_resampling_copies_the_drawn_particles, C37_exactly_one_master, C37_no_particle_no_filter, C38_all_particles_share_one_map_refuted, C39_observers_see_each_scan_once, C39_only_scans_notify, C39_gmapping_reports_a_heaviest_particle, C41_delivered_in_order_partial, C41_all_delivered_partial, C41_playback_ends, C41_early_message_throws, C41_tail_lost_refuted, C42_meaning_partial, C42_last_definition_partial, C42_no_override_refuted, C42_included_wins, C43_last_set, C43_int, C43_uint, C43_no_number, C45_three_corners_are_impossible, C49_publishing_interval, C50_width_and_height_swapped_partial, C53_ignored, C56_components_by_name, C56_scan_matcher_by_name, C57_window_size_refuted, C57_skip_exceeding_refuted, C57_omqe_refuted, C57_m3rsm_limits_refuted, C57_parameters_partial, C57_switches_partial, C58_command_line, C58_slam_kind, C60_partial, C60_same_cells_partial, C65_detector_observers_refuted, C65_plain_matcher_observers_partial, C68_lines, C69_set_then_read, C69_unset_partial, C69_huge_default_refuted, C69_typed, C69_config_wins, C70_each_scan_once, C70_expired, C72_offline_run, C73_how_particles_use_a_scan, C73_the_watched_map_is_there, C77_zoom_must_be_positive, C78_cecum_text_shows_its_walls, C78_sides_must_be_positive, C79_generated_points_are_the_first_obstacles, C81_every_broadcast_is_the_latest_correction, C81_corrections_do_not_depend_on_the_schedule, C81_all_corrections_are_made_and_sent, C81_each_correction_is_sent_once, C81_no_deadlock, C82_an_asynchronous_node_ends_normally_refuted, C82_a_synchronous_node_ends_normally_partial, C83_score_is_a_function_of_the_levels, C84_nothing_is_left_and_its_probability_is_unknown, C85_unmatched_point_scores_zero, C86_plain_map_is_not_saved_refuted, C86_lazy_maps_are_not_saved_refuted, C86_empty_file_ends_the_program_refuted, C87_map_without_cells_passes, C89_text_shows_the_cells, C89_window_over_the_edge, C90_transforms_are_passed_on, C90_no_correction_gets_through, C90_latest_grid_is_published, C91_path_grows_by_each_pose_found, C91_invented_pose_refuted, C91_shutdown, C91_poses_have_no_direction_refuted, C97_pose_graph_is_a_chain, C97_run_ends, C99_alignment_changes_no_answer_refuted, C103_observers_do_not_change_a_world, C103_an_observer_hears_the_same_whoever_else_listens, C103_matcher_observers_do_not_change_a_run, C103_a_matcher_observer_hears_the_same_whoever_else_listens, C108_gmapping_only_fails_with_its_matcher_or_adder, C108_a_failure_is_the_matchers_or_the_adders
* **`ClassicalDedekindReals.sig_forall_dec`, `FunctionalExtensionality.functional_extensionality_dep`** (4 theorems): C02_squares_disjoint, C68_stamp_partial, C68_stamp_refuted, C68_reading_unique
* **`ClassicalDedekindReals.sig_forall_dec`, `ClassicalDedekindReals.sig_not_dec`, `FunctionalExtensionality.functional_extensionality_dep`** (115 theorems): C02_world_to_cell_is_containing_square, C02_world_to_cell_defined_or_ub, C02_reported_bounds, C02_center_roundtrip, C03_segment_cells_are_path, C04_raster_is_exactly_the_covered_cells, C04_zero_area_is_one_cell, C04_cell_bounds_without_border_is_that_cell, C15_mean_cell_is_the_mean, C16_gmapping_cell_statistics, C16_gmapping_cell_hit_ratio, C17_masses_stay_normalised, C18_conjunctive_is_intersection, C18_disjunctive_is_union, C18_algebra, C19_unknown_even_cells_report_probability, C19_consistent_cell_reports_probability_partial, C20_passed_cells_are_observed_free_without_blur, C20_blurring_decreases_with_distance, C22_correction_reaches_best_pose, C24_brute_force_grid, C24_nonpositive_rotation_step_never_ends, C25_reused_matcher_refuted, C26_round_structure, C28_exact, C29_scan_probability_is_the_weighted_mean, C29_mean_is_between_the_bounds_of_its_points, C29_factors_leave_the_unit_interval_refuted, C29_even_weights_make_the_plain_mean, C29_viny_weights_are_nonnegative, C30_max_estimate_is_the_maximum, C30_obstacle_estimate_is_at_most_the_maximum, C30_degenerate_area_refuted, C30_mean_is_between_minimum_and_maximum, C30_mean_is_at_most_the_maximum_estimate, C30_overlap_estimate_is_a_convex_combination, C30_maximum_is_monotone_in_the_area, C31_known_cells_are_bounded_partial, C31_writes_inside_the_map_succeed, C32_coarsest_level_bounds_everything_partial, C33_scales_increase_strictly_up_to_infinity, C33_scope_restores_the_active_level, C34_best_match, C34_search_ends, C34_candidates_dense, C34_exact_queue, C34_near_queue, C34_order_cyclic, C35_weights_are_normalised, C36_a_particle_is_drawn_in_its_interval, C36_resampling_needs_uneven_weights, C39_pose_accumulates_odometry_and_corrections, C40_message_becomes_exactly_its_beams, C40_message_is_refused_iff_its_fan_is_inconsistent, C40_odometry_deltas_add_up, C44_cached_trigonometry_is_exact, C44_every_scan_point_is_in_the_table, C44_clockwise_fans_have_no_table, C45_intersection_is_the_set_intersection_partial, C45_crossing_rectangles_lose_their_intersection_refuted, C45_disjoint_rectangles_give_the_origin, C45_overlap_is_the_area_ratio_partial, C45_almost_touching_rectangles_abort_refuted, C46_split_vert_partitions, C46_split_horz_partitions, C46_split4_partitions, C47_exact_reals_comparison, C47_bound_value_clamps, C50_square_maps_partial, C51_direction_is_unique, C54_tbm_discrepancy_in_01, C54_plain_discrepancy_in_01, C55_odometry_step_keeps_its_length, C62_refuted, C66_reported_quality_exact, C67_correction, C67_stamped_pose, C71_far_between_resamplings, C71_far_before_the_first_resampling, C71_resamples_when_due, C71_resamples_when_due_again, C74_master_ignores_scans_before_its_limit_refuted, C74_master_is_matched_without_noise_partial, C75_copies_have_the_same_random_engine_refuted, C75_copies_stay_equal_refuted, C76_single_hypothesis_maps_each_scan_once, C78_free_space_is_exactly_the_blank_cells, C79_the_beams_cover_the_sector, C79_no_scan_without_a_positive_increment, C79_generated_scan_fits_its_own_pose, C80_ranges_exceed_the_maximum_by_at_most_a_cell_partial, C83_search_finds_the_best_partial, C83_least_unknown_impact_suffices, C83_laser_scan_is_matched_best_partial, C85_weights_stay_normalised_partial, C87_self_check_is_right, C87_self_check_answers, C87_new_map_passes, C87_bounded_map_ends_the_program_refuted, C89_wanted_part_is_shown_partial, C89_whole_cells_are_shown, C89_wanted_part_is_cut_refuted, C97_steps_add_up, C100_every_particle_has_a_way, C100_not_matched_before_the_minimum, C100_matched_after_twice_the_maximum_partial, C100_matched_after_the_maximum_refuted, C101_moved_scan, C101_moved_run, C101_overlap_depends_on_the_place, C105_multiples_partial, C106_an_idle_matcher_draws_the_map_along_the_odometry, C106_localized_quality_and_incoming_qualities_do_not_matter, C107_gmapping_without_matching_reports_the_odometry, C107_gmapping_without_matching_runs
* **`ClassicalDedekindReals.sig_forall_dec`, `ClassicalDedekindReals.sig_not_dec`, `Classical_Prop.classic`, `FunctionalExtensionality.functional_extensionality_dep`** (171 theorems): C02_point_in_its_cell_binary64, C02_reported_bounds_hold_the_point_binary64, C02_neighbours_share_a_border_binary64, C02_point_below_its_cell_binary64, C02_center_roundtrip_binary64, C03_segment_cells_are_path_binary64, C04_cells_of_a_rectangle_binary64, C04_every_point_is_covered_binary64, C04_ordinary_rectangles_binary64, C05_unbounded_plain_map_refines_total_map, C06_growth_covers_and_never_wraps, C06_update_dim_binary64, C11_values_round_trip, C12_save_load_lossless, C12_exact_codecs, C12_save_load_mean_cells, C13_restored_cell_continues_partial, C13_mean_cell_refuted, C13_gmapping_cell_refuted, C14_affine_cell_stays_a_probability, C14_affine_cell_extreme_qualities, C14_affine_cell_ignores_invalid, C15_mean_cell_stays_a_probability, C15_mean_cell_is_near_the_mean_in_binary64, C15_mean_cell_ignores_invalid, C16_gmapping_cell_stays_a_probability, C16_gmapping_cell_is_near_the_means_in_binary64, C17_masses_binary64, C17_no_conflict_kept, C19_unknown_even_cells_report_probability_binary64, C19_consistent_cell_binary64_partial, C19_consistent_cell_refuted, C20_scan_updates_exactly_its_rays, C20_other_cells_unchanged, C21_margin_trims_partial, C21_any_margin_refuted, C24_brute_force_in_binary64, C24_too_fine_rotation_step_never_ends, C26_round_structure_in_binary64, C26_terminates, C28_binary64, C29_binary64_probability_is_in_range, C29_binary64_probability_is_in_range_for_unit_weights, C30_obstacle_estimate_is_at_most_the_maximum_binary64, C30_maximum_is_monotone_in_the_area_binary64, C30_mean_estimate_binary64, C30_mean_is_between_minimum_and_maximum_binary64, C30_mean_is_at_most_the_maximum_estimate_binary64, C30_mean_may_exceed_the_maximum_binary64, C30_max_estimate_is_the_maximum_binary64, C31_invalid_observation_breaks_the_bound_refuted, C31_tolerances_add_up_refuted, C32_growth_breaks_the_bound_refuted, C33_nan_target_is_undefined, C35_weights_are_normalised_in_binary64, C35_all_zero_weights_turn_into_nan, C35_one_nan_weight_spoils_all, C36_draws_in_binary64, C36_only_random_numbers_next_to_1_draw_wrongly, C36_zero_weight_particle_is_drawn_refuted, C39_pose_error_in_binary64, C40_machine_numbers, C40_machine_numbers_refusal, C40_nan_ranges_become_obstacles, C44_machine_numbers_own_entry, C44_machine_numbers_accuracy, C44_end_angle_is_out_of_bounds_refuted, C45_overlap_weighted_estimate_aborts_refuted, C46_split4_covers_binary64, C47_are_equal_is_reflexive_and_symmetric, C47_equality_implies_order_both_ways, C47_exact_order_is_reported, C47_reported_order_is_exact_up_to_tolerance, C47_surprises, C48_pgm_dump, C48_darker_when_more_occupied, C48_dump_after_history, C48_one_file_per_update, C49_grid_data_partial, C49_position_partial, C49_position_exact_refuted, C49_unknown_cells_refuted, C50_size_in_meters_refuted, C51_histogram_counts_every_edge_once, C51_every_point_has_a_positive_weight, C51_almost_horizontal_edges_abort_refuted, C52_window_value, C52_answers_partial, C52_cache_refuted, C54_gmapping_discrepancy_in_01, C54_tbm_discrepancy_in_01_binary64, C54_plain_discrepancy_in_01_binary64, C54_gmapping_discrepancy_in_binary64, C55_odometry_step_in_binary64, C55_same_heading_in_binary64, C59_ranges, C60_history_refuted, C61_through, C61_outside, C62_partial, C63_wall_direction, C63_correction_along_the_dominating_direction, C63_binary64, C64_reported_probability_refuted, C64_other_walls_fit_no_worse_partial, C66_reported_quality_refuted, C66_reported_quality_binary64_partial, C71_far_between_resamplings_in_binary64, C71_far_before_the_first_resampling_in_binary64, C71_resamples_when_due_in_binary64, C71_resamples_when_due_again_in_binary64, C77_text_raster_is_drawn_as_it_looks, C80_generated_ranges_respect_the_maximum_refuted, C83_unknown_cells_hide_the_best_refuted, C83_unknown_cells_abort_the_search_refuted, C83_narrow_window_loses_the_best_refuted, C84_enumeration_matchers_correct_nothing, C84_fixed_hill_climbing_corrects_nothing, C84_the_world_keeps_its_pose, C84_multi_resolution_matcher_never_answers_refuted, C84_default_multi_resolution_matcher_aborts_refuted, C85_lost_weights_never_return_refuted, C85_one_unknown_answer_loses_all_refuted, C85_all_zero_answers_lose_all_refuted, C86_multi_resolution_map_is_restored, C86_multi_resolution_levels_come_back_empty_refuted, C86_classes_without_saving, C87_observed_maps_fail_the_check, C88_scan_round_trip_partial, C88_scan_restored_iff, C88_scan_second_trip, C88_undefined_value_refuted, C88_scan_file_cut_short, C88_pose_round_trip, C88_undefined_pose_refuted, C88_scan_not_restored_refuted, C92_map_shows_the_scores, C92_tool_draws_every_translation, C93_accessors_agree, C93_conversions, C93_moving_the_origin, C93_prerotated_scan_binary64, C94_single_hypothesis_maps_report_probabilities, C94_gmapping_maps_report_probabilities, C94_published_grids_are_percentages, C95_map_is_what_the_scans_say, C95_constant_estimates_are_always_given, C95_rescalable_map_is_what_the_scans_say, C96_pose_enumeration_does_not_see_the_map_class, C96_map_class_and_size_do_not_matter, C98_map_is_what_the_particles_saw, C98_watching_changes_nothing, C99_dominating_direction_is_found, C99_wall_at_45_degrees_refuted, C99_axis_parallel_scans_partial, C102_scores_are_probabilities_or_nan, C102_scores_are_probabilities, C102_impacts_do_not_stop_the_run, C102_gmapping_scores_are_probabilities_or_nan, C102_occupancy_of_consistent_cells_stops_the_program_refuted, C102_occupancy_of_unknown_gmapping_cells_stops_the_program_refuted, C104_large_enough_map_is_as_good_as_unbounded, C104_default_area_stays_finite, C105_unknown_probability_is_never_recognised_refuted, C105_known_probabilities_partial, C105_value_below_a_multiple_is_rejected_refuted, C105_minor_direction_partial, C105_minor_direction_of_a_histogram_with_an_empty_column_refuted, C106_an_idle_matcher_draws_the_map_along_the_odometry_in_binary64, C107_gmapping_without_matching_reports_the_odometry_in_binary64, C107_gmapping_without_matching_runs_in_binary64
<!-- /assumptions -->

## 7. Findings (properties the code violates)

Each has a theorem `Cnn_..._refuted` with a witness; the notes in MANIFEST.json say what holds instead: C10 (bounded lazy map
serves out-of-map accesses), C13 (mean and GMapping cells lose counters on save), C19 (consistent TBM cell: NaN), C21 (margin
beyond the scan: undefined conversion), C25 (reused brute force matcher keeps its base pose), C31, C32 (pyramid after invalid
observations or growth), C38 (particles share one map), C41 (tail of a bag lost), C42 (included definitions win), C45
(rectangle intersection), C49 (unknown cells published as 50; float32 origin), C50 (width/height swapped), C51 (histogram
assertion), C52 (stale estimator cache), C57 (keys never read), C60, C62 (area estimator), C64, C65 (drift detector), C66
(quality above 1), C68 (time stamps), C69 (unsigned defaults), C74, C75 (GMapping master and copies), C80 (range above the
maximum), C82 (asynchronous correction: the thread is never joined, so the node ends by std::terminate), C83 (unknown cells exceed the coarse
cells covering them: the multi-resolution search loses the optimum or aborts), C84 (the multi-resolution matcher ends the program on a
scan without usable points), C85 (one unknown or all-zero match makes all particle weights NaN for ever), C86 (plain, lazy_tiled and
unbounded_lazy_tiled maps save nothing), C87 (the self-check ends the program on bounded plain maps whose width is no power of two), C88 (recorded scans and poses keep
six digits only; a scan with an undefined value cannot be read back, an undefined coordinate silently becomes 0), C89 (a shown area
can miss a row or column of cells per side), C91 (path poses have the zero quaternion; a shutdown while waiting adds a pose at the
origin), C99 (frame alignment of the hill climber has no effect: the enumerator drops the angle; it only adds the histogram's assertion failures), C105 (is_prob_unknown is always false, 0.3 is no multiple of 0.1, the minor direction of a sparse histogram is NaN), C100 (a particle may drive up to twice the configured maximum before it is matched: the x and y limits are drawn separately and compared as lx^2+ly^2). Observed with C101: the overlap of two areas depends on their distance from the origin, and far away rectangle intersection ends the program (the tolerance of the comparisons is relative). Observed with C90: the replaced transform keeps the stamp of the first correction for ever. Observed with C24: a positive rotation step below half an ulp of the starting angle is absorbed by the addition, and the brute force enumeration never ends. Observed with C102: the occupancy impact over the consistency-testing TBM cell, and over unknown GMapping cells, gives impacts outside [0, 1] or ends the program.
