{
 "C01": {
  "status": "proved",
  "note": "int arithmetic as Z"
 },
 "C02": {
  "status": "proved",
  "note": "exact arithmetic for the partition; binary64: centre round trip, shared borders, upper borders exact, lower borders up to (|i|+1)*2^-52 cells, with the border point showing the margin is needed"
 },
 "C03": {
  "status": "proved",
  "note": "exact reals and IEEE binary64 (all rounding behaviours of the loop)"
 },
 "C04": {
  "status": "proved",
  "note": "cell coverage in exact arithmetic and, for the corners' cells and every point of the rectangle, in binary64; enumeration itself over Z"
 },
 "C05": {
  "status": "proved",
  "note": "IEEE binary64 growth arithmetic; coordinates bounded by M with 4M+2*max(w,h) < 2^31 so that int never overflows"
 },
 "C06": {
  "status": "proved",
  "note": "IEEE binary64; every well-formed map whose grown extent fits int"
 },
 "C07": {
  "status": "proved",
  "note": "plus: reset outside the map is undefined behaviour (not rejected)"
 },
 "C08": {
  "status": "proved",
  "note": "any tile size up to 2^15 and the code's 128; coordinates/extent bounded so that the 32-bit index arithmetic does not wrap"
 },
 "C09": {
  "status": "proved",
  "note": "corollary of C08's refinement for a single unbounded map; coordinates within 2^22"
 },
 "C10": {
  "status": "partial",
  "note": "REFUTED: the code rejects nothing; C10_out_of_range_rejected_refuted is the witness, C10_access_characterisation says exactly which cell each access is served by"
 },
 "C100": {
  "status": "partial",
  "note": "REFUTED for the maximum distance: the limit is lx^2+ly^2 of two separate draws, so a particle may drive 5/4 of the maximum (default 1.0 m instead of 0.8 m) without being matched, whatever the configuration. Proved: matched at the latest after twice the maximum distance or the maximum turn; never before the minimum (unless a master is among its ancestors); every particle of every reachable filter has a way and a descent. Exact arithmetic."
 },
 "C101": {
  "status": "proved",
  "note": "Over the reals, for unbounded maps given by their cells (C05, C09, C96 relate the map classes to that), whole-cell displacements, constant occupancy estimates and the obstacle, maximum and mean observation probabilities. C101_overlap_depends_on_the_place shows why the overlap weighted one is excepted in the statement: rect_overlap compares coordinates with a tolerance that grows with the distance from the origin (section 7). Both runs are assumed to go through: a displacement can leave the range of int cell numbers or meet an assertion."
 },
 "C102": {
  "status": "proved",
  "note": "Exceptions stated in the property are shown real by the two theorems ending in _refuted (occupancy impact with TbmOccConsistentCell, with unknown GMapping cells). Scores rely on asserts being enabled (a cell whose impact is not a probability stops the program). M3RSM merged points (factor > 1) are outside this property."
 },
 "C103": {
  "status": "proved",
  "note": "any arithmetic; callbacks are assumed not to change the world or the matcher themselves; matcher observers for the pose enumeration matchers (brute force, hill climbing, Monte-Carlo)"
 },
 "C104": {
  "status": "proved",
  "note": "Single-hypothesis world, pose enumeration matchers, plain bounded maps (bounded lazily tiled maps answer some reads outside, C10); binary64."
 },
 "C105": {
  "status": "partial",
  "note": "REFUTED: is_prob_unknown compares with NaN and is false for every double; is_multiple_of truncates, so a value just below a multiple is rejected (0.3 of 0.1 in binary64); the minor direction is NaN whenever a column is empty (always with no more points than columns). Proved: known probabilities are never called unknown; exactly the values beyond a multiple by at most the tolerance are accepted; with no empty column the minor direction is that of the least populated one"
 },
 "C106": {
  "status": "proved",
  "note": "over R and bit-exact in binary64, for every history and any scan adder"
 },
 "C107": {
  "status": "proved",
  "note": "over R and, up to 2^20 particles with finite odometry, in binary64 bit for bit; any history and random draws; random variables of masters are assumed to give zeros only (normal distributions of deviation 0); binary64: cos 0 = 1 and sin 0 = 0 assumed of the library"
 },
 "C108": {
  "status": "proved",
  "note": "any arithmetic (reals, binary64 with NaN), any history and draws; allocation failure and integer overflow are not modelled"
 },
 "C11": {
  "status": "proved",
  "note": "byte level round trip of every serialized scalar/sequence type the code uses"
 },
 "C12": {
  "status": "proved",
  "note": "plain maps of any extent; the restored map answers every query as the saved one"
 },
 "C13": {
  "status": "partial",
  "note": "REFUTED for MeanProbabilityCell (counter not saved) and GmappingBaseCell (counters/obstacle not saved); proved for GridCell, AffineProbabilityCell, TBM cells and CredibilistCell"
 },
 "C14": {
  "status": "proved",
  "note": "IEEE binary64, histories of any length"
 },
 "C15": {
  "status": "proved",
  "note": "mean value in exact arithmetic; staying in [0,1] also in IEEE binary64 for histories of any length"
 },
 "C16": {
  "status": "proved",
  "note": "statistics in exact arithmetic (histories shorter than 2^31 so that the int counters do not overflow); range in IEEE binary64"
 },
 "C17": {
  "status": "proved",
  "note": "exact arithmetic with NaN tracking, and binary64 (every mass a finite double of [0,1], sum within 2^-50 of one)"
 },
 "C18": {
  "status": "proved",
  "note": "exact arithmetic with NaN tracking"
 },
 "C19": {
  "status": "partial",
  "note": "REFUTED for TbmOccConsistentCell (zero-quality observation or total conflict gives NaN); proved for the other TBM cells in exact arithmetic and in binary64; for the consistent cell: in exact arithmetic under a non-degeneracy hypothesis, in binary64 a number of [0,1] exactly when not all mass is unknown, NaN otherwise"
 },
 "C20": {
  "status": "proved",
  "note": "IEEE binary64 model of the unbounded plain maps, for any history, occupancy estimator and trigonometry provider; blur-distance facts are exact"
 },
 "C21": {
  "status": "partial",
  "note": "REFUTED for margin >= number of scan points (a negative double converted to size_t: undefined behaviour); proved for all smaller margins"
 },
 "C22": {
  "status": "proved",
  "note": "any enumerator, score (NaN included) and observers; generic arithmetic incl. binary64; exact reachability of the best pose in exact arithmetic"
 },
 "C23": {
  "status": "proved",
  "note": "registry without duplicate ids; generic arithmetic incl. binary64"
 },
 "C24": {
  "status": "proved",
  "note": "exact reals (exact grid, NoDup, termination); binary64 (ends, strictly increasing axes, error of the k-th value) for steps not finer than the spacing of doubles at the limits; divergence for non-positive and for too fine rotation steps proved"
 },
 "C25": {
  "status": "partial",
  "note": "REFUTED: reset() keeps the base pose, so a reused brute force matcher keeps searching around the first scan's pose; that behaviour is proved for every history"
 },
 "C26": {
  "status": "proved",
  "note": "structure in exact reals and in binary64 (steps halved exactly, the moved coordinate rounded once), termination for every score on binary64, count in any arithmetic"
 },
 "C27": {
  "status": "proved",
  "note": "any sampling function/random stream, any arithmetic"
 },
 "C28": {
  "status": "proved",
  "note": "exact reals and IEEE binary64; finding: the step budget is not a limit"
 },
 "C29": {
  "status": "proved",
  "note": "exact reals: value, unknown iff zero weight, bounds; binary64: in [0,1] (NaN only on overflowing total weight; never for weights <= 1); filter exact; the factor-multiplies-only-the-numerator counterexample is proved too"
 },
 "C30": {
  "status": "proved",
  "note": "exact reals for areas with two positive sides or a point (degenerate areas refuted); binary64: maximum, obstacle <= maximum, monotonicity exactly, the mean up to (n+1)*2^-52; the overlap estimate's convexity in exact reals only (its range in binary64: C102)"
 },
 "C31": {
  "status": "partial",
  "note": "REFUTED as stated by two binary64 counterexamples (an observation with an invalid occupancy resets coarse cells to unknown and later lowers them; the tolerances of several levels add up). Proved for every cell type, size and history of writes that leave the written cell known, with one tolerance per level, in exact arithmetic."
 },
 "C32": {
  "status": "partial",
  "note": "REFUTED: levels added by growth know nothing of the cells written before. Proved for any growth: the coarsest level's cell bounds every known cell."
 },
 "C33": {
  "status": "proved",
  "note": "Choice of a level: for any double arithmetic. Structure of the levels and restoration: exact arithmetic with infinity, every growth, every use incl. nested scopes. A NaN target is undefined behaviour (theorem)."
 },
 "C34": {
  "status": "proved",
  "note": "Branch and bound over exact reals for every score function, window, steps and every queue: returned match optimal up to the queue's slack (C34_best_match), always found (C34_search_ends), candidates dense (C34_candidates_dense); queue exact for separated probabilities (C34_exact_queue), off by 1e-7 for a queue returning a maximal element (C34_near_queue). FINDING: operator< of Match is cyclic because of its tolerances (C34_order_cyclic), so std::priority_queue's precondition can be violated."
 },
 "C35": {
  "status": "proved",
  "note": "exact arithmetic; the zero/NaN cases in binary64"
 },
 "C36": {
  "status": "proved",
  "note": "any arithmetic for the copying; exact arithmetic for the intervals; the binary64 exception is C36_zero_weight_particle_is_drawn_refuted"
 },
 "C37": {
  "status": "proved",
  "note": "any arithmetic, random stream, matcher and adder; C++ objects modelled as a heap with pointers"
 },
 "C38": {
  "status": "partial",
  "note": "REFUTED: C38_all_particles_share_one_map_refuted proves that in every reachable filter all the particles share one map object (the factory copies the map pointer)"
 },
 "C39": {
  "status": "proved",
  "note": "single-hypothesis pose in exact arithmetic and with its rounding error in binary64; observers for any world; callbacks are assumed not to change the world"
 },
 "C40": {
  "status": "proved",
  "note": "Exact arithmetic, and the machine's numbers (C40_machine_numbers, _refusal: binary32 fields, binary64 scan, rounding errors of up to 2^24 accumulated additions, any ranges incl. NaN and infinities; fans within 7 radians and 16 radians in total)."
 },
 "C41": {
  "status": "partial",
  "note": "REFUTED at the end of the bag (C41_tail_lost_refuted): a message found too old there ends playback, so transformable messages behind it are lost; an unknown frame ends the program (C41_early_message_throws). Proved for every bag and every transform-cache behaviour: order, no duplicates, every delivered transform was found, what happens to the others (C41_delivered_in_order_partial), playback ends (C41_playback_ends), and completeness when no message is ever too old and all are transformable in the end (C41_all_delivered_partial). The transform cache (tf library) is a parameter."
 },
 "C42": {
  "status": "partial",
  "note": "REFUTED for overriding (C42_no_override_refuted, C42_included_wins: a definition in an included file always wins). Proved: the complete meaning for all file systems and include graphs (C42_meaning_partial), last definition wins, comments ignored (C42_last_definition_partial). libc dirname is a parameter."
 },
 "C43": {
  "status": "proved",
  "note": "get_dbl (std::stod) is not modelled; the others are, including std::stoi/stoul syntax. Note: get_uint accepts -1 (4294967295) and reduces larger numbers modulo 2^32 silently."
 },
 "C44": {
  "status": "proved",
  "note": "Exact arithmetic for any history of updates; machine numbers for the provider built for a message (C44_machine_numbers_own_entry for any libm, C44_machine_numbers_accuracy for an accurate one; steps of at least 2^-14 radians, counterclockwise). The two exceptions named in the statement are also proved."
 },
 "C45": {
  "status": "partial",
  "note": "REFUTED for crossing rectangles (intersection lost), disjoint ones (the point (0,0)) and rectangles closer than the tolerance (assertion failure, also in the overlap-weighted estimator in binary64); proved exact for all other tolerance-separated pairs; overlap ratio likewise; the three-corner assertion proved unreachable"
 },
 "C46": {
  "status": "proved",
  "note": "exact reals for all three splits; binary64 coverage for the four-way split"
 },
 "C47": {
  "status": "proved",
  "note": "binary64, all doubles where stated; surprises (less not strict, inf) proved as such"
 },
 "C48": {
  "status": "proved",
  "note": "For every map with at most INT_MAX cells and any cell doubles (NaN, infinities included) over IEEE-754 doubles; C48_dump_after_history composes it with the unbounded map's refinement theorem (C05). The stream itself is modelled as the bytes written."
 },
 "C49": {
  "status": "partial",
  "note": "REFUTED in two parts: never observed cells of the naive/TBM cell models (is_unknown) have occupancy 0.5 and are published as 50, not -1 (only GMapping's -1 is published as -1); the origin is computed in float32, so external cell (0,0) starts at the world origin only up to a relative error of 2^-22. Proved: layout, percentages (up to one rounding error, e.g. 0.15 is published as 15), origin error bound, publishing interval."
 },
 "C50": {
  "status": "partial",
  "note": "REFUTED: init_grid_map_params reads the width from height_in_meters and the height from width_in_meters; only maps with equal cell counts have the configured size (all shipped configurations are square). Proved: exact characterisation, and the size of square maps over the reals."
 },
 "C51": {
  "status": "partial",
  "note": "REFUTED in binary64: C51_almost_horizontal_edges_abort_refuted (assertion angle < pi fails for a nearly horizontal edge going left). Proved in exact real arithmetic for every scan"
 },
 "C52": {
  "status": "partial",
  "note": "REFUTED: the cache is keyed by the obstacle's cell only, so another obstacle in the same cell, or the same one after a map update (or for another particle's map: all particles share the estimator), gets the stale answer. Proved: the exact answers to every history, and what the uncached value is."
 },
 "C53": {
  "status": "proved",
  "note": ""
 },
 "C54": {
  "status": "proved",
  "note": "exact arithmetic for all kinds; binary64 for all kinds (GMapping: std::exp a parameter that is at most 1 on non-positive arguments)"
 },
 "C55": {
  "status": "proved",
  "note": "exact arithmetic; binary64 with an accurate sine and cosine (parameters)"
 },
 "C56": {
  "status": "proved",
  "note": "std::exit is modelled as Abort; std::stod is a parameter."
 },
 "C57": {
  "status": "partial",
  "note": "REFUTED: slam/scmtch/oope/custom/window_size (code reads 'cutrom/window_size'), ros/skip_exceeding_lsr_vals (code reads in/lscan2D/skip_exceeding_vals), observation_quality_estimator/type (code reads '.../typetype') and the shipped BF_M3RSM 'limit/...' keys (code reads 'limits/...') have no effect. Proved for the other matcher, estimator and occupancy parameters. Also slam/cell/type of the README is read nowhere (not stated as a theorem)."
 },
 "C58": {
  "status": "proved",
  "note": "Reading the files is C42; the trajectory dumper is only recorded."
 },
 "C59": {
  "status": "proved",
  "note": "Binary64, every beam/cell/rounding; the cell's computed area is finite and positive."
 },
 "C60": {
  "status": "partial",
  "note": "REFUTED (C60_history_refuted, binary64): the shift applied to a beam along a border is a function-local static computed by the first query of the program; the same query gets quality 0.01, 0.5 or aborts depending on an earlier query. Proved: independence for beams not along a border (C60_partial), and for programs where all cells have one side and all estimators one low quality (C60_same_cells_partial)."
 },
 "C61": {
  "status": "proved",
  "note": "Exact reals; areas as Riemann integrals (Spec/AreaSpec.v). C61_through: completeness and value for beams whose way through the cell is longer than twice the comparison tolerance; C61_outside: no other valid answer for any beam with both ends outside. Beams along a border are shifted first (C60)."
 },
 "C62": {
  "status": "partial",
  "note": "REFUTED (C62_refuted): cell (0..1)^2, beam (-2,0.5)->(0.25,0.5): 3/4 of the cell lie beyond the end, the answer is 1/4 (are_on_the_same_side ignores the line's position; the unit tests only use a cell centred at the origin). C62_partial: the answer is always the share on one side of the front line, and exactly which side, for every beam whose front line crosses the border in two points."
 },
 "C63": {
  "status": "proved",
  "note": "Full over exact reals (C63_correction_along_the_dominating_direction, with the wall directions tied to the geometry by C63_wall_direction) and over binary64 with any libm and any estimator incl. NaN (C63_binary64, for scans whose histogram can be built; the two-fifths test is proved exact in binary64). 'Remaining walls' means walls whose column's size differs from the largest one: columns of equal size are ignored too."
 },
 "C64": {
  "status": "partial",
  "note": "REFUTED: C64_reported_probability_refuted gives a scan, map and estimator (mean occupancy) where the detector moves the pose and reports 1/5 instead of 4/5 (the code itself prints [CtD][Bug] then). Proved instead: for the walls outside the dominating direction the returned pose is at least as good."
 },
 "C65": {
  "status": "partial",
  "note": "REFUTED: C65_detector_observers_refuted - observers of the detector are never notified, in any run. Without the detector they are (C65_plain_matcher_observers_partial, C23)."
 },
 "C66": {
  "status": "partial",
  "note": "REFUTED in binary64 (two observations of probability 1/3, quality 1 give 1+2^-52); proved in exact arithmetic, and at most 1+2^-49 in binary64"
 },
 "C67": {
  "status": "proved",
  "note": "Exact arithmetic with the real cos/sin; tf's matrix code is modelled. The 3D rotation of the looked-up transform is kept (only z of the origin is dropped), as in the code."
 },
 "C68": {
  "status": "partial",
  "note": "REFUTED: seconds and nanoseconds are written as sec.nsec without padding, so 1 s + 5 ns reads as 1.5 s, later than 1.1 s. Proved: the time is right exactly when the nanoseconds are 0 or at least 10^8; one line per pose, in order."
 },
 "C69": {
  "status": "partial",
  "note": "REFUTED for unsigned defaults of 2^31 and more (the default is converted to int and the assert ends the program). Proved: last value set wins and reads as in a file, defaults otherwise, typed parameters, config file wins. An int parameter read as a boolean silently gives the default (C69_typed)."
 },
 "C70": {
  "status": "proved",
  "note": "The tf message filter (library) decides which messages arrive; its queue is not modelled."
 },
 "C71": {
  "status": "proved",
  "note": "Stated over the run of the world with any matcher, adder, noise and uniform draws; travel in exact reals. Resampling is observed as a change of the particle set."
 },
 "C72": {
  "status": "proved",
  "note": "The scans extracted from the bag are those of the bag topic model (C41, BagTopic.v)."
 },
 "C73": {
  "status": "proved",
  "note": "Any arithmetic (binary64 included), any matcher and adder, watched by logs (Spec/ParticleScanSpec.v); the scan after any history of a new filter. C73_the_watched_map_is_there: the one shared map named in the statement always exists."
 },
 "C74": {
  "status": "partial",
  "note": "REFUTED: marking a particle as master does not reset the limit it drew before, so the new master ignores scans until it has moved that far (C74_master_ignores_scans_before_its_limit_refuted: no scan is used at all while the way stays below all drawn limits; 0.8 m in 0.1 m steps with the default limits). Proved: from the first scan the master is matched with, it is matched with every later one and without noise."
 },
 "C75": {
  "status": "partial",
  "note": "REFUTED: the copy copies the Mersenne twister too (particle_filter.h:95); copies drawn from one particle are equal in every field, and equal particles stay equal until the next resampling with a matcher whose answers depend on scan and pose only."
 },
 "C76": {
  "status": "proved",
  "note": "Any matcher and adder, watched by logs."
 },
 "C77": {
  "status": "proved",
  "note": "Plain unbounded map (growth included, via C05), any cell type and arithmetic; raster texts are lists of chars as std::getline reads them; int overflow of the drawing's coordinates is excluded by the hypotheses."
 },
 "C78": {
  "status": "proved",
  "note": "The free rectangle over exact reals (its corners are small integers)."
 },
 "C79": {
  "status": "proved",
  "note": "Structure for every arithmetic and trigonometry (binary64 included), sector coverage and self-fit over exact reals. The generator's internal assertions (a beam with 0 line intersections, a point outside its cell) are Abort in the model; theorems speak about runs that return."
 },
 "C80": {
  "status": "partial",
  "note": "REFUTED: the last cell of the beam is measured along the prolonged line, so the range may exceed the maximum (C80_..._refuted: maximum 1.6, range 2). Proved instead: a range is at most the maximum plus a cell's diagonal (exact reals)."
 },
 "C81": {
  "status": "proved",
  "note": "Two threads, one step per shared access; mutex semantics as in the standard; sequentially consistent memory (all shared accesses are under the mutex, so data-race freedom makes this faithful). No fairness is assumed: progress is possibility of going on, not a bound on waiting."
 },
 "C82": {
  "status": "partial",
  "note": "REFUTED: an asynchronous publisher starts a std::thread which nothing joins or detaches; destroying the publisher calls std::terminate, so no execution returns from main. What holds: without asynchronous correction every execution can be ended normally and none is terminated."
 },
 "C83": {
  "status": "partial",
  "note": "REFUTED in general. C83_unknown_cells_hide_the_best_refuted / C83_unknown_cells_abort_the_search_refuted: with default cells an unknown cell has the impact 1/2 while the coarse cell covering it may be known and lower, so (binary64, 4x4 map, valid observations only) the search returns 0.1 although a candidate scores 0.5, or ends in the assertion 'Bounding assumption is violated'. C83_narrow_window_loses_the_best_refuted: a window of no width is rasterised as its corner. Proved for the rest: C83_search_finds_the_best_partial (any cell type, impact in [0,1], any history of writes leaving cells known on fixed-size levels, unknown cells not above the covering coarse cells, window of positive width and height, any scan within 2^30 cells, any nonnegative weights, any queue): all scores the search needs exist, it ends, and its result is optimal up to the queue's delta plus 1e-7 per level; C83_laser_scan_is_matched_best_partial is the same from a polar laser scan with the real cos/sin and even weights. The condition on unknown cells holds whenever their impact is the least one (C83_least_unknown_impact_suffices). Exact arithmetic with infinities; growth of the map is C32 (refuted there)."
 },
 "C84": {
  "status": "partial",
  "note": "REFUTED for the multi-resolution matcher: C84_multi_resolution_matcher_never_answers_refuted (any map, limits, accuracy, queue: the search never returns, an assertion about NaN ends the program) and C84_default_multi_resolution_matcher_aborts_refuted (default limits: abort). Proved for the rest: C84_nothing_is_left_and_its_probability_is_unknown, C84_enumeration_matchers_correct_nothing (brute force, hill climbing, Monte Carlo: any enumerator, any number of steps), C84_fixed_hill_climbing_corrects_nothing, C84_the_world_keeps_its_pose (binary64)."
 },
 "C85": {
  "status": "partial",
  "note": "REFUTED: C85_one_unknown_answer_loses_all_refuted (one scan whose match is unknown to one asking particle makes all weights NaN), C85_all_zero_answers_lose_all_refuted (so do answers that are all zero, which C85_unmatched_point_scores_zero shows the GMapping estimator gives on free surroundings), C85_lost_weights_never_return_refuted (for every later history: no resampling, the pose is the last particle's). Proved under the condition that the matcher's answers are positive: C85_weights_stay_normalised_partial (exact arithmetic, every history)."
 },
 "C86": {
  "status": "partial",
  "note": "REFUTED: maps of type plain, lazy_tiled and unbounded_lazy_tiled inherit GridMap::save_state, which writes nothing: every cell that differs from the prototype is lost (C86_plain_map_is_not_saved_refuted, C86_lazy_maps_are_not_saved_refuted); under the multi-resolution matcher their levels come back 0 x 0 with scale 0 (C86_multi_resolution_levels_come_back_empty_refuted, C86_classes_without_saving), and an empty file ends the program (C86_empty_file_ends_the_program_refuted). PROVED for all histories: the multi-resolution map over unbounded_plain levels is restored level by level (C86_multi_resolution_map_is_restored); the single unbounded_plain map is C12. The cell codecs of GridCell and TBM cells are exact (C12_exact_codecs, C86_codecs); mean and GMapping cells lose counters (C13)."
 },
 "C87": {
  "status": "partial",
  "note": "REFUTED: on a bounded plain map (type plain) whose width is no power of two the check ends the program by the assertion of operator[], for a new map and after any writes (C87_bounded_map_ends_the_program_refuted); the default map of 1000 x 1000 cells is such a map. PROVED: for unbounded access the answer is right after any use and growth (C87_self_check_is_right), it is given for all maps up to 2^30 x 2^30 that keep their size (C87_self_check_answers), a new map passes (C87_new_map_passes). Consequences: maps made by valid observations can fail it (C87_observed_maps_fail_the_check, because of C31/C32), a map that lost its cells on loading passes it (C87_map_without_cells_passes, C86). Exact arithmetic with infinities (EReal); binary64 in C87_observed_maps_fail_the_check."
 },
 "C88": {
  "status": "partial",
  "note": "REFUTED as stated: doubles are written with six significant digits, so a distance of 1/3 is not restored (C88_scan_not_restored_refuted), a scan with an infinite or undefined value cannot be read back (undefined behaviour, C88_undefined_value_refuted), and an undefined pose coordinate silently becomes 0 with all that follow (C88_undefined_pose_refuted). Proved: points, order, flags and signs are kept and values are within 1e-5 (C88_scan_round_trip_partial, C88_pose_round_trip); exactly which scans are restored (C88_scan_restored_iff); a second trip loses nothing; what a file cut short does."
 },
 "C89": {
  "status": "partial",
  "note": "REFUTED in the wording \"every place asked for is shown\": C89_wanted_part_is_cut_refuted (cells of 1 m, half a meter around (1/2,1/2): the place half a meter to the right is not shown). Proved: the text is a faithful picture of the rectangle of cells around the center (any arithmetic), the rectangle misses at most one row or column of cells per side (exact arithmetic), and none when the distances are whole numbers of cells; a window over the edge of a bounded map ends the program."
 },
 "C90": {
  "status": "proved",
  "note": "All of the claim, for every history. The replaced transform keeps the payload, stamp included, of the first recorded correction."
 },
 "C91": {
  "status": "partial",
  "note": "REFUTED: C91_poses_have_no_direction_refuted (every pose of every message has the zero quaternion), C91_invented_pose_refuted (shutdown while waiting for a transform appends a pose at the origin nobody found). Proved: without a shutdown the k-th message holds exactly the first k+1 poses found (positions, frames, stamps), and C91_shutdown says exactly what a shutdown adds."
 },
 "C92": {
  "status": "proved",
  "note": "C92_map_shows_the_scores for every matcher and score; C92_tool_draws_every_translation for the tool's 201 x 201 search in binary64."
 },
 "C93": {
  "status": "proved",
  "note": "C93_accessors_agree, C93_conversions and C93_moving_the_origin hold in exact arithmetic for every point; C93_prerotated_scan_binary64 is about machine numbers for any libm and provider. The quality factor is not kept by a conversion (the code constructs a new point with factor 1), which the statement says."
 },
 "C94": {
  "status": "proved",
  "note": "Proved end to end on binary64 for both worlds and all configurable classes, with no condition on scans, poses, scale or the scan matcher; the conditions are that configured occupancies and qualities are in [0,1] and that the run returns. TbmOccConsistentCell may be NaN (C19)."
 },
 "C95": {
  "status": "proved",
  "note": "All four map classes, all estimators (insertion conditional on their answers), binary64. Rescalable maps: the map is what the scans say for every run that returns (that it returns is assumed; C31-C33 say when writes to such maps return)."
 },
 "C96": {
  "status": "proved",
  "note": "Unbounded plain and lazily tiled maps, single-hypothesis world, matchers that only read cells."
 },
 "C97": {
  "status": "proved",
  "note": "Any arithmetic, matcher and adder (parameters). The target of slams/graph is commented out in CMakeLists.txt; the class is complete. The unused look-up of near nodes (close_loop returns false) is not modelled."
 },
 "C98": {
  "status": "proved",
  "note": "Binary64; libm and random streams are parameters. That the map is one for all particles is C38's finding; which particles add a scan is C73."
 },
 "C99": {
  "status": "partial",
  "note": "REFUTED: C99_alignment_changes_no_answer_refuted (any arithmetic, any history: with and without alignment every answer, tested pose and announcement is the same), C99_wall_at_45_degrees_refuted (a wall at 45 degrees is never searched along and across). What holds: C99_dominating_direction_is_found (the direction asked for is right, exact reals), C99_axis_parallel_scans_partial. Missing: any use of the direction in the code."
 }
}