{"id": "C01", "title": "Discrete segment is an 8-connected minimal line from begin to end", "statement": "Building a DiscreteSegment2D from integer points beg and end yields a point sequence whose first point is beg, whose last point is end, which has exactly max(|dx|,|dy|)+1 points, in which consecutive points differ by at most 1 per axis and by exactly 1 (in the direction of travel) along the longer axis, and in which every point is within half a cell (along the shorter axis) of the ideal line.", "quantifier": "every pair of integer points (no bound on coordinates)", "why_tests_cant": "the set of point pairs is infinite and all octants and slopes must behave alike", "anchors": ["src/core/geometry_discrete_primitives.h: DiscreteSegment2D"]}
{"id": "C02", "title": "World points are partitioned into grid cells", "statement": "world_to_cell assigns every world point to exactly one cell, the cell's reported world bounds are the half-open square containing the point, and mapping a cell to its centre and back is the identity; neighbouring cells' bounds share a border and never overlap. In binary64 the centre round trip and the shared borders (bit for bit) stay exact, a point is never at or above the exact upper borders of its cell nor above the reported ones, and it can be below the lower ones only by the rounding of a quotient and a product (0.5 with cells of 0.1 is).", "quantifier": "every cell coordinate, every finite world point, every positive scale", "why_tests_cant": "infinitely many points, scales and cells", "anchors": ["src/core/maps/regular_squares_grid.h: world_to_cell, cell_to_world, world_cell_bounds"]}
{"id": "C03", "title": "Rasterizing a world segment gives a connected cell path between its end cells", "statement": "world_to_cells(segment) terminates and returns a sequence that starts at the cell of the segment's begin, ends at the cell of its end, moves to one of the 8 neighbours at every step, and never visits more cells than |dx|+|dy|+1, whatever rounding does to the intermediate floating point comparisons.", "quantifier": "every segment, every grid scale, every outcome of the floating point comparisons made inside the loop", "why_tests_cant": "floating point rounding can send the incremental walk astray on inputs no test picks; the guarantee must hold for all of them", "anchors": ["src/core/maps/regular_squares_grid.h: world_to_cells"]}
{"id": "C04", "title": "Rectangle rasterization enumerates every covered cell exactly once", "statement": "Iterating a GridRasterizedRectangle yields every cell coordinate between the cells of the rectangle's left-bottom and right-top corners exactly once and no other cell, and then reports exhaustion; in particular the cell of every point of the rectangle is among them, in binary64 as well, however the quotients by the scale are rounded (finite sides, computed area neither zero nor infinite); a degenerate (empty) rectangle yields one cell, an infinite one yields every cell of the bounded grid.", "quantifier": "every rectangle, grid size and origin", "why_tests_cant": "all rectangles and positions of the borders relative to the cell lattice", "anchors": ["src/core/maps/grid_rasterization.h: GridRasterizedRectangle"]}
{"id": "C05", "title": "Unbounded plain map is a total function from cells to values", "statement": "After any sequence of update/reset operations an UnboundedPlainGridMap reads at every coordinate exactly what a mathematical map Z x Z -> cell (initially the prototype everywhere) would return after the same operations: growth never loses, moves or duplicates a cell and never changes cells not addressed.", "quantifier": "every sequence of operations at any coordinates, every initial size, every coordinate read afterwards", "why_tests_cant": "needs every growth direction, amount and history of origins", "anchors": ["src/core/maps/plain_grid_map.h: UnboundedPlainGridMap::update, reset, operator[], ensure_inside"]}
{"id": "C06", "title": "Map growth arithmetic always covers the requested cell and never wraps", "statement": "When an unbounded map is asked for an external coordinate, after growth the coordinate is inside, the new extent is never smaller than the old one, the number of prepended plus appended plus old cells equals the new extent in each dimension, and the reserve never becomes negative (unsigned wrap-around).", "quantifier": "every map size >= 1, origin and coordinate", "why_tests_cant": "off-by-one in unsigned arithmetic and in the 1.2 expansion heuristics surfaces only for particular sizes", "anchors": ["src/core/maps/plain_grid_map.h: determine_cells_nm, ensure_inside"]}
{"id": "C07", "title": "Bounded plain map access", "statement": "On a bounded PlainGridMap, reads and updates at coordinates inside the map return/modify exactly the addressed cell and leave all others unchanged; reads outside the map are rejected (assertion), never served from another cell.", "quantifier": "every size, coordinate and operation sequence", "why_tests_cant": "all coordinates including negative ones and corners", "anchors": ["src/core/maps/plain_grid_map.h: PlainGridMap", "src/core/maps/regular_squares_grid.h: has_internal_cell, external2internal"]}
{"id": "C08", "title": "Copies of a lazily tiled map are independent (copy-on-write isolation)", "statement": "After a lazily tiled map has been copied, any sequence of writes to any of the copies is visible in the written copy only: every copy always reads as if it had been deep-copied.", "quantifier": "every interleaving of copies and writes over any number of maps", "why_tests_cant": "aliasing through shared tiles/cells depends on the full sharing history", "anchors": ["src/core/maps/lazy_tiled_grid_map.h: LazyTiledGridMap::reset, update, Tile"]}
{"id": "C09", "title": "Unbounded lazily tiled map is a total function from cells to values", "statement": "After any sequence of updates/resets an UnboundedLazyTiledGridMap reads at every coordinate exactly what a total mathematical map with the prototype as default would, irrespective of tile growth.", "quantifier": "every operation sequence and coordinate", "why_tests_cant": "tile-granular growth with origin shifts on both axes", "anchors": ["src/core/maps/lazy_tiled_grid_map.h: UnboundedLazyTiledGridMap"]}
{"id": "C10", "title": "Bounded lazily tiled map rejects or isolates out-of-map access", "statement": "Accessing a bounded LazyTiledGridMap outside its extent never reads or modifies a different, valid cell.", "quantifier": "every map size and out-of-range coordinate", "why_tests_cant": "requires enumerating tile index arithmetic for all coordinates", "anchors": ["src/core/maps/lazy_tiled_grid_map.h: LazyTiledGridMap::tile, cell_internal"]}
{"id": "C11", "title": "Binary serialization round-trips", "statement": "Deserializing the byte stream produced by serializing any sequence of values of the supported primitive types (integers, booleans, sizes, doubles including NaN, infinities and signed zeros) in the same order returns the same values bit for bit and consumes exactly the bytes written.", "quantifier": "every sequence of values", "why_tests_cant": "the value space is infinite; stream positions depend on the entire prefix", "anchors": ["src/core/serialization.h: Serializer, Deserializer"]}
{"id": "C12", "title": "Saving and loading an unbounded plain map is lossless", "statement": "Loading the state saved by an UnboundedPlainGridMap into another map of the same cell type gives a map with the same size, scale, origin and a cell-by-cell equal content, whatever the loading map contained before.", "quantifier": "every reachable map state and every previous state of the loading map", "why_tests_cant": "all sizes, origins and contents", "anchors": ["src/core/maps/plain_grid_map.h: save_state, load_state", "src/core/maps/grid_cell.h: serialize, deserialize"]}
{"id": "C13", "title": "A saved and re-loaded cell continues as the original would", "statement": "A cell restored from its serialized form reacts to all further observations exactly as the original cell does.", "quantifier": "every cell type, every observation history before the save and after the load", "why_tests_cant": "lost hidden state shows only in later updates", "anchors": ["src/core/maps/naive_grid_cells.h: MeanProbabilityCell", "src/core/maps/grid_cell.h", "src/core/maps/tbm_grid_cells.h"]}
{"id": "C14", "title": "Affine quality merge keeps occupancy a probability", "statement": "A cell of the affine-merge kind whose observations have probability and quality in [0,1] always reports an occupancy in [0,1], in IEEE double arithmetic; with quality 0 the occupancy does not change and with quality 1 it becomes the observed one.", "quantifier": "every observation history of any length, in double precision", "why_tests_cant": "rounding errors accumulate along unbounded histories", "anchors": ["src/core/maps/naive_grid_cells.h: AffineQualityMergeCell"]}
{"id": "C15", "title": "Mean cell stores the mean of its observations", "statement": "A mean-probability cell that received n>0 valid observations reports exactly the average of the n quality-adjusted observations 0.5+(o-0.5)*q (exact arithmetic; 0.5 before any observation), and in IEEE double arithmetic the value stays in [0,1], within 3/2 (n+1) 2^-53 of that average for up to 2^53 observations; invalid observations (NaN) leave it unchanged.", "quantifier": "every observation history", "why_tests_cant": "unbounded histories", "anchors": ["src/core/maps/naive_grid_cells.h: MeanProbabilityCell"]}
{"id": "C16", "title": "GMapping cell reports the hit ratio and the mean obstacle position", "statement": "After n>0 valid observations the GMapping cell reports as occupancy the mean over the n observations of (the observed probability if it is above 1/2, else 0), which is hits/n for certain observations, and the mean of the hit points as the obstacle; before any observation it reports unknown (-1). In IEEE doubles the occupancy stays in [0,1] once there was a valid observation and is within 3/2 (n+1) 2^-53 of that mean, and the obstacle is within 3/2 (m+1) 2^(e-53) per coordinate of the mean of the m hit points, if their coordinates are at most 2^e in magnitude.", "quantifier": "every observation history", "why_tests_cant": "unbounded histories", "anchors": ["src/slams/gmapping/gmapping_grid_cell.h: GmappingBaseCell"]}
{"id": "C17", "title": "Belief assignments stay normalised", "statement": "Starting from any base-belief assignment built from an occupancy in [0,1] with quality in [0,1], any sequence of conjunctive/disjunctive combinations, normalisations, conflict normalisations and cell updates keeps every belief mass in [0,1] (in exact arithmetic and in binary64) and the masses summing to 1 (exactly in exact arithmetic, within 2^-50 in binary64); an updated cell keeps no conflict mass.", "quantifier": "every history of cell updates", "why_tests_cant": "unbounded histories, four-component state", "anchors": ["src/core/maps/transferable_belief_model.h: BaseTBM", "src/core/maps/tbm_grid_cells.h"]}
{"id": "C18", "title": "Belief combination rules obey the Dempster-Shafer algebra", "statement": "Conjunctive combination is commutative and associative, has the vacuous (unknown) belief as identity; disjunctive combination is commutative, associative, has the total-conflict belief as identity and absorbs into unknown; both agree with the set-theoretic definition (mass of each subset A is the sum over pairs of subsets whose intersection/union is A).", "quantifier": "all belief assignments", "why_tests_cant": "algebraic laws over a continuum", "anchors": ["src/core/maps/transferable_belief_model.h: conjunctive, disjunctive"]}
{"id": "C19", "title": "TBM cells always report a probability", "statement": "Whatever observations with probability and quality in [0,1] a TBM cell receives, its reported occupancy is a number in [0,1] (never NaN), in exact arithmetic and in binary64.", "quantifier": "every observation history", "why_tests_cant": "division by vanishing masses only on special histories", "anchors": ["src/core/maps/tbm_grid_cells.h: TbmOccConsistentCell, TbmUnknownEvenOccCell"]}
{"id": "C20", "title": "Inserting a scan point updates exactly the cells of its ray", "statement": "Appending a scan to the map updates, for every scan point within range, the cell containing the point with the point's occupied/free estimate and every other cell of the ray from the robot to it with a free-space estimate, and changes no other cell of the map; points beyond the maximal range change nothing.", "quantifier": "every map, pose and scan", "why_tests_cant": "all rays and maps; the frame condition quantifies over all cells", "anchors": ["src/core/maps/grid_map_scan_adders.h: WallDistanceBlurringScanAdder"]}
{"id": "C21", "title": "Scan margin trims without out-of-bounds access", "statement": "append_scan with a margin ignores exactly `margin` points at each end of the scan and never reads outside of the scan, for any margin.", "quantifier": "every scan length and margin", "why_tests_cant": "unsigned underflow occurs only for margins larger than half of the scan", "anchors": ["src/core/maps/grid_map_scan_adders.h: GridMapScanAdder::append_scan"]}
{"id": "C22", "title": "Enumeration-based scan matcher returns the best pose it tested", "statement": "A pose enumeration scan matcher returns the probability of the best pose it tested and the difference between that pose and the initial one (so that, up to the floating-point rounding of that difference, applying the correction reaches that pose). The probability is not less than that of the initial pose and is the maximum over all poses tested; ties keep the first one.", "quantifier": "every enumerator behaviour, every probability function", "why_tests_cant": "quantifies over all scoring functions and enumerators", "anchors": ["src/core/scan_matchers/pose_enumeration_scan_matcher.h: process_scan"]}
{"id": "C23", "title": "Scan matching observers see a consistent protocol", "statement": "During one match observers are told once that matching started, then for every tested pose a scan-test notification in order, a pose-update notification exactly when the best pose improves with strictly increasing probabilities, and once at the end the final result, equal to the value returned.", "quantifier": "every enumerator and probability function, every set of observers", "why_tests_cant": "all event interleavings", "anchors": ["src/core/scan_matchers/pose_enumeration_scan_matcher.h", "src/core/scan_matchers/grid_scan_matcher.h: GridScanMatcherObserver"]}
{"id": "C24", "title": "Brute force enumeration covers its search grid exactly once and stops", "statement": "For positive steps, a new brute force pose enumerator yields, in one matching run, every (x,y,rotation) offset of its grid around the initial pose exactly once, and then reports exhaustion. The grid is from+i*step: rotations up to the upper limit, x and y until the first value that reaches the upper limit (which can exceed it by less than one step). In doubles the same holds for steps not finer than the spacing of doubles at the limits (limits and steps within 2^1000): matching ends, each axis is strictly increasing and its k-th value is within k half spacings of from+k*step; a positive rotation step that does not change its lower limit when added never ends.", "quantifier": "every range and step", "why_tests_cant": "all ranges and steps", "anchors": ["src/core/scan_matchers/brute_force_scan_matcher.h: BruteForcePoseEnumerator"]}
{"id": "C25", "title": "A reused scan matcher does not remember earlier scans", "statement": "Running a brute force matcher on a scan gives the same tested poses whether or not the same matcher object processed other scans before.", "quantifier": "every history of earlier scans", "why_tests_cant": "state leaking between runs depends on history", "anchors": ["src/core/scan_matchers/brute_force_scan_matcher.h: reset, next"]}
{"id": "C26", "title": "Hill climbing search always terminates within its failure budget", "statement": "The hill climbing matcher always terminates. It tests whole rounds of six one-coordinate moves (+x,-y,+rotation,-x,+y,-rotation) from the best pose at the start of the round; a round without improvement halves the steps; it stops after max_failed_rounds such rounds and one more test, so without improvements it tests exactly 6*max_failed_rounds+1 poses. In doubles (steps and poses between 2^-900 and 2^1000 in absolute value or zero poses, at most 100 failed rounds) the steps are halved exactly, the moved coordinate is rounded once and the two others do not change.", "quantifier": "every feedback sequence", "why_tests_cant": "all feedback histories", "anchors": ["src/core/scan_matchers/hill_climbing_scan_matcher.h: FailedRoundsLimitedPoseEnumerator"]}
{"id": "C27", "title": "Monte-Carlo search respects its pose budgets", "statement": "The Monte-Carlo matcher never tests more than the configured number of poses, never goes on after the configured number of consecutive failures (more precisely, failures counted since the last success that came after a third of the failure budget was used), stops only for one of these two reasons, and terminates for every random stream and feedback. Each tested pose is the best pose so far moved by a fresh sample; the dispersions start at the configured values and are halved exactly at the successes that come after more than a third of the failure budget was used.", "quantifier": "every random stream and feedback", "why_tests_cant": "nondeterminism of the random engine", "anchors": ["src/core/scan_matchers/monte_carlo_scan_matcher.h: GaussianPoseEnumerator"]}
{"id": "C28", "title": "Fixed hill climbing matcher returns the best pose visited", "statement": "The fixed-step hill climbing matcher terminates and returns a correction whose probability is the one reported (within 2^-53 in floating point) and is not less than the initial pose's probability.", "quantifier": "every scoring function", "why_tests_cant": "all scoring functions", "anchors": ["src/core/scan_matchers/hcsm_fixed.h"]}
{"id": "C29", "title": "Scan probability is a weighted mean", "statement": "The scan probability estimator returns the weighted mean of its points' probabilities (times the points' factors): NaN (unknown) exactly when the total weight is zero; with point factors 1, nonnegative weights and point probabilities in [lo,hi] the value is in [lo,hi], and in [0,1] even with binary64 rounding. The filtered scan consists of exactly the raw points that are occupied, usable in range, on the map and at an index divisible by the skip rate. (With factors other than 1 the value can leave [0,1].)", "quantifier": "every scan, weighting and map", "why_tests_cant": "arbitrary scans and weights", "anchors": ["src/core/scan_matchers/weighted_mean_point_probability_spe.h"]}
{"id": "C30", "title": "Observation probability estimators are ordered and monotone", "statement": "For every map and observation area: the obstacle-only estimate never exceeds the area-maximum estimate when the area (with two positive sides, or a single point) contains the obstacle, the area mean lies between the area minimum and maximum, the overlap-weighted estimate is 0.5 or a convex combination of covered cells with nonnegative weights, the maximum estimate is the largest covered impact (or 0) and is monotone in the area. In binary64 the claims about the maximum and the obstacle hold exactly, and the mean of n impacts is within (n+1)*2^-52 of the exact one, so it may leave the interval only by that much (three cells of 0.1 do average above 0.1).", "quantifier": "every map content and area", "why_tests_cant": "all maps and areas", "anchors": ["src/core/scan_matchers/occupancy_observation_probability.h"]}
{"id": "C31", "title": "M3RSM pyramid: a coarse cell bounds all fine cells it covers", "statement": "After any sequence of updates to an M3RSM rescalable map with fixed-size levels, every coarser level's cell has an impact not less than the impact of every known cell of finer levels it covers (up to the documented comparison tolerance).", "quantifier": "every sequence of updates, number of levels, cell order", "why_tests_cant": "invariant over unbounded histories", "anchors": ["src/core/scan_matchers/m3rsm_engine.h: M3RSMRescalableGridMap"]}
{"id": "C32", "title": "M3RSM pyramid remains valid when the map grows", "statement": "The bounding property of the M3RSM pyramid also holds when the underlying unbounded map has grown since some cells were written.", "quantifier": "every history with growth", "why_tests_cant": "requires growth after writes", "anchors": ["src/core/scan_matchers/m3rsm_engine.h", "src/core/maps/rescalable_caching_grid_map.h: ensure_map_cache_is_continuous"]}
{"id": "C33", "title": "Rescalable map selects the finest adequate level and safe rescaling restores it", "statement": "rescale(s), for every s but NaN, selects the finest cached level whose scale is not less than s (the coarsest level always qualifies); the scales of the levels are strictly increasing; on leaving a scope with a scoped rescaled view the active level is the one active on entry.", "quantifier": "every level structure, every target scale, nesting of scopes", "why_tests_cant": "all level structures", "anchors": ["src/core/maps/rescalable_caching_grid_map.h: RescalableCachingGridMap::rescale, SafeRescalableMap"]}
{"id": "C34", "title": "Multi-resolution branch and bound finds the best finest match", "statement": "If every coarse candidate's probability bounds the probabilities of the candidates it is split into, the multi-resolution matcher ends with a candidate of the search window, reported with that candidate's own probability, and no exact candidate of any requested rotation and of the whole translation window is more probable than it by more than the amount by which the priority queue's top may be worse than its best element (zero for well separated probabilities, the comparison tolerance for a queue that finds a maximal element). The exact candidates are dense in the window: every translation is within half a translation step of one.", "quantifier": "every admissible scoring, window and queue evolution", "why_tests_cant": "infinite scoring functions; pruning correctness is global", "anchors": ["src/core/scan_matchers/m3rsm_engine.h: M3RSMEngine::next_best_match, Match"]}
{"id": "C35", "title": "Particle weights are normalised", "statement": "After normalization the weights of particles with nonnegative weights and positive sum are nonnegative and sum to one, in the same proportions as before, and nothing else about the particles changes (exact arithmetic). In binary64, whenever the sum of n nonnegative weights comes out finite and positive, every new weight is a finite double between 0 and 1 at most 2^-54 away from the exact quotient by that sum, heavier particles stay at least as heavy, and the new weights add up to 1 within 3/2 n 2^-53. If all weights are zero they all become NaN, and one NaN weight makes all of them NaN (binary64).", "quantifier": "every number of particles and weights", "why_tests_cant": "all weight vectors", "anchors": ["src/core/particle_filter.h: ParticleFilter::normalize_weights"]}
{"id": "C36", "title": "Resampling keeps the particle count and only copies existing particles", "statement": "Resampling n particles happens exactly when twice the effective number of particles is below n, and yields n distinct particles, the k-th being the particle drawn with the k-th random number (a sampled copy of it if it was already used), with weights rescaled by their total. In exact arithmetic with normalised weights a particle is drawn exactly when the random number falls in its cumulative-weight interval, so zero-weight particles are never drawn; in binary64 the same holds of the rounded running sums for random numbers below the rounded sum of the weights, while one not below it draws particle 0 whatever its weight; after normalization that takes a random number within 5/2 n 2^-53 of 1.", "quantifier": "every weight vector and every random stream", "why_tests_cant": "random streams", "anchors": ["src/core/particle_filter.h: UniformResamling, try_resample"]}
{"id": "C37", "title": "Exactly one master particle exists", "statement": "Exactly one particle of a GMapping filter with at least one particle is the master, after construction and after any history of scans, whatever the random draws, scan matcher and map.", "quantifier": "every random stream and history", "why_tests_cant": "depends on histories of resampling", "anchors": ["src/slams/gmapping/gmapping_particle_filter.h", "src/slams/gmapping/gmapping_world.h"]}
{"id": "C38", "title": "Particles have independent maps", "statement": "A map update made by one GMapping particle is not visible in another particle's map.", "quantifier": "every history", "why_tests_cant": "aliasing between particles", "anchors": ["src/slams/gmapping/gmapping_particle_filter.h", "src/slams/gmapping/gmapping_world.h"]}
{"id": "C39", "title": "Robot pose is the accumulation of odometry and corrections, observers see each update once in order", "statement": "After processing any sequence of sensor data, the pose of the single-hypothesis world equals the initial pose plus the sum of odometry deltas and of the corrections its scan matcher returned (exact arithmetic); in binary64, when these numbers are finite, each coordinate after n scans is a finite double off that sum by at most n 2^-51 times the sum of their magnitudes; for any world, each pose/map observer subscribed and not destroyed is notified exactly once per subscription and processed scan, in subscription order, pose before map, with the state after the update, and nothing else notifies; GMapping reports the pose and map of a particle that no other particle outweighs (weights not NaN).", "quantifier": "every history of sensor data and subscriptions", "why_tests_cant": "unbounded histories", "anchors": ["src/core/states/world.h", "src/core/states/single_state_hypothesis_laser_scan_grid_world.h", "src/core/states/robot_pose.h"]}
{"id": "C40", "title": "Laser message conversion", "statement": "Converting a laser message keeps beams in order, drops exactly those with a range below range_min, turns a beam at or beyond range_max into a free (unoccupied) point at range_max or drops it, as configured, keeps the others as obstacles, and gives beam i the angle angle_min + i*increment (exactly in exact arithmetic; up to 2^-20 radians with the float fields of the message and the doubles of the scan). A message is refused exactly when the last beam's angle differs from angle_max by more than 0.001 degree (with machine numbers: converted below 1.64e-5 radians, refused above 1.86e-5). The odometry deltas handed over for successive scans add up to the total odometry displacement. A NaN range is kept as an obstacle.", "quantifier": "every message and odometry history", "why_tests_cant": "all messages", "anchors": ["src/ros/laser_scan_observer.h"]}
{"id": "C41", "title": "Bag playback delivers every transformable message once, in order", "statement": "Extracting messages from a bag with a transform delivers, in bag order and without duplicates, every message of the topic for which a transform becomes available.", "quantifier": "every bag content and transform availability schedule", "why_tests_cant": "all interleavings of tf and sensor messages", "anchors": ["src/ros/bag_topic_with_transform.h"]}
{"id": "C42", "title": "Properties files: later definitions and overriding", "statement": "Reading a properties file yields for each key the value defined last in the file; comments and blank lines are ignored; a file's own definition overrides the one of a file it includes.", "quantifier": "every file content and include graph", "why_tests_cant": "all texts", "anchors": ["src/utils/properties_providers.h: FilePropertiesProvider"]}
{"id": "C43", "title": "Property lookups are typed, defaulted and overridable", "statement": "After every history of settings the value set last is read and an absent one reads as the given default; booleans read false exactly for the texts 'false' and '0'; an int reads as the decimal number the text starts with (after blanks and a sign) and is an exception if there is none or it does not fit; an unsigned reads as that number modulo 2^32.", "quantifier": "every set/get history", "why_tests_cant": "all histories", "anchors": ["src/utils/properties_providers.h: PropertiesProvider, MapPropertiesProvider"]}
{"id": "C44", "title": "Cached trigonometry equals direct trigonometry", "statement": "After any sequence of updates and base angles, for every angle of the last fan given to the caching trigonometry provider that is strictly below the fan's end, the sine and cosine returned are those of base plus that angle, as the direct provider gives (exact arithmetic), and table access stays within the table; the provider built for a laser message serves every point of the converted scan, also with the float fields of the message, doubles and accumulated rounding errors: each point gets the table entry of its own beam, accurate to 2^-24 if libm is accurate to 2^-52. (The fan's end itself is outside the table, and a fan whose end is not above its start has an empty table.)", "quantifier": "every fan, base angle and beam index", "why_tests_cant": "all fans", "anchors": ["src/core/trigonometry_utils.h: CachedTrigonometryProvider"]}
{"id": "C45", "title": "Rectangle intersection is the set intersection", "statement": "intersect of two rectangles contains exactly the common points of both, and overlap is the ratio of the areas.", "quantifier": "every pair of rectangles", "why_tests_cant": "all relative positions", "anchors": ["src/core/geometry_primitives.h: LightWeightRectangle::intersect, overlap"]}
{"id": "C46", "title": "Rectangle splitting partitions the rectangle", "statement": "Splitting a rectangle horizontally, vertically or in four yields parts that cover it, have equal areas summing to its area, and overlap on borders only.", "quantifier": "every rectangle", "why_tests_cant": "all rectangles", "anchors": ["src/core/geometry_primitives.h: split_horz, split_vert, split4_evenly"]}
{"id": "C47", "title": "Approximate comparison is consistent", "statement": "are_equal is reflexive on finite doubles and symmetric on all doubles, equality within tolerance implies less_or_equal in both directions, exactly ordered values are reported ordered unless both are infinite, and a reported order is exact up to 2^-22 of the magnitude.", "quantifier": "all doubles", "why_tests_cant": "2^128 pairs", "anchors": ["src/core/math_utils.h"]}
{"id": "C48", "title": "PGM dump faithfully renders the map", "statement": "A dumped PGM image has the map's width and height in its header followed by exactly one byte per cell, rows top-down, left to right, each in 0..255 and darker for more occupied cells. A dumper writes one file per map update, <base>_<i>.pgm for the i-th one, and touches no other file.", "quantifier": "every map size and content", "why_tests_cant": "all maps", "anchors": ["src/utils/map_dumpers.h: GridMapToPgmDumber"]}
{"id": "C49", "title": "Published occupancy grid renders the map", "statement": "The published occupancy grid has one entry per cell in row-major order from the lower-left cell, -1 for unknown cells and the rounded-down percentage in 0..100 for known ones, with an origin placing it so that external cell (0,0) starts at the world origin.", "quantifier": "every map", "why_tests_cant": "all maps", "anchors": ["src/ros/occupancy_grid_publisher.h"]}
{"id": "C50", "title": "Configured map size is respected", "statement": "A map created from configuration has the configured width and height.", "quantifier": "every configured width and height", "why_tests_cant": "all pairs", "anchors": ["src/utils/init_occupancy_mapping.h"]}
{"id": "C51", "title": "Angle histogram counts every scan edge once and never divides by zero", "statement": "Building the histogram of a scan counts each consecutive pair of points exactly once, in the one column whose angle interval holds the pair's direction, never accesses outside of its columns, and the weight of every scan point derived from it is positive and at most 1.", "quantifier": "every scan", "why_tests_cant": "all scans", "anchors": ["src/core/features/angle_histogram.h", "src/core/scan_matchers/weighted_mean_point_probability_spe.h: AngleHistogramReciprocalWeighting"]}
{"id": "C52", "title": "Cached observation probability equals the recomputed one", "statement": "The caching GMapping observation estimator returns the same probability as without the cache.", "quantifier": "every sequence of queries and map updates", "why_tests_cant": "cache staleness depends on history", "anchors": ["src/slams/gmapping/gmapping_occupancy_observation_pe.h"]}
{"id": "C53", "title": "Ignored tf transforms list parsing", "statement": "The list of ignored transforms is parsed, for every text, into exactly the (from,to) frame pairs of its ':'-separated entries of the form from-to (split at the first '-'), in order, each frame with a leading slash; other entries mean nothing; a transform is skipped exactly if its pair was written.", "quantifier": "every string", "why_tests_cant": "all strings", "anchors": ["src/ros/init_utils.h: tf_ignored_transforms"]}
{"id": "C54", "title": "Discrepancy is a normalised measure", "statement": "The discrepancy between a cell and an observation, reported by any cell kind, is a number in [0,1], also with binary64 rounding; for GMapping cells in binary64 it is one when the observed and the mean obstacle are at finite places, and NaN or in [0,1] otherwise.", "quantifier": "every cell kind, observation history and new observation", "why_tests_cant": "unbounded histories", "anchors": ["src/core/maps/grid_cell.h: GridCell::discrepancy", "src/core/maps/tbm_grid_cells.h", "src/slams/gmapping/gmapping_grid_cell.h"]}
{"id": "C55", "title": "GMapping odometry steps keep their length", "statement": "An odometry step moves every GMapping particle by the same length and turn as the raw odometry, rotated by the difference of their headings; a particle with the raw odometry's heading moves exactly as the raw odometry (exact arithmetic). In binary64, with a sine and cosine within 2^-52 of the real ones, a step with coordinates up to L puts each coordinate of the particle within 2^-53 (|old coordinate| + 12 L) of the step turned by the heading difference (itself rounded once), and a particle with the raw odometry's heading takes exactly the odometry's step in doubles and keeps that heading.", "quantifier": "every particle state and odometry step", "why_tests_cant": "all states and steps", "anchors": ["src/slams/gmapping/gmapping_world.h: GmappingWorld::update_robot_pose"]}
{"id": "C56", "title": "Components are chosen by their configured names", "statement": "The map type, cell model, observation impact estimator, observation probability estimator, scan point weighting, observation quality estimator and scan matcher named in the configuration are the ones used; with an unknown name (or no name where there is no default) the program terminates instead of using another one.", "quantifier": "every configuration", "why_tests_cant": "all configurations and names", "anchors": ["src/utils/init_scan_matching.h: init_oie, init_oope, init_swp, init_spe, init_scan_matcher", "src/utils/init_occupancy_mapping.h: init_occupied_area_model, init_grid_map"]}
{"id": "C57", "title": "Documented parameters take effect", "statement": "Every parameter documented in the README or set in the shipped configuration files reaches the component it is documented for, with the documented default otherwise.", "quantifier": "every configuration", "why_tests_cant": "all configurations", "anchors": ["README.md", "src/utils/init_scan_matching.h", "src/utils/init_occupancy_mapping.h", "src/slams/gmapping/init_gmapping.h: init_gmapping_prob_estimator", "config/common/bf_m3rsm.properties"]}
{"id": "C58", "title": "Bag runner command line", "statement": "The bag runner accepts a command line exactly if it has two positional arguments (SLAM type and bag), reads every properties file given with -p in order and uses the last -t and -m values; an option not followed by a value is ignored; it runs the single-hypothesis SLAM for viny and tiny, GMapping for gmapping and nothing for another type.", "quantifier": "every command line", "why_tests_cant": "all argument lists", "anchors": ["src/ros/lslam2D_bag_runner.cpp: ProgramArgs::init"]}
{"id": "C59", "title": "Area estimates stay in range", "statement": "Whatever the beam and the cell (of positive finite area), a valid answer of the area occupancy estimator with base values in [0,1] is either an 'occupied' answer (base occupied quality, probability between the base empty probability and 1) or an 'empty' answer (base empty probability, quality equal to the configured 'unknown' quality or between 0 and the base empty quality); for a beam that does not stop at an obstacle it is an 'empty' answer.", "quantifier": "every estimator configuration, beam, cell and double rounding", "why_tests_cant": "all doubles: beams and cells are continuous inputs", "anchors": ["src/core/maps/area_occupancy_estimator.h: AreaOccupancyEstimator::estimate_occupancy", "src/core/geometry_primitives.h: Rectangle, Ray"]}
{"id": "C60", "title": "Area estimates do not depend on the program's history", "statement": "The answer of the area occupancy estimator is determined by its configuration, the beam and the cell; earlier queries, of this or another estimator, do not influence it.", "quantifier": "every sequence of queries in a program", "why_tests_cant": "every call history", "anchors": ["src/core/maps/area_occupancy_estimator.h: ensure_segment_not_on_edge (static Shift_Amount)"]}
{"id": "C61", "title": "A beam through a cell is rated by the share it cuts off", "statement": "For a beam that passes through a square cell (both ends outside, not along a border), the area occupancy estimator answers with the base empty probability and the base empty quality multiplied by the smaller of the two shares into which the beam's line divides the cell's area; a beam with both ends outside never gets any other valid answer.", "quantifier": "every beam and every square cell larger than the comparison tolerance, over exact reals", "why_tests_cant": "continuous inputs, all crossing patterns", "anchors": ["src/core/maps/area_occupancy_estimator.h: classify_segment, find_intersections, compute_chunk_area, estimate_occupancy", "src/core/geometry_primitives.h: Rectangle::find_intersections, Ray::intersect"]}
{"id": "C62", "title": "An obstacle's cell is occupied to the share beyond the beam's end", "statement": "For a beam that enters a square cell and ends inside it at an obstacle, the area occupancy estimator answers with the base occupied quality and the share of the cell that lies beyond the beam's end (but not less than the base empty probability).", "quantifier": "every beam ending inside a square cell, over exact reals", "why_tests_cant": "continuous inputs; the unit tests only use a cell centred at the origin", "anchors": ["src/core/maps/area_occupancy_estimator.h: compute_chunk_area, are_on_the_same_side"]}
{"id": "C63", "title": "The drift detector corrects only along the dominating wall direction", "statement": "With the ambiguous drift detector switched on, the wrapped matcher's answer is returned unchanged unless at least two fifths of the usable scan points lie on walls of one direction (of 20 direction columns); otherwise the answer is the first best, judged by the remaining walls, of the wrapped pose and the six poses 5, 15 and 25 cm away from it on both sides in that direction, the heading unchanged, and the reported probability is that of the usable scan there.", "quantifier": "every wrapped matcher, estimator (also NaN answers), scan and pose", "why_tests_cant": "all scans, estimators and matchers", "anchors": ["src/core/scan_matchers/connect_the_dots_ambiguous_drift_detector.h: process_scan", "src/core/scan_matchers/pose_enumerators.h: PolarCoordBruteForcePoseEnumerator", "src/core/features/angle_histogram.h"]}
{"id": "C64", "title": "The drift detector does not lower the reported probability", "statement": "Wrapping a scan matcher in the drift detector never lowers the scan probability it reports.", "quantifier": "every wrapped matcher, estimator, scan and pose", "why_tests_cant": "all scans and estimators", "anchors": ["src/core/scan_matchers/connect_the_dots_ambiguous_drift_detector.h: process_scan"]}
{"id": "C65", "title": "Observers of the configured scan matcher hear about its runs", "statement": "An observer subscribed to the scan matcher made from the configuration is notified about every matching run, with or without the drift detector.", "quantifier": "every configured matcher, observer and run", "why_tests_cant": "all matchers and runs", "anchors": ["src/core/scan_matchers/connect_the_dots_ambiguous_drift_detector.h", "src/core/scan_matchers/grid_scan_matcher.h: subscribe, do_for_each_observer", "src/utils/init_scan_matching.h: init_scan_matcher", "src/core/states/single_state_hypothesis_laser_scan_grid_world.h: add_sm_observer"]}
{"id": "C66", "title": "The quality a TBM cell reports with its occupancy is a number in [0,1]", "statement": "Whatever observations with probability and qualities in [0,1] a TBM cell received, the estimation quality of the occupancy it reports is a number in [0,1].", "quantifier": "every observation history", "why_tests_cant": "rounding of long update histories; one unit in the last place above 1", "anchors": ["src/core/maps/tbm_grid_cells.h: TbmOccConsistentCell::tbm2occ", "src/core/maps/transferable_belief_model.h: normalize_conflict"]}
{"id": "C67", "title": "The published map-to-odometry correction puts the robot at the announced pose", "statement": "For every scan a node handles and every pose its SLAM announces for it, the node broadcasts one correction between the map and the odometry frames, in order, and that correction composed with the (flattened) odometry transform of the scan takes every point of the robot to where it lies in the map at the announced pose; the GMapping node also broadcasts the pose itself, stamped with the time of that very scan.", "quantifier": "every SLAM, every sequence of scans and odometry transforms (rotations), every pose", "why_tests_cant": "all message sequences and transforms; the result depends on the order in which observers subscribed", "anchors": ["src/ros/pose_correction_tf_publisher.h: PoseCorrectionTfPublisher", "src/ros/robot_pose_observers.h: ObservationStampedRoboPoseTfPublisher", "src/ros/single_hypoth_slam_node.cpp: main", "src/slams/gmapping/gmapping.cpp: main", "src/ros/init_utils.h: create_pose_correction_tf_publisher, make_pose_correction_observation_stamped_publisher"]}
{"id": "C68", "title": "Trajectory files carry the times of the scans", "statement": "The trajectory file has one line for each logged pose, in order, and the time at its start, read as a decimal number, is the time of the scan in seconds.", "quantifier": "every sequence of scan times and poses", "why_tests_cant": "nanosecond values with leading zeros are rare in test data", "anchors": ["src/ros/robot_pose_observers.h: RobotPoseTumTrajectoryDumper::log_robot_pose", "src/ros/lslam2D_bag_runner.cpp: run_slam"]}
{"id": "C69", "title": "Launch parameters behave like the properties of a file", "statement": "After any history of settings a launch property reads as the last value set, with the meaning the same text has in a properties file, or as the default if it was never set; typed parameters read as what they are; the properties of the configuration file win over launch parameters and leave the others alone.", "quantifier": "every history of settings, identifier, text, default and configuration file", "why_tests_cant": "all histories, texts and defaults", "anchors": ["src/ros/launch_properties_provider.h: LaunchPropertiesProvider", "src/ros/single_hypoth_slam_node.cpp: init_properties_provider"]}
{"id": "C70", "title": "A node handles each scan with a known transform exactly once", "statement": "Whatever else listens to the scan topic, the SLAM handles each scan whose transform can be looked up exactly once, in the order of arrival, and no other scan; observers that no longer exist have no effect.", "quantifier": "every list of subscribed observers (live or expired), message sequence and lookup results", "why_tests_cant": "all message sequences and subscriber lists", "anchors": ["src/ros/topic_with_transform.h: TopicWithTransform::transformed_msg_cb, subscribe"]}
{"id": "C71", "title": "GMapping resamples only after the robot has travelled", "statement": "A GMapping filter replaces particles during a scan only when the odometry since the previous replacement (or since construction) adds up to more than 0.2 rad of turning, or to ways along x and y whose squares sum to more than 0.5; and the first scan with which the way becomes that long replaces the particles by the drawn ones exactly when the normalised weights are uneven (effective sample size below half the number of particles), and keeps them otherwise. This holds in exact arithmetic and, with the ways added up and compared as doubles, in binary64 for every odometry, including NaN and infinite steps (which count as far).", "quantifier": "every history of subscriptions and scans, every odometry, scan matcher, scan adder, noise sequence and number of particles", "why_tests_cant": "The travel is accumulated over arbitrarily long histories and reset only by a resampling; a test sees a few chosen histories.", "anchors": ["src/slams/gmapping/gmapping_particle_filter.h: GmappingParticleFilter::try_resample, update_robot_pose", "src/core/particle_filter.h: ParticleFilter::try_resample"]}
{"id": "C72", "title": "An offline run handles every scan and logs the pose after it", "statement": "The offline runner hands every scan of the bag to the SLAM once and in order; the trajectory pairs the time of each scan with the pose right after it; the map file is drawn from the final state; nothing is written that was not asked for.", "quantifier": "every bag, SLAM and command line", "why_tests_cant": "all bags and SLAM behaviours", "anchors": ["src/ros/lslam2D_bag_runner.cpp: run_slam, dump_map_image"]}
{"id": "C73", "title": "How GMapping particles use a scan", "statement": "On each scan the matcher is asked exactly once for every particle that moved at least its drawn limit since its last match, in the order of the particles, starting from the particle's odometry pose plus the drawn noise (no noise before its first scan); such a particle moves by the correction and its weight is multiplied by the score, and the scan is added to the shared map at the corrected pose when the score is positive or it is the particle's first; a particle below its limit keeps pose and weight and adds nothing; then the weights are divided by their sum.", "quantifier": "every scan matcher, scan adder, noise sequence, number of particles and history of scans and subscriptions before the scan", "why_tests_cant": "ranges over all matchers, noises and histories; a test checks chosen ones", "anchors": ["src/slams/gmapping/gmapping_world.h: GmappingWorld::handle_observation, reset_scan_matching_delta", "src/slams/gmapping/gmapping_particle_filter.h: GmappingParticleFilter::handle_observation"]}
{"id": "C74", "title": "The master particle is corrected on each step without noise", "statement": "The master particle of a GMapping filter is scan matched with every scan and starts from its odometry pose without noise.", "quantifier": "every history, noise sequence, matcher and number of particles", "why_tests_cant": "the master changes with resampling; its limit was drawn in an arbitrary past", "anchors": ["src/slams/gmapping/gmapping_world.h: GmappingWorld::mark_master"]}
{"id": "C75", "title": "Copies of a particle explore different poses", "statement": "Particles that resampling copies from one particle draw different noise afterwards, so that they spread over different poses.", "quantifier": "every filter, resampling and later history", "why_tests_cant": "ranges over all random engines and histories", "anchors": ["src/core/particle_filter.h: ParticleFilter::try_resample", "src/slams/gmapping/gmapping_world.h: GmappingWorld (copy), sample"]}
{"id": "C76", "title": "The single-hypothesis world maps each scan exactly once", "statement": "Each scan is matched once, starting from the last pose moved by its odometry, and is added to the map once, at the corrected pose, with the configured hole width, with the quality configured for localized scans when the correction exceeds 1e-7 in a component and with the quality for raw scans otherwise; the last corrected pose is the pose of the world.", "quantifier": "every scan matcher, scan adder, configuration and history of scans and subscriptions", "why_tests_cant": "all histories and matcher behaviours", "anchors": ["src/core/states/single_state_hypothesis_laser_scan_grid_world.h: handle_observation"]}
{"id": "C77", "title": "Text rasters are drawn on maps as they look", "statement": "Drawing a text raster on a new unbounded map with positive zoom factors gives every cell covered by a character exactly one observation - free for a blank, occupied otherwise - and leaves all other cells untouched; the text's first character is drawn at the given offset (or, without one, the drawing is centred on the origin), columns go right, lines go down, text after an empty line is ignored, and zoom factors that are not positive stop the program.", "quantifier": "every text (ragged lines included), offset, zoom, cell type and map size whose drawing fits the int coordinates", "why_tests_cant": "ranges over all texts, zooms, offsets and cell types", "anchors": ["src/utils/data_generation/grid_map_patcher.h: GridMapPatcher::apply_text_raster"]}
{"id": "C78", "title": "A generated cecum has its walls where it says", "statement": "The text of a generated cecum of width w and height h has h lines of w characters, marked occupied exactly on the closed side and the two walls next to it; the free-space rectangle it reports consists of exactly the free cells when both sides exceed 2, and is empty otherwise.", "quantifier": "every positive width and height and every closed side", "why_tests_cant": "all sizes", "anchors": ["src/utils/data_generation/map_primitives.h: CecumTextRasterMapPrimitive"]}
{"id": "C79", "title": "Generated scans show the first obstacles of their map", "statement": "A generated scan has one beam for each angle -h, -h+inc, ... of the sector (less than a full turn); each beam gives at most one point, for the first cell on its way that is not below the occupancy threshold and is pierced by the beam's line, at the beam's angle and lying - seen from the robot's pose - in that very cell; a beam without such a cell gives no point. Scored by the obstacle estimator at the pose it was generated from, the scan is as good as the occupied cells are. With an increment that is not positive the generator never returns.", "quantifier": "every map, pose, scanner, threshold and trigonometry", "why_tests_cant": "all maps and poses", "anchors": ["src/utils/data_generation/laser_scan_generator.h: LaserScanGenerator::laser_scan_2D"]}
{"id": "C80", "title": "Generated ranges do not exceed the scanner's maximum", "statement": "No point of a generated scan is farther away than the maximum distance of the scanner's parameters.", "quantifier": "every map, pose and scanner", "why_tests_cant": "all maps and poses", "anchors": ["src/utils/data_generation/laser_scan_generator.h: LaserScannerParams::max_dist, LaserScanGenerator::laser_scan_2D"]}
{"id": "C81", "title": "The asynchronous correction publisher sends whole, current transforms and never blocks the node", "statement": "With asynchronous correction switched on, the node's main thread updates the map-to-odometry correction while a second thread re-broadcasts it. Whatever the schedule: every broadcast of either thread carries exactly the value of the last correction completed before it (the initial one before the first), never a mix of two; the sequence of corrections is the one a publisher without the second thread computes for the same messages and poses; the main thread broadcasts each correction exactly once, right after making it; and no reachable state is a deadlock: the threads can always go on until all received messages and poses are handled.", "quantifier": "all finite sequences of messages and poses, all interleavings of the two threads' accesses to the shared transform and its mutex, and of the shutdown request", "why_tests_cant": "A torn read or deadlock needs a particular interleaving; the schedules are unboundedly many and a test run sees a few.", "anchors": ["src/ros/pose_correction_tf_publisher.h: PoseCorrectionTfPublisher::on_pose_update, publish_map_to_odom, publishing_loop", "src/ros/init_utils.h: is_async_correction, create_pose_correction_tf_publisher"]}
{"id": "C82", "title": "A node ends normally when it is asked to shut down", "statement": "After a shutdown request, a node returns from main, whether or not asynchronous correction (~ros/tf/async_correction) is switched on.", "quantifier": "all sequences of messages and poses, all schedules of the two threads, all moments of the shutdown request", "why_tests_cant": "The end of the process depends on the state of a thread at an arbitrary moment of an arbitrary schedule.", "anchors": ["src/ros/pose_correction_tf_publisher.h: PoseCorrectionTfPublisher (no destructor; _transform_publisher)", "src/ros/single_hypoth_slam_node.cpp: main", "src/ros/init_utils.h: is_async_correction"]}
{"id": "C83", "title": "The multi-resolution matcher finds the best translation on its multi-resolution map", "statement": "On a multi-resolution map built by valid observations, the multi-resolution scan matcher (scan probability estimated over areas of the map's levels) ends without a failed assertion, and no tested exact translation and rotation of the search window has a higher scan probability than the one it returns, up to the tolerances of the map (1e-7 per level) and of the queue.", "quantifier": "all histories of observations, all maps, scans, poses, search windows, steps and queue implementations", "why_tests_cant": "The claim links the contents of every level after an arbitrary history to the order in which an arbitrary window is split; a test fixes one map and one window.", "anchors": ["src/core/scan_matchers/m3rsm_engine.h: Match, M3RSMEngine::add_scan_matching_request, next_best_match, branch", "src/core/scan_matchers/bf_multi_res_scan_matcher.h: process_scan", "src/core/maps/rescalable_caching_grid_map.h: rescale", "src/core/scan_matchers/occupancy_observation_probability.h: MaxOccupancyObservationPE", "src/core/scan_matchers/weighted_mean_point_probability_spe.h: estimate_scan_probability"]}
{"id": "C84", "title": "A scan without usable points corrects nothing", "statement": "If no point of a scan can be used for matching (all points are free, beyond the range limit, outside of the map or skipped), every scan matcher returns the correction zero, and the world stays at the pose given by the odometry.", "quantifier": "all scans without a usable point, all maps, poses, point filters, search strategies (brute force, hill climbing, Monte Carlo, multi-resolution) and their parameters", "why_tests_cant": "The estimate of such a scan is NaN, so the outcome depends on every comparison in every matcher for every search sequence; a test fixes one matcher, one map and one scan.", "anchors": ["src/core/scan_matchers/weighted_mean_point_probability_spe.h: filter_scan, estimate_scan_probability", "src/core/scan_matchers/pose_enumeration_scan_matcher.h: process_scan", "src/core/scan_matchers/hcsm_fixed.h: process_scan", "src/core/scan_matchers/m3rsm_engine.h: Match, next_best_match", "src/core/scan_matchers/bf_multi_res_scan_matcher.h: process_scan", "src/core/states/single_state_hypothesis_laser_scan_grid_world.h: handle_observation"]}
{"id": "C85", "title": "A scan that matches nothing does not disable the particle filter", "statement": "After every history of scans the weights of the particles of the GMapping filter are numbers that add up to 1, so that the filter can go on resampling and selecting its best particle.", "quantifier": "all histories of odometry updates and scans, all particle counts, scan matchers, scan adders and random draws", "why_tests_cant": "One scan at any moment of an arbitrary history decides about all later states; a test runs finitely many histories, and on a test map every scan matches something.", "anchors": ["src/core/particle_filter.h: ParticleFilter::normalize_weights, try_resample, heaviest_particle", "src/slams/gmapping/gmapping_particle_filter.h: GmappingParticleFilter::handle_observation", "src/slams/gmapping/gmapping_world.h: GmappingWorld::handle_observation", "src/slams/gmapping/gmapping_occupancy_observation_pe.h: GmappingOccupancyObservationPE"]}
{"id": "C86", "title": "Saving a map and loading it with the same configuration restores it, whatever map type is configured", "statement": "For every map type a configuration can name, with and without the multi-resolution matcher, saving a map after any history of writes and loading the bytes into a map made with the same configuration gives a map of the same size, origin, scale and cells, for the multi-resolution map on each of its levels, with the finest level active.", "quantifier": "all map types (plain, unbounded_plain, lazy_tiled, unbounded_lazy_tiled), all cell types, all histories of writes on all levels, all active levels, all contents of the loading map", "why_tests_cant": "The histories, sizes and numbers of levels are unbounded and the saved bytes depend on all of them; the repository's tests save only the one map type that implements saving.", "anchors": ["src/core/maps/grid_map.h: GridMap::save_state, load_state", "src/core/maps/rescalable_caching_grid_map.h: RescalableCachingGridMap::save_state, load_state, ensure_map_cache_is_continuous", "src/core/maps/plain_grid_map.h: PlainGridMap, UnboundedPlainGridMap", "src/core/maps/lazy_tiled_grid_map.h", "src/utils/init_occupancy_mapping.h: init_grid_map", "src/utils/sm_runner.cpp: setup_map", "src/ros/lslam2D_bag_runner.cpp: dump_state"]}
{"id": "C87", "title": "The self-check of a multi-resolution map answers, and answers right", "statement": "validate() on a multi-resolution map returns for every map type and size after every history of use, and returns true exactly if no observed cell of the finest level has a greater impact than a coarser cell around it (up to one comparison tolerance) and every coarse cell around nothing observed has at least the impact of a cell never observed.", "quantifier": "all map types and sizes, all histories of writes, level changes and growth, all cell types and impacts in [-1, 1]", "why_tests_cant": "The check ranges over all cells of all levels and its answer depends on the whole history; whether it stays inside the finest map depends on the size of the map.", "anchors": ["src/core/scan_matchers/m3rsm_engine.h: M3RSMRescalableGridMap::validate, estimate_max_spe_impact", "src/core/maps/grid_map.h: GridMap::validate", "src/core/maps/plain_grid_map.h: PlainGridMap::operator[]", "src/utils/sm_runner.cpp: main"]}
{"id": "C88", "title": "A recorded scan or pose is the one that is loaded", "statement": "Writing the state of the SLAM to files and loading the pose and scan files in the scan matching runner gives back the same pose and the same scan: the same points in the same order, with the same flags and the same distances and angles.", "quantifier": "every laser scan (any number of points, polar or Cartesian, any double distances and angles, infinities and NaN included), every pose, and every cut of the file between two words", "why_tests_cant": "Doubles are written with six significant digits, so the outcome depends on the decimal expansion of each of 2^64 values; samples with short decimals pass.", "anchors": ["src/core/states/sensor_data.h: operator<<, operator>> (LaserScan2D)", "src/ros/lslam2D_bag_runner.cpp: dump_state", "src/utils/sm_runner.cpp: setup_pose2D, setup_laser_scan2D"]}
{"id": "C89", "title": "A map shown as text shows the area that was asked for", "statement": "Showing a map as text around a point prints one line per row of cells, the topmost first, and one character per cell from left to right, faithful to the cells' occupancies with the center marked; and every place within the requested distances to the left, right, top and bottom of the center is shown.", "quantifier": "all maps, cell sizes, centers, requested distances and places in the requested area", "why_tests_cant": "Whether a place is cut off depends on the fractional parts of three real divisions; a test checks a handful of windows.", "anchors": ["src/utils/console_view.h: show_grid_map", "src/core/maps/regular_squares_grid.h: world_to_cell"]}
{"id": "C90", "title": "The bag adapter replaces recorded pose corrections and passes everything else on", "statement": "Every transform received is sent on exactly once and in order; transforms other than a recorded map-to-odometry correction are unchanged; every recorded correction is replaced by the first one recorded, renamed to lead from the provided map to the map, so no recorded correction gets through; each publication of the grid carries the grid received last, under the name of the provided map.", "quantifier": "all interleavings of grid messages, transform messages (any number of transforms each) and timer ticks, all frame names", "why_tests_cant": "The claim ranges over all histories of messages; the replaced transform depends on the whole history.", "anchors": ["src/ros/wg_pr2_bag_adapter.cpp: on_grid_received, on_tf_received, main"]}
{"id": "C91", "title": "The published path is the sequence of poses of the robot", "statement": "Every path message consists of the poses of the robot found so far, in the order they were found and with their positions and directions, in the map's frame and stamped like the newest pose; failed look-ups add nothing, nor does the shutdown of the node.", "quantifier": "all sequences of successful and failed look-ups of the robot's pose, ended or not by a shutdown at any point", "why_tests_cant": "It must hold for every interleaving of failures, successes and the shutdown.", "anchors": ["src/ros/path_publisher.cpp: get_current_pose, main"]}
{"id": "C92", "title": "The search-space map shows the score of every tested translation", "statement": "The map drawn while a scan matcher works shows in every cell the score of the pose tested last among those standing on that cell, and 1/2 in all other cells; in the search of the tool each of the 201 x 201 translations has a cell of its own, in spite of accumulated rounding errors, so that no score is overwritten.", "quantifier": "all scan matchers, score functions, observers registered besides, resolutions and initial poses; the search of the tool for all scores, in binary64 arithmetic", "why_tests_cant": "The scores are arbitrary and the tested poses are accumulated by floating-point additions; that none of 40401 poses falls into its neighbour's cell has to hold for the exact rounded sums.", "anchors": ["src/utils/pose2D_search_space_evaluator.cpp: ScanMatcherSearchSpaceBuilder, run_evaluation", "src/core/scan_matchers/brute_force_scan_matcher.h", "src/core/scan_matchers/pose_enumeration_scan_matcher.h"]}
{"id": "C93", "title": "Scan points keep their place when their representation changes", "statement": "A scan point's coordinates, distance and direction always describe one and the same place, whether it is stored as range and angle or as coordinates. Converting it to the other form keeps that place (shifted or turned as requested) and the occupancy flag, and starts the point's quality factor again at 1; all three ways of moving the origin put it where a robot at that pose sees it. Turning a whole scan once into coordinates and shifting it afterwards gives, in machine arithmetic, the very coordinates (up to the sign of zero) and grid cells of turning each point at its use, with the caching angle provider too.", "quantifier": "all scan points in either form, offsets, rotations and origins (exact arithmetic); all scans, angle providers, libm behaviours, origins and grid scales in binary64", "why_tests_cant": "The points, rotations and origins are arbitrary real or floating-point values, including infinities, NaN and zeros of either sign; tests sample a few.", "anchors": ["src/core/states/sensor_data.h: ScanPoint2D::x, y, range, angle, to_polar, to_cartesian, move_origin, LaserScan2D::to_cartesian"]}
{"id": "C94", "title": "Everything a map reports during a whole run is a probability", "statement": "Whatever the laser and the odometry deliver (any doubles, NaN and infinities included), whatever the scan matcher answers, and whichever map class, cell class, occupancy estimator, observation quality estimator, range limit, blurring distance and margin are configured: as long as the configured occupancies, estimation qualities and scan qualities lie in [0, 1] and the run does not stop, every readable cell of the map, and of every map handed to observers, has the configured cell class and reports the unknown value (1/2; -1 in GMapping) while it is marked unknown and a probability in [0, 1] otherwise; only the class TbmOccConsistentCell may report NaN instead. Every entry of an occupancy grid published from such a map is -1 or a percentage in 0..100, and for all other cell classes such a grid can always be published.", "quantifier": "all histories of scans, odometry, subscriptions; all scan matchers; all configurations; both worlds (single hypothesis and particle filter, any number of particles)", "why_tests_cant": "the claim is an invariant of unboundedly long runs over all doubles and all combinations of exchangeable parts", "anchors": ["src/core/maps/grid_map_scan_adders.h: append_scan, handle_scan_point", "src/core/maps/area_occupancy_estimator.h", "src/core/maps/const_occupancy_estimator.h", "src/core/maps/grid_cell.h", "src/core/maps/plain_grid_map.h", "src/core/maps/lazy_tiled_grid_map.h", "src/core/maps/rescalable_caching_grid_map.h", "src/core/scan_matchers/m3rsm_engine.h", "src/core/states/single_state_hypothesis_laser_scan_grid_world.h", "src/slams/gmapping/gmapping_particle_filter.h", "src/utils/init_occupancy_mapping.h", "src/ros/occupancy_grid_publisher.h"]}
{"id": "C95", "title": "A whole run's map is exactly what its scans say from the corrected poses, and a run stops only for a reason", "statement": "In the single-hypothesis world, whatever the scan matcher, the odometry, the cell class, the estimators, the range limit, blurring and margin, and for each of the four map classes and any initial size: as long as the scan matcher answers, and for each scan the trigonometry and the estimators answer and the beams that are not too long start and end in the area of the map at the corrected pose, the run goes on. Its pose is the last corrected pose (odometry, then correction, scan by scan), and every readable cell of its map equals the prototype cell after the observations of all scans, in their order, each made from its corrected pose with the quality of a corrected or uncorrected pose - nothing is lost, doubled, misplaced or reordered by the growth, tiling or sharing of the map. With constant occupancies, equal qualities and plain trigonometry, beams that leave the area and margins above the number of points are the only reasons why a scan cannot be inserted. On the maps that can be rescaled (those given to the multi-resolution matcher) the same holds of the pose and of every cell a user reads, for every run that returns: maintaining the coarser levels never touches what the scans say.", "quantifier": "all histories, scan matchers, configurations, map classes and sizes, cells; binary64 arithmetic", "why_tests_cant": "the claim compares the whole map after unboundedly many scans with a specification, for all poses, growth orders and component choices", "anchors": ["src/core/states/single_state_hypothesis_laser_scan_grid_world.h: handle_observation", "src/core/states/laser_scan_grid_world.h: handle_sensor_data", "src/core/maps/grid_map_scan_adders.h: append_scan, handle_scan_point", "src/core/maps/plain_grid_map.h", "src/core/maps/lazy_tiled_grid_map.h", "src/utils/init_occupancy_mapping.h"]}
{"id": "C96", "title": "An unbounded map's class and initial size do not influence a run", "statement": "Run the single-hypothesis world twice on the same scans and odometry with two new unbounded maps, each stored plainly or lazily tiled, of any (different) initial sizes, and a scan matcher that uses the map only to read cells: if the first run's matcher answers and its beams stay in an area whose coordinates both maps can represent, both runs end normally with equal poses, corrections, matcher states and announcements, and maps that read the same in every cell. The pose enumeration matchers of the program, which also ask the map whether it has a cell and for its size, qualify: they run in the same way on both maps when their analysis area stays finite wherever it is moved, as the default area does.", "quantifier": "all histories, cell-reading scan matchers, configurations, pairs of unbounded map classes and initial sizes", "why_tests_cant": "equality of two whole runs for all inputs and all growth histories", "anchors": ["src/core/maps/plain_grid_map.h: UnboundedPlainGridMap", "src/core/maps/lazy_tiled_grid_map.h: UnboundedLazyTiledGridMap", "src/core/states/single_state_hypothesis_laser_scan_grid_world.h", "src/core/maps/grid_map_scan_adders.h", "src/utils/init_occupancy_mapping.h"]}
{"id": "C97", "title": "The pose graph is the chain of the poses at which the odometry reached the limit", "statement": "Run the graph SLAM world on any history of scans and subscriptions. If the matcher and the scan adder answer, the run ends, and then: the robot's pose after each scan is the previous pose plus the odometry step plus (for all scans but the first) the matcher's answer on a new map holding only the previous scan, placed opposite to the odometry step; exactly those scans become nodes at which the odometry added up since the last node (or the start) is at least the limit in x, y or angle (as fabs compares), in order, each with its scan and the pose of the world at that time; edge i leads from node i+1 to node i and holds the difference of their poses, each node lists the edge to its predecessor then the one from its successor, and there are no other nodes or edges. In exact arithmetic the edge measurements between two nodes sum up to the difference of their poses.", "quantifier": "all histories of scans and subscriptions, limits, matchers with state, scan adders, scan types and arithmetics", "why_tests_cant": "histories are unbounded and the claim is about each prefix of them", "anchors": ["src/slams/graph/graph_slam_world.h: GraphSlamWorld, NodeCreationOracle", "src/slams/graph/pose_graph_map.h: PoseGraphMap::add_node, add_edge", "src/core/states/laser_scan_grid_world.h"]}
{"id": "C98", "title": "The map GMapping reports is what its particles saw, scan by scan", "statement": "Let a new GMapping filter of n particles handle any history of scans and subscriptions, with any scan matcher, noise, weights and resampling, over any of the four map classes. Then for each scan there are the n corrected poses of the particles, and the filter has added to its map only this scan, with the scan's quality, at some of these poses, at most once per particle and in the order of the particles. After every prefix of the history the pose the filter reports is one of the corrected poses at the last scan, and every readable cell of the reported map is the prototype updated, in order, with exactly the observations of everything added so far (if the beams fit the map's area and the estimators answer).", "quantifier": "all histories, numbers of particles, matchers, random streams, configurations, map classes and sizes, and all prefixes", "why_tests_cant": "a statement about every prefix of every history and every random draw", "anchors": ["src/slams/gmapping/gmapping_world.h: GmappingWorld::handle_observation", "src/slams/gmapping/gmapping_particle_filter.h", "src/core/particle_filter.h", "src/core/maps/grid_map_scan_adders.h", "src/core/maps/plain_grid_map.h", "src/core/maps/lazy_tiled_grid_map.h"]}
{"id": "C99", "title": "Frame alignment of the hill climber follows the scan's dominating direction", "statement": "With frame alignment switched on, the hill climbing matcher finds, for every scan, the mean direction of the fullest of twenty sectors of edge directions, and moves the tested poses along and across that direction instead of along the map's axes.", "quantifier": "every scan, map, score, step, initial pose and sequence of calls", "why_tests_cant": "all scans, all scores and all call histories; a test with one scan sees that a pose is found, not which directions the search uses", "anchors": ["src/core/scan_matchers/hill_climbing_scan_matcher.h: HillClimbingScanMatcher::prepare_lookup, FailedRoundsLimitedPoseEnumerator", "src/core/features/angle_histogram.h: major_direction", "src/utils/init_scan_matching.h: init_hill_climbing_sm"]}
{"id": "C100", "title": "When GMapping matches the scan of a particle", "statement": "With limits configured as sm_delta_lim xy min..max and theta min..max, a particle is matched with a scan at the latest when it has driven the maximum distance or turned by the maximum angle since its last match, and - unless it or a particle it descends from was once the master - never before it has driven the minimum distance or turned by the minimum angle; a copy made by resampling counts from the last match of the particle it was copied from.", "quantifier": "every configuration with 0 <= min <= max, number of particles, random engine whose uniform values lie in their interval, scan matcher, scan adder and history of scans and odometry, including all resamplings", "why_tests_cant": "random limits, resampling lineages and paths of any shape: a test drives a few straight lines with one seed", "anchors": ["src/slams/gmapping/gmapping_world.h: GmappingWorld::handle_observation, update_robot_pose, reset_scan_matching_delta, mark_master, GMappingParams", "src/core/random_utils.h: UniformRV1D, GaussianRV1D", "src/core/states/robot_pose.h: RobotPoseDeltaRV", "src/slams/gmapping/init_gmapping.h: init_gmapping_params", "README.md: slam/particles/sm_delta_lim"]}
{"id": "C101", "title": "Where a run takes place does not matter", "statement": "Take two runs of a single-hypothesis SLAM that differ only in the place: the second starts with the pose and the (unbounded) map of the first moved by a whole number of cells. Both get the same scans and odometry. If neither stops at an assertion or leaves the range of cell numbers, the scan matcher makes the same corrections in both, and every pose and map of the second run, at the end and in all announcements, is that of the first moved by these cells - except that with the overlap weighted observation probability the overlap of two areas depends on their distance from the origin.", "quantifier": "every cell class, unbounded map class, history of scans, odometry and subscriptions, brute force, hill climbing and Monte-Carlo matcher with every configuration and random generator, obstacle, maximum and mean observation probability, weighting, blurring, quality estimator, margin, cell size and displacement; constant occupancy estimates; exact arithmetic", "why_tests_cant": "a relation between two whole runs for all displacements and histories: a dependence on the origin (a truncation towards zero instead of a floor, a wrong sign of an index) shows only where beams, steps or windows cross it", "anchors": ["src/core/states/single_state_hypothesis_laser_scan_grid_world.h: handle_observation", "src/core/maps/grid_map_scan_adders.h: append_scan", "src/core/maps/regular_squares_grid.h: world_to_cell, world_to_cells", "src/core/maps/grid_rasterization.h: GridRasterizedRectangle", "src/core/scan_matchers/pose_enumeration_scan_matcher.h: process_scan", "src/core/scan_matchers/weighted_mean_point_probability_spe.h: estimate_scan_probability", "src/core/scan_matchers/occupancy_observation_probability.h", "src/core/geometry_primitives.h: LightWeightRectangle::overlap", "src/slams/gmapping/gmapping_grid_cell.h: operator+="]}
{"id": "C102", "title": "Every matching score of a run is a probability or unknown", "statement": "After any run (scans and odometry with any doubles, NaN and infinities included; any settings in [0, 1]) the score of every pose against the map, with every observation probability, impact estimate and point weighting the configuration can name, is a probability in [0, 1] or NaN, in binary64, and so is the quality the scan matcher reports; with even or histogram weights and any observation probability but the overlap weighted one, the score of a non-empty scan is a probability or the quiet NaN, and with even weights always a probability. Reading a cell of the map for a score never fails the assertion that its impact is a probability, except that with the occupancy impact the cells TbmOccConsistentCell (NaN after contradicting certain observations) and unknown GMapping cells (-1) stop the program, and except for GMapping cells with obstacles at NaN positions.", "quantifier": "every history of scans, odometry and subscriptions, map class, cell class, occupancy and quality estimator, margin, blurring, matcher answers during the run, number of particles; every pose, scan of single points, analysis area, view size, origin and scale, trigonometric functions, and exponential that is at most 1 on non-positive arguments", "why_tests_cant": "an invariant of all rounding errors along unbounded histories: one sum that rounds above its weight, or one cell a last place above one, fails an assertion after hours of mapping", "anchors": ["src/core/scan_matchers/weighted_mean_point_probability_spe.h: estimate_scan_probability, EvenSPW, VinySlamSPW, AngleHistogramReciprocalSPW", "src/core/scan_matchers/occupancy_observation_probability.h: ObstacleBasedOccupancyObservationPE, MaxOccupancyObservationPE, MeanOccupancyObservationPE, OverlapWeightedOccupancyObservationPE", "src/core/scan_matchers/observation_impact_estimators.h: DiscrepancyOIE, OccupancyOIE", "src/core/scan_matchers/pose_enumeration_scan_matcher.h: process_scan", "src/core/maps/grid_cell.h: discrepancy"]}
{"id": "C103", "title": "Watching a run does not change it", "statement": "Subscribing, unsubscribing and destroying observers, of a world or of the pose enumeration scan matcher of a single-hypothesis world, never changes the run: poses, map, corrections, the matcher's state, or the way the run stops, depend on the sequence of scans only. And nobody's presence matters to anybody: each observer of the world or of the matcher receives exactly the calls, in the same order and with the same contents, that it would receive as the only observer with the same subscriptions.", "quantifier": "every two histories of scans, subscriptions, unsubscriptions and ends of observers with the same scans; every world, enumerator, score and scan adder", "why_tests_cant": "all interleavings of observer life cycles with scans", "anchors": ["src/core/states/world.h: WorldObservable", "src/core/states/laser_scan_grid_world.h: LaserScanGridWorld::handle_sensor_data", "src/core/states/single_state_hypothesis_laser_scan_grid_world.h: add_sm_observer, remove_sm_observer", "src/core/scan_matchers/grid_scan_matcher.h: GridScanMatcher::subscribe, unsubscribe, do_for_each_observer", "src/core/scan_matchers/pose_enumeration_scan_matcher.h"]}
{"id": "C104", "title": "A bounded map that is large enough behaves as an unbounded one", "statement": "Take two single-hypothesis worlds with the same pose enumeration matcher (any enumerator, observation estimator, weighting and skipping, an analysis area that stays finite, as the default one does) and the same configuration, one with a bounded plain map, one with an unbounded map of either class and any initial size. While the obstacles of each scan, seen from the predicted pose, lie in the bounded map, the matcher answers and the scan's beams stay in the bounded map, both worlds run in the same way: after any such history they have the same pose, corrections, matcher state and announcements, and their maps read the same in the bounded map's rectangle.", "quantifier": "all histories, matchers, configurations, bounded map sizes, unbounded map classes and sizes; binary64 arithmetic", "why_tests_cant": "the two maps differ in storage, size, growth and in what they answer outside; that no step of an arbitrarily long run ever depends on it is a relation between all pairs of runs", "anchors": ["src/core/maps/plain_grid_map.h: PlainGridMap, UnboundedPlainGridMap", "src/core/maps/lazy_tiled_grid_map.h: UnboundedLazyTiledGridMap", "src/core/maps/regular_squares_grid.h: has_cell, width, height, origin", "src/core/scan_matchers/pose_enumeration_scan_matcher.h: process_scan", "src/core/scan_matchers/weighted_mean_point_probability_spe.h: filter_scan, should_skip_point", "src/core/states/single_state_hypothesis_laser_scan_grid_world.h: handle_observation"]}
{"id": "C105", "title": "Public helpers that the program itself never calls do what their names say", "statement": "is_prob_unknown recognises the unknown probability an estimator returns; is_multiple_of accepts exactly the values within the comparison tolerance of a multiple of the factor; the minor direction of an angle histogram is the mean direction of a least populated column.", "quantifier": "every double, every factor, every scan and number of columns", "why_tests_cant": "all doubles (NaN included) and all scans", "anchors": ["src/core/scan_matchers/grid_scan_matcher.h: is_prob_unknown", "src/core/math_utils.h: is_multiple_of", "src/core/features/angle_histogram.h: min_i, minor_direction"]}
{"id": "C106", "title": "Without scan matching the map is drawn along the odometry", "statement": "With the scan matcher that does nothing (configured as \"idle\") the single-hypothesis world adds every scan at the pose its odometry gives (initial pose plus all odometry deltas so far), always with the raw scan quality and the configured margin: the run fails exactly when one of these additions fails, the resulting map and pose are those of that drawing, and pose observers are only told poses of the odometry.  In binary64 this holds bit for bit from any starting pose without a negative zero, infinite and NaN odometry included.  Neither the localized quality nor the quality written in the incoming scans matters.", "quantifier": "every history of subscriptions and scans, every scan adder, initial world, odometry, qualities and margin", "why_tests_cant": "arbitrary histories, adders and doubles", "anchors": ["src/core/scan_matchers/no_action_scan_matcher.h: NoActionScanMatcher::process_scan", "src/core/states/single_state_hypothesis_laser_scan_grid_world.h: handle_observation", "src/utils/init_scan_matching.h: init_scan_matcher"]}
{"id": "C107", "title": "Without scan matching GMapping never resamples and reports the odometry", "statement": "With the scan matcher that does nothing GMapping never resamples: after any history its particles are the ones it was created with, all of equal weight, and the pose it reports - and every pose its observers are told - is the sum of the odometry deltas, whatever noise the other particles draw, whatever limits are drawn and whatever the scan adder does to the shared map.  The run only fails if the scan adder fails.  In binary64 the same holds bit for bit for up to 2^20 particles and odometry whose running sums are finite, if the library's cos 0 is 1 and sin 0 is 0: the rounding of sums, quotients and squares never makes the effective number of particles look small enough for resampling.", "quantifier": "every history of subscriptions and scans, number of particles, noise, limits, seeds, uniform draws, scan adder", "why_tests_cant": "arbitrary histories and random draws; needs that equal weights stay equal and never fall below the resampling threshold", "anchors": ["src/slams/gmapping/gmapping_world.h: update_robot_pose, handle_observation, mark_master", "src/slams/gmapping/gmapping_particle_filter.h: handle_observation, try_resample", "src/core/particle_filter.h: heaviest_particle, normalize_weights, resampling_is_required", "src/core/scan_matchers/no_action_scan_matcher.h: process_scan"]}
{"id": "C108", "title": "GMapping only fails with its scan matcher or scan adder", "statement": "A GMapping filter of at least one particle can always be created, and if the scan matcher and the scan adder never fail it handles every history of scans and subscriptions without reading a particle, weight or map that is not there; afterwards it still has particles and reports a pose and a map.  This holds whatever numbers - infinities and NaN included - the odometry, random variables, uniform draws, matcher and trigonometric functions give.  If they do fail, the filter shows no other kind of failure than theirs: over a matcher and an adder without undefined behaviour it has none.  With no particles the constructor itself reads the heaviest of none.", "quantifier": "every history, number of particles, matcher, adder, random variables, draws, doubles", "why_tests_cant": "arbitrary histories and arbitrary doubles including NaN weights through normalization, resampling and the choice of the heaviest particle", "anchors": ["src/slams/gmapping/gmapping_particle_filter.h: handle_observation, update_robot_pose, try_resample, ensure_master_exists", "src/core/particle_filter.h: UniformResampling, heaviest_particle, normalize_weights", "src/slams/gmapping/gmapping_world.h: handle_observation"]}
