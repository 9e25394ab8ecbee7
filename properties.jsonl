{"id": "C01", "title": "Exactly N records, numbered 0..N-1, per output", "statement": "Running a collider configured for N events that finishes hands every configured output (stdout, text directory, HDF5 file) exactly max(N,0) records, in order, numbered 0,1,...,N-1; nothing else is written to them.", "quantifier": "every N, every pair of nuclei, every random history, every combination of outputs", "why_tests_cant": "A test runs a few small N; the claim is an induction over the event loop for all N and all random histories.", "anchors": ["src/collider.cxx:Collider::run_events", "src/output.h:Output::operator()", "src/output.cxx:Output::Output"]}
{"id": "C02", "title": "Every reported event is a real collision; npart counts flagged nucleons", "statement": "In every event handed to the outputs npart equals the number of nucleons whose is_participant() is true in the two nuclei, at least one nucleon of each nucleus participates, hence 2 <= npart <= A+B.", "quantifier": "all nuclei, configurations, random histories", "why_tests_cant": "Random sampling can only sample histories; the bound must hold in every accepted event.", "anchors": ["src/collider.cxx:Collider::sample_collision", "src/event.cxx:Event::compute", "src/nucleon.h:NucleonCommon::participate"]}
{"id": "C03", "title": "Participants come in mutually in-range pairs", "statement": "After the pair loop a nucleon is a participant if and only if participate() returned true for at least one pair containing it, and every participant has a participant partner in the other nucleus at transverse distance no larger than max_impact(). A nucleon with no partner within max_impact() is never a participant.", "quantifier": "every pair of nuclei, every random history, with and without --ncoll", "why_tests_cant": "Quantifies over all interleavings of hits and misses in an A x B loop.", "anchors": ["src/collider.cxx:Collider::sample_collision", "src/nucleon.h:NucleonCommon::participate", "src/nucleon.h:NucleonCommon::max_impact"]}
{"id": "C04", "title": "ncoll counts the colliding pairs of the accepted sample", "statement": "With --ncoll the reported ncoll equals the number of nucleon pairs (i,j) of the accepted sample for which participate() returned true, rejected samples contribute nothing, and max(npart_A,npart_B) <= ncoll <= A*B, so ncoll >= 1; without --ncoll it is 0.", "quantifier": "all nuclei, random histories, numbers of rejected impact parameters", "why_tests_cant": "The counter lives outside the retry loop; whether rejected samples leak into it is a claim about all histories.", "anchors": ["src/collider.cxx:Collider::sample_collision"]}
{"id": "C05", "title": "Impact parameter range and fixed impact parameter", "statement": "The reported b lies between b-min and the effective b-max (b-max, or if that is negative the sum of the two nuclear radii and the maximum nucleon-nucleon impact parameter), in exact arithmetic and in IEEE double arithmetic for b-min and b-max that are zero or between 2^-500 and 2^500, with every intermediate value finite; with b-min = b-max = b the reported value is b exactly, bit for bit. The value is b = sqrt(bmin^2 + (bmax^2-bmin^2)u) for one uniform draw u, so that the area pi b^2 (and not b) is uniform between the two limits: the probability of b below x is proportional to the area between bmin and x.", "quantifier": "all b-min, b-max, random draws in [0,1)", "why_tests_cant": "The double-precision formula sqrt(b*b + (B*B - b*b)*u) rounds five times; that it never leaves [b, B] must hold for every pair of doubles and every u.", "anchors": ["src/collider.cxx:Collider::sample_collision", "src/collider.cxx:determine_bmax"]}
{"id": "C06", "title": "The two nuclei are displaced by exactly b, apportioned by radius", "statement": "In every event the nuclear centres are offset along x only, by +s*b and -(1-s)*b with 0<=s<=1, so that they are exactly b apart; s = rA/(rA+rB), or 1/2 when rA+rB < 0.1; identical radii give s=1/2.", "quantifier": "all nuclei, b", "why_tests_cant": "Holds for every pair of species/files and every sampled b.", "anchors": ["src/collider.cxx:determine_asym", "src/collider.cxx:Collider::sample_collision", "src/nucleus.cxx:Nucleus::set_nucleon_position"]}
{"id": "C07", "title": "Minimum-bias range covers every possible proton-proton collision", "statement": "For nuclei whose nucleons all lie within radius() of their centre, no collision is possible at impact parameters above the default b-max = rA + rB + max_impact(); in particular the default range of p+p, and of pre-generated files with at most 501 nucleons' worth of configurations, loses nothing. For Woods-Saxon nuclei nucleons can lie beyond radius() (radius() = R+3a but nucleons reach R+10a), so collisions above the default b-max exist and are never generated.", "quantifier": "all nucleon positions, all impact parameters", "why_tests_cant": "Quantifies over all nucleon configurations and b.", "anchors": ["src/collider.cxx:determine_bmax", "src/nucleus.cxx:WoodsSaxonNucleus::radius", "src/nucleus.cxx:DeformedWoodsSaxonNucleus::radius"]}
{"id": "C08", "title": "Collision search never fabricates an event; impossible requests hang", "statement": "sample_collision returns only when a pair collided; if the impact-parameter range makes a collision impossible (e.g. p+p with b-min > max_impact()), or constit-number is 0, it retries forever for every random history and no event is ever output.", "quantifier": "all random histories, any number of retries", "why_tests_cant": "Non-termination cannot be observed by a test.", "anchors": ["src/collider.cxx:Collider::sample_collision"]}
{"id": "C09", "title": "Seed reproducibility", "statement": "Two runs of the program with the same configuration and the same positive --random-seed give the same stdout, the same stderr and the same files (and fail alike if they fail), whatever the state of the random engine before, whenever the cross-section cache already holds a matching entry or the parameter is a closed form that uses no random numbers. This does not extend to a cold cache: the first run uses the freshly computed cross-section parameter, later ones its 7-significant-digit cached copy, and two cold runs with substructure may even compute different parameters because the seed is only set after the parameter has been sampled.", "quantifier": "all configurations, seeds, prior RNG states, cache contents", "why_tests_cant": "Hyperproperty over pairs of runs and hidden state.", "anchors": ["src/collider.cxx:Collider::Collider", "src/nucleon.cxx:partonic_cross_section", "src/random.cxx:engine"]}
{"id": "C10", "title": "Event results do not depend on earlier events", "statement": "Event::compute on given nuclei yields the same grid, npart, multiplicity and eccentricities whatever events the object processed before.", "quantifier": "all histories of earlier events, all nuclei", "why_tests_cant": "Quantifies over every history of a reused mutable object.", "anchors": ["src/event.cxx:Event::compute", "src/event.cxx:Event::compute_nuclear_thickness"]}
{"id": "C11", "title": "Subgrid deposition equals the full sum over participants", "statement": "The nuclear thickness at every grid cell equals the sum over all participants of their thickness at the cell centre: restricting each nucleon to its bounding subgrid (with index clipping) loses nothing, also for nucleons partly or entirely off the grid.", "quantifier": "all nuclei, positions on or off the grid, grid sizes and steps (exact arithmetic)", "why_tests_cant": "The unit test compares on one random event; edges and off-grid nucleons are infinitely many cases.", "anchors": ["src/event.cxx:Event::compute_nuclear_thickness", "src/nucleon.h:NucleonCommon::boundary", "src/nucleon.h:NucleonCommon::thickness", "src/event.cxx:clip"]}
{"id": "C12", "title": "Grid geometry", "statement": "The grid is N x N with N = ceil(2*max/step); the actual half-width N*step/2 is >= the requested max and exceeds it by less than step/2; cell centres are spaced by step and symmetric about 0. In IEEE doubles of moderate magnitude N is that ceiling of the exact quotient of the two doubles, or one less when the quotient exceeds an integer by less than a relative 2^-52, and the half-width and cell centres are within rounding of the exact ones; because max and step are doubles, N can be one larger than the decimal quotient suggests (max 2.1, step 0.3 gives 15, not 14).", "quantifier": "all positive max, step", "why_tests_cant": "All real/double configurations.", "anchors": ["src/event.cxx:Event::Event", "src/event.cxx:Event::compute_nuclear_thickness"]}
{"id": "C13", "title": "Grid computations are free of undefined behaviour", "statement": "If grid-step > 0, grid-max > 0, N fits in int, and each participant has at least one constituent and its bounding box divided by the step fits in int, then Event::compute never indexes a grid out of bounds, never converts an out-of-range double to int and never dereferences an empty constituent list, and always returns. When the step is zero or the quotient does not fit in int the constructor has undefined behaviour.", "quantifier": "all nuclei, arithmetic interpretations (including IEEE with NaN), grid sizes", "why_tests_cant": "Memory safety for all inputs.", "anchors": ["src/event.cxx:Event::compute_nuclear_thickness", "src/event.cxx:clip", "src/nucleon.h:NucleonCommon::boundary"]}
{"id": "C14", "title": "Reduced thickness is norm times the generalized mean", "statement": "Each grid cell of the reduced thickness equals norm * M_p(TA,TB) where M_p is the generalized mean (geometric for |p|<1e-12, except that for p<0 cells where either thickness is below 1e-12 are exactly 0): M_p is symmetric, homogeneous of degree one, lies between min and max of its arguments, equals the common value when TA = TB, is non-decreasing in each argument, and vanishes for p<=0 where one nucleus has no thickness.", "quantifier": "all p, all non-negative thicknesses (exact arithmetic)", "why_tests_cant": "Identity and inequalities over all reals.", "anchors": ["src/event.cxx:positive_pmean", "src/event.cxx:negative_pmean", "src/event.cxx:geometric_mean", "src/event.cxx:Event::compute_reduced_thickness"]}
{"id": "C15", "title": "Multiplicity is the integral of the published grid", "statement": "multiplicity() equals step^2 times the sum of all cells of reduced_thickness_grid(); it is non-negative when norm is, and scales linearly with norm.", "quantifier": "all events", "why_tests_cant": "All grids.", "anchors": ["src/event.cxx:Event::compute_reduced_thickness"]}
{"id": "C16", "title": "Eccentricities exist, are the four harmonics 2..5 and lie in [0,1]", "statement": "After every compute, eccentricity() holds exactly the keys 2,3,4,5; in exact arithmetic each value lies in [0,1]; for an event with an empty grid each value is 0, in exact and in IEEE double arithmetic.", "quantifier": "all events, all grids, all norms (exact arithmetic)", "why_tests_cant": "Inequality over all grids.", "anchors": ["src/event.cxx:Event::compute_observables"]}
{"id": "C17", "title": "Eccentricities equal the documented harmonic averages", "statement": "Each eccentricity e_n equals |sum t r^n exp(i n phi)| / sum t r^n about the thickness-weighted centre of the grid, summed over cells with t >= 1e-12 (denominator floored at 1e-12).", "quantifier": "all grids", "why_tests_cant": "Polynomial identity for all coordinates.", "anchors": ["src/event.cxx:Event::compute_observables"]}
{"id": "C18", "title": "Event observables respect the symmetries of the problem", "statement": "Swapping the two projectiles leaves grid, npart, multiplicity and eccentricities unchanged; transposing, mirroring or rotating the thickness grid by 90 degrees leaves the multiplicity and eccentricities unchanged.", "quantifier": "all events (exact arithmetic)", "why_tests_cant": "Hyperproperty over pairs of events.", "anchors": ["src/event.cxx:Event::compute_reduced_thickness", "src/event.cxx:Event::compute_observables"]}
{"id": "C19", "title": "Nucleon thickness profile", "statement": "thickness() is non-negative, exactly zero at distance >= 5 constituent widths from every constituent, at most prefactor times the summed fluctuations (up to the fast-exp error), and differs from the documented truncated Gaussian sum by a relative error below 2.0e-5.", "quantifier": "all positions, widths, fluctuations (exact arithmetic)", "why_tests_cant": "Error bound over a continuum of points.", "anchors": ["src/nucleon.h:NucleonCommon::thickness", "src/fast_exp.h:FastExp::operator()"]}
{"id": "C20", "title": "Nucleon boundary encloses the whole profile", "statement": "boundary() is the smallest axis-parallel box containing the 5-width disc around every constituent: the profile vanishes outside it and no smaller box contains all discs.", "quantifier": "all constituent sets", "why_tests_cant": "All constituent configurations.", "anchors": ["src/nucleon.h:NucleonCommon::boundary"]}
{"id": "C21", "title": "Constituents are centred on the nucleon", "statement": "When constituents are sampled there are exactly m of them, their mean position is the nucleon's position, and with m = 1 (or zero sampling width) they sit exactly at the nucleon position, also in IEEE doubles.", "quantifier": "all positions, m, random draws", "why_tests_cant": "All random draws.", "anchors": ["src/nucleon.h:NucleonCommon::sample_constituent_positions"]}
{"id": "C22", "title": "Constituents are sampled once per placement and never stale", "statement": "Constituents (positions and fluctuations) are sampled at most once between two placements of a nucleon and then never change; a participant always has constituents sampled since its last placement.", "quantifier": "all interleavings of placements and participate calls", "why_tests_cant": "Invariant over all histories.", "anchors": ["src/nucleon.h:NucleonCommon::sample_constituent_positions", "src/nucleon.h:NucleonCommon::participate", "src/nucleon.h:NucleonData::set_position"]}
{"id": "C23", "title": "Substructure preserves the configured nucleon width", "statement": "The constituent sampling width r satisfies v^2 + r^2 (1-1/m) = w^2 when m > 1 and w - v >= 1e-6 (and is 0 otherwise), and for independent centred draws of variance r^2 the recentred constituents plus their own width have mean square width exactly w^2.", "quantifier": "all w, v, m; all sampling laws with the given second moments", "why_tests_cant": "Statement about expectations; Monte-Carlo tests only estimate it.", "anchors": ["src/nucleon.cxx:calc_sampling_width", "src/nucleon.h:NucleonCommon::sample_constituent_positions"]}
{"id": "C24", "title": "participate(): decision rule and effects", "statement": "participate(A,B) returns true iff both already participate (and ncoll is off), or the transverse distance is <= max_impact and exp(-sigma_partonic * T_AB) < u, where T_AB is the overlap integral of the two constituent profiles; on a hit both nucleons become participants, on a miss neither flag changes; it never clears a flag and never moves a nucleon.", "quantifier": "all nucleon pairs, all draws", "why_tests_cant": "All inputs and draws.", "anchors": ["src/nucleon.h:NucleonCommon::participate"]}
{"id": "C25", "title": "FastExp error and memory safety", "statement": "For every table of n >= 2 points with step dx and every x in [xmin,xmax] the table index is in bounds and the relative error of the result is at most dx^2/8 * exp(dx/2) (exact at table points). In IEEE doubles the 1000-point table used for nucleons is never indexed out of bounds by thickness(), for every constituent width that is 0 or has magnitude between 2^-500 and 2^490 (smaller widths underflow and the index conversion is undefined).", "quantifier": "all tables and arguments", "why_tests_cant": "Continuum of arguments.", "anchors": ["src/fast_exp.h:FastExp"]}
{"id": "C26", "title": "FastExp argument can leave the tabulated range by rounding", "statement": "In a debug build thickness() can throw out_of_range although the point is inside the 5-width disc, because of rounding at the disc edge; in exact arithmetic it never does.", "quantifier": "all doubles", "why_tests_cant": "A measure-zero floating-point corner that random tests do not hit.", "anchors": ["src/nucleon.h:NucleonCommon::thickness", "src/fast_exp.h:FastExp::operator()"]}
{"id": "C27", "title": "Species table", "statement": "Nucleus::create accepts exactly the documented species names plus names with an HDF5 extension, builds the documented nucleus type with the documented nucleon number and Woods-Saxon parameters, and throws invalid_argument for every other string.", "quantifier": "all strings", "why_tests_cant": "All strings.", "anchors": ["src/nucleus.cxx:Nucleus::create", "src/hdf5_utils.cxx:filename_is_hdf5"]}
{"id": "C28", "title": "sample_nucleons resets every nucleon and keeps the count", "statement": "After sample_nucleons(offset), for every nucleus type, the number of nucleons is unchanged, no nucleon is a participant or has valid constituents, and changing only the offset shifts all x by the difference and leaves y, z and the random stream unchanged (exact arithmetic, no minimum distance needed: the retry decisions do not depend on the offset).", "quantifier": "all nucleus types, histories, offsets", "why_tests_cant": "All histories of a reused object.", "anchors": ["src/nucleus.cxx:Nucleus::sample_nucleons", "src/nucleus.cxx:Nucleus::set_nucleon_position"]}
{"id": "C29", "title": "Minimum nucleon distance", "statement": "After sampling a Woods-Saxon nucleus (spherical or deformed) with minimum distance d, every nucleon is at distance >= d from every previously placed nucleon unless it used up all 1000 placement attempts; with d^2 < 1e-10 each nucleon is placed in a single attempt. No nucleon is attempted more than 1000 times, so placement always terminates.", "quantifier": "all random histories, A, d", "why_tests_cant": "All random histories.", "anchors": ["src/nucleus.cxx:MinDistNucleus::is_too_close", "src/nucleus.cxx:WoodsSaxonNucleus::sample_nucleons_impl", "src/nucleus.cxx:DeformedWoodsSaxonNucleus::sample_nucleons_impl"]}
{"id": "C30", "title": "Woods-Saxon radii are preserved by placement", "statement": "The radii of a spherical Woods-Saxon nucleus are drawn from the density r^2/(1+exp((r-R)/a)), interpolated at 1001 equidistant points of [0, R+10a]; the distances of its nucleons from its centre are exactly those radii in non-decreasing order - retries change angles only - and never exceed R+10a.", "quantifier": "all random histories", "why_tests_cant": "All random histories and retries.", "anchors": ["src/nucleus.cxx:WoodsSaxonNucleus::sample_nucleons_impl"]}
{"id": "C31", "title": "Deformed nuclei: rigid rotation and bounded radius", "statement": "For a deformed nucleus all nucleons are placed by one common rotation (orthonormal, determinant 1) of body-frame points whose (r, |cos theta|) are the sampled ones in non-decreasing r; hence distances from the centre are the sampled radii and are at most the maximum radius R(1+.63|b2|+.85|b4|)+10a.", "quantifier": "all random histories", "why_tests_cant": "All random histories and angles.", "anchors": ["src/nucleus.cxx:DeformedWoodsSaxonNucleus::sample_nucleons_impl"]}
{"id": "C32", "title": "Deuteron geometry", "statement": "The two deuteron nucleons are point-symmetric about the nucleus centre at distance r from it where r solves u = exp(-2 a r) for the accepted draw u, and the acceptance weight is always in [0,1]. A draw u = 0 (allowed by the generator's range) is accepted in IEEE arithmetic and yields non-finite nucleon positions.", "quantifier": "all draws", "why_tests_cant": "u = 0 has probability 2^-53 or less per draw.", "anchors": ["src/nucleus.cxx:Deuteron::sample_nucleons_impl"]}
{"id": "C33", "title": "Pre-generated configurations are rotated rigidly", "statement": "ManualNucleus places nucleon k at a proper rotation of row k of one configuration of the file (same rotation for all, index within range), plus the x offset; all pairwise distances of the configuration are preserved.", "quantifier": "all files, random draws", "why_tests_cant": "All angles and configurations.", "anchors": ["src/nucleus.cxx:ManualNucleus::sample_nucleons_impl"]}
{"id": "C34", "title": "Validation of pre-generated files", "statement": "ManualNucleus::create succeeds for a file with exactly one object, a dataset of shape (n>=1, A>=1, 3), and throws invalid_argument when the file is missing, is not HDF5, has another number of objects, a non-dataset object, fewer than three dimensions, or a third extent other than 3. It does not handle every problem: a dataset with more than three dimensions overruns a stack array before the check and an empty second extent divides by zero.", "quantifier": "all files", "why_tests_cant": "All file shapes.", "anchors": ["src/nucleus.cxx:ManualNucleus::create", "src/hdf5_utils.cxx:try_open_file"]}
{"id": "C35", "title": "Radius of pre-generated nuclei", "statement": "radius() is the largest distance from the origin among all positions of the first min(floor(500/A)+1, n) configurations (at least 500 positions when the file has them); positions in later configurations may be farther out.", "quantifier": "all files", "why_tests_cant": "All files.", "anchors": ["src/nucleus.cxx:ManualNucleus::create"]}
{"id": "C36", "title": "The fitted cross-section parameter reproduces sigma_NN", "statement": "For one constituent the equation solved for the cross-section parameter is equivalent to sigma_NN = integral over the impact-parameter disc of radius max_impact() of the collision probability used by participate(); the left side is strictly increasing in the parameter so the solution is unique, and any bracket of width eps containing the root gives a cross section within 4 pi w^2 eps of sigma_NN; if sigma_NN is outside the reachable range no solution exists in the bracket.", "quantifier": "all sigma_NN, widths", "why_tests_cant": "Equality of integrals; Monte Carlo checks only estimate it.", "anchors": ["src/nucleon.cxx:analytic_partonic_cross_section", "src/nucleon.h:NucleonCommon::participate"]}
{"id": "C37", "title": "Cache lookups only return matching entries", "statement": "A cross-section parameter taken from the cache comes from an entry with the same constituent number whose nucleon width, constituent width and sigma_NN each differ from the requested ones by less than 1e-6, and it is the first such entry; a hit leaves the file system unchanged and computes nothing.", "quantifier": "all well-formed cache files and requests", "why_tests_cant": "All file contents.", "anchors": ["src/nucleon.cxx:partonic_cross_section", "src/nucleon.cxx:almost_equal"]}
{"id": "C38", "title": "Cache write/read round trip", "statement": "After a computed parameter has been appended to a well-formed cache (or to a cache file that did not exist), every later lookup with the same configuration hits and returns the computed value to 7 significant digits, provided widths and sigma_NN are non-negative and below 99.9999995; the entries already present are preserved, and this holds along any history of runs. A sigma_NN of 100 to 1000 (10-character field) merges columns and the entry is never found again: every run computes the parameter anew.", "quantifier": "all configurations and cache contents", "why_tests_cant": "Character-level round trip for all values.", "anchors": ["src/nucleon.cxx:partonic_cross_section"]}
{"id": "C39", "title": "Cache robustness", "statement": "Reading a well-formed cache file terminates. An empty file, or one that starts with text that is not a number, makes the first comparison read uninitialised variables; a file with a well-formed line that does not match, followed by text that does not parse as numbers, makes the reading loop run forever; a run whose fit fails (or which is killed between opening and writing) leaves an empty file behind, so the following run hits the uninitialised read; and a last line cut off after its fourth number (a crash while writing) makes a matching request silently return the parameter of the line before it.", "quantifier": "all cache contents, crash points between open and write", "why_tests_cant": "Crash points and corrupt contents.", "anchors": ["src/nucleon.cxx:partonic_cross_section"]}
{"id": "C40", "title": "Monte Carlo cross-section estimator", "statement": "When the Monte Carlo estimator returns, the last 10001 consecutive estimates all lie within 0.001 of one reference estimate; it fails with out_of_range exactly when 10^7 iterations pass without this. The estimate divides the sum of n+1 miss probabilities by n, so it underestimates the hit probability by (sum/n)/(n+1) and can be negative. Each trial draws an impact parameter b = 6w sqrt(u) (area-uniform in the disc of radius 6w), 2m constituent positions per nucleon with the sampling width of the events, and yields exp(-sigma_partonic T_AB); the estimate is pi (6w)^2 (1 - S/n). Constituents are not recentred, so the nucleons of a trial are not b apart. With more than one constituent the fitted parameter lies between two parameters whose estimates straddle sigma_NN.", "quantifier": "all random histories", "why_tests_cant": "All histories.", "anchors": ["src/nucleon.cxx:MonteCarloCrossSection::operator()"]}
{"id": "C41", "title": "CyclicNormal", "statement": "Every value drawn is one of the cached normal quantiles, no draw reads out of bounds for a non-empty cache, the quantiles are symmetric about the mean, every cycle through the cache in which no reshuffle happens visits each cached value exactly once, and a reshuffle happens after n_loops+1 cycles. The cycle containing a reshuffle may repeat one value and skip another, because the reshuffle happens one element into the cycle.", "quantifier": "all cache sizes, draw counts, shuffles", "why_tests_cant": "All draw counts.", "anchors": ["src/random.h:CyclicNormal"]}
{"id": "C42", "title": "stdout line format", "statement": "Each stdout record is one line whose whitespace-separated fields are, in order, event number, b (10 decimals), npart, ncoll (present iff > 0), multiplicity (scientific, 10 decimals), e2..e5 (10 decimals). The fields stay separated whenever 0 <= b <= 1000 - 1e-10 (14 characters), 0 <= npart < 10^4, ncoll < 10^5, the multiplicity is zero or has a decimal exponent of at most three digits and each eccentricity has at most 13 characters (the widths minus one); npart >= 10^4 runs into b, ncoll >= 10^5 runs into npart.", "quantifier": "all events in the stated ranges", "why_tests_cant": "All magnitudes.", "anchors": ["src/output.cxx:write_stream"]}
{"id": "C43", "title": "Text file format", "statement": "For an N x N grid with N >= 2 an event file contains the header (if enabled) followed by exactly N lines of N numbers separated by single spaces, row-major; for N = 1 the writer reads past the end of the row (undefined behaviour). The grid values are printed with 10 significant digits when the header is enabled and with only 6 under --no-header. A finished run with text output to a missing or empty directory leaves exactly one such file per event in it.", "quantifier": "all grids", "why_tests_cant": "All grid sizes and values.", "anchors": ["src/output.cxx:write_text_file"]}
{"id": "C44", "title": "Event file names are unique and sort in event order", "statement": "For N >= 1 events the padded width is the least w with 10^w >= N (in binary64, for a log10 accurate to 1e-10, that or one more), so event i's text file is named by i in exactly w (at least one) decimal digits followed by .dat, and the text files have distinct names that sort lexicographically in event order; N = 0 makes the constructor convert log10(0) = -inf to int (undefined behaviour).", "quantifier": "all N >= 1 that fit in int", "why_tests_cant": "All N.", "anchors": ["src/output.cxx:Output::Output", "src/output.cxx:write_text_file"]}
{"id": "C45", "title": "Outputs never overwrite existing data", "statement": "Constructing the outputs throws if the HDF5 file or text directory exists and is non-empty, before any event is run; whatever the outcome of the run, no non-empty file and no directory existing before it is changed (the cross-section cache only grows); a missing directory is created. If the output path is an existing empty regular file without HDF5 extension, the run succeeds but writes no event files.", "quantifier": "all file systems, paths", "why_tests_cant": "All initial file-system states.", "anchors": ["src/output.cxx:Output::Output", "src/output.cxx:write_text_file"]}
{"id": "C46", "title": "HDF5 extension test", "statement": "A path is treated as HDF5 iff the part of its last component from its last dot is exactly .hdf5, .hdf, .hd5 or .h5 (case-sensitive), the same rule for projectiles and outputs.", "quantifier": "all strings", "why_tests_cant": "All strings.", "anchors": ["src/hdf5_utils.cxx:filename_is_hdf5"]}
{"id": "C47", "title": "HDF5 output", "statement": "A run with HDF5 output creates one dataset per event named event_0..event_(N-1), all distinct, of shape N x N with the grid, with attributes b, npart, [ncoll iff > 0], mult, e2..e5.", "quantifier": "all N, events", "why_tests_cant": "All N.", "anchors": ["src/output.cxx:HDF5Writer"]}
{"id": "C48", "title": "Option precedence", "statement": "The effective value of an option is the command-line value if given there, else the value in the first config file giving it, else the default; the constituent width defaults to the effective nucleon width. projectile lists are taken as a whole from the highest-priority source that gives any.", "quantifier": "all command lines and config files", "why_tests_cant": "All combinations of sources.", "anchors": ["src/trento.cxx:main"]}
{"id": "C49", "title": "Configuration validation and exit status", "statement": "main returns 1 and runs no event and touches neither output nor cache when widths are negative, the constituent width exceeds the nucleon width, differs from it with one constituent, a config file is missing, or not exactly two projectiles are given; it returns 0 iff all events ran (or help/version/bibtex was requested); any standard exception yields 1.", "quantifier": "all configurations and worlds", "why_tests_cant": "All inputs.", "anchors": ["src/trento.cxx:main"]}
{"id": "C50", "title": "help, version and bibtex have no side effects", "statement": "With --help, --version or --bibtex on the command line main returns 0 without reading config files, touching cache or output or running events, even if other options are invalid in combination.", "quantifier": "all other options", "why_tests_cant": "All inputs.", "anchors": ["src/trento.cxx:main"]}
{"id": "C51", "title": "Events depend only on the configuration and the random state at their start", "statement": "In a run each event (impact parameter, nucleon positions, participants, profile, observables) is a function of the configuration and of the state of the random generator when the event starts; nothing computed for an earlier event influences it. Changing only number-events, quiet, output or no-header changes none of the events: the shorter run's events are a prefix of the longer one's.", "quantifier": "all configurations, random engines, event counts and output options", "why_tests_cant": "Ranges over all histories of earlier events and all generator states; stale state may show only for particular sequences.", "anchors": ["src/collider.cxx:Collider::run_events", "src/event.cxx:Event::compute", "src/nucleus.cxx:Nucleus::sample_nucleons", "src/nucleon.h:NucleonCommon::participate"]}
{"id": "C52", "title": "Distribution of constituents and weights", "statement": "In every event, every participant's constituents get offsets drawn from a normal law of mean 0 and a width r with v^2 + r^2(1-1/m) = w^2 (w nucleon width, v constituent width, m constituents), recentred on the nucleon, and weights drawn from a gamma law of shape k and scale 1/k (k = fluctuation), so that each nucleon's mean weight has expectation 1 and variance 1/(k m).", "quantifier": "all configurations, events, participants, engine outputs", "why_tests_cant": "A statistical test can only bound deviations, for some parameters; the law must hold for every configuration.", "anchors": ["src/nucleon.h:NucleonCommon", "src/nucleon.cxx:NucleonCommon::NucleonCommon"]}
{"id": "C53", "title": "Each event collides the two projectiles named on the command line", "statement": "In every event of a finished run with two documented projectile names, the first nucleus has the first projectile's number of nucleons placed about (s b, 0, 0), the second has the second's, about ((s-1) b, 0, 0), with that species' shape (radius bound, minimum distances, mirrored deuteron, point proton); s is the share of the first projectile's radius, b = sqrt(bmin^2 + (bmax^2 - bmin^2) u) with the default bmax from the two radii plus six nucleon widths; Npart is between 2 and the total number of nucleons.", "quantifier": "all configurations naming two documented projectiles, all events, all generator outputs", "why_tests_cant": "Ranges over all pairs of species, events and generator outputs.", "anchors": ["src/collider.cxx:create_nucleus", "src/collider.cxx:Collider::sample_collision", "src/nucleus.cxx:Nucleus::create"]}
{"id": "C54", "title": "Several processes share the cross-section cache", "statement": "Any number of trento processes, started at any time, interleaved in any order and killed at any point while they determine their cross-section parameter, leave the cache with its previous text followed by whole lines: exactly one per process that returned a parameter it computed, in the order of the writes, and change no other file. If the cache held at least one entry to begin with, it is well formed at every moment; a process that found an entry returned the parameter of the first entry for its configuration without using its random engine; no process fails or gets stuck because of the others; two processes with the same configuration that found it got the same parameter; and once one process has its parameter, every process with that configuration that has not looked yet finds it. An undisturbed process does exactly what a run by itself does. Without a cache file to begin with this fails: while the first process computes its parameter, or after it was killed there, every process that starts compares with uninitialised variables; and two processes that looked before either wrote both append a line.", "quantifier": "all schedules of any number of processes, all kill points, all configurations, engines and root finders; arbitrary previous cache text (appending), well-formed non-empty caches (answers)", "why_tests_cant": "Ranges over all interleavings and crash points of arbitrarily many processes.", "anchors": ["src/nucleon.cxx:partonic_cross_section"]}
{"id": "C55", "title": "What a killed run leaves behind", "statement": "Kill a run at any point: in its constructor, while directories are made, while a cache line or an event file or a line of standard output is being written, between events. With text output to a new or empty directory, there is a k such that the directory holds the files of events 0..k-1 exactly as the complete run writes them, at most an initial part of the file of event k, and nothing else; what was printed is an initial part of what the complete run prints; outside the directory and the cross-section cache nothing changed but directories on the way to it. With HDF5 output or none, nothing changed but that file and the cache, and the same holds of what was printed. A later run with the same output directory is never a resumption: if anything was left in the directory it fails, prints nothing and leaves the directory as it is; an empty directory left behind is accepted.", "quantifier": "all kill points, configurations, engines, root finders and prior file trees in which the run left alone finishes; all later runs", "why_tests_cant": "Ranges over every crash point of every run; a test cannot stop the process at each of them.", "anchors": ["src/trento.cxx:main", "src/collider.cxx:Collider::Collider", "src/collider.cxx:Collider::run_events", "src/output.cxx:Output::Output", "src/output.cxx:write_text_file"]}
{"id": "C56", "title": "--ncoll does not change the physics", "statement": "Switching --ncoll on (which disables the shortcut that skips a pair of nucleons already flagged as participants) changes neither the collider that is built nor the probability law of what is simulated: whatever is observed of any number of successive collisions apart from the binary-collision count - impact parameters, sampled positions, constituents, participants, failures - has the same mean with and without the option, when successive variates are independent; and the event computed from given nucleons does not depend on it. (A given seed does give different events, since the extra tests consume draws.)", "quantifier": "all laws of a variate and transformations of variates into the distributions used, all nuclei, configurations, numbers of collisions and observables", "why_tests_cant": "A statement about probability laws over all observables; sampling can only fail to reject it.", "anchors": ["src/nucleon.h:NucleonCommon::participate", "src/collider.cxx:Collider::sample_collision", "src/collider.cxx:Collider::Collider"]}
{"id": "C57", "title": "Glauber probabilities", "statement": "At given nucleon positions (freshly sampled nuclei, one Gaussian constituent per nucleon, exact arithmetic, independent uniform variates) every pair of nucleons from the two nuclei collides independently of the others, with probability 1 - q_ij, q_ij = exp(-sigma T_ij) for transverse distances up to six nucleon widths and 1 beyond. The joint law of the participants of A, of B, the binary-collision count (with --ncoll) and the collision flag is that of these independent trials. Hence nucleon i of A participates with probability 1 - prod_j q_ij (likewise for B), nothing collides with probability prod_ij q_ij, the mean number of binary collisions is sum_ij (1 - q_ij) and the mean number of participants is sum_i (1 - prod_j q_ij) + sum_j (1 - prod_i q_ij) - with and without --ncoll, despite the shortcut for pairs of participants and the lazily sampled constituents.", "quantifier": "all positions and numbers of nucleons, widths, partonic cross sections and observables", "why_tests_cant": "Equality of probability laws for every configuration of positions.", "anchors": ["src/nucleon.h:NucleonCommon::participate", "src/nucleon.h:NucleonCommon::sample_constituent_positions", "src/collider.cxx:Collider::sample_collision"]}
{"id": "C58", "title": "Events are independent samples of the collisions that happen", "statement": "With independent variates, a search for a collision (the do-while loop: new impact parameter, new nuclei, all pairs, until something collides) that may try n times returns an event with the law of the first attempt conditioned on colliding: for every observable of impact parameter, number of binary collisions and event, its mean over searches is (1 + q + ... + q^(n-1)) times its mean over attempts that collide, q being the probability that an attempt does not; so mean and probability of success are in the same ratio for every n, and as n grows the mean tends to the conditional mean over colliding attempts. Rejected attempts leave no trace (nuclei, constituents, count). The successive events of a run are independent and identically distributed: the mean of a product of one observable per event is the product of the means over single searches, and among runs that finish, the mean squared deviation of the average over n events from the true mean is the variance divided by n. These samples are the events that a run hands to its outputs.", "quantifier": "all nuclei, collider parameters, laws of the variates (averaging and linear), observables, numbers of attempts and events; any arithmetic", "why_tests_cant": "An equality of probability laws over unboundedly many attempts, events and observables.", "anchors": ["src/collider.cxx:Collider::sample_collision", "src/collider.cxx:Collider::run_events", "src/nucleus.cxx:Nucleus::sample_nucleons", "src/event.cxx:Event::compute"]}
{"id": "C59", "title": "The law of the nucleon positions", "statement": "With independent variates and no minimum distance, for every function g of a position the mean of the product of g over all nucleons of a sampled nucleus (positions relative to its centre) is: for a spherical Woods-Saxon projectile, the N-th power of the mean of g over a uniformly distributed direction and a radius drawn from the Woods-Saxon density - the nucleons are independent and identically distributed, although their radii are sorted; for a deformed projectile, the mean over a uniformly distributed axis of the N-th power of the mean of g over points uniform in a ball kept with probability given by the deformed density, normalised; for the deuteron, the mean of any function of the two positions over a uniform direction and the Hulthen-weighted radius, the second nucleon opposite the first; for a nucleus from a file, the mean of any function of all positions over a configuration chosen by the integer distribution and a rotation with Euler angles uniform in phi, cos theta, phi. Rejection sampling that gives up after n proposals multiplies each by a geometric sum and tends to the normalised mean. A variate on n equidistant points does not exceed p with probability p up to 1/n.", "quantifier": "all projectiles of the table, all nuclei made from them and used in any way before, functions g, offsets, laws of the variates (averaging and linear), numbers of proposals", "why_tests_cant": "An equality of probability laws for every observable; tests compare histograms of one nucleus with a tolerance.", "anchors": ["src/nucleus.cxx:WoodsSaxonNucleus::sample_nucleons_impl", "src/nucleus.cxx:DeformedWoodsSaxonNucleus::sample_nucleons_impl", "src/nucleus.cxx:Deuteron::sample_nucleons_impl", "src/nucleus.cxx:ManualNucleus::sample_nucleons_impl", "src/random.h:cos_theta", "src/random.h:phi"]}
{"id": "C60", "title": "How entropy is deposited does not influence the collisions", "statement": "Two runs from the same initial state (in particular with the same --random-seed) that differ only in --reduced-thickness, --normalization, --grid-max and --grid-step report the same sequence of collisions: for every event the same impact parameter, npart, ncoll and the same nucleons, and they leave the same random state. If only the normalization is multiplied by c, every cell of every published grid and every multiplicity is multiplied by c, and (c > 0) the eccentricities are unchanged as long as no non-zero cell of either grid is below 3.2e-11 (the program ignores cells below 1e-12). If only p is increased, no cell and no multiplicity of any event decreases. With stdout output (or none), whether the run finishes does not depend on p and norm.", "quantifier": "Every configuration, generator, root finder, environment, initial world, number of events and pair of values of the four options; collisions: any arithmetic; scaling and ordering: real arithmetic.", "why_tests_cant": "It compares all pairs of runs over all configurations and generators; a test compares a handful of pairs and would not see an option leaking into the random stream for some other projectile or path.", "anchors": ["src/event.cxx: Event::Event, Event::compute, compute_reduced_thickness, compute_observables, positive_pmean, negative_pmean, geometric_mean", "src/collider.cxx: Collider::run_events, sample_collision", "src/trento.cxx: main"]}
{"id": "C61", "title": "Reported numbers are finite and meaningful in double precision", "statement": "In IEEE binary64, with ordinary parameters (constituent width between 2^-20 and 2^200 fm, at most 2^26 constituents, |p| <= 4 including every p arbitrarily close to 0, normalization at most 2^50, at most 8192 grid steps), fluctuations between 0 and 2^40 and at most 2^20 nucleons, every event reports finite numbers only: every cell of the thickness and reduced-thickness grids is a finite non-negative double, the multiplicity is dx^2 times the exact sum of the reduced-thickness cells up to a relative 2^-24, and each of the eccentricities e2..e5 is a finite double in [0, 1 + 2^-20] - no overflow, no NaN from 0/0 (also for an empty or nearly empty event), no accumulated rounding that pushes an eccentricity beyond 1.", "quantifier": "Every math library whose exp and pow are accurate to a relative 2^-40, every ordinary configuration, every generator, every pair of nuclei, every event of every run.", "why_tests_cant": "Overflow, NaN and accumulated rounding depend on the values in up to 2^26 cells and on every parameter combination; tests sample a few events.", "anchors": ["src/event.cxx: compute_nuclear_thickness, compute_reduced_thickness, compute_observables, EccentricityAccumulator, positive_pmean, negative_pmean, geometric_mean", "src/nucleon.h: NucleonCommon::thickness", "src/fast_exp.h: FastExp::operator()"]}
{"id": "C62", "title": "The thickness grids are accurate in double precision", "statement": "In IEEE binary64, with ordinary parameters (as in C61), a math library whose exp is accurate to a relative 2^-40, nucleons and points at finite coordinates up to 2^220 fm and fluctuations between 0 and 2^40: the thickness of a nucleon at a point, as computed with the table-based exponential, the rounded prefactor 1/(2 pi w^2 n) and the squared-distance cut, lies between (1 - 3e-5) times the documented sum of Gaussians cut at 5w(1 - 2^-48) and (1 + 3e-5) times the one cut at 5w(1 + 2^-48) (up to 2^-800); the two sums enclose the documented profile and coincide with it unless a constituent is within a relative 2^-48 of the cut. Every cell of both thickness grids of every event is, to the same accuracy, the sum over the participants of that nucleus (none missed by the bounding box, none counted twice, no spectator) of their profiles, evaluated at a point within 2^-38 of a grid step of the exact cell centre.", "quantifier": "Every math library with an accurate exp, every ordinary configuration, every pair of nuclei with coordinates in range, every cell, every event of every run.", "why_tests_cant": "An error bound over all positions, widths and cells; a cell that a rounded bounding box just misses, or a point just at the cut, needs coordinates no test happens to pick.", "anchors": ["src/event.cxx: compute_nuclear_thickness", "src/nucleon.h: NucleonCommon::thickness, NucleonCommon::boundary", "src/nucleon.cxx: NucleonCommon::NucleonCommon", "src/fast_exp.h: FastExp"]}
{"id": "C63", "title": "The reduced thickness is accurate in double precision", "statement": "In IEEE binary64, with ordinary parameters (as in C61), a math library whose exp and pow are accurate to a relative 2^-40, and p either taken as zero (|p| < 1e-12) or with 2^-30 <= |p| <= 4: every cell of the published reduced-thickness grid is norm times the documented generalized mean M_p of the corresponding cells of the two thickness grids (geometric mean for p = 0, zero where a thickness is below 1e-12 for p < 0), with relative error at most 2^-48 for p = 0 and 2^-34/|p| otherwise, up to an absolute 2^-140 where powers underflow. The 1e-12 thresholds act at the double nearest to 1e-12, which is below it by less than 1e-27; elsewhere the formula is exactly the documented one.", "quantifier": "Every math library with accurate exp and pow, every ordinary configuration with such p, every pair of nuclei with fluctuations in range, every cell, every event of every run.", "why_tests_cant": "An error bound over all thicknesses and exponents, including powers that underflow and the amplification by 1/p of the error of the inner powers.", "anchors": ["src/event.cxx: Event::Event, compute_reduced_thickness, positive_pmean, negative_pmean, geometric_mean"]}
{"id": "C64", "title": "The eccentricities and the centre are accurate in double precision", "statement": "In IEEE binary64, with ordinary parameters (as in C61) and grids of at most 8192 steps: the four published eccentricities e2..e5 are finite and within 2^-22 of |sum t z^n| / max(sum t |z|^n, 1e-12), evaluated in exact arithmetic on the published reduced-thickness array about the published centre (cells below 1e-12 excluded, the threshold acting at the double nearest 1e-12). The published centre of mass is within N^3 2^-48 grid cells of the exact weighted mean position (N grid steps; 3e-8 cells for N = 200). Together: each e_n is within 2^-22 + 25 N^3 2^-48 of the documented harmonic about the exact centre, provided that in the mean of r^n the contributing cells are at least one cell away from that centre.", "quantifier": "Every math library (accurate exp and pow for the run-level form), every array of finite non-negative values up to 2^200, every event object in use, every event of every run.", "why_tests_cant": "An error bound over all arrays of up to 67 million cells: rounding of the power sums, of the centre and of the difference to the centre accumulates differently for each input.", "anchors": ["src/event.cxx: Event::compute_observables, compute_reduced_thickness (ixcm_, iycm_)", "README.md: eccentricity harmonics"]}
{"id": "C65", "title": "The grid conserves the participants' weight", "statement": "If the grid step is at most the constituent width and the Gaussians (cut at five widths) of all participants lie on the grid, then the integral of each nuclear thickness grid (sum of its cells times step^2) equals the total weight of that nucleus' participants (each nucleon's weight: the mean of its constituents' fluctuations) up to a relative error 1/1000 + s^2/500 + s^4/14, s = step/width (0.15% at s = 1/4, 7.5% at s = 1), however the nucleons are placed relative to the cells. Hence for reduced-thickness parameter p = 1 the multiplicity is norm times half the summed weight of both nuclei within the same error, and for every p <= 1 it is at most that. All of this also holds for the binary64 program (with a negligible absolute error where numbers underflow), in every event of a run.", "quantifier": "All configurations with step <= constituent width, all positions of participants and constituents on the grid, all fluctuations, real arithmetic and binary64 with any accurate math library, every event of every run.", "why_tests_cant": "A quadrature error bound uniform in the continuous positions of all constituents; it needs the Gaussian integral and a midpoint-rule error analysis.", "anchors": ["src/event.cxx: Event::compute_nuclear_thickness, Event::compute_reduced_thickness", "src/nucleon.h: NucleonCommon::thickness, boundary", "README.md: grid-step, normalization"]}
{"id": "C66", "title": "Minimum bias: averages over the transverse plane, and the cross section asked for", "statement": "With uniform independent variates: (1) for any projectiles and any quantity observed of an attempted collision, its mean over attempts with b-min <= b <= b-max is the average over that ring of the transverse plane (weight 2 pi b db) of its means at fixed impact parameter (b-min = b-max = b). (2) For p+p with structureless nucleons an attempt collides at impact parameter b with probability 1 - exp(-sigma T(b)) within six widths and never beyond, so with b-min = 0 and b-max negative (default) or at least six widths, the fraction of attempts that collide times the area pi b-max^2 is the nucleon-nucleon cross section of the partonic parameter in use; with no cached parameter and a root finder that brackets the sign change this is the cross section given by the user, up to 4 pi w^2 times half the bracket. (3) The impact parameters of the accepted p+p events are distributed over the ring with that collision probability as weight, in the limit of an unbounded search (and with an explicit factor for one that stops after n attempts).", "quantifier": "All projectiles, b ranges with 0 <= b-min < b-max, observables (continuous in b at fixed b), widths, partonic parameters, states of the generator; all numbers of attempts; all collider constructions with such a p+p configuration.", "why_tests_cant": "A statement about exact probabilities under a continuous law: a test can only estimate the cross section from finitely many events with statistical error.", "anchors": ["src/collider.cxx: Collider::sample_collision, determine_bmax, determine_asym", "src/nucleon.h: NucleonCommon::participate", "src/nucleon.cxx: analytic_partonic_cross_section", "src/nucleus.cxx: Proton::sample_nucleons_impl", "README.md: cross-section, b-min, b-max"]}
{"id": "C67", "title": "Simultaneous runs on the same files", "statement": "Any number of runs, with the same or different options, may be started on the same files and make their file operations in any order. If their outputs (and input files) are apart from each other and from the cache directory, then every run that ends does exactly what it would have done by itself - same result or error, same standard output, same final random state, same output files - on the files as they were at some moment of the schedule, a moment at which its own output and inputs were still untouched, so that only the contents of the shared cross-section cache can depend on the schedule. If the cache already holds the parameters of all runs, the schedule makes no difference at all. No other file is changed; at most missing directories on the way to the outputs are made. If, however, two runs are given the same text output directory, the check that it is empty does not protect the first one: there is a schedule in which both runs end normally and the directory holds the files of the second and, under other names, what is left of those of the first.", "quantifier": "All numbers of processes, configurations, engines, environments, starting files, and all interleavings of their file operations (including processes that never start or stop anywhere); all arithmetics, generators and fits.", "why_tests_cant": "The number of interleavings is unbounded and a test cannot control the scheduler; the overlapping window of the emptiness check is a few instructions wide.", "anchors": ["src/collider.cxx: Collider::Collider, Collider::run_events", "src/nucleon.cxx: partonic_cross_section", "src/output.cxx: Output::Output, write_text_file, HDF5Writer", "src/nucleus.cxx: ManualNucleus::create"]}
{"id": "C68", "title": "Everyday runs have no undefined behaviour", "statement": "In double precision, a run with everyday parameter values (finite widths of at most 512 fm, grid steps of at least 1/512 fm and no longer than the grid, between 1 and 2^31-1 events, impact parameters of at most 8192 fm) on a system whose sin, cos, cbrt, log and log10 have sensible ranges, whose random draws are in their documented ranges, and whose cross-section cache and HDF5 nucleon files are well-formed, executes no undefined operation from reading the options to the last event: no out-of-range conversion to integer, no out-of-range array access, no empty distribution interval, no invalid generator range. Once the Collider exists, the only exceptions that can end the run are the HDF5 library's (if an HDF5 file is involved) and, in a debug build, the range checks of the arrays; so in a release build without HDF5 files all events are computed and written. The default command line, trento pA pB [N] with any of the quiet, output, no-header, ncoll, fluctuation, minimum-distance, sigma-nn, and seed options, is such a run.", "quantifier": "All everyday configurations (any projectiles, outputs, energies, reduced-thickness and fluctuation values allowed there), all math libraries, generators, seeds, root finders and file systems with the stated ranges, all numbers of events, both builds.", "why_tests_cant": "Undefined behaviour depends on the random draws of every event and on the value of every intermediate conversion; a sanitizer sees only the draws of the runs that were made.", "anchors": ["src/trento.cxx: main", "src/collider.cxx: Collider, run_events, sample_impact_param, determine_bmax, determine_asym", "src/event.cxx: Event::Event, compute_nuclear_thickness", "src/nucleus.cxx: Nucleus::create and all sample_nucleons_impl", "src/nucleon.cxx, src/nucleon.h: NucleonCommon", "src/output.cxx: Output::Output"]}
{"id": "C69", "title": "The command line says what the documentation says, in any order", "statement": "The program accepts exactly the command lines of this grammar: words (two projectiles, then the number of events), the documented options by name (\"--name value\", \"--name=value\"), by any unambiguous abbreviation of the name, or by letter (\"-c value\", \"-cvalue\", letters of switches grouped as in \"-qo out\"), and \"--\" after which everything is a word; every single-valued option at most once, whole numbers in range, real numbers in decimal notation with optional exponent and not too large for a double (or inf, infinity, nan, nan(...) in any case), paths without white space or in double quotes. The values the run uses are the ones written, and no command line has two readings. Options may be given in any order, before or after the projectiles: reordering changes nothing as long as the words (and the values of one option) keep their order; the different ways to write an option are interchangeable. --help, --version and --bibtex print their text with status 0 and touch nothing; every command line outside the grammar ends with status 1 and one message on standard error, and nothing else is touched.", "quantifier": "All lists of argument strings (any length, any characters), all number systems, generators, file systems.", "why_tests_cant": "There are infinitely many command lines; abbreviations, grouping, negative values that look like options, repeated options and orderings multiply, and a test checks one spelling at a time.", "anchors": ["src/trento.cxx: main (option tables, lines 63-166; parsing, lines 175-203)", "doc/usage.rst"]}
{"id": "C70", "title": "Configuration files", "statement": "A configuration file is read exactly if each of its lines is empty, a comment, or \"name = value\" with the full name of an option other than help, version, bibtex and config-file (white space around name and value and a trailing # comment are ignored), except that after a section header [..] nothing may be set. Several files are used in the order they are named; a value on the command line wins over all files, an earlier file over a later one, and an explicit value over the default. Moving settings with a value from the command line into a file does not change the run. A missing file, any other line, an unknown name or an unusable value ends the program with status 1 and one message before anything is touched; a value of an option that has already been given is not looked at, even if it is invalid.", "quantifier": "All file contents, all lists of configuration files, all command lines, all number systems, generators, file systems.", "why_tests_cant": "Files are arbitrary texts and are combined with arbitrary command lines and with each other; precedence must hold for every option and every combination.", "anchors": ["src/trento.cxx: main (lines 205-223)", "doc/usage.rst"]}
{"id": "C71", "title": "Standard output of an everyday run is a table", "statement": "For the documented projectile names, everyday parameters, nucleon widths up to 128 fm and impact parameters below 1000 fm, a run that ends with status 0 and is not quiet has written to standard output a table: exactly as many lines as events, numbered 0, 1, 2, ..., every line with the same number of blank-separated columns (8, or 9 with --ncoll: number, impact parameter, participants, (collisions), multiplicity, four eccentricities), no column run together with its neighbour, each column the decimal rounding of the value of that event. The number of participants is between 2 and 476, the number of collisions between 1 and 56644.", "quantifier": "All command lines, configuration files and parameters within the stated ranges, all pairs of named projectiles, all math libraries within the stated accuracy, all generators (draws), all numbers of events.", "why_tests_cant": "A column that overflows its width, or a line with nan, appears only for rare combinations of projectiles, parameters and draws; a table reader then fails in the middle of a long run.", "anchors": ["src/output.cxx: write_stream", "src/collider.cxx: Collider::run_events, determine_bmax", "src/nucleus.cxx: Nucleus::create", "src/event.cxx: Event::compute"]}
{"id": "C72", "title": "Enlarging the grid beyond the event changes nothing", "statement": "Two runs that differ only in --grid-max, the second larger by a whole number k of grid steps, produce the same collisions; the second grid has 2k more cells per row and column, its middle part is, cell by cell, the grid of the first run (for both nuclear thicknesses and the reduced thickness), and its multiplicity is never smaller. If an event fits the smaller grid (every constituent of a participant at least five widths away from the edge) then its multiplicity and all its eccentricities are the same in both runs; if every event fits, standard output is the same text.", "quantifier": "All configurations with a positive grid step, all k, all generators and solvers, all numbers of events, all events.", "why_tests_cant": "A test compares two grids for a handful of events; an off-by-one in the clipping of a profile or in the centring of the grid shows only for nucleons at particular distances from the edge.", "anchors": ["src/event.cxx: Event::Event, Event::compute_nuclear_thickness, Event::compute_observables", "src/nucleon.h: NucleonCommon::boundary, thickness", "src/output.cxx: write_stream"]}
{"id": "C73", "title": "Every invocation is a run, a request for information, or a refusal that touches nothing", "statement": "Whatever the arguments and whatever the configuration files they name contain, the program does one of three things: it runs the events with the one configuration asked for (exit status and messages as those of the run), if its widths are acceptable and there are two projectiles; it prints the help, version or citation text, with status 0 and no other effect; or it prints one message to standard error and exits with status 1, with no other effect - no file is created or changed, nothing is printed to standard output and no random number is drawn. The only exception is a configuration file with a section without a name, on which the option parser's behaviour is undefined. Hence no invocation whose configuration is an everyday one has undefined behaviour.", "quantifier": "All argument lists (any strings), all contents of the file system, all number systems (first part) or binary64 with any reasonable math library (last part), all generators and solvers, both builds.", "why_tests_cant": "Argument lists and file contents are unbounded; the claim is that no combination slips between the cases, for example starting a run with half of the settings or creating the output directory before an error is found.", "anchors": ["src/trento.cxx: main", "src/collider.cxx: Collider::Collider, Collider::run_events"]}
{"id": "C74", "title": "A larger cross section means more participants and more collisions", "statement": "For nucleons without substructure at given positions: if the cross-section parameter is raised, or the nucleons are moved so that none is farther from any nucleon of the other nucleus, then every quantity that grows with the set of participants, the number of binary collisions and the occurrence of a collision is at least as large on average in one pass over the pairs - in particular the numbers of participants and collisions and the chance that the attempt succeeds. With a strictly larger parameter and some pair within six nucleon widths, the chance of no collision is strictly smaller. The parameter grows strictly with the nucleon-nucleon cross section it stands for.", "quantifier": "All positions and numbers of nucleons, all parameters, all growing quantities, all laws of the uniform variate that have the uniform distribution function.", "why_tests_cant": "The statement is about expectations under all growing observables; a sampled test has statistical errors and sees a handful of positions.", "anchors": ["src/collider.cxx: Collider::sample_collision", "src/nucleon.h: NucleonCommon::participate", "src/nucleon.cxx: MonteCarloCrossSection, NucleonCommon::NucleonCommon"]}
{"id": "C75", "title": "Where an event sits on the grid does not matter", "statement": "If the participants of an event are displaced together by a whole number of grid steps in x and y - in any order of the nucleons, among any spectators, after any earlier events - the published thickness and reduced-thickness grids are the same grids displaced by that number of columns and rows, npart is the same, and, as long as no constituent of a participant comes closer than five widths to the edge of the grid, the multiplicity and the eccentricities are exactly the same and the centre of entropy moves by exactly that number of cells. Without a displacement nothing changes whatever the distance to the edge: the results depend only on who participates and where, not on the order of the nucleons, the spectators or the history.", "quantifier": "All configurations with positive grid step, all displacements, all pairs of nuclei (any numbers, positions, constituents and weights of nucleons), both builds, exact arithmetic.", "why_tests_cant": "Nuclei and displacements form a continuum; a test compares a few events, while an off-by-one in a clipped index or a centre computed about the wrong origin shows only for some positions.", "anchors": ["src/event.cxx: Event::compute, compute_nuclear_thickness, compute_reduced_thickness, compute_observables", "src/nucleon.h: NucleonCommon::thickness, boundary"]}
{"id": "C76", "title": "Which projectile comes first, and how nucleons are numbered, does not bias the collision", "statement": "For nuclei at given positions, exchanging the two projectiles exchanges the participant flags of A and B and changes nothing else in the probability law of the collision: participants, number of binary collisions and the chance that anything collides at all. Renumbering the nucleons within either nucleus changes the law of no quantity that does not mention their numbers (for example npart, ncoll, or whether there is an event) - although the program examines the pairs one after the other, lets earlier pairs decide whether later ones are tested at all (without --ncoll), and spends random numbers accordingly. Without --ncoll the same holds of everything but the number of collisions.", "quantifier": "All pairs of nuclei (any number of nucleons, any positions), cross-section parameters, widths, observables (all functions of the flags, the count and the outcome), with one constituent per nucleon and independent uniform draws.", "why_tests_cant": "A claim about the probability law of every pair of nuclei; a given seed gives different events in the two orders, so no two runs can be compared, and sampling only ever bounds a difference.", "anchors": ["src/collider.cxx: Collider::sample_collision", "src/nucleon.h: NucleonCommon::participate"]}
{"id": "C77", "title": "Sampled nuclei have no preferred transverse direction", "statement": "The positions of the nucleons of a sampled nucleus, relative to its centre, have the same probability law after a rotation about the beam axis: for every function of all positions its mean is unchanged. Hence their mean transverse position is the centre: every linear combination of the transverse coordinates, summed over the nucleons, has mean 0. This includes nuclei with a minimum nucleon distance (where C59 gives no formula), whatever the number of retries, and nuclei that gave up retrying.", "quantifier": "All nuclei of any species or file, any minimum distance, used in any way before; all offsets, functions of the positions; all angles by which the variate's azimuth may be shifted (all multiples of 2 pi / n for n equidistant variates), independent variates of any law with that property.", "why_tests_cant": "A claim about the probability law of all nuclei and all functions of their positions; a preferred direction smaller than the sampling error escapes any test.", "anchors": ["src/nucleus.cxx: WoodsSaxonNucleus::sample_nucleons_impl, DeformedWoodsSaxonNucleus::sample_nucleons_impl, Deuteron::sample_nucleons_impl, ManualNucleus::sample_nucleons_impl", "src/random.h: phi"]}
