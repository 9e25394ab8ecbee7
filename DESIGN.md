# Formal model of Duke-QCD/trento in Rocq (Coq 8.16.1)

## 1. Architecture

Everything lives in `rocq/theories`.

| layer | files | content |
|---|---|---|
| base | `Base/*.v` | result type (`Ret / Throw / UB / OutOfFuel`), state monad, the arithmetic record `Arith`, its two instances, the RNG record |
| model | `Model/*.v` | one file per source file, definitions only, each citing file:lines |
| spec | `Spec/*.v` | small, model-independent mathematical specifications |
| proofs | `Proof/*.v` | lemmas |
| properties | `Properties/*.v` | the theorems named in MANIFEST.json (C01_..., C02_..., ...), each followed by an instance that meets its hypotheses |

### Numbers
The C++ code computes with `double`.  The model is written **once**, generically, over a
record `Arith` (carrier, + - * /, sqrt, exp, ..., `<`, int conversion, decimal printing), and is used at

* *every* `A : Arith` - control-flow, bookkeeping and memory-safety theorems are proved for an arbitrary
  arithmetic, hence hold for IEEE doubles including NaN and infinities;
* `RA` - exact real arithmetic (the mathematical identities and inequalities);
* `FA libm` - IEEE-754 binary64 (Flocq `binary_float 53 1024`, round-to-nearest-even, single NaN) with the
  libm functions as an explicit argument (rounding-sensitive theorems and the counterexamples).

### Randomness
`std::mt19937_64` and the `std` distributions are an abstract record `Rng` (engine type, distribution
states, draw functions).  Theorems quantify over every `Rng`; ranges of draws that the C++ standard
promises (canonical in [0,1), ...) are explicit hypotheses.

### Undefined behaviour, exceptions, non-termination
Explicit outcomes: out-of-range double->int conversion, out-of-bounds indexing, dereferencing an end
iterator, integer division by zero, reading uninitialised variables are `UB _`; exceptions are `Throw _`; unbounded
loops run on fuel and return `OutOfFuel`.  "Diverges" means: `OutOfFuel` for every fuel.

### What is modelled and what is not
Modelled, function by function (every definition cites file and lines):

| source | model | coverage |
|---|---|---|
| `src/fast_exp.h` | `Model/FastExp.v` | all |
| `src/random.h`, `random.cxx` | `Model/Random.v`, `Base/Rng.v` | `canonical`, `cos_theta`, `phi`, `CyclicNormal`; the engine and the std distributions are the abstract record `Rng` |
| `src/nucleon.h`, `nucleon.cxx` | `Model/Nucleon.v`, `Model/CrossSection.v` | all: widths, `boundary`, `thickness`, `participate`, constituents, both fits, Monte-Carlo estimator, disk cache character by character |
| `src/nucleus.h`, `nucleus.cxx` | `Model/Nucleus.v` | all six classes: `create`, `radius`, `sample_nucleons_impl` |
| `src/event.h`, `event.cxx` | `Model/Event.v` | all |
| `src/collider.h`, `collider.cxx` | `Model/Collider.v` | all |
| `src/output.h`, `output.cxx` | `Model/Output.v` | all; text output character by character, HDF5 output as an abstract file of groups, datasets and attributes |
| `src/hdf5_utils.h/.cxx` | `Model/Files.v`, `Model/Nucleus.v` | extension test, `try_open_file`; HDF5 itself is an abstract file |
| `src/trento.cxx` | `Model/Main.v`, `Model/CommandLine.v` | option tables, parsing of the command line and config files, option store (precedence, defaults, notify), width validation, exits, messages |
| iostream formatting and extraction, Boost.Filesystem | `Model/Text.v`, `Model/Files.v` | the operations the program uses |

Not modelled, or simplified:

* Boost.Program_options is modelled in `Model/CommandLine.v` from its documentation and published source (default style, full option table);
  the texts of its messages are not, `-0` loses its sign, and which of several errors is reported is not modelled.
  Up to C68 the parsed command line and the parsed config files are arbitrary inputs of `main`; C69 and C70 connect them to the argument strings and file contents (`trento`).
* The numerical method of `toms748_solve` (an arbitrary function of its arguments; C36 states what is assumed of its answer),
  libm and `boost::math::expint/erf_inv` (arbitrary functions in binary64, the mathematical functions in `RA`).
* HDF5 and OS internals, I/O errors other than those stated, memory exhaustion, locale, a torn write or a power failure inside one system call.
  Paths are compared as strings up to trailing slashes; the root directory is the key ""; there are no symbolic links.
* Simultaneous processes (C54, C67): one step is one file operation (reading a file, making a directory, one append, one test, writing the file or dataset
  of one event); locks taken by the HDF5 library are not modelled.
* `npart`, `ncoll` and event numbers are unbounded integers (the C++ `int`s cannot overflow for fewer than 2^31 pairs).
* In binary64 each operation is rounded once: no FMA contraction.  The build system adds `-march=native`, with which GCC may
  contract; the binary64 theorems are about the uncontracted program.
* `f64_ltb` etc. follow IEEE-754; there is one NaN (payloads and its sign are not observable in this program).
* `normal_distribution` with standard deviation 0 violates a precondition of the standard (one constituent, or equal widths);
  the model lets it return any number and the theorems hold for any.
* `std::generate_canonical` returning exactly 1.0 (a known libstdc++ defect) is excluded where a theorem assumes draws in [0,1).
* Extraction of a number that overflows a double sets failbit in C++; the model's reader does not flag it.

## 2. Plan per property

| id | model | method |
|---|---|---|
| C01 | `Collider.run_events` over a list of writers | induction on the loop |
| C02-C04 | `participate`, pair loops, `sample_collision` | loop invariants over the A x B fold, generic arithmetic |
| C05 | impact formula | monotonicity over R; Flocq: sqrt(fl(b*b)) = b |
| C06 | `determine_asym`, offsets | algebra over R |
| C07 | `determine_bmax`, `participate` | triangle inequality; witness for Woods-Saxon |
| C08 | `sample_collision` with fuel | induction on fuel: never `Ret` |
| C09 | `Collider` constructor + run in the world monad | two-run simulation; witness for the cold cache |
| C10 | `Event.compute` | equality of results for arbitrary previous states |
| C11 | deposition loop vs. sum | loop invariant + real-analysis of truncation and clipping |
| C12 | `Event` constructor | Flocq `Zceil` lemmas; binary64 error bounds for every libm; `vm_compute` witness in binary64 |
| C13 | same with UB outcomes | in-bounds invariants; in binary64 error bounds on the box edges |
| C14 | generalized means | real analysis with `Rpower` |
| C15-C18 | loops over cells | sums over row-major cell lists, triangle inequality in C, re-indexing |
| C19, C20, C25 | `thickness`, `boundary`, `FastExp` | real analysis; Flocq for index bounds |
| C21-C24 | constituents, `participate` | algebra; invariants; linear functionals for expectations |
| C26 | debug range check | `vm_compute` witness in binary64 |
| C27, C46 | strings | case analysis |
| C28-C33 | samplers | loop invariants, rotation algebra |
| C34, C35 | `ManualNucleus::create` over an abstract HDF5 file | case analysis with UB outcomes |
| C36 | Coquelicot integrals | change of variables, monotonicity |
| C37-C39 | character-level cache | parser/printer round trip |
| C40, C41 | Monte-Carlo loop, cyclic generator | invariants |
| C42-C47 | character-level output, abstract file system | string lemmas |
| C48-C50 | option store and `main` | case analysis |
| C51 | two runs related | relational (simulation) lemmas for every stage: `rel`, `rel_bind` |
| C52 | constituent draws | draw traces; linear functionals for moments |
| C53 | both nuclei of every event | composition of C27 (table), C29–C32 (shapes), C06 (displacement), C05 (b) through `every_event_in` |
| C54 | `partonic_cross_section` as atomic file-system steps (`Model/CacheSteps.v`), worlds of processes, arbitrary schedules and kills | invariant over `wsteps`: text = old text + written lines; entries of a well-formed cache only grow, so the first match is stable; equivalence of the steps with the sequential model (`C54_alone`); counterexample schedules for a cold cache |
| C55 | the states a killed run can leave (`Model/Killed.v`: inside a writer, among writers, in the event loop, while the outputs are opened, in the cache) | induction over the killed event loop against the complete run; C45 for the later run |
| C56 | programs as decision trees over a tape of independent variates (`Spec/Law.v`: `mean_of`); ideal generator | coupling of the two pair loops: the tests --ncoll adds are extra draws whose value does not affect nuclei or the collision flag |
| C57 | the pass over all pairs as a decision tree; independent trials (`Spec/Glauber.v`) | induction over rows and pairs: each test contributes one trial, constituents' draws average out; algebra of products |
| C58 | one attempt, the search and the events of a run as decision trees (`Spec/Attempts.v`) | attempts from stale nuclei have the law of the first (C51's relation, draw by draw); induction on the number of attempts gives the geometric sum, on the number of events the product; algebra for the variance |
| C59 | `sample_nucleons` of the spherical, deformed, Hulthen and file nuclei on tapes of variates (`Spec/Positions.v`, `Spec/Radii.v`) | means of composed programs (bind, repeat, product); sorting is a permutation, so it does not change a product; rejection loops by induction on the number of proposals; limits of geometric sums |
| C60 | pairs of runs of the whole model (`Spec/Entropy.v`); the generalized mean `M_p` and `ecc_n` of C14, C17 | constructor agreement and `events_from` (C51) in lockstep; power-mean inequality by tangent lines of exp; two distinct cells are at least 1 apart, so the 10^-12 floor of the denominator is not reached |
| C61 | the model in binary64 (Flocq), libm's exp and pow under an explicit accuracy contract (`Spec/Finite.v`: `accurate_exp`, `accurate_pow`, satisfied by correct rounding) | interval bounds through thickness, mean and normalization; a rounding-error judgement for the cell polynomials, a running-sum invariant (error <= k units of the running weight) for the accumulators, hypot <= weight for the eccentricities |
| C62 | thickness(), boundary() and compute_nuclear_thickness in binary64; exact profiles on the held doubles in `Spec/Accuracy.v` | relative error of distance, cut, argument, table exponential, prefactor (with Machin bounds on pi) composed by an interval invariant over constituents and participants; box coverage from the error of the truncated index |
| C63 | compute_reduced_thickness in binary64 on the held thicknesses; exact mean with the program's thresholds in `Spec/MeanRounded.v` | relative errors of inner powers, half sum, reciprocal exponent and outer power, composed through exp and ln; separate bound where the mean of the powers underflows |
| C64 | compute_observables and the centre of mass in binary64; exact harmonics about any centre in `Spec/EccRounded.v`, documented ones in `Spec/Ecc.v` | per-cell relative error of the real and imaginary parts and weights against complex powers, summation error over k cells, quotient; perturbation bound for moving the centre |
| C65 | compute_nuclear_thickness, thickness, compute_reduced_thickness in RA and binary64; integral, weights, containment and error in `Spec/Integral.v` | Gaussian integral (two-variable trick, `Proof/GaussInt.v`), midpoint rule with end correction (`Proof/Midpoint.v`), rows then product minus the corners cut off (`Proof/GridIntegral.v`, `Proof/DiscSum.v`); power-mean inequality; composed with C11/C19 and, for binary64, C61-C63 |
| C66 | sample_collision, sample_b, proton sampling, participate, determine_bmax, collider_new in RA with the true Ei; ring averages, collision probability, fixed-b collider in `Spec/MinBias.v` | change of variables u = (b^2 - bmin^2)/(bmax^2 - bmin^2) (Coquelicot), split at six widths (`Proof/MinBiasP.v`); decision trees of C56-C58; geometric series for the search; C36_fit for the calibration |
| C67 | a run as a tree of file calls, processes and schedules in `Model/RunSteps.v` (its effects are those of Files.v, Output.v, CrossSection.v); paths apart, launches, separate, same_output in `Spec/Parallel.v` | the process by itself is `collide` (`ParallelP`); every call after the cache lookup respects a relation between the shared and the private files (`ParallelQ`); invariant over all schedules with a replayed private run (`ParallelW`); the race by an explicit schedule and an overlay relation (`ParallelR`) |
| C68 | the whole run in `Model/Collider.v`, `Model/Main.v` over binary64 (`FA L`); the ranges asked of the library, generator, parameters and files in `Spec/Safe.v` | invariants: nucleus positions bounded (`SafeNuclei`), constituents, collisions and event loop (`SafeRun`), construction (`SafeNew`), composed in `Properties/Safe.v`; the demonstration run meets every hypothesis (`SafeInst`) |
| C69 | the option table and Boost.Program_options' default-style parser in `Model/CommandLine.v`; grammar and meaning in `Spec/CommandLine.v` | parser sound and complete for the grammar by induction on the arguments (`Proof/CommandLineP.v`, `CastP.v`, `CommandLine2P.v`) |
| C70 | Boost's configuration-file reader and store in `Model/CommandLine.v` (`config_file_tokens`, `store_file`, `trento`); grammar of files in `Spec/ConfigFile.v` | lines classified (`Proof/ConfigFileP.v`), invariant: an option is final iff an earlier source gives it; composed with C48's effective configuration in `Properties/ConfigFile.v` |
| C71 | whole program (`Model/CommandLine.v` down to `Model/Output.v`) in binary64; table in `Spec/Columns.v`, `Spec/Table.v` | composition of C61 (finite numbers), C05 (impact parameter range), C42 (one line), C70 (arguments to configuration); radii of the named nuclei in `Proof/ColumnsP.v`; the instance needs an accurate exponential that can be computed, proved in `Proof/FineExp.v` |
| C72 | event and run (`Model/Event.v`, `Model/Collider.v`) in real arithmetic; `Spec/Enlarge.v` | C11 (a cell is the full sum of profiles), C51/C60 (same collisions), then the cells of the larger grid are the shifted cells of the smaller and a margin of zeros (`Proof/EnlargeP.v`) |
| C73 | whole program from its arguments (`Model/CommandLine.v`); `Spec/Invocation.v`, with the grammars of `Spec/CommandLine.v` and `Spec/ConfigFile.v` | case analysis over C69, C70 (with the uniqueness of readings) and composition with C68 |
| C74 | pass over the pairs (`Model/Collider.v`) in real arithmetic with ideal variates (`Spec/Law.v`, `Spec/Glauber.v`); `Spec/Dominance.v` | C57 gives the law as independent trials; monotone coupling of independent trials by induction; C36 for the cross section |
| C75 | `Event.event_compute` over the reals; `Spec/Frame.v` (displaced participants) | C11 (cell = sum of profiles), permutation of the cells into kept, lost and new ones, invariance of the harmonics under a shift of the origin |
| C76 | pair loop over the reals with the laws of `Spec/Law.v`; `Spec/Exchange.v` | C57 (law of the pass as independent trials); independent trials may be listed in any order, under any labels |
| C77 | nuclei over the reals with the laws of `Spec/Law.v`; `Spec/Isotropy.v` | the program is coupled to itself with the last azimuth of each direction shifted; relation carried through the retry loops |

No property is considered inexpressible.  Statistical laws (C52, C56-C59) are relative to the law of the variates: they are stated
over tapes of independent variates handed to the program by an ideal generator; that the Mersenne Twister and libstdc++'s
distributions behave like one is not claimed.

## 3. Trusted base

* Coq 8.16.1's kernel (`vm_compute` included) and the definitions under `Base`, `Model` and `Spec` as descriptions of the code and
  of the English claims.
* No axiom is declared in this development.  `Print Assumptions` of the theorems of MANIFEST.json gives one of two answers:

**Closed under the global context** (no axiom):

C01_exactly_N_records, C02_npart, C03_participants, C04_ncoll, C08_no_fabrication, C09_collide, C09_reproducible, C10_no_memory, C13_compute_returns, C15_integral, C16_keys, C18_swap, C22_constituents_once, C23_degenerate, C24_participate, C24_returns, C27_file, C27_unknown, C28_reset, C29_terminates, C34_accepts, C34_no_configurations, C34_no_nucleons, C34_overrun, C34_rejects, C37_lookup, C39_cut_line, C39_endless, C39_failed_fit, C39_uninitialised, C39_well_formed_ends, C40_fails, C40_returns, C40_rule, C41_cycles, C41_repeat, C41_schedule, C41_values, C43_one_cell, C44_form, C44_names, C45_cache_grows, C45_empty_file, C45_refuses, C45_refuses_run, C45_untouched, C46_extension, C47_hdf5, C47_only_file, C48_precedence, C49_all_events, C49_rejected, C49_status, C49_success, C50_info, C51_output_options, C51_replay, C51_same_state, C52_weights, C54_alone, C54_appends, C54_own, C54_twice, C54_window, C55_other, C55_rerun, C55_text, C56_collider, C56_collision, C56_collisions, C56_event, C56_mean_unique, C58_exist, C58_run, C60_collisions, C60_finishes, C67_alone, C67_elsewhere, C67_isolated, C67_race, C67_warm, C69_any_order, C69_any_order_runs, C69_forms, C69_information, C69_order_instance, C69_reads, C69_refused, C69_refused_instances, C69_runs, C69_unambiguous, C70_as_on_command_line, C70_cases, C70_instance, C70_nameless_section, C70_reads, C70_refused, C70_refused_instances, C70_rejected, C70_runs, C71_counters, C73_every_invocation, C73_one_meaning, first_of_first, first_of_none.

**`ClassicalDedekindReals.sig_forall_dec`, `ClassicalDedekindReals.sig_not_dec`, `Classical_Prop.classic`, `FunctionalExtensionality.functional_extensionality_dep`** (axioms of Coq's standard library of real numbers, through Reals, Flocq and Coquelicot):

C05_area_law, C05_formula, C05_range_ieee, C05_range_real, C05_reached, C06_displacement, C07_covered, C07_default_range, C07_woods_saxon_not_covered, C08_no_constituents, C08_proton_hang, C09_cold_differs, C09_cold_parameter, C11_full_sum, C12_geometry, C12_ieee, C12_ieee_example, C13_compute_returns_R, C13_constructor_UB_range, C13_constructor_UB_zero_step, C13_ieee, C13_ieee_instance, C14_cell, C14_mean, C14_named_means, C15_linear, C15_real, C16_empty_ieee, C16_empty_real, C16_range, C17_harmonics, C18_commutative, C18_square_symmetries, C19_thickness, C20_boundary, C21_centred, C21_single, C21_zero_width_ieee, C23_sampling_width, C23_width, C24_probability, C25_fast_exp, C25_ieee, C25_underflow, C26_exact, C26_ieee, C27_table, C28_offset, C28_offset_failure, C29_deformed, C29_min_distance, C29_spherical, C30_woods_saxon, C31_deformed, C31_max_radius, C31_points, C32_deuteron, C32_projectile, C32_weight, C32_zero_draw, C33_manual, C35_radius, C36_equation, C36_fit, C36_participate, C36_refuses, C36_solvable, C36_unique, C38_history_ieee, C38_history_real, C38_round_trip_ieee, C38_round_trip_real, C38_wide_sigma_ieee, C38_wide_sigma_real, C40_bias, C40_centres, C40_estimate, C40_fit, C40_trial, C41_symmetric, C42_line_ieee, C42_line_real, C42_ncoll_runs_together, C42_npart_runs_together, C42_run_ieee, C42_run_real, C43_ieee, C43_real, C43_run_ieee, C43_run_real, C44_no_events, C44_sorted_ieee, C44_sorted_real, C44_width_ieee, C44_width_real, C52_constituents, C52_moments, C53_projectiles, C54_agree_ieee, C54_agree_real, C54_served_ieee, C54_served_real, C57_law, C57_mean_ncoll, C57_mean_npart, C57_no_collision, C57_participant_A, C57_participant_B, C57_participants, C58_conditional, C58_error, C58_independent, C58_limit, C58_search, C59_deformed, C59_deformed_limit, C59_deuteron, C59_deuteron_limit, C59_manual, C59_spherical, C59_variates, C60_instance, C60_larger_p, C60_normalization, C61_compute, C61_contract_met, C61_event, C61_instance, C61_run, C62_compute, C62_instance, C62_run, C62_sandwich, C62_thickness, C63_compute, C63_documented, C63_instance, C63_mean, C63_run, C64_centre, C64_compute, C64_documented, C64_event, C64_instance, C64_run, C65_compute, C65_multiplicity, C65_multiplicity_compute, C65_run, C65_run_instance, C65_thickness, C66_area, C66_calibrated, C66_cross_section, C66_events, C66_instance, C66_pp, C66_run, C66_search, C67_instance, C67_race_instance, C68_events, C68_instance, C68_main, C68_release, C68_run, C69_instance, C69_overflow_instance, C70_as_instance, C70_files_instance, C71_command, C71_instance, C71_table, C72_instance, C72_larger_grid, C72_stdout, C73_defined, C73_instance, C74_hit, C74_instance, C74_more, C74_more_participants, C74_sigma, C75_instance, C75_moved, C75_same, C76_exchange, C76_exchange_participants, C76_instance, C76_renumbered, C76_renumbered_participants, C77_centred, C77_instance, C77_rotated, in_range_is_distance.

## 4. Findings about the program that are theorems here

| finding | theorem |
|---|---|
| `--grid-max 2.1 --grid-step 0.3` gives 15 steps, not 14, in binary64 | C12_ieee_example |
| a negative or huge `grid-max`, or `grid-step` 0, is undefined behaviour in the constructor | C13_constructor_UB_range, C13_constructor_UB_zero_step |
| a debug build can throw `out_of_range` inside the 5-width disc (width 0.49) | C26_ieee |
| with default b-max, Woods-Saxon nucleons lie beyond the radius used for it | C07_woods_saxon_not_covered |
| p+p with fixed large b, or no constituents, never finishes | C08_proton_hang, C08_no_constituents |
| with a fixed seed a cold cache changes the events; with substructure the cached parameter depends on the unseeded engine | C09_cold_differs, C09_cold_parameter |
| the deuteron's radius is not finite when the generator returns 0 | C32_zero_draw |
| manual nuclei: rank above 3 overruns a buffer, zero nucleons divides by zero, no configurations throws from HDF5 | C34_overrun, C34_no_nucleons, C34_no_configurations |
| later configurations of a manual nucleus may exceed radius() | C35_radius and its instance |
| a failed fit leaves an empty cache file and the next run compares uninitialised variables | C39_failed_fit, C39_uninitialised |
| a cut cache line returns another entry's parameter; an unreadable one loops forever | C39_cut_line, C39_endless |
| sigma_NN of 100 or more (setw overflow) is never found in the cache again | C38_wide_sigma_real, C38_wide_sigma_ieee |
| the Monte-Carlo estimate divides n+1 samples by n | C40_bias |
| the Monte-Carlo trials do not recentre the constituents: the sampled separation is not the impact parameter | C40_centres |
| `CyclicNormal` reshuffles one draw into the cycle | C41_schedule |
| npart >= 10^4 or ncoll >= 10^5 glue to the previous column | C42_npart_runs_together, C42_ncoll_runs_together |
| a 1 x 1 grid makes the text writer dereference an end iterator | C43_one_cell |
| `number-events` 0 makes the padding width undefined | C44_no_events |
| an existing empty regular file as text output: the run succeeds and writes nothing | C45_empty_file |
| two simultaneous runs with the same text output directory: the emptiness check is not atomic; both can end normally and their files mix | C67_race, C67_race_instance |
| `H5::Exception` is not caught by `main` | C49_status |
| `--output --quiet` (or `-o --quiet`) takes `--quiet` as the path, `-o -q` is refused | C69_instance, C69_reads |
| `---h` is read as `-h` (two dashes, then a dash and a letter) | C69_reads (`names`) |
| `inf` and `nan` are accepted for every real option | C69_instance |
| paths with white space must be quoted inside the argument | C69_refused_instances |
| in a config file, an invalid value for an option given elsewhere is ignored | C70_files_instance |
| a line `[]` in a config file is undefined behaviour in the library; after any section header no option can be set | C70_nameless_section, C70_reads |

Observed but not a theorem: the help text omits Xe2; `create_directory` throws when the data home's parent is missing;
`--no-header` also drops the precision setting (text files then have 6 significant digits, see C43).

## 5. Testing the theorems

`seeded/LOG.jsonl` records the wrong programs tried against the theorems: the definition edited, the edit, the claim it breaks,
which theorems failed, and which were tightened.
