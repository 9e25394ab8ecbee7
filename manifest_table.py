c('C01','proved','C01_exactly_N_records','')
c('C02','proved','C02_npart','')
c('C03','proved','C03_participants in_range_is_distance','')
c('C04','proved','C04_ncoll','')
c('C22','proved','C22_constituents_once','')
c('C24','proved','C24_participate C24_returns C24_probability in_range_is_distance','')
c('C10','proved','C10_no_memory','Any arithmetic.')
c('C11','proved','C11_full_sum','Real arithmetic.')
c('C12','proved','C12_geometry C12_ieee C12_ieee_example','Real arithmetic; binary64 within rounding for every libm (C12_ieee); the binary64 surprise as a computed theorem.')
c('C13','proved','C13_compute_returns C13_compute_returns_R C13_ieee C13_ieee_instance C13_constructor_UB_range C13_constructor_UB_zero_step','Any arithmetic given that the conversions and thickness() return; real arithmetic from the configuration alone; binary64 from bounds on the configuration and on the constituent positions (C13_ieee).')
c('C14','proved','C14_cell C14_mean C14_named_means','Real arithmetic.')
c('C15','proved','C15_integral C15_real C15_linear','Integral: any arithmetic; sign and linearity: real arithmetic.')
c('C16','proved','C16_keys C16_range C16_empty_real C16_empty_ieee','Keys: any arithmetic; range: real arithmetic; empty grid: real and binary64.')
c('C17','proved','C17_harmonics','Real arithmetic.')
c('C18','proved','C18_swap C18_commutative C18_square_symmetries','Swap: bit-for-bit in binary64 too; square symmetries: real arithmetic.')
c('C19','proved','C19_thickness','Real arithmetic.')
c('C20','proved','C20_boundary','Real arithmetic.')
c('C25','proved','C25_fast_exp C25_ieee C25_underflow','Error bound in real arithmetic; index bounds in binary64 for every libm; the width restriction is shown necessary.')
c('C26','proved','C26_exact C26_ieee','Exact arithmetic never throws; a binary64 witness at width 0.49 does.')
c('C36','proved','C36_equation C36_unique C36_solvable C36_fit C36_refuses C36_participate','Real arithmetic with the true exponential integral (improper integral, Coquelicot; existence proved in Ei_exists); the root finder is an oracle whose returned bracket is assumed to straddle the sign change.')
c('C28','proved','C28_reset C28_offset C28_offset_failure','Reset: any arithmetic; offset: real arithmetic.')
c('C29','proved','C29_min_distance C29_terminates C31_deformed C29_spherical C29_deformed','Real arithmetic; termination in any arithmetic.')
c('C30','proved','C30_woods_saxon','Real arithmetic.')
c('C31','proved','C31_deformed C31_points C31_max_radius','Real arithmetic.')
c('C32','proved','C32_weight C32_deuteron C32_zero_draw C32_projectile','Real arithmetic; the non-finite positions in binary64.')
c('C33','proved','C33_manual','Real arithmetic.')
c('C05','proved','C05_range_real C05_range_ieee C05_formula C05_area_law C05_reached','Real arithmetic, and binary64 for any libm.')
c('C06','proved','C06_displacement','Real arithmetic.')
c('C07','proved','C07_covered C07_default_range C07_woods_saxon_not_covered C05_formula','Real arithmetic.')
c('C08','proved','C08_no_fabrication C08_proton_hang C08_no_constituents','The non-terminating proton-proton case in real arithmetic; zero constituents in binary64.')
c('C37','proved','C37_lookup','Every arithmetic.')
c('C38','proved','C38_round_trip_real C38_history_real C38_round_trip_ieee C38_history_ieee C38_wide_sigma_real C38_wide_sigma_ieee','Real arithmetic, and binary64 for any libm.')
c('C39','proved','C39_well_formed_ends C39_uninitialised C39_endless C39_failed_fit C39_cut_line','Every arithmetic.')
c('C09','proved','C09_collide C09_reproducible C09_cold_differs C09_cold_parameter','Every arithmetic; the cold-cache counterexample in binary64.')
c('C48','proved','C48_precedence first_of_first first_of_none','Every arithmetic. Lexing of one source (Boost) is not modelled.')
c('C49','proved','C49_rejected C49_success C49_status C49_all_events','Every arithmetic.')
c('C50','proved','C50_info','Every arithmetic.')
c('C40','proved','C40_rule C40_returns C40_fails C40_bias C40_trial C40_estimate C40_centres C40_fit','Every arithmetic; the bias in real arithmetic.')
c('C41','proved','C41_values C41_schedule C41_cycles C41_repeat C41_symmetric','Every arithmetic; symmetry in real arithmetic.')
c('C21','proved','C21_centred C21_single C21_zero_width_ieee','Mean: real arithmetic; exact coincidence for one constituent or zero width: binary64.')
c('C23','proved','C23_degenerate C23_sampling_width C23_width C52_constituents','Real arithmetic; expectations over any law with the given second moments.')
c('C27','proved','C27_table C27_file C27_unknown C53_projectiles','Dispatch: every arithmetic; table values: real arithmetic.')
c('C34','proved','C34_accepts C34_rejects C34_overrun C34_no_nucleons C34_no_configurations','Every arithmetic.')
c('C35','proved','C35_radius','Real arithmetic.')
c('C46','proved','C46_extension','Every string.')
c('C42','proved','C42_line_real C42_line_ieee C42_run_real C42_run_ieee C42_npart_runs_together C42_ncoll_runs_together','Real and binary64 arithmetic; finite records.')
c('C43','proved','C43_real C43_ieee C43_one_cell C43_run_real C43_run_ieee','Real and binary64 arithmetic (finite records); one-cell grid: every arithmetic.')
c('C44','proved','C44_form C44_names C44_width_real C44_sorted_real C44_width_ieee C44_sorted_ieee C44_no_events','Real arithmetic: least width. Binary64: any libm with log10 within 1e-10 (width sufficient, at most one more).')
c('C45','proved','C45_untouched C45_cache_grows C45_refuses C45_refuses_run C45_empty_file C43_run_real C43_run_ieee','Every arithmetic, every outcome of a run.')
c('C47','proved','C47_hdf5 C47_only_file','Every arithmetic.')
c('C51','proved','C51_replay C51_same_state C51_output_options','Every arithmetic.')
c('C52','proved','C52_weights C52_constituents C52_moments','Weights: every arithmetic; widths and moments: real arithmetic, expectations over any law with the moments of the standard normal/gamma.')
c('C53','proved','C53_projectiles','Real arithmetic.')
c('C54','proved','C54_alone C54_appends C54_own C54_served_real C54_served_ieee C54_agree_real C54_agree_ieee C54_window C54_twice','Steps: every arithmetic; answers: real arithmetic and binary64 for every libm. File-system effects are atomic per system call (see Model/CacheSteps.v).')
c('C55','proved','C55_text C55_other C55_rerun','Every arithmetic. The crash points are those of Model/Killed.v: a killed write leaves a prefix of its text.')
c('C56','proved','C56_collider C56_event C56_mean_unique C56_collision C56_collisions','Every arithmetic. Independent draws: the ideal generator of Spec/Law.v takes one variate per draw and distribution objects keep no state between draws (std::normal_distribution keeps a spare deviate; in law this is the same).')
c('C57','proved','C57_law C57_participants C57_participant_A C57_participant_B C57_no_collision C57_mean_ncoll C57_mean_npart','Real arithmetic, constit-number 1 (the default). Uniform variate: any averaging functional that gives P(u > p) = 1 - p; C57_uniform shows that the integral over [0,1] is one.')
c('C58','proved','C58_exist C58_search C58_conditional C58_limit C58_independent C58_error C58_run','Any arithmetic. The law of a variate is any averaging linear functional (a generator with finitely many outputs gives one: C58_instance); the loop is bounded by n attempts, C58_limit lets n grow. A run that is out of fuel or fails counts as 0.')
c('C59','proved','C59_spherical C59_deuteron C59_deuteron_limit C59_deformed C59_deformed_limit C59_manual C59_variates','Real arithmetic, no minimum distance (--nucleon-min-dist below 1e-5 fm; the default is 0). The law of a variate is any averaging linear functional, C59_variates gives the one of equidistant variates; how the standard distributions transform a variate (sh_pwl, sh_int) is left to the library. A product of one function over all nucleons, for every function, determines the law of the unordered positions.')
c('C60','proved','C60_collisions C60_normalization C60_larger_p C60_finishes C60_instance','Collisions and C60_finishes: any arithmetic and generator; normalization and p ordering: real arithmetic. The eccentricity clause excludes grids with non-zero cells below 3.2e-11, where the cut of the program acts.')
c('C61','proved','C61_event C61_compute C61_run C61_instance C61_contract_met','Binary64. C61_event needs no libm contract (any finite cells in [0, 2^200]); C61_compute and C61_run assume exp and pow accurate to 2^-40 relative, a contract C61_contract_met shows satisfiable. Large |p| (above 4) is outside the theorem: there pow may overflow.')
c('C62','proved','C62_thickness C62_sandwich C62_compute C62_run C62_instance','Binary64; exp accurate to 2^-40 (C61_contract_met shows such libraries exist). At run level the range of the nucleon coordinates is a hypothesis on the delivered event, since it depends on the values drawn.')
c('C63','proved','C63_mean C63_compute C63_run C63_documented C63_instance','Binary64; exp and pow accurate to 2^-40 (C61_contract_met shows such libraries exist). Exponents with 1e-12 <= |p| < 2^-30 or |p| > 4 are outside the claim: there the root amplifies the error of pow without a useful bound, or powers overflow.')
c('C64','proved','C64_event C64_centre C64_documented C64_compute C64_run C64_instance','Binary64. The last bound needs the contributing cells not to be concentrated at the centre (otherwise r^n is dominated by the error of the centre); the first two bounds have no such condition.')
c('C65','proved','C65_thickness C65_multiplicity C65_compute C65_multiplicity_compute C65_run C65_run_instance','The containment condition excludes participants whose Gaussians stick out of the grid: that part is lost by design.')
c('C66','proved','C66_area C66_pp C66_cross_section C66_search C66_events C66_run C66_calibrated C66_instance',"The law of a variate is any average that agrees with the Riemann integral where that exists (the Riemann integral itself is one: riemann_average). p+p with one constituent of the nucleon's width.")
c('C67','proved','C67_alone C67_isolated C67_warm C67_elsewhere C67_race C67_instance C67_race_instance','One step is one file operation (open and read, mkdir, append, exists, is_empty, write of one file or dataset). Locks taken by the HDF5 library are not modelled.')
c('C68','proved','C68_events C68_run C68_release C68_main C68_instance','Hypotheses are named in Spec/Safe.v: tame_libm, tame_rng, careful root finder, everyday parameters, constituents drawn within 8192 fm, no canonical draw equal to 0 if a deuteron collides (log 0), a well-formed cache (an empty one is undefined, C39) and HDF5 nucleon files. Running out of fuel means still running. Signed overflow of npart and ncoll is outside the model.')
c('C69','proved','C69_reads C69_unambiguous C69_runs C69_information C69_refused C69_any_order C69_any_order_runs C69_forms C69_instance C69_order_instance C69_refused_instances C69_overflow_instance','Boost.Program_options is modelled from its documentation and published source; its message texts are not. inf and nan are values (infinity is 1/0, nan is 0/0 of the number system), numbers too large for a double are refused; -0 loses its sign. Program-level C69_runs is for command lines without configuration files; those are C70.')
c('C70','proved','C70_reads C70_runs C70_refused C70_rejected C70_cases C70_as_on_command_line C70_nameless_section C70_instance C70_files_instance C70_refused_instances C70_as_instance','C70_cases shows that C70_runs, C70_refused and C70_rejected cover everything except a section without a name, which is undefined in the library (C70_nameless_section). C70_as_on_command_line is about options that take a value: switches are written "quiet = true" in a file but "--quiet" on the command line.')
c('C71','proved','C71_counters C71_table C71_command C71_instance','C71_counters holds in any arithmetic. C71_table and C71_command are in binary64 for math libraries whose exp and pow are accurate to 2^-40 and generators whose draws are in their documented ranges. Terminating is an hypothesis (the program returns); C68 excludes undefined behaviour.')
c('C72','proved','C72_larger_grid C72_stdout C72_instance','Real arithmetic (in binary64 the sums over more cells may round differently). Both runs are assumed to have finished.')
c('C73','proved','C73_every_invocation C73_one_meaning C73_defined C73_instance','C73_every_invocation and C73_one_meaning hold for every number system. The help, version and citation texts are parameters. C73_defined has the hypotheses of C68 (everyday configuration, well-formed cache, generator contract).')
c('C74','proved','C74_more C74_more_participants C74_hit C74_sigma C74_instance','One constituent per nucleon, as in C57. Attempt level: nothing is claimed about averages over accepted events only.')
c('C75','proved','C75_moved C75_same C75_instance','Exact arithmetic; the hypotheses say that both calls return (C13 says when they do). In binary64 the rounding differs from place to place (C62-C64 bound it).')
c('C76','proved','C76_exchange C76_exchange_participants C76_renumbered C76_renumbered_participants C76_instance','Exact arithmetic, one constituent per nucleon (the hypotheses of C57).')
c('C77','proved','C77_rotated C77_centred C77_instance','Exact arithmetic.')
