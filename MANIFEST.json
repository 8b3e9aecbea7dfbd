{
 "claims": [
  {
   "property": "C01",
   "status": "proved",
   "theorems": [
    "C01_index_draw_in_range"
   ],
   "note": "binary64 arithmetic with arbitrary libm; exact 48-bit generator"
  },
  {
   "property": "C02",
   "status": "proved",
   "theorems": [
    "C02_jitter_in_range"
   ],
   "note": "binary64"
  },
  {
   "property": "C03",
   "status": "proved",
   "theorems": [
    "C03_uniform_draw_in_range"
   ],
   "note": "binary64, with rounding"
  },
  {
   "property": "C04",
   "status": "proved",
   "theorems": [
    "C04_loguniform_draw_in_range"
   ],
   "note": "exact reals"
  },
  {
   "property": "C05",
   "status": "proved",
   "theorems": [
    "C05_streams_distinct",
    "C05_ranks_use_those_seeds"
   ],
   "note": "seed formula, pairwise distinct seeds and streams, and that every execution uses these seeds"
  },
  {
   "property": "C06",
   "status": "proved",
   "theorems": [
    "C06_positive",
    "C06_zero",
    "C06_negative",
    "C06_negative_refuted"
   ],
   "note": "Positive values below 2^32 and 0 as documented. Decided negatively for v < 0: the unsigned variable becomes v + 2^32 and is used as a fixed seed."
  },
  {
   "property": "C07",
   "status": "proved",
   "theorems": [
    "C07_jitter_uniform_refuted"
   ],
   "note": "decided negatively: in [-1,1] the value 0 has twice the weight of each end (exact state counts, binary64)"
  },
  {
   "property": "C08",
   "status": "proved",
   "theorems": [
    "C08_lands_in_box",
    "C08_shipped_models"
   ],
   "note": "binary64 with infinities and overflow; all shipped models for the current interface use this map"
  },
  {
   "property": "C09",
   "status": "proved",
   "theorems": [
    "C09_inside_unchanged",
    "C09_coordinates_independent"
   ],
   "note": "bit-identical in binary64; independence for every arithmetic"
  },
  {
   "property": "C10",
   "status": "proved",
   "theorems": [
    "C10_steps",
    "C10_density",
    "C10_density_symmetric",
    "C10_wall_symmetry_refuted"
   ],
   "note": "exact reals: symmetric density between interior points; decided negatively at the walls (atom at the wall)"
  },
  {
   "property": "C11",
   "status": "proved",
   "theorems": [
    "C11_rows_in_box",
    "C11_models_return_nan",
    "C11_uniform_start"
   ],
   "note": "binary64, every legal setup with a finite box, initial vectors inside (proved for uniform draws; assumed for log-uniform or normal ones), log-posterior NaN on NaN (proved for the five models of the current interface)"
  },
  {
   "property": "C12",
   "status": "proved",
   "theorems": [
    "C12_rule",
    "C12_runs",
    "C12_tuning",
    "C12_balance",
    "C12_probability"
   ],
   "note": "exact reals; every batch of every rank of every run and the trial batches of the tuning; acceptance counted in generator states"
  },
  {
   "property": "C13",
   "status": "proved",
   "theorems": [
    "C13_never_accepted",
    "C13_better_accepted",
    "C13_step",
    "C13_rows"
   ],
   "note": "binary64; exp and log assumed to have the C99 values at 1, NaN and -inf (LibmSpecial)"
  },
  {
   "property": "C14",
   "status": "proved",
   "theorems": [
    "C14_never_moves",
    "C14_recovers_refuted",
    "C14_from_minus_infinity"
   ],
   "note": "decided negatively: a chain that starts with NaN (or +inf) never moves in the whole run; a start at -inf is left"
  },
  {
   "property": "C15",
   "status": "proved",
   "theorems": [
    "C15_batch",
    "C15_runs"
   ],
   "note": "One call of iter_batch_mh, and every batch of every rank of every complete run, with the chain file as the concatenation of the saved batches."
  },
  {
   "property": "C16",
   "status": "proved",
   "theorems": [
    "C16_columns",
    "C16_columns_any_time",
    "C16_final_counters"
   ],
   "note": "Chain file of every complete execution, of every execution cut off anywhere, and the final counters."
  },
  {
   "property": "C17",
   "status": "proved",
   "theorems": [
    "C17_lengths",
    "C17_steps"
   ],
   "note": "Sums over stacks and batches along the history of the run (which exists and is unique, and which every execution writes out); bound on the length of every execution."
  },
  {
   "property": "C18",
   "status": "proved",
   "theorems": [
    "C18_saved_batches",
    "C18_slack",
    "C18_early_rows",
    "C18_row_by_row_refuted"
   ],
   "note": "Exactly the batches that end at or after i_save_begin are saved. Row by row: decided negatively, earlier rows are saved (at most base+rand-1 of them); C18_row_by_row_refuted has the witness."
  },
  {
   "property": "C19",
   "status": "proved",
   "theorems": [
    "C19_stack_nonpositive",
    "C19_empty_batch",
    "C19_empty_batch_exists",
    "C19_one_rank",
    "C19_any_configuration_refuted"
   ],
   "note": "Decided negatively: n_iter_a_stack <= 0, batch lengths that can become <= 0, and a single rank make the run fail; C19_any_configuration_refuted gives concrete configurations one number away from the shipped example."
  },
  {
   "property": "C20",
   "status": "proved",
   "theorems": [
    "C20_no_overflow",
    "C20_iter_bound_needed",
    "C20_batch_bound_needed",
    "C20_batch_bound_exists"
   ],
   "note": "No rank fails within the limits and the counters are exact; beyond either bound the run fails with a signed overflow."
  },
  {
   "property": "C21",
   "status": "proved",
   "theorems": [
    "C21_exchange"
   ],
   "note": "Every batch of every run, any arithmetic and model."
  },
  {
   "property": "C22",
   "status": "proved",
   "theorems": [
    "C22_rule",
    "C22_runs",
    "C22_balance"
   ],
   "note": "Exact reals. The decision for every attempt of every run without ladder adaptation; detailed balance for any likelihood and prior, given right cached values (with adaptation they can be stale, see C24)."
  },
  {
   "property": "C23",
   "status": "proved",
   "theorems": [
    "C23_after"
   ],
   "note": ""
  },
  {
   "property": "C24",
   "status": "proved",
   "theorems": [
    "C24_states",
    "C24_rows",
    "C24_adaptation",
    "C24_adapting_refuted"
   ],
   "note": "Proved with ladder adaptation off (all states at boundaries, all rows of all files at any time). Decided negatively with adaptation on: the cached value then belongs to the previous beta."
  },
  {
   "property": "C25",
   "status": "proved",
   "theorems": [
    "C25_partners",
    "C25_all_drawn",
    "C25_other_modes_refuted"
   ],
   "note": "Modes 0 and 1; decided negatively for other modes: the partner is always position 0 and can be the position itself."
  },
  {
   "property": "C26",
   "status": "proved",
   "theorems": [
    "C26_ends",
    "C26_file"
   ],
   "note": "all states of every run and all records of the beta file at any time; any arithmetic"
  },
  {
   "property": "C27",
   "status": "proved",
   "theorems": [
    "C27_positive",
    "C27_one",
    "C27_run",
    "C27_positive_refuted"
   ],
   "note": "exact reals with NaN for 0/0. Proved for every number of ranks except 4 (adaptation by adaptation and along runs), and for one adaptation with 4 ranks whose inner betas are in order. Decided negatively for 4 ranks: four adaptations lead from an ordered positive ladder to a negative beta."
  },
  {
   "property": "C28",
   "status": "proved",
   "theorems": [
    "C28_three",
    "C28_run",
    "C28_order_refuted"
   ],
   "note": "exact reals. Three ranks with b0 < 0.99 b2: order kept by any number of adaptations and along runs. Decided negatively for four ranks, and for three ranks with closer ends."
  },
  {
   "property": "C29",
   "status": "proved",
   "theorems": [
    "C29_three",
    "C29_within_ends_refuted"
   ],
   "note": "exact reals. Three ranks with b0 < 0.99: all betas stay between the ends. Decided negatively for five ranks (a beta above 1)."
  },
  {
   "property": "C30",
   "status": "proved",
   "theorems": [
    "C30_off",
    "C30_stop",
    "C30_adapts"
   ],
   "note": "any arithmetic; the ladder of every state from the start of the first stack that ends at or after N_stopTuneLadder, and that earlier stacks are adapted"
  },
  {
   "property": "C31",
   "status": "proved",
   "theorems": [
    "C31_window",
    "C31_stack",
    "C31_after",
    "C31_before"
   ],
   "note": "any arithmetic; table, local widths and recorded widths before, inside and after the window"
  },
  {
   "property": "C32",
   "status": "proved",
   "theorems": [
    "C32_rank",
    "C32_run"
   ],
   "note": "any arithmetic; per rank for any received messages, and for every tuning episode of every run"
  },
  {
   "property": "C33",
   "status": "proved",
   "theorems": [
    "C33_agree",
    "C33_tuned",
    "C33_others"
   ],
   "note": "any arithmetic (NaN rates count as outside); agreement under every schedule"
  },
  {
   "property": "C34",
   "status": "proved",
   "theorems": [
    "C34_three",
    "C34_numbers"
   ],
   "note": "any arithmetic in which the occurring rates can be compared: exact reals, and binary64 when ar_best and ar_accept_diff are not NaN"
  },
  {
   "property": "C35",
   "status": "proved",
   "theorems": [
    "C35_candidates",
    "C35_run",
    "C35_range_refuted"
   ],
   "note": "exact reals, with sigma_min*jumpin <= sigma_max: candidates, and all widths along runs. Decided negatively without that relation: a run whose widths leave the range."
  },
  {
   "property": "C36",
   "status": "proved",
   "theorems": [
    "C36_argmin",
    "C36_argmax",
    "C36_closest",
    "C36_doubles"
   ],
   "note": "any comparable numbers: reals and non-NaN doubles; a leading NaN wins argmin"
  },
  {
   "property": "C37",
   "status": "proved",
   "theorems": [
    "C37_widths"
   ],
   "note": "any arithmetic, every stack and batch of every run"
  },
  {
   "property": "C38",
   "status": "proved",
   "theorems": [
    "C38_no_deadlock"
   ],
   "note": "every schedule and buffering choice of the process semantics in Mpi.v"
  },
  {
   "property": "C39",
   "status": "proved",
   "theorems": [
    "C39_schedule_independent",
    "C39_equals_reference"
   ],
   "note": ""
  },
  {
   "property": "C40",
   "status": "proved",
   "theorems": [
    "C40_seed_lines_fixed",
    "C40_seed_order_refuted"
   ],
   "note": "the set of lines is fixed; the order is decided negatively by two complete executions of every legal setup"
  },
  {
   "property": "C41",
   "status": "proved",
   "theorems": [
    "C41_directory_first"
   ],
   "note": ""
  },
  {
   "property": "C42",
   "status": "proved",
   "theorems": [
    "C42_crash_prefix",
    "C42_crash_seed_lines"
   ],
   "note": "crash points are between records; every fopen of a results file uses mode \"a\", so records are only appended"
  },
  {
   "property": "C43",
   "status": "proved",
   "theorems": [
    "C43_messages_matched"
   ],
   "note": ""
  },
  {
   "property": "C44",
   "status": "proved",
   "theorems": [
    "C44_load"
   ],
   "note": "any atof that does not look at a newline after the number; lines free of NUL, newline and 0xFF bytes"
  },
  {
   "property": "C45",
   "status": "proved",
   "theorems": [
    "C45_count",
    "C45_overflow",
    "C45_refuted"
   ],
   "note": "Decided for every file: the count is right exactly for terminated files without 0xFF; otherwise it is too small and, if all lines have their numbers, the reader writes past the array and every run fails."
  },
  {
   "property": "C46",
   "status": "proved",
   "theorems": [
    "C46_ints",
    "C46_unsigned",
    "C46_reals",
    "C46_words",
    "C46_delimiter",
    "C46_betas",
    "C46_ranges",
    "C46_parameter_e_refuted",
    "C46_int",
    "C46_other_lines",
    "C46_word",
    "C46_range"
   ],
   "note": "%d, %u, %lf and %s values, delimiter, beta list and parameter ranges; the function turning text into a double is arbitrary. Values outside int are undefined behaviour. Decided negatively for a parameter named e: its key e_min is part of sigma_scale_min, so the setting counts as duplicate"
  },
  {
   "property": "C47",
   "status": "proved",
   "theorems": [
    "C47_missing",
    "C47_twice",
    "C47_overlong",
    "C47_no_file",
    "C47_other_key_refuted",
    "C47_no_number_refuted"
   ],
   "note": "Decided negatively in part: missing and duplicate keys are reported, then the NULL line is used; overlong lines overflow the buffer silently; a key inside another key, or a value that is no number, is misread silently."
  },
  {
   "property": "C48",
   "status": "proved",
   "theorems": [
    "C48_exact",
    "C48_more",
    "C48_fewer",
    "C48_refuted"
   ],
   "note": "Decided negatively for other lengths: too many entries are written past the list, with too few the list is NULL and every run fails."
  },
  {
   "property": "C49",
   "status": "proved",
   "theorems": [
    "C49_distinct",
    "C49_name",
    "C49_files",
    "C49_truncated",
    "C49_truncated_refuted",
    "C49_clash_refuted"
   ],
   "note": "With room for the name; and no two outputs share a file if FoutPre is not one of the fixed names. Decided negatively without these conditions."
  },
  {
   "property": "C50",
   "status": "proved",
   "theorems": [
    "C50_2d",
    "C50_3d",
    "C50_refuted",
    "C50_3d_refuted"
   ],
   "note": "Sizes whose product fits size_t (and n1*n2 int in 3-d), malloc succeeding; decided negatively beyond."
  },
  {
   "property": "C51",
   "status": "proved",
   "theorems": [
    "C51_linear",
    "C51_linear_real",
    "C51_old",
    "C51_zero"
   ],
   "note": "binary64 with any libm, and exact reals; also the two models of the old interface; what beta = 0 gives for infinite values"
  },
  {
   "property": "C52",
   "status": "proved",
   "theorems": [
    "C52_regression",
    "C52_rastrigin",
    "C52_orbit",
    "C52_densities",
    "C52_constant",
    "C52_refuted"
   ],
   "note": "exact reals, iterated Riemann integral. One for regression, rastrigin and fit_orbit; decided negatively for eggbox, curved_likelihood, multi_gaussian (constants) and hier_R (mass below one)"
  },
  {
   "property": "C53",
   "status": "proved",
   "theorems": [
    "C53_half",
    "C53_wide",
    "C53_limit",
    "C53_solution"
   ],
   "note": "exact reals; at most 5 turns up to e = 0.5, 12 up to 0.73, and some bound for every e below sqrt 3 - 1"
  },
  {
   "property": "C54",
   "status": "proved",
   "theorems": [
    "C54_statistics",
    "C54_statistics_real"
   ],
   "note": "binary64 up to 2^53 attempts per stack, exact reals without limit"
  },
  {
   "property": "C55",
   "status": "proved",
   "theorems": [
    "C55_usable",
    "C55_regression",
    "C55_eggbox_refuted",
    "C55_old_files_refuted"
   ],
   "note": "Seven files for every strtod; decided negatively for eggbox (N_begintune is no int) and for fit_orbit and hier_R (missing keys)."
  },
  {
   "property": "C56",
   "status": "proved",
   "theorems": [
    "C56_likelihood",
    "C56_odd_line"
   ],
   "note": "exact reals, with the pi and unit constants of the code"
  },
  {
   "property": "C57",
   "status": "proved",
   "theorems": [
    "C57_third_law",
    "C57_radius"
   ],
   "note": "exact reals, with the constants of the code"
  },
  {
   "property": "C58",
   "status": "proved",
   "theorems": [
    "C58_exact",
    "C58_wrong",
    "C58_ends",
    "C58_refuted"
   ],
   "note": "binary64. Exactly decided by the first measurement; decided negatively otherwise: planets are counted twice, or the table is left (C58_refuted)"
  },
  {
   "property": "C59",
   "status": "proved",
   "theorems": [
    "C59_uniform",
    "C59_refuted"
   ],
   "note": "exact reals. Decided negatively for gamma_power, a normal draw not cut to its range; the five others are inside for every seed"
  },
  {
   "property": "C60",
   "status": "proved",
   "theorems": [
    "C60_likelihood"
   ],
   "note": "exact reals, 3.141592653589793 for pi"
  },
  {
   "property": "C61",
   "status": "proved",
   "theorems": [
    "C61_curved",
    "C61_multi",
    "C61_multi_refuted"
   ],
   "note": "exact reals. curved_likelihood holds; decided negatively for multi_gaussian, which returns the density without the logarithm"
  },
  {
   "property": "C62",
   "status": "proved",
   "theorems": [
    "C62_planet"
   ],
   "note": "exact reals; exp of twice the literal 0.9189... in the place of 2 pi"
  },
  {
   "property": "C63",
   "status": "proved",
   "theorems": [
    "C63_value",
    "C63_refuted"
   ],
   "note": "decided negatively: the log-likelihood is the logarithm of the function, larger where the function is larger"
  },
  {
   "property": "C64",
   "status": "proved",
   "theorems": [
    "C64_period",
    "C64_run",
    "C64_initial"
   ],
   "note": "the draws of init_parm_set enter as a bound b0; for the shipped models at most two per parameter (C64_initial)"
  },
  {
   "property": "C65",
   "status": "proved",
   "theorems": [
    "C65_difference",
    "C65_offset",
    "C65_no_overlap",
    "C65_run",
    "C65_overlap_refuted"
   ],
   "note": "holds for up to 73 ranks and 234487807 draws per rank, whatever the seed; decided negatively beyond: with 74 ranks and seed 11987 rank 1 repeats the stream of root after 1638400 draws"
  },
  {
   "property": "C66",
   "status": "proved",
   "theorems": [
    "C66_completes",
    "C66_widths",
    "C66_rows_real",
    "C66_rows",
    "C66_fixed_ladder",
    "C66_multi_ladder",
    "C66_four_ladder"
   ],
   "note": "for the seven configurations that can be used (C55); widths and betas over exact reals, ranges over exact reals and binary64; in binary64 the theorem on ranges has the hypothesis, for the regression model only, that the log-uniform start is inside its range, because exp and log of libm are arbitrary functions there"
  },
  {
   "property": "C67",
   "status": "proved",
   "theorems": [
    "C67_numbers",
    "C67_chain_file",
    "C67_reload",
    "C67_other_files",
    "C67_torn",
    "C67_exact_refuted"
   ],
   "note": "printf is modelled as correctly rounded, halves to even (glibc). Decided negatively for exactness: 1 and the next double print alike, a positive beta can print as 0.000000 (C67_exact_refuted)"
  },
  {
   "property": "C68",
   "status": "proved",
   "theorems": [
    "C68_law",
    "C68_phi",
    "C68_pdf",
    "C68_bounded",
    "C68_symmetric_refuted",
    "C68_finite_refuted"
   ],
   "note": "the law is for two independent uniform numbers; the generator uses two consecutive ones. Over exact reals every draw but one is at most 8.17 in size. Decided negatively: draws are not symmetric (some above 8.15, none below -7.17, C68_symmetric_refuted), and one generator state gives log 0 and an infinite draw in binary64 (C68_finite_refuted)"
  },
  {
   "property": "C69",
   "status": "proved",
   "theorems": [
    "C69_code",
    "C69_step",
    "C69_swap",
    "C69_within",
    "C69_wide_refuted",
    "C69_models"
   ],
   "note": "exact reals; the step density is any even continuous one per parameter, the acceptance and boundary map are those of the code (C69_code, C12_runs). Holds for steps not exceeding the width of the range, which is all of them if the widths are at most 1/8.17 of the ranges (C69_within). Decided negatively for larger steps: they end on a wall with positive probability and the posterior is not unchanged (C69_wide_refuted). C69_models covers eggbox, curved_likelihood, multi_gaussian and regression; the log posterior of rastrigin is unbounded at its minimum"
  },
  {
   "property": "C70",
   "status": "proved",
   "theorems": [
    "C70_spread",
    "C70_choice"
   ],
   "note": "exact reals"
  },
  {
   "property": "C71",
   "status": "proved",
   "theorems": [
    "C71_prefix",
    "C71_silent",
    "C71_no_success",
    "C71_together",
    "C71_terminates_refuted"
   ],
   "note": "decided negatively for the end of the run: nothing calls MPI_Abort, so the other ranks come to wait for ever for the one that left (C71_terminates_refuted); what the MPI launcher does then is outside the model"
  },
  {
   "property": "C72",
   "status": "proved",
   "theorems": [
    "C72_cut",
    "C72_one_chain_refuted",
    "C72_glued_refuted"
   ],
   "note": "decided negatively for one chain: the same setup run twice gives every row twice (C72_one_chain_refuted); a line torn by a crash is glued to the first row of the next run (C72_glued_refuted). The warning of the program says \"may overwrite\"; nothing is overwritten"
  },
  {
   "property": "C73",
   "status": "proved",
   "theorems": [
    "C73_sequence",
    "C73_cold",
    "C73_run"
   ],
   "note": "exact reals; independent steps with even continuous densities, not exceeding the widths of the ranges (all of them under C69_within). The ladder and the widths are those configured: tuning them during the run is not covered. C73_run takes the operations from the history of the run; its pairs are distinct only for swap mode 0 and 1 (C25_other_modes_refuted)"
  },
  {
   "property": "C74",
   "status": "proved",
   "theorems": [
    "C74_converges",
    "C74_cold",
    "C74_run"
   ],
   "note": "exact reals; independent uniform numbers and independent steps with even, positive, continuous densities within the widths of the ranges; ladder and widths as configured (tuning during the run is not covered). delta is shown to exist, it is not computed. The rastrigin model is not covered (log posterior unbounded)"
  },
  {
   "property": "C75",
   "status": "proved",
   "theorems": [
    "C75_average",
    "C75_run"
   ],
   "note": "exact reals; conditions as for C74. The average is over all rows of the run, whatever part of them i_save_begin lets into the file"
  },
  {
   "property": "C76",
   "status": "proved",
   "theorems": [
    "C76_frozen",
    "C76_cached",
    "C76_uniform",
    "C76_run"
   ],
   "note": "exact reals; the kernels are those of C69 and C73, joined to runs through the schedule of the run (which ranks move how often, which pairs try to swap), not through the generator. Wide steps and the bounds on the log posteriors are hypotheses, met by the shipped regression model"
  },
  {
   "property": "C77",
   "status": "proved",
   "theorems": [
    "C77_where",
    "C77_saved",
    "C77_shipped_refuted"
   ],
   "note": "exact reals; as C76. C77_where is for every arithmetic. decided negatively for the shipped regression input (C77_shipped_refuted): 295000 of its saved iterations come before the tuning is over"
  },
  {
   "property": "C78",
   "status": "proved",
   "theorems": [
    "C78_safe",
    "C78_bounded",
    "C78_mismatch_refuted"
   ],
   "note": "the branches that depend on data are left open (any path), so the paths include those of every run; user functions of the regression model with K parameters; exits on errors are not paths. decided negatively when N_parm differs from the number of parameters of the user functions: every path then goes wrong (C78_mismatch_refuted). Never freed: 28 + 2K lines of 100 bytes of read_onepara, the block of the delimiter if it is \"blank\", logpost_all_ranks of the root and the strings and arrays of the input"
  },
  {
   "property": "C79",
   "status": "proved",
   "theorems": [
    "C79_run",
    "C79_curved",
    "C79_rastrigin_refuted"
   ],
   "note": "exact reals; the steps are those of C69 (within the widths of the ranges). The bound on the betas is a hypothesis when the ladder is tuned and is proved for the fixed ladder of curved_likelihood. decided negatively for rastrigin: its log posterior has no lower bound near the origin (C79_rastrigin_refuted), so C74 to C77 do not apply to it"
  },
  {
   "property": "C80",
   "status": "proved",
   "theorems": [
    "C80_count",
    "C80_chain",
    "C80_start_refuted",
    "C80_inner_refuted"
   ],
   "note": "binary64. A loss is the end of a session (fopen ... fclose); the sessions of a chain file are the first row and the batches that are saved. decided negatively: without the limit on the second line the loss of the first saved batch is not noticed (C80_start_refuted); a byte lost inside a line is not noticed (C80_inner_refuted)"
  },
  {
   "property": "C81",
   "status": "proved",
   "theorems": [
    "C81_lines",
    "C81_ranges",
    "C81_bytes",
    "C81_bytes_refuted",
    "C81_data",
    "C81_count",
    "C81_data_refuted"
   ],
   "note": "decided negatively for cuts inside a line: the shipped regression input without its last 18 bytes gives another delimiter, and N_iter: 400000 cut after two digits gives 40 (C81_bytes_refuted); a data file of which one line is missing is not reported, its cells are used without having been set (C81_data_refuted)"
  },
  {
   "property": "C82",
   "status": "proved",
   "theorems": [
    "C82_checked",
    "C82_never_unnoticed",
    "C82_no_failure",
    "C82_unchecked_refuted"
   ],
   "note": "on the model of the heap blocks (C78). decided negatively: nine kinds of blocks are allocated by malloc without a check; if one of them fails NULL is used and nothing is said, beginning with the first allocation of the program (C82_unchecked_refuted)"
  },
  {
   "property": "C83",
   "status": "proved",
   "theorems": [
    "C83_agree",
    "C83_starts",
    "C83_shipped",
    "C83_layout_refuted"
   ],
   "note": "grep, awk and the shell's splitting are modelled for the bytes of one file. decided negatively: for other layouts that the program reads, the script starts a different number of processes or none (C83_layout_refuted)"
  },
  {
   "property": "C84",
   "status": "proved",
   "theorems": [
    "C84_merge",
    "C84_repeats",
    "C84_bins",
    "C84_edge_refuted",
    "C84_weights_refuted",
    "C84_reference_refuted"
   ],
   "note": "decided negatively: at x = 50, which the shipped prior allows and to which smaller doubles are printed, sampling_static.py stops, at y = 50 it counts in a bin elsewhere (C84_edge_refuted); dropping repeated rows loses the weights (C84_weights_refuted); the reference column is not a multiple of the posterior of the code (C84_reference_refuted)"
  },
  {
   "property": "C85",
   "status": "proved",
   "theorems": [
    "C85_more",
    "C85_fewer",
    "C85_cold_refuted"
   ],
   "note": "decided negatively: fewer ranks than betas are not noticed; the shipped regression settings with three ranks run to the end without a chain at beta above 1/10 (C85_cold_refuted)"
  },
  {
   "property": "C86",
   "status": "proved",
   "theorems": [
    "C86_all_leave",
    "C86_trace",
    "C86_reached",
    "C86_some_file_refuted"
   ],
   "note": "in the model of C71 (a rank that cannot open a file leaves through exit(3)). decided negatively: when rank 1 alone cannot open a file, the others wait for ever (C86_some_file_refuted)"
  },
  {
   "property": "C87",
   "status": "proved",
   "theorems": [
    "C87_ends",
    "C87_orbit",
    "C87_nan",
    "C87_large_refuted",
    "C87_eccentric_refuted"
   ],
   "note": "binary64 for the bounds, with the accuracy of sine and cosine as hypothesis; decided negatively: for a mean anomaly of about 6.7e7 and eccentricity 1/2 the loop goes back and forth between two doubles for ever (C87_large_refuted), and in exact reals it does so for an eccentricity of about 0.97 (C87_eccentric_refuted)"
  },
  {
   "property": "C88",
   "status": "proved",
   "theorems": [
    "C88_metropolis",
    "C88_runs",
    "C88_swap",
    "C88_every_refuted",
    "C88_large_refuted"
   ],
   "note": "the accuracy of exp is a hypothesis, met by a correctly rounded one (C88_case). decided negatively: with a correctly rounded exp a proposal worse by 1000 is refused at draw 0, which the rule over the reals takes (C88_every_refuted); with log-posteriors of about 2^54 every exchange is made where the rule asks for probability exp(-1) (C88_large_refuted)"
  },
  {
   "property": "C89",
   "status": "proved",
   "theorems": [
    "C89_posterior",
    "C89_runs",
    "C89_swaps",
    "C89_shipped",
    "C89_cancel_refuted"
   ],
   "note": "the accuracy of exp, log and pow is a hypothesis, met by correctly rounded ones (C89_case). decided negatively for a bound without W: two vectors inside allowed ranges have the same computed log-posterior, and exact ones that differ by 8 (C89_cancel_refuted)"
  },
  {
   "property": "C90",
   "status": "proved",
   "theorems": [
    "C90_draw",
    "C90_rows",
    "C90_shipped",
    "C90_narrow_refuted"
   ],
   "note": "the accuracy of exp and log is a hypothesis, met by correctly rounded ones (C90_case). decided negatively for narrow ranges: between 15/8 and the next double the greatest draw gives a value above the range (C90_narrow_refuted)"
  },
  {
   "property": "C91",
   "status": "proved",
   "theorems": [
    "C91_candidates",
    "C91_run",
    "C91_shipped",
    "C91_exact_refuted"
   ],
   "note": "the accuracy of exp and log is a hypothesis, met by correctly rounded ones (C91_case). decided negatively for the range itself: with jump-in ratio 300 and the lower end 1 - 2^-53 the least candidate is below the range (C91_exact_refuted)"
  },
  {
   "property": "C92",
   "status": "proved",
   "theorems": [
    "C92_adapt",
    "C92_run",
    "C92_lower",
    "C92_stretch_refuted"
   ],
   "note": "the accuracy of pow(x, 0.5) is a hypothesis, met by a correctly rounded root (C92_case). decided negatively for zero_stretch = 1: with b0 = 2^-60 the middle beta becomes infinite (C92_stretch_refuted)"
  },
  {
   "property": "C93",
   "status": "proved",
   "theorems": [
    "C93_one",
    "C93_order",
    "C93_fixed",
    "C93_limit",
    "C93_run"
   ],
   "note": "over the reals extended by NaN; rates that were never tried are NaN (0/0) there as in C"
  },
  {
   "property": "C94",
   "status": "proved",
   "theorems": [
    "C94_one",
    "C94_run",
    "C94_close_refuted"
   ],
   "note": "the distance is needed, decided negatively without it: of betas closer than one part in a hundred the limit 0.99 T moves the wrong way (C94_close_refuted). Runs of four ranks are not covered (C27_positive_refuted)"
  },
  {
   "property": "C95",
   "status": "proved",
   "theorems": [
    "C95_posterior",
    "C95_runs",
    "C95_swaps",
    "C95_inside"
   ],
   "note": "the accuracy of the library functions is a hypothesis, met by correctly rounded ones (C95_case)"
  },
  {
   "property": "C96",
   "status": "proved",
   "theorems": [
    "C96_posterior",
    "C96_runs",
    "C96_swaps",
    "C96_inside"
   ],
   "note": "the accuracy of the library functions is a hypothesis, met by correctly rounded ones (C96_case)"
  },
  {
   "property": "C97",
   "status": "proved",
   "theorems": [
    "C97_flat",
    "C97_runs",
    "C97_exact_refuted"
   ],
   "note": "the values of the library functions are hypotheses, met by correctly rounded ones (C97_case); that the code follows the exact posterior there is refuted by C97_exact_refuted"
  }
 ]
}