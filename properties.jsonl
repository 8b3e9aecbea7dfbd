{"id": "C01", "title": "Index draws stay in range", "statement": "Drawing an index below a (the pair to swap, the swap partner) returns an integer in [0, a-1] for a >= 1, in IEEE binary64 arithmetic, including the rounding of r*a, so a swap never addresses a chain outside the ladder.", "quantifier": "every 48-bit generator state and every a in [1, 2^31)", "why_tests_cant": "2^48 generator states; the dangerous ones are the few just below 1 where r*a could round up to a.", "anchors": ["rand_func.c:i4_unif_0a", "mpi_stack.c:mpi_static_sigma_stack", "mpi_stack.c:mpi_judge_and_swap"]}
{"id": "C02", "title": "Batch-length jitter stays in range", "statement": "The random adjustment of a batch length lies in [-R, R] where R is n_iter_a_batch_rand, for 0 <= R with 2R representable as int.", "quantifier": "every generator state and every admissible R", "why_tests_cant": "the extremes depend on single generator states out of 2^48 and on round-half-away at the ends.", "anchors": ["rand_func.c:i4_unif_ab", "mpi_stack.c:mpi_static_sigma_stack"]}
{"id": "C03", "title": "Uniform initial draws lie in the prior range", "statement": "A uniform initial parameter r8_unif_ab(lo,hi) computed in binary64 satisfies lo <= x <= hi, never NaN or infinite, whenever lo <= hi are finite and hi-lo does not overflow.", "quantifier": "every generator state and every pair of finite doubles lo <= hi whose difference is finite", "why_tests_cant": "three roundings interact with arbitrary magnitudes (cancellation, subnormals); a sample of seeds does not cover them.", "anchors": ["rand_func.c:r8_unif_ab", "models/*/user_prior.c:init_parm_set"]}
{"id": "C04", "title": "Log-uniform initial draws lie in the prior range", "statement": "A log-uniform initial parameter a*exp(u*log(b/a)) lies in [a,b) for 0 < a < b (exact-real reading of the arithmetic), and equals a only when u = 0.", "quantifier": "every generator state and every 0 < a < b", "why_tests_cant": "infinitely many ranges.", "anchors": ["rand_func.c:r8_logunif_ab", "models/regression/user_prior.c:init_parm_set"]}
{"id": "C05", "title": "Every rank gets its own random stream", "statement": "The seeds handed to the ranks of one run are pairwise distinct, the generator start states they induce are pairwise distinct, and the two ranks' generator states differ after any common number of draws; rank k != root receives base + (k's 1-based position among non-root ranks) and root receives base + n, modulo 2^32.", "quantifier": "every base seed in [0,2^32), every number of ranks up to 2^32, every pair of ranks, every number of draws", "why_tests_cant": "wrap-around of the seed and long-run coincidences of streams are out of reach of tests.", "anchors": ["mpi_init.c:mpi_gen_init_parm", "main.c:main", "models/*/user_prior.c:init_parm_set"]}
{"id": "C06", "title": "A non-positive seed in the input selects the clock", "statement": "input.ini says init_rand_seed <= 0 means 'seed from the system time'. Whether every value v <= 0 written in the file makes the run seed from the clock is to be decided; positive values must be used as written.", "quantifier": "every integer v written in the file, every clock value", "why_tests_cant": "only v = 0 is ever tried.", "anchors": ["main.c:main (107-118)", "readin.c:read_sampling_para", "input.ini"]}
{"id": "C07", "title": "Jittered batch lengths are uniformly distributed", "statement": "The code documents the draw as 'a uniform pseudo random number i4 between a and b': whether each integer of [a,b] is produced by the same number of generator states is to be decided.", "quantifier": "all 2^48 generator states, every a < b", "why_tests_cant": "a distribution over 2^48 states is not testable by sampling at the precision that separates the two weights for large ranges.", "anchors": ["rand_func.c:i4_unif_ab"]}
{"id": "C08", "title": "Boundary handling always lands in the prior box", "statement": "After para_boundary every coordinate that was not NaN lies in [min,max], for any finite min <= max, in binary64 with rounding, overflow and infinities; a NaN coordinate stays NaN.", "quantifier": "every double (including infinities) per coordinate, every finite min <= max, each shipped model", "why_tests_cant": "overflowing reflections and infinite jumps (the generator can return exactly 0, giving an infinite normal deviate) are never seen in practice.", "anchors": ["models/*/user_prior.c:para_boundary", "models/fit_orbit/user_prior.c:bounce_inside"]}
{"id": "C09", "title": "Boundary handling leaves legal points alone", "statement": "A coordinate already inside [min,max] is returned bit-identical, and the treatment of one coordinate depends on no other coordinate.", "quantifier": "every parameter vector and every box", "why_tests_cant": "all doubles.", "anchors": ["models/*/user_prior.c:para_boundary"]}
{"id": "C10", "title": "The bounded proposal is symmetric", "statement": "The acceptance rule uses a proposal ratio of 1. For two interior points x and y the Gaussian steps that carry x to y through the boundary map and those that carry y to x have the same multiset of absolute values, so the two proposal densities agree; whether the symmetry extends to the walls is to be decided.", "quantifier": "every box and every pair of points in it (exact reals)", "why_tests_cant": "a statement about a density over a continuum.", "anchors": ["mpi_batch.c:do_gaussian_propose", "mpi_batch.c:iter_batch_mh", "models/*/user_prior.c:para_boundary"]}
{"id": "C11", "title": "Every saved sample is inside the prior box", "statement": "Every parameter vector in every row of every chain file lies inside the prior box, from the first row to the last, provided the likelihood or prior returns NaN on NaN input.", "quantifier": "every input within the stated limits, every seed, every likelihood and prior, every schedule, every row", "why_tests_cant": "whole-run property over all random draws including infinite ones.", "anchors": ["mpi_batch.c:iter_batch_mh", "mpi_batch.c:save_the_batch", "mpi_init.c:save_first_chain", "models/*/user_prior.c"]}
{"id": "C12", "title": "A proposal is accepted with the Metropolis probability", "statement": "With current log-posterior L and proposed L', the proposal is accepted exactly when the uniform draw u in [0,1) satisfies u < min(1, exp(L'-L)); the acceptance probabilities of the two directions satisfy detailed balance with respect to exp(L). (exact reals)", "quantifier": "every L, L' and every u in [0,1)", "why_tests_cant": "equality of probabilities over a continuum.", "anchors": ["mpi_batch.c:iter_batch_mh", "mpi_tune.c:iter_batch_mh_tune"]}
{"id": "C13", "title": "Undefined or impossible proposals are never accepted", "statement": "In binary64 a proposal whose log-posterior is NaN is never accepted, nor is one whose log-posterior is -inf while the current one is not -inf; a proposal strictly above the current (comparable) value is always accepted without consuming a random number.", "quantifier": "every pair of doubles and every generator state", "why_tests_cant": "needs all exceptional values and all draws.", "anchors": ["mpi_batch.c:iter_batch_mh"]}
{"id": "C14", "title": "A chain always recovers from a bad start", "statement": "Whether a chain whose initial log-posterior is not a number ever moves, for instance as soon as a finite proposal appears, is to be decided.", "quantifier": "every proposal sequence and every number of iterations", "why_tests_cant": "the failure is a forever-claim: the chain never moves.", "anchors": ["mpi_batch.c:iter_batch_mh", "mpi_init.c:mpi_init_calc_logllpp"]}
{"id": "C15", "title": "Chain rows are accepted proposals or exact repeats", "statement": "Within a batch every row is either the bounded proposal made from the preceding row, with the log-posterior of exactly that proposal at the rank's current beta, or a repeat of the preceding row's parameters and log-posterior; the accept counter rises by one exactly in the first case.", "quantifier": "every batch length >= 1, every starting point, every generator state, every user model", "why_tests_cant": "unbounded batch length and history.", "anchors": ["mpi_batch.c:iter_batch_mh"]}
{"id": "C16", "title": "Iteration and acceptance columns are consistent", "statement": "Down a chain file the iteration column increases by exactly one per row inside the saved range, the acceptance column never decreases and rises by at most one per row, and acceptance <= iteration; the final counters are exactly N_iter and the number of accepted proposals.", "quantifier": "every configuration, every seed, every chain file, every row", "why_tests_cant": "relates counters across arbitrarily many batches and stacks.", "anchors": ["mpi_batch.c:iter_batch_mh", "mpi_batch.c:save_the_batch", "main.c:main (182-211)"]}
{"id": "C17", "title": "Every chain performs exactly N_iter iterations", "statement": "Batches within a stack have lengths between 1 and base+rand that add up to the stack length; stack lengths add up to N_iter; hence every rank performs exactly N_iter Metropolis steps and the run terminates, if 1 <= n_iter_a_stack and n_iter_a_batch_rand < n_iter_a_batch_base.", "quantifier": "every configuration in range and every sequence of random batch lengths", "why_tests_cant": "batch lengths are random; the sum has to be right for every sequence of draws.", "anchors": ["mpi_stack.c:mpi_static_sigma_stack", "mpi_flow.c:mpi_entire_flow"]}
{"id": "C18", "title": "Burn-in is honoured row by row", "statement": "The rows written are the initial row plus exactly the rows of all batches that end at or after i_save_begin, so saving starts at a batch boundary; input.ini's reading ('save the chain starting from' i_save_begin), i.e. that no earlier row is saved, is to be decided.", "quantifier": "every i_save_begin, every sequence of batch lengths", "why_tests_cant": "depends on how random batch boundaries fall around i_save_begin.", "anchors": ["mpi_batch.c:iter_batch_mh (267-271)", "mpi_init.c:save_first_chain", "input.ini"]}
{"id": "C19", "title": "Any accepted configuration runs to completion", "statement": "The program performs no validation: whether every configuration it accepts terminates without memory error is to be decided. Configurations with n_iter_a_stack <= 0 or n_iter_a_batch_rand >= n_iter_a_batch_base decide it.", "quantifier": "every integer configuration", "why_tests_cant": "non-termination and out-of-bounds access on a random draw are not observable by finite tests.", "anchors": ["mpi_flow.c:mpi_entire_flow", "mpi_stack.c:mpi_static_sigma_stack", "mpi_batch.c:iter_batch_mh"]}
{"id": "C20", "title": "Iteration arithmetic never overflows", "statement": "No signed overflow and no counter wrap occurs in the stack/batch arithmetic when N_iter + n_iter_a_stack and n_iter_a_stack + base + rand fit in int; the bound is needed.", "quantifier": "every configuration satisfying the bound, every run", "why_tests_cant": "overflow needs runs of two billion iterations.", "anchors": ["mpi_flow.c:mpi_entire_flow", "mpi_stack.c:mpi_static_sigma_stack", "mpi_batch.c:iter_batch_mh"]}
{"id": "C21", "title": "A swap exchanges exactly two chains", "statement": "One swap attempt either changes nothing or exchanges the parameter vectors of exactly the two chosen ladder positions, leaving every other position, all step widths and all counters untouched; over a whole sequence of swaps the collection of parameter vectors is only permuted.", "quantifier": "every ladder, pair, state, number of swaps and draw", "why_tests_cant": "permutation invariant over unbounded swap histories.", "anchors": ["mpi_stack.c:mpi_judge_and_swap", "mpi_stack.c:swap_two_chains"]}
{"id": "C22", "title": "Swap acceptance follows parallel tempering", "statement": "For a likelihood tempered as beta*L(x) with an untempered prior, a swap of positions i and j is accepted exactly when u < min(1, exp((beta_i-beta_j)(L(x_j)-L(x_i)))), independent of the prior, and satisfies detailed balance for the product of the tempered posteriors. (exact reals; cached values consistent)", "quantifier": "every pair of states, betas, priors and draws", "why_tests_cant": "identity over continuous state space.", "anchors": ["mpi_stack.c:mpi_judge_and_swap"]}
{"id": "C23", "title": "After a swap both cached log-posteriors match their new positions", "statement": "Whenever a swap is executed, the cached log-posterior at each of the two positions equals the tempered log-posterior of the vector now stored there at that position's beta, bit for bit.", "quantifier": "every state, pair, model", "why_tests_cant": "index mix-ups (i/j) only show for asymmetric cases.", "anchors": ["mpi_stack.c:mpi_judge_and_swap"]}
{"id": "C24", "title": "The cached log-posterior always belongs to the stored state", "statement": "At every batch boundary of the whole run, the cached log-posterior of each ladder position equals log-likelihood at the position's current beta plus log-prior of the stored vector; likewise the log-posterior column of a chain file is that of its row. To be decided with ladder tuning off and on.", "quantifier": "every run, every stack and batch boundary, every rank", "why_tests_cant": "whole-history invariant; a violation only shifts acceptance probabilities silently.", "anchors": ["mpi_stack.c", "mpi_batch.c", "mpi_ladder.c:tune_ladder_use_3_neighb"]}
{"id": "C25", "title": "Swap partners are legal", "statement": "In swap modes 0 and 1 the two positions of an attempted swap are distinct and inside the ladder; in mode 0 they are neighbours; in mode 1 every ordered position other than i can be drawn. Other mode values are to be decided.", "quantifier": "every n >= 2, every generator state, every mode value", "why_tests_cant": "boundary draws and untested mode values.", "anchors": ["mpi_stack.c:mpi_judge_and_swap"]}
{"id": "C26", "title": "The ends of the temperature ladder never move and all ranks agree on the ladder", "statement": "Throughout the run the first and last beta equal the input values, and between stacks every rank holds the same ladder.", "quantifier": "every run with or without ladder tuning, every number of ranks", "why_tests_cant": "invariant over arbitrarily many adaptations.", "anchors": ["mpi_ladder.c:tune_ladder_use_3_neighb", "mpi_ladder.c:mpi_distribute_running_Beta_root"]}
{"id": "C27", "title": "Adapted temperatures stay positive", "statement": "Starting from positive betas, with 0 <= scale_tune_ladder, zero_stretch <= 1, all betas remain positive after any number of ladder adaptations with any swap statistics. (exact reals)", "quantifier": "every positive ladder of any length, every swap/proposal count vector (including zero proposals), any number of adaptations", "why_tests_cant": "quantifies over all histories of swap counts.", "anchors": ["mpi_ladder.c:tune_ladder_use_3_neighb"]}
{"id": "C28", "title": "Ladder adaptation keeps the betas ordered", "statement": "Whether an increasing beta ladder stays increasing when adapted is to be decided (for three ranks and for longer ladders).", "quantifier": "every ordered ladder and swap statistics", "why_tests_cant": "needs particular statistics in which two neighbours move towards each other.", "anchors": ["mpi_ladder.c:tune_ladder_use_3_neighb"]}
{"id": "C29", "title": "Adapted betas stay between the ends of the ladder", "statement": "Whether adaptation keeps every beta inside the interval spanned by the fixed ends, in particular never above 1 when the cold chain has beta 1, is to be decided.", "quantifier": "every ordered ladder and swap statistics", "why_tests_cant": "needs a rare combination of zero swap rates.", "anchors": ["mpi_ladder.c:tune_ladder_use_3_neighb"]}
{"id": "C30", "title": "The ladder is frozen once tuning is off or over", "statement": "With Tune_Ladder <= 0 the betas never change; with Tune_Ladder > 0 they do not change at the end of any stack that ends at or after N_stopTuneLadder.", "quantifier": "every run and every stack", "why_tests_cant": "all stack lengths and stop points.", "anchors": ["mpi_stack.c:mpi_static_sigma_stack (201-207)"]}
{"id": "C31", "title": "Step widths are frozen outside the tuning window", "statement": "The step-width table changes only between stacks ending strictly after N_begintune, strictly before N_stoptune and before N_iter; outside that window every rank samples with unchanged widths (so samples after N_stoptune come from a fixed kernel).", "quantifier": "every run, every stack", "why_tests_cant": "window edges against arbitrary stack lengths.", "anchors": ["mpi_flow.c:mpi_entire_flow"]}
{"id": "C32", "title": "Tuning does not disturb the chains", "statement": "A tuning episode leaves all chain states, cached log-posteriors, iteration and acceptance counters, the ladder and all files untouched; it only changes the width table and advances the random generators.", "quantifier": "every state, every tuned rank, every number of tuning iterations", "why_tests_cant": "frame property over all states.", "anchors": ["mpi_tune.c:mpi_tune_sigma_irank", "mpi_tune.c:iter_batch_mh_tune"]}
{"id": "C33", "title": "Exactly the ranks outside the acceptance band are tuned", "statement": "A rank's widths are tuned after a stack iff its acceptance rate over that stack is not strictly between ar_ok_lower and ar_ok_upper; all ranks agree on the list; the widths of other ranks are unchanged.", "quantifier": "every vector of acceptance rates including NaN, every band", "why_tests_cant": "all rate vectors; agreement across processes.", "anchors": ["mpi_flow.c:mpi_find_ranks2tune", "mpi_flow.c:mpi_entire_flow", "mpi_tune.c:modify_sigma_prop_rankintune"]}
{"id": "C34", "title": "A tuning episode makes one of three well-defined changes", "statement": "Tuning a rank either replaces one width by one of that parameter's candidate values, or resets all widths of the rank to the initial proposal, or replaces every width by the candidate of that parameter whose trial acceptance rate is closest to ar_best.", "quantifier": "every table of trial acceptance rates, every draw", "why_tests_cant": "case analysis over all rate tables.", "anchors": ["mpi_tune.c:decide_sigma_to_change", "mpi_tune.c:modify_sigma_prop_rankintune", "mpi_tune.c:race_all_parm"]}
{"id": "C35", "title": "Candidate widths stay inside the allowed range", "statement": "All candidate widths generated for a parameter lie in [sigma_min, sigma_max] when sigma_min*jumpin <= sigma_max (exact reals), and hence a width that starts in the range stays there through any number of tunings; without that relation the claim is to be decided.", "quantifier": "every positive width, range, jump-in ratio >= 1, half-scale >= 1, every number of ranks >= 2", "why_tests_cant": "continuum of widths and ratios; iterated.", "anchors": ["mpi_tune.c:create_logspace_array", "mpi_tune.c:check_bounceInside_sigma_boundary", "mpi_tune.c:gen_sigma_alltune"]}
{"id": "C36", "title": "Closest-rate searches return the true optimum", "statement": "argmin/argmax and the two closest-acceptance searches return indices in range whose value no entry beats (first such index), for comparable doubles.", "quantifier": "every non-empty array of non-NaN doubles", "why_tests_cant": "all arrays, ties included.", "anchors": ["mpi_tune.c:argmin", "mpi_tune.c:argmax", "mpi_tune.c:calc_closest_ar", "mpi_tune.c:calc_closest_ar_oneparm"]}
{"id": "C37", "title": "Each stack runs with the widths held by the root", "statement": "During every stack each rank proposes with exactly its row of the root's width table, whatever widths tuning left in the ranks' local buffers.", "quantifier": "every run and stack", "why_tests_cant": "stale local buffers after tuning are only corrected by the next distribution.", "anchors": ["mpi_flow.c:mpi_distribute_sigma_prop_root", "mpi_flow.c:mpi_entire_flow", "mpi_tune.c:mpi_tune_sigma_irank"]}
{"id": "C38", "title": "No deadlock under any schedule or send buffering", "statement": "For every interleaving of the ranks and every choice, per message, of buffered or rendezvous completion of MPI_Send, the run never reaches a state where some rank is unfinished and none can proceed, and it always finishes after a bounded number of communication steps.", "quantifier": "every schedule, every buffering policy, every n >= 2, every configuration in range (the root rank is the constant 0 of main.c)", "why_tests_cant": "schedules and buffering policies cannot be enumerated by running.", "anchors": ["mpi_init.c", "mpi_batch.c:mpi_run_a_batch", "mpi_stack.c", "mpi_flow.c", "mpi_tune.c", "mpi_ladder.c"]}
{"id": "C39", "title": "Results do not depend on scheduling", "statement": "With a fixed seed, input and data, the rows of every chain file, width file and the beta file are identical for every schedule and buffering policy, and equal those of the sequential reference semantics.", "quantifier": "every schedule and buffering policy", "why_tests_cant": "race freedom over all interleavings.", "anchors": ["main.c", "mpi_*.c"]}
{"id": "C40", "title": "The shared seed log is deterministic", "statement": "All ranks append to init.randseed. Its set of lines is the same for every schedule; the order of lines is to be decided.", "quantifier": "every schedule", "why_tests_cant": "an ordering race shows only under particular timings.", "anchors": ["mpi_init.c:save_the_seed"]}
{"id": "C41", "title": "No rank writes a result before the results directory exists", "statement": "In every execution the directory creation by the root precedes every append to a results file by any rank.", "quantifier": "every schedule", "why_tests_cant": "happens-before across processes.", "anchors": ["main.c:main (102)", "readin.c:make_dir", "mpi_init.c", "data_loader.c:mpi_get_nlines"]}
{"id": "C42", "title": "A crash leaves a prefix of the full results", "statement": "If the run is killed at any point, the rows present for each rank's files are a prefix of the rows of the complete run, so everything saved up to then is valid; rerunning appends and never overwrites.", "quantifier": "every crash point of every schedule", "why_tests_cant": "crash points times schedules.", "anchors": ["mpi_batch.c:save_the_batch", "mpi_init.c:save_first_chain", "mpi_flow.c:save_sigma_gauss_prop", "mpi_stack.c:save_debug_Beta_Values"]}
{"id": "C43", "title": "Every message is consumed by the receive meant for it", "statement": "Every receive obtains a message of the expected type and length, and when all ranks finish no message is left undelivered.", "quantifier": "every schedule and configuration", "why_tests_cant": "tag reuse across phases could cross-match under rare timings.", "anchors": ["mpi_*.c"]}
{"id": "C44", "title": "Well-formed data files load exactly", "statement": "If every line is newline-terminated and holds at least ndim delimiter-separated tokens, the loader returns the table with entry (i,j) the value of token j of line i, for every rank, without memory errors.", "quantifier": "every byte content of that form, every ndim, every delimiter set", "why_tests_cant": "all files.", "anchors": ["data_loader.c:read_data", "data_loader.c:mpi_get_nlines", "data_loader.c:get_nlines_of_file"]}
{"id": "C45", "title": "Line counting agrees with reading", "statement": "The number of rows allocated equals the number of lines the reader stores for every file whose last line ends in a newline and that has no byte 0xFF; other files are to be decided.", "quantifier": "every byte content", "why_tests_cant": "depends on the last byte and on byte 0xFF.", "anchors": ["data_loader.c:get_nlines_of_file", "data_loader.c:read_data"]}
{"id": "C46", "title": "A configuration value is read back exactly", "statement": "If exactly one line of the file mentions the key and it has the form key:value and is shorter than the line buffer, the integer read is the one written, independent of all other lines.", "quantifier": "every file content, key and int value", "why_tests_cant": "all files and values.", "anchors": ["readin.c:read_onepara", "readin.c:read_sampling_para"]}
{"id": "C47", "title": "A malformed configuration is reported, not misread", "statement": "A key that is missing, mentioned twice (for instance in a comment) or on an overlong line should be diagnosed. The actual outcome is to be decided.", "quantifier": "every file content", "why_tests_cant": "all files.", "anchors": ["readin.c:read_onepara"]}
{"id": "C48", "title": "The beta list is read completely and safely", "statement": "A Beta_Values line with exactly N_beta entries yields exactly those entries in order; lines with another number of entries are to be decided.", "quantifier": "every list of values and every N_beta", "why_tests_cant": "all lengths.", "anchors": ["readin.c:read_beta_values", "main.c:main (196-199)"]}
{"id": "C49", "title": "Each rank writes its own chain file", "statement": "Chain file names of different ranks differ whenever the full name fits in Fout_Len; without that bound the claim is to be decided.", "quantifier": "every directory, prefix, suffix, rank pair and Fout_Len", "why_tests_cant": "all strings and ranks.", "anchors": ["mpi_batch.c:save_the_batch", "mpi_init.c:save_first_chain"]}
{"id": "C50", "title": "Matrices do not alias", "statement": "In the 2-d and 3-d allocators every element address is inside the allocated block, distinct index tuples have distinct addresses and the elements are contiguous in row-major order, so a row can be sent as one message.", "quantifier": "every dimension >= 1 and every index tuple", "why_tests_cant": "all sizes.", "anchors": ["alloc.c:alloc_2d_double", "alloc.c:alloc_3d_double", "alloc.c:alloc_2d_int", "alloc.c:alloc_3d_int"]}
{"id": "C51", "title": "Shipped likelihoods are tempered linearly", "statement": "For each shipped model written for the current interface, the tempered log-likelihood at beta is the product of beta and a value not depending on beta (one final multiplication in binary64), and beta = 1 gives that value itself.", "quantifier": "every parameter vector, data set and beta", "why_tests_cant": "all inputs.", "anchors": ["models/regression/user_logll.c", "models/eggbox/user_logll.c", "models/rastrigin/user_logll.c", "models/multi_gaussian/user_logll.c", "models/curved_likelihood/user_logll.c"]}
{"id": "C52", "title": "Shipped priors are normalised densities on the box", "statement": "The prior of each shipped model with a proper prior integrates to one over its box (product of uniform densities; Jeffreys density for the scale parameter of the regression model). (exact reals)", "quantifier": "every box with min < max (and 0 < min for the Jeffreys parameter)", "why_tests_cant": "an integral over a continuum.", "anchors": ["models/rastrigin/user_prior.c:log_prior", "models/regression/user_prior.c:log_prior", "models/*/user_prior.c"]}
{"id": "C53", "title": "The Kepler solver converges", "statement": "For every mean anomaly and every eccentricity in the prior range [0, 0.5] (indeed up to 0.73) the Newton iteration of the orbit model stops, after a bounded number of iterations, at a point that satisfies Kepler's equation to the tolerance. (exact reals)", "quantifier": "every real mean anomaly, every eccentricity in range", "why_tests_cant": "continuum of inputs; non-termination is not testable.", "anchors": ["models/fit_orbit/user_logll.c:newton_solver"]}
{"id": "C54", "title": "The ladder adaptation sees exact swap counts", "statement": "With Tune_Ladder > 0, the two arrays passed to the ladder adaptation after a stack hold, for every ladder position, exactly the number of swap attempts of that stack whose first position i_swap it is and the number of those that were executed (in binary64 as long as a stack has at most 2^53 attempts).", "quantifier": "every run, stack and position", "why_tests_cant": "all runs and all statistics.", "anchors": ["mpi_stack.c (180-187)", "mpi_stack.c:mpi_judge_and_swap"]}
{"id": "C55", "title": "The shipped configuration files are usable", "statement": "Each input.ini (and each rastrigin variant) in the repository is read completely, without undefined behaviour, and gives a configuration that meets the limits the other theorems need, with N_beta processes.", "quantifier": "every shipped file, every behaviour of strtod/atof", "why_tests_cant": "a test would need to notice undefined behaviour that happens to work.", "anchors": ["input.ini", "models/*/input.ini*", "readin.c:read_input_ini"]}
{"id": "C56", "title": "The orbit likelihood is the Gaussian likelihood of two Kepler orbits", "statement": "exp of the log-likelihood of fit_orbit at beta = 1 is the product over all observations of normal densities, with standard deviation var_uk, about the sum of the sky positions of two Kepler orbits whose eccentric anomalies satisfy Kepler's equation; an odd last line is ignored. (exact reals)", "quantifier": "every parameter vector with eccentricities in [0, 0.73] and nonzero var_uk, every data table", "why_tests_cant": "continuum of inputs and all table lengths.", "anchors": ["models/fit_orbit/user_logll.c:logll_beta", "models/fit_orbit/user_logll.c:func_as", "models/fit_orbit/user_logll.c:log_likelihood"]}
{"id": "C57", "title": "Orbit geometry", "statement": "period_to_au satisfies Kepler's third law, and the position computed by func_as is never further from the star than the orbit in space, with equality seen face on. (exact reals)", "quantifier": "every positive period and mass, every orbit and time", "why_tests_cant": "continuum of inputs.", "anchors": ["models/fit_orbit/user_logll.c:period_to_au", "models/fit_orbit/user_logll.c:func_as"]}
{"id": "C58", "title": "The planet table of hier_R is read exactly", "statement": "For a file made of one header line per planet and then the measurements, the likelihood is the sum over exactly the planets of the file, inside the table. The loop has no planet count; files whose first measurement looks like a header are to be decided.", "quantifier": "every list of planets and measurements, every parameter vector, binary64", "why_tests_cant": "all files; reading past the table can go unnoticed.", "anchors": ["models/hier_R/user_logll.c:logll_beta", "models/hier_R/user_logll.c:calc_mean", "models/hier_R/user_logll.c:ll_one_planet"]}
{"id": "C59", "title": "hier_R starts inside its ranges", "statement": "Every initial parameter of hier_R lies in the range given in input.ini. (exact reals)", "quantifier": "every seed", "why_tests_cant": "all seeds; excursions are rare.", "anchors": ["models/hier_R/user_prior.c:init_parm_set", "models/hier_R/user_prior.c:gamma_power_init"]}
{"id": "C60", "title": "The regression likelihood is the Gaussian likelihood", "statement": "exp of the regression log-likelihood at beta = 1 is the product of the normal densities of the residuals. (exact reals)", "quantifier": "every parameter vector with d <> 0 and every data set", "why_tests_cant": "continuum of inputs and all data lengths.", "anchors": ["models/regression/user_logll.c:logll_beta"]}
{"id": "C61", "title": "The two-parameter test functions are log-likelihoods", "statement": "exp of the returned log-likelihood at beta = 1 is, up to a constant factor, the density that the model's formula describes (curved_likelihood, multi_gaussian). (exact reals)", "quantifier": "every parameter vector", "why_tests_cant": "continuum of inputs.", "anchors": ["models/curved_likelihood/user_logll.c:value_calc", "models/multi_gaussian/user_logll.c:value_calc"]}
{"id": "C62", "title": "The likelihood of one hier_R planet", "statement": "exp of the contribution of a planet is the product over its measurements of three normal densities: Y about its mean, the mean about the power law with its scatter, X about its mean; the branch for a single measurement agrees with the general one. (exact reals)", "quantifier": "every planet with positive mean X, every parameter vector", "why_tests_cant": "continuum of inputs and all numbers of measurements.", "anchors": ["models/hier_R/user_logll.c:ll_one_planet", "models/hier_R/user_logll.c:ll_oneMeasure"]}
{"id": "C63", "title": "The rastrigin likelihood prefers the minimum of the Rastrigin function", "statement": "The log-likelihood decreases when the Rastrigin function increases, so that the sampler looks for its minimum. To be decided. (exact reals)", "quantifier": "every pair of points", "why_tests_cant": "continuum of inputs.", "anchors": ["models/rastrigin/user_logll.c:value_calc"]}
{"id": "C64", "title": "A rank's random numbers do not repeat within a run", "statement": "The state of a rank's generator comes back only after 2^48 draws; in every run the generator of a rank is at a position of its stream bounded by an explicit function of the settings, so that while this is below 2^48 no state occurs twice.", "quantifier": "every legal setup, every seed, every state of every run", "why_tests_cant": "2^48 states; runs are too long.", "anchors": ["mpi_init.c:mpi_gen_init_parm", "rand_func.c:r8_normal_01", "mpi_batch.c:iter_batch_mh"]}
{"id": "C65", "title": "The random numbers of different ranks do not overlap", "statement": "Two ranks, seeded with consecutive numbers, never go through the same generator state in a run. To be decided: for which numbers of ranks and lengths.", "quantifier": "every seed, every pair of ranks, every number of ranks, every pair of positions", "why_tests_cant": "all seeds and 10^8 positions.", "anchors": ["mpi_init.c:mpi_gen_init_parm", "rand_func.c:r8_normal_01"]}
{"id": "C66", "title": "The shipped configurations run within their declared ranges", "statement": "Started with a shipped configuration file, its model and any data file of two columns, the program reads the configuration, runs to the end on every schedule without a failing rank, writes only parameter values inside the ranges given in the file, uses only step widths between sigma_scale_min and sigma_scale_max times the range, and keeps every beta positive.", "quantifier": "each shipped configuration, every data file of two columns, every schedule", "why_tests_cant": "each run takes 10^5 to 10^6 iterations; all schedules and all data files.", "anchors": ["main.c:main", "readin.c:read_input_ini", "models/regression/input.ini", "models/rastrigin/user_prior.c:init_parm_set"]}
{"id": "C67", "title": "The text of the result files says what was computed", "statement": "Cut at the blanks, every line of a chain file has N_parm + 3 fields: the parameters of the row to half a unit of the thirteenth digit, its log posterior to half a unit of the sixth decimal place, its two counters exactly; infinities and NaN are not numbers in the text; the program's own data reader reads the file back; a file cut at any byte is whole lines of the complete file and a piece of the next. To be decided: whether different values give different texts. (binary64)", "quantifier": "every double, every legal setup, every schedule, every cut", "why_tests_cant": "2^64 doubles, all schedules and all crash points.", "anchors": ["mpi_batch.c:save_the_batch", "mpi_init.c:save_first_chain", "mpi_init.c:save_init_parm", "mpi_init.c:save_the_seed", "mpi_flow.c:save_sigma_gauss_prop", "mpi_stack.c:save_debug_Beta_Values"]}
{"id": "C68", "title": "The normal random numbers follow the normal law", "statement": "With two independent uniform numbers the Box-Muller formula of the code gives a draw above t with probability 1 - Phi(t) and below -t with probability Phi(-t), up to 10^-15, Phi being the standard normal distribution function; normal_pdf is its density for the given mean and deviation up to 10^-14. To be decided: whether the draws the generator can give are bounded, symmetric and finite. (exact reals; binary64 for finiteness)", "quantifier": "every threshold, every generator state", "why_tests_cant": "2^48 generator states and a statement about probabilities.", "anchors": ["rand_func.c:r8_normal_01", "rand_func.c:normal_pdf"]}
{"id": "C69", "title": "One iteration leaves the posterior unchanged", "statement": "If the parameters of a rank are distributed with density exp(log posterior) on the box of the ranges, then so they are after a Metropolis step with the boundary map of the shipped models; if the parameters of two ranks follow the product of their posteriors, so they do after a swap attempt. The log posteriors of the shipped models meet the conditions of this. To be decided: for which steps. (exact reals)", "quantifier": "every box and number of parameters, every even continuous density of steps, every bounded uniformly continuous log posterior and function whose mean is taken", "why_tests_cant": "a statement about integrals over all states; sampling cannot show it.", "anchors": ["mpi_batch.c:iter_batch_mh", "mpi_batch.c:do_gaussian_propose", "models/regression/user_prior.c:bounce_inside", "models/regression/user_prior.c:para_boundary", "mpi_stack.c:mpi_judge_and_swap"]}
{"id": "C70", "title": "Which width the tuning changes", "statement": "The parameter chosen first is the one whose trial acceptance rates over the ranks have the largest standard deviation; the decision between its best candidate, the candidate closest to ar_best of all, racing all parameters and the initial widths is as the table of the code says, and a random number is drawn exactly when a coin decides. (exact reals)", "quantifier": "every table of rates, every number of parameters and ranks, every generator state", "why_tests_cant": "continuum of rates.", "anchors": ["mpi_tune.c:calc_SD_allParm", "mpi_tune.c:decide_sigma_to_change", "mpi_tune.c:argmax"]}
{"id": "C71", "title": "A result file that cannot be opened", "statement": "When a rank cannot open a result file and leaves through exit(3): what the files hold is a prefix of the files of an undisturbed run, the rank writes nothing more, and no rank returns from main as if the run had succeeded. To be decided: whether the other ranks end.", "quantifier": "every legal setup, every schedule, any number of failures at any record of any file", "why_tests_cant": "all schedules and all points of failure.", "anchors": ["mpi_init.c:save_the_seed", "mpi_init.c:save_init_parm", "mpi_batch.c:save_the_batch", "mpi_flow.c:save_sigma_gauss_prop", "mpi_stack.c:save_debug_Beta_Values", "main.c:main"]}
{"id": "C72", "title": "A results directory that is used again", "statement": "Runs into a directory that exists append to its files; the rows of the runs can be told apart afterwards by the rows of iteration 0, also if runs were cut off between rows. To be decided: whether a chain file is still one chain, and whether its lines are still the rows if a run was cut off within a line.", "quantifier": "any number of runs of any legal setups in one directory, every schedule, every cut", "why_tests_cant": "all schedules, crash points and sequences of runs.", "anchors": ["readin.c:make_dir", "mpi_batch.c:save_the_batch", "mpi_init.c:save_first_chain"]}
{"id": "C73", "title": "Parallel tempering leaves the product of the tempered posteriors unchanged", "statement": "If the parameters of all ranks together are distributed with the product of the tempered posteriors, so they are after any sequence of Metropolis steps of single ranks and swap attempts of pairs, in particular after the sequence of any run with swap mode 0 or 1; rank 0 alone follows its own posterior. (exact reals; ladder and widths kept; steps within the widths of the ranges)", "quantifier": "every number of ranks, every box, every bounded uniformly continuous log posterior, every sequence of operations, every run", "why_tests_cant": "a statement about integrals over the states of all ranks.", "anchors": ["mpi_flow.c:mpi_entire_flow", "mpi_stack.c:mpi_static_sigma_stack", "mpi_batch.c:mpi_run_a_batch", "mpi_batch.c:iter_batch_mh", "mpi_stack.c:mpi_judge_and_swap"]}
{"id": "C74", "title": "The sampler converges to the posterior", "statement": "Whatever the starting rows, after B batches (each rank makes one or more Metropolis steps, then swaps) the mean of any function differs from its mean under the product of the tempered posteriors by at most (1 - delta)^B times its range, with delta > 0 independent of the start, the function and the batches; in particular rank 0 converges to its posterior. A run has at least N_iter / (n_iter_a_batch_base + n_iter_a_batch_rand) batches. (exact reals; ladder and widths kept; steps within the widths of the ranges, with positive densities)", "quantifier": "every number of ranks, every box, every bounded uniformly continuous log posterior, every start, every sequence of batches, every run", "why_tests_cant": "a limit statement about integrals.", "anchors": ["mpi_flow.c:mpi_entire_flow", "mpi_stack.c:mpi_static_sigma_stack", "mpi_batch.c:mpi_run_a_batch", "mpi_batch.c:iter_batch_mh", "mpi_stack.c:mpi_judge_and_swap"]}
{"id": "C75", "title": "Averages over a chain file converge to posterior means", "statement": "The mean square of the difference between the average of a function over the rows of a rank and its mean under the posterior of the rank is at most K times the square of its range divided by the number of rows, with K independent of the start, the rank, the function and the length of the run. (exact reals; conditions as for C74)", "quantifier": "every number of ranks, every box, every bounded uniformly continuous log posterior and function, every start, every run", "why_tests_cant": "a limit statement about integrals over whole paths.", "anchors": ["mpi_flow.c:mpi_entire_flow", "mpi_batch.c:mpi_run_a_batch", "mpi_batch.c:iter_batch_mh", "mpi_batch.c:save_the_batch", "mpi_stack.c:mpi_judge_and_swap"]}
{"id": "C76", "title": "Once the tuning is over the rest of the run converges", "statement": "From the first stack after which nothing is tuned every batch uses the widths and the ladder of that stack. Over the T iterations left, means come within (1 - delta)^batches of the posterior means and averages over the rows have a mean square error of at most K/T, with delta and K chosen before the run and independent of how the tuning went: they depend on the box, the number of ranks, the smallest width, a bound on the log posteriors and the longest batch. The cached log posterior of a rank is right in all that follows once the rank accepts a step. (exact reals; bounds as for C74 and C75)", "quantifier": "every legal configuration with swap mode 0 or 1, every run, every stack after the tuning, every start of the rest", "why_tests_cant": "the constants have to hold for every way the tuning can end, and the statement is about integrals over paths.", "anchors": ["main.c:main", "mpi_flow.c:mpi_entire_flow", "mpi_tune.c:mpi_tune_sigma_irank", "mpi_ladder.c", "mpi_batch.c:iter_batch_mh", "mpi_stack.c:mpi_judge_and_swap"]}
{"id": "C77", "title": "Averages over the saved rows converge when saving begins after the tuning", "statement": "If i_save_begin is not before N_stoptune nor before the end of the ladder tuning, then all rows of a chain file after the initial one come from batches in the part of C76, they are at least N_iter - i_save_begin + 1, and the mean square error of the average over them is at most K divided by their number. The shipped regression input does not do that: it saves from iteration 100000 and tunes until 400000. (exact reals; bounds as for C76)", "quantifier": "every legal configuration with swap mode 0 or 1, every run, every completed execution and rank", "why_tests_cant": "which rows are saved depends on the lengths of the batches, which are random; the bound is about integrals over paths.", "anchors": ["mpi_batch.c:save_the_batch", "mpi_batch.c:mpi_run_a_batch", "mpi_flow.c:mpi_entire_flow", "mpi_tune.c:mpi_tune_sigma_irank"]}
{"id": "C78", "title": "Heap blocks and files of a rank", "statement": "On every path of a rank: no block is used before malloc or after free, none is freed twice, no index is out of bounds and no cell is read that nothing wrote; every file that is opened is closed before the next one is opened. Whatever the length of the run, the cells held at any moment are at most a fixed polynomial in the sizes of the input, and the blocks that are never freed are exactly known. (expected: only if N_parm is the number of parameters of the user functions)", "quantifier": "every number of ranks, every rank, every size of the data, every sequence of branches and loop counts, every prefix of the path", "why_tests_cant": "all paths of all lengths; leaks and uninitialised reads do not show in results.", "anchors": ["main.c:main", "alloc.c", "readin.c:read_onepara", "data_loader.c:read_data", "mpi_init.c", "mpi_batch.c", "mpi_stack.c", "mpi_tune.c", "mpi_ladder.c", "models/regression/user_prior.c:init_parm_set"]}
{"id": "C79", "title": "The shipped models and the conditions of the convergence theorems", "statement": "The regression, eggbox, curved_likelihood and multi_gaussian models meet the conditions of C77 for all data, ranges and ladders, so the averages over the saved rows converge with no condition left on posteriors or widths; in particular every run of the shipped curved_likelihood input with four ranks: the chain file of rank 3 has 990001 rows or more and its averages are those of the density of the model up to K/rows in mean square, with K chosen before the data and the run. To be decided for rastrigin. (exact reals; tuning over when saving begins)", "quantifier": "every data file, box, number of ranks, configuration of the tuning ranges, every run", "why_tests_cant": "a limit statement about integrals over whole paths, for every run.", "anchors": ["models/curved_likelihood/user_logll.c", "models/curved_likelihood/input.ini", "models/regression/user_logll.c", "models/eggbox/user_logll.c", "models/multi_gaussian/user_logll.c", "models/rastrigin/user_logll.c", "mpi_batch.c:save_the_batch"]}
{"id": "C80", "title": "Writes that fail without anyone noticing", "statement": "The program ignores the results of fprintf and goes on after a failed fclose. If the end of what some fopen ... fclose sessions write is lost, any result file has fewer newlines than it should. A chain file of a complete run passes the following check, and one with losses passes it only if nothing was lost: every line has N_parm + 3 fields, the iteration column is 0, then at most max(1, i_save_begin), then rises by one up to N_iter. To be decided: whether the limit on the second line is needed, and whether the check also notices a loss inside a line.", "quantifier": "every legal setup, execution, rank, grouping into sessions and every way of losing their ends", "why_tests_cant": "a test would need a device that fails at a chosen byte, for every byte of every session.", "anchors": ["mpi_batch.c:save_the_batch", "mpi_init.c:save_first_chain", "mpi_init.c:save_init_parm", "mpi_init.c:save_the_seed", "mpi_flow.c:save_sigma_gauss_prop", "mpi_stack.c:save_debug_Beta_Values"]}
{"id": "C81", "title": "Input files that are cut short", "statement": "getline and getc also end when a read fails or memory runs out, and the code takes that for the end of the file. If every entry of input.ini is read from any number of whole lines, the configuration is the one of the whole file or the rank stops; the same for the parameter ranges. If the reading ends after any byte, each entry is the same, not found, or the beginning of its line at the very end of what was seen. After k of n data lines exactly the first k rows are set, and the rank stops when it uses the others; a line count cut at any byte makes the loader leave the array. To be decided: whether a configuration read from a file cut at a byte can be a different one.", "quantifier": "every file, every number of lines or bytes that were read, for each entry separately", "why_tests_cant": "a test would need an operating system that fails at a chosen read, for each of the reads.", "anchors": ["readin.c:read_onepara", "readin.c:read_input_ini", "data_loader.c:read_data", "data_loader.c:get_nlines_of_file", "data_loader.c:mpi_data_loader"]}
{"id": "C82", "title": "Allocations that fail", "statement": "When malloc returns NULL: if the first failure is in alloc.c, the rank says so and exits, having done exactly what a path without failures does up to there. Whatever fails and however often, no rank with a failed allocation comes to its end. To be decided: whether every failure is reported.", "quantifier": "every path of a rank, every set of failing allocations (those inside getline are the subject of C81), every legal configuration", "why_tests_cant": "each of the allocations of a run would have to fail once, alone and together with others, on every path.", "anchors": ["alloc.c:alloc_error_check", "readin.c:read_onepara", "readin.c:read_chain_out_name", "readin.c:read_data_desc", "readin.c:read_beta_values", "models/regression/user_prior.c:init_parm_set"]}
{"id": "C83", "title": "mjob.sh starts as many processes as the input says", "statement": "When the only line of input.ini that mentions N_beta has the form 'key:value' with no blank before its first colon, the number mjob.sh takes from it is the one the program reads; a value of digits is always found. So it is for all shipped inputs. To be decided: whether it holds for every layout that the program reads.", "quantifier": "every input file in which one line mentions N_beta; the shipped inputs", "why_tests_cant": "the layouts of the line are not bounded, and the script and the program take it apart in different ways (second word against text after the colon).", "anchors": ["mjob.sh", "readin.c:read_onepara", "models/eggbox/mjob.sh", "models/rastrigin/mjob.sh"]}
{"id": "C84", "title": "What the scripts of eggbox count", "statement": "merge_lines.py keeps exactly the rows, from the second on, whose two parameters read differently from those of the row before, in order. For points in [0,50) x [0,50) the table of sampling_static.py holds in each row the number of points in the half-open bin around the middle written there. To be decided: whether that covers all points that a run can write, whether the counts of a merged chain are weights of the posterior, and whether the reference column is a multiple of it.", "quantifier": "every execution with two parameters, every rank, every reader of numbers that makes finite numbers of the texts; every list of points", "why_tests_cant": "all chains and all doubles of the box; the ends of the box are single numbers.", "anchors": ["models/eggbox/merge_lines.py", "models/eggbox/sampling_static.py", "models/eggbox/user_logll.c:value_calc", "models/eggbox/input.ini"]}
{"id": "C85", "title": "As many ranks as betas", "statement": "main.c takes the number of ranks from MPI and the betas from the input and never compares them. More ranks than Beta_Values has entries: the first rank without one reads behind the array and no execution ends. Fewer ranks: the run is a legal one and its ladder is the beginning of the list. To be decided: whether a mismatch is always noticed.", "quantifier": "every legal setup, every number of ranks", "why_tests_cant": "no test tries every number of ranks; a read behind an array need not show, and a run with a missing chain looks like any other.", "anchors": ["main.c:main", "mpi_init.c:mpi_init_calc_logllpp", "readin.c:read_beta_values"]}
{"id": "C86", "title": "A results directory that cannot be made", "statement": "make_dir takes every failure of mkdir for a directory that exists. If then no result file can be opened, whatever the schedule and the buffering, every rank leaves through exit(3) after a bounded number of steps, none waits for another, and nothing is written. To be decided: whether that holds when only some of the files cannot be opened.", "quantifier": "every legal setup, every schedule, every choice of buffering", "why_tests_cant": "the order in which the ranks leave and messages are under way is up to the scheduler.", "anchors": ["readin.c:make_dir", "main.c:main", "mpi_init.c:mpi_gen_init_parm", "mpi_init.c:save_the_seed"]}
{"id": "C87", "title": "The Kepler solver ends in binary64", "statement": "With a sine and cosine within 2^-40 of the true ones, for every eccentricity of the prior range and every mean anomaly up to 2^20 in size, the loop of newton_solver ends after at most five turns, within 1e-9 of the solution; so the orbit likelihood returns for every point of the shipped box and times up to 65536 days. A NaN ends the loop at once. To be decided: whether the loop ends for every mean anomaly, and for every eccentricity below 1.", "quantifier": "every double in range, every library of that accuracy; exact reals for the eccentricities", "why_tests_cant": "non-termination is not testable, and the doubles for which it happens are isolated.", "anchors": ["models/fit_orbit/user_logll.c:newton_solver", "models/fit_orbit/user_logll.c:func_as"]}
{"id": "C88", "title": "Binary64 decides like the reals", "statement": "With an exp that is off by at most 2^-50, between any two finite log-posteriors the code in binary64 takes or refuses a proposal as the Metropolis rule over the reals does, but for at most one of the 2^48 states of the generator; so every batch of every run is a walk by that rule but for such draws. An exchange of chains is decided as over the reals but for a window of 1 + B/3 draws, when the four log-posteriors are at most B in size. To be decided: whether the one state is needed, and the bound B.", "quantifier": "every pair of finite doubles, every state of the generator, every library of that accuracy, every run", "why_tests_cant": "2^64 values for each log-posterior times 2^48 draws; the draws that are judged differently are isolated.", "anchors": ["mpi_batch.c:iter_batch_mh", "mpi_tune.c:iter_batch_mh_tune", "mpi_stack.c:mpi_judge_and_swap"]}
{"id": "C89", "title": "The regression log-posterior in binary64", "statement": "With a log and a square that are off by at most 2^-52 of their values, the log-posterior that the regression model computes is finite and differs from the exact one by at most (n+37)^2 (1 + |ln d^2| + W^2/d^2) 2^-53, for n lines of data and residuals of size W before cancellation; for the shipped data and its posterior below 2e-6. So every batch of every run without ladder adaptation is a Metropolis walk for the exact posterior of the model, but for draws that near to the exact probability, and so are the exchanges of chains, with four times the distance. To be decided: whether a bound can do without W.", "quantifier": "every data set up to 2^20 lines, every parameter vector with d between 2^-40 and 2^40, every beta in [0,1], every library of that accuracy, every run", "why_tests_cant": "all doubles of the data, the parameters and beta; the exact value is not available to a test.", "anchors": ["models/regression/user_logll.c:logll_beta", "models/regression/user_prior.c:log_prior", "mpi_batch.c:iter_batch_mh"]}
{"id": "C90", "title": "Log-uniform initial values in binary64", "statement": "With an exp and a log that are off by at most 2^-51 and 2^-52, a log-uniform initial value drawn in binary64 is finite and lies in its range for every state of the generator, if the upper end is at least twice the lower one. So in every run of the shipped regression and multi-planet set-ups, and of any set-up whose parameters start uniform or log-uniform, every row of every chain file is inside the prior box. To be decided: whether every range will do.", "quantifier": "every pair of doubles a, b with 2a <= b <= 2^600 a, every state of the generator, every library of that accuracy, every run", "why_tests_cant": "2^48 states times the ranges; the rounding at the ends of the range shows for isolated draws only.", "anchors": ["rand_func.c:r8_logunif_ab", "models/regression/user_prior.c:init_parm_set", "mpi_batch.c:save_the_batch"]}
{"id": "C91", "title": "The proposal widths in binary64", "statement": "With an exp and a log that are off by at most 2^-51 and 2^-52, the tuning in binary64 offers, for a width inside its range, only finite candidates inside that range enlarged by a factor of 1 +- 2^-38, if sigma_min times the jump-in ratio is at most sigma_max. So every width used in a batch and every line of every file gaussian_prop.chain<r> of every run, in particular of every shipped configuration, is finite, positive and in the enlarged range. To be decided: whether the enlargement is needed.", "quantifier": "every width and range between 2^-60 and 2^60, every ratio up to 2^20, every number of ranks, every library of that accuracy, every run", "why_tests_cant": "all doubles for the width and its range; the cases in which a candidate leaves the range by a unit in the last place are rare.", "anchors": ["mpi_tune.c:create_logspace_array", "mpi_tune.c:check_bounceInside_sigma_boundary", "mpi_tune.c:mpi_tune_sigma_irank", "mpi_flow.c:save_sigma_gauss_prop"]}
{"id": "C92", "title": "A ladder of three temperatures in binary64", "statement": "For three ranks with betas b0, b1, 1 where 2^-p <= b0 <= 0.98 and 2^-p <= b1 <= 1 (p up to 100), scale_tune_ladder at most 0.99 and zero_stretch from 0.01 to 0.99, the adaptation in binary64 never produces an infinite, undefined, negative or zero beta: after any number of adaptations, with any swap counts up to 2^53 and a pow that is right to one part in 256, the ladder is b0, b1', 1 with a finite b1' between 2^-p and 1; so is every record of the beta file. If 1/(1/(1/b0)) = 1/b0 as computed, b1' does not fall below 1/(1/b0) as computed. To be decided: whether zero_stretch = 1, which does no harm over the reals, is harmless in binary64.", "quantifier": "every b0, b1, scale and stretch in those ranges, every swap count, every library of that accuracy, every number of adaptations, every run", "why_tests_cant": "all doubles for the betas and all swap statistics; a beta becomes infinite only when a difference of temperatures is absorbed in rounding.", "anchors": ["mpi_ladder.c:tune_ladder_use_3_neighb", "mpi_ladder.c:mpi_adjust_ladder"]}
{"id": "C93", "title": "Equal swap rates make the ladder geometric", "statement": "When neighbouring swap rates are equal (or one of two neighbours was never tried) and the first and last rate are 1/100 or more (or never tried), the adaptation over the reals leaves the two end betas alone and sets every other beta to sqrt(b0 b_k b_(k+1) / b1), for any number of ranks and any scale_tune_ladder and zero_stretch. An increasing ladder then stays increasing, a geometric ladder is not changed, and any sequence of such adaptations converges to the geometric ladder between the two ends, b_k -> b0 (b_last/b0)^(k/(n-1)). In a run whose stacks have such rates, in particular one with N_swap <= 0, an increasing ladder stays increasing with the same ends on every rank in every recorded state.", "quantifier": "every number of ranks, every positive betas, every such swap statistics, every sequence of adaptations, every run", "why_tests_cant": "the limit of an infinite sequence of adaptations from arbitrary real betas cannot be reached by running.", "anchors": ["mpi_ladder.c:tune_ladder_use_3_neighb", "mpi_ladder.c:mpi_adjust_ladder"]}
{"id": "C94", "title": "A beta moves towards the neighbour with which it swaps less often", "statement": "Over the reals, for an inner rank i whose two swap rates are defined and which the treatment of the ends leaves alone (rank 1 with a first rate of 1/100 or more, rank n-2 with a last rate of 1/100 or more, or any other): if the swaps with rank i-1 succeed less often than those with rank i+1 and b_(i-1) < 0.99 b_i, one adaptation lowers b_i, and not to b_(i-1); if they succeed more often and 1.01 b_i < b_(i+1), it raises b_i, and not to b_(i+1). This holds for any number of ranks (four ranks: inner betas in order) and in every adaptation of every run, with the attempts of the stack counted. To be decided: whether the distance between the neighbours is needed.", "quantifier": "every number of ranks, every positive betas, every swap statistics, every scale in (0,1] and stretch in [0,1), every adaptation of every run", "why_tests_cant": "the direction of the feedback for all ladders and all counts; a wrong sign still gives legal ladders and plausible output.", "anchors": ["mpi_ladder.c:tune_ladder_use_3_neighb", "mpi_ladder.c:mpi_adjust_ladder"]}
{"id": "C95", "title": "The eggbox log posterior in binary64, and the decisions taken with it", "statement": "For parameters that are finite and at most 2^21 in size, and beta in [0,1], the log posterior of the eggbox model as computed in binary64 is finite and within 2^-49 of beta (sin(b/2) cos(a/2) + 2) + 1, when the library's sine and cosine are within 2^-52 up to 2^20 + 1. In every run without ladder adaptation every rank takes the decisions of the Metropolis rule for the exact posterior, but for draws within 2^-48 + 2^-49 of the exact probability; and a pair is exchanged exactly when the draw is below min(1, exp((beta_i - beta_j)(V x_j - V x_i))), but for draws within 2^-46 of it. With finite ranges up to 2^21 no other vectors occur: every vector a rank holds is of this kind, and a proposal folded back into the ranges is of this kind or is refused.", "quantifier": "every library with that accuracy, every legal setup with the eggbox model, every history, batch, rank, step and exchange attempt", "why_tests_cant": "an error bound for all doubles and all runs; tests compare a few values with a looser tolerance.", "anchors": ["models/eggbox/user_logll.c:logll_beta", "models/eggbox/user_logll.c:value_calc", "models/eggbox/user_prior.c:log_prior", "mpi_batch.c:iter_batch_mh"]}
{"id": "C96", "title": "The multi_gaussian log posterior in binary64, and the decisions taken with it", "statement": "For parameters that are finite and at most 32 in size (the shipped ranges are [-30,30]) and beta in [0,1], the log posterior of the multi_gaussian model as computed in binary64 is finite and within 2^-36 of beta (exp(-((a-10)^2+(b-10)^2)/2) + exp(-((a+10)^2+(b+10)^2)/2)), when the library's exp is within 2^-50 for arguments up to 0 and its squares are not negative and within 2^-52 of their value. In every run without ladder adaptation every rank takes the decisions of the Metropolis rule for the exact posterior, but for draws within 2^-35 + 2^-49 of the exact probability; and a pair is exchanged exactly when the draw is below min(1, exp((beta_i - beta_j)(V x_j - V x_i))), but for draws within 2^-33 of it. With finite ranges up to 32 no other vectors occur: every vector a rank holds is of this kind, and a proposal folded back into the ranges is of this kind or is refused.", "quantifier": "every library with that accuracy, every legal setup with the multi_gaussian model, every history, batch, rank, step and exchange attempt", "why_tests_cant": "an error bound for all doubles and all runs; tests compare a few values with a looser tolerance.", "anchors": ["models/multi_gaussian/user_logll.c:logll_beta", "models/multi_gaussian/user_logll.c:value_calc", "models/multi_gaussian/user_prior.c:log_prior", "mpi_batch.c:iter_batch_mh"]}
{"id": "C97", "title": "Where the curved_likelihood model underflows in binary64, no step is ever taken", "statement": "For parameters a, b that are finite and at most 10 in size (the shipped ranges are [-10,10]) and such that -a^2-(9+4a^2+9b)^2 and -8a^2-8(b-2)^2 are both at most -747, the log posterior of the curved_likelihood model as computed in binary64 is minus infinity at every positive beta, when the library's exp is 0 up to -746, its log of 0 is minus infinity and its squares are within 2^-52 of their value. So in every run no chain with a positive beta ever takes a step to such a vector, whatever the draw. The exact log posterior is finite there, and the code does not follow it: the vectors (10,10) and (9,10) are of this kind, the second has the higher exact posterior, so that the Metropolis rule takes the step from the first to it with probability 1, and the code refuses it for every draw.", "quantifier": "every library with these values, every legal setup with the curved_likelihood model, every history, batch, rank and step; every state of the generator", "why_tests_cant": "the underflow concerns a region of doubles and every draw; a test sees single refused steps, which look like ordinary ones.", "anchors": ["models/curved_likelihood/user_logll.c:value_calc", "models/curved_likelihood/user_logll.c:logll_beta", "models/curved_likelihood/user_prior.c:log_prior", "mpi_batch.c:iter_batch_mh"]}
