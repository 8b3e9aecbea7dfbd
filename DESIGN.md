# Formal model of Nii-C: design

Nii-C is an MPI parallel-tempering Metropolis sampler written in C. Every rank
runs one chain at its own inverse temperature (beta); the root rank keeps the
state of all chains, proposes swaps, adapts the ladder and tunes step widths.

Everything below is about the C text in /repo, read as text. Nothing was built
or run.

## 1. Shape of the model

The model is a Gallina transcription of the C code, function by function.
Each definition cites file and lines.

| Layer | Files | What it holds |
|---|---|---|
| base | `Base.v`, `ListAux.v` | outcome type `res` (`OK`/`Stop`), C `int`/`unsigned` arithmetic, array access with bounds check, list facts |
| arithmetic | `Arith.v`, `B64.v`, `B64Facts.v` | record `Arith` of the double operations the code uses; exact-real instance; IEEE binary64 instance (Flocq) and its facts |
| random numbers | `Rand.v`, `RandRange.v`, `Seeds.v`, `Streams.v`, `Digits.v`, `NormalLaw.v` | exact `srand48`/`drand48` congruential generator and `rand_func.c`; ranges, streams, counts of generator states; bounds on pi and ln 2, the Gaussian integral and the law of Box-Muller |
| sampler | `Mh.v`, `Ladder.v`, `Tune.v`, `MhSpec.v` | `iter_batch_mh`, `iter_batch_mh_tune`, `tune_ladder_use_3_neighb`, all of the width tuning arithmetic |
| processes | `Mpi.v`, `MpiMeta.v`, `Spmd.v` | process language (send, receive, broadcast, barrier, append to file), its semantics for every schedule and buffering policy, confluence |
| program | `Prog.v` | the per-rank code of `mpi_init.c`, `mpi_batch.c`, `mpi_stack.c`, `mpi_flow.c`, `mpi_tune.c`, `mpi_ladder.c`, `main.c` |
| reference | `Seq.v`, `SeqWf.v`, `Refine.v`, `SeqTotal.v`, `System.v`, `SeedRace.v`, `Runs.v`, `SeqFiles.v` | sequential meaning of the whole run on the vector of rank states; every schedule computes it; within the limits it never stops; two schedules with different seed files |
| history | `History.v`, `Views.v`, `RunHist.v`, `HistCount.v`, `HistRows.v`, `CountLemmas.v`, `SeedRuns.v`, `DrawRuns.v`, `SchedLemmas.v` | the stacks and batches of a run as a relation, what each step does to each rank, counters and rows |
| failing runs | `Failing.v`, `FailRuns.v`, `OneRank.v`, `RankBeta.v`, `InputRuns.v`, `Faults.v`, `NoDir.v` | configurations and files with which every execution fails; ranks that exit at a result file; a directory that cannot be made |
| swaps | `SwapLemmas.v`, `SwapReal.v`, `ChainInv.v`, `Stale.v`, `SwapMore.v`, `SwapStats.v` | swap attempts, cached values, statistics |
| Metropolis | `Metro.v`, `Decide64.v`, `Reg64.v`, `LogUnif64.v`, `Width64.v`, `Ladder64.v`, `LadderEven.v`, `LadderToward.v`, `Boundary.v`, `BounceDensity.v`, `BoxRuns.v`, `BoxReal.v`, `Nice.v`, `Invariance.v`, `Tempering.v`, `Converge.v`, `Average.v`, `Uniform.v`, `CacheTail.v` | acceptance rule, exceptional values, boundary map, prior box along runs; integrals over boxes, the kernels of a step and of a swap, all ranks together, convergence and averages |
| ladder | `LadderRuns.v`, `LadderReal.v`, `LadderOrder.v`, `LadderBad.v`, `LadderN.v`, `LadderFour.v` | betas along runs, reals extended by NaN, counterexamples |
| tuning | `TuneRuns.v`, `TuneOpt.v`, `TuneSteps.v`, `TuneStacks.v`, `TuneRange.v`, `TuneB64.v`, `TuneOut.v` | width tuning along runs |
| input/output | `Bytes.v`, `BytesFacts.v`, `Readin.v`, `ReadFacts.v`, `Loader.v`, `LoadFacts.v`, `BetaFacts.v`, `Names.v`, `Alloc.v`, `Inputs.v`, `Shipped.v`, `Whole.v`, `Printf.v`, `PrintFacts.v`, `TextRuns.v`, `LossFacts.v`, `ShortFacts.v` | C string functions on bytes, configuration reader, data reader, file names, allocators; the shipped files byte for byte; printf of doubles and the text of the result files |
| heap | `Heap.v`, `HeapFacts.v`, `HeapSpec.v`, `HeapRank.v`, `HeapCaps.v`, `HeapBad.v`, `HeapFail.v` | heap blocks, cells and open files of one rank as commands; triples; size bounds; paths that go wrong; failing allocations |
| scripts | `Launch.v`, `Scripts.v` | the launch script on the bytes of the input; the counting scripts of eggbox |
| user models | `UserModels.v`, `UserOld.v`, `PriorInt.v`, `Kepler.v`, `OrbFacts.v`, `Kepler64.v`, `Orb64.v`, `Cycle64.v`, `HierFacts.v` | shipped priors, boundary maps and likelihoods of both interfaces; integrals; Kepler's equation in exact reals and binary64; planet table |
| example | `Demo.v` | the shipped regression setup with 4 ranks, used in the examples |
| theorems | `PropRand.v`, `PropSched.v`, `PropBound.v`, `PropCount.v`, `PropSwap.v`, `PropMetro.v`, `PropLadder.v`, `PropTune.v`, `PropInput.v`, `PropFields.v`, `PropData.v`, `PropModels.v`, `PropStream.v`, `PropWhole.v`, `PropText.v`, `PropNormal.v`, `PropInvar.v`, `PropChoice.v`, `PropFault.v`, `PropAgain.v`, `PropTemper.v`, `PropConverge.v`, `PropAverage.v`, `PropTuned.v`, `PropSaved.v`, `PropHeap.v`, `PropShipped.v`, `PropLoss.v`, `PropShort.v`, `PropNull.v`, `PropLaunch.v`, `PropScripts.v`, `PropRanks.v`, `PropNoDir.v`, `PropKepler.v`, `PropDecide.v`, `PropReg.v`, `PropLogUnif.v`, `PropWidth.v`, `PropLadder64.v`, `PropEven.v`, `PropToward.v`, `PropEgg.v`, `PropGauss.v`, `PropCurved.v` | the statements listed in MANIFEST.json |

Theorems are in `Prop*.v` files. They contain only final statements, their
concrete instances (`Example`) and `Print Assumptions`.

### Doubles
The sampler code is transcribed once, over an abstract record `Arith`.
* Theorems about control flow, counters, files and messages hold for **every**
  `Arith`; they therefore hold for IEEE doubles.
* Theorems about rounding, NaN and infinities use the binary64 instance built
  from Flocq (round to nearest even, one NaN). `exp`, `log`, `cos`, `pow` are
  arbitrary functions there; any fact needed about them is a visible hypothesis.
* Theorems about probabilities, geometry and convergence use the instance over
  the mathematical reals. They say nothing about rounding.

### Undefined behaviour
Out-of-bounds access, read of an uninitialised cell, null pointer, signed
overflow and float-to-int conversion out of range are the outcome `Stop` of the
model (with its kind), never silently totalised. `Stop OutOfFuel` is a loop bound of the
model, not a C outcome; the theorems exclude it or show the bound suffices. A theorem that concludes `OK` is also a
memory-safety statement for the modelled accesses.

### Processes
A rank is a term of a free monad with the operations Send, Recv, Bcast,
Barrier, Out (append a record to a file) and Fail (the rank hit undefined behaviour). Local
computation is pure Gallina. A configuration has one process per rank, one FIFO
queue per (sender, receiver, tag) and one output log per rank. The semantics lets
every MPI_Send complete either by buffering or by rendezvous, chosen separately
each time, and every broadcast complete either jointly or eagerly.

## 2. Plan per property

| Id | Modelled by | Proof |
|---|---|---|
| C01, C02, C03 | `Rand.v` at binary64, exact generator | Flocq rounding lemmas (monotonicity, relative error); the 48-bit grid keeps r <= 1-2^-48 |
| C04 | `Rand.v` over reals | monotonicity of exp/ln |
| C05 | `mpi_gen_init_parm`, LCG | modular arithmetic; LCG step is a bijection of Z/2^48 |
| C06 | `%u` conversion and seed selection of main | refuted by witness; proved for 0 and for positive values |
| C07 | count of generator states per outcome | refuted: exact counts for [-1,1] |
| C08, C09 | boundary map at binary64 | case analysis on comparisons; overflow gives infinities that the clamp absorbs |
| C10 | boundary map over reals | preimage description; refuted at the walls (set of steps with interior is mapped to a single point) |
| C11 | whole program | invariant through batch, swap, stack, flow; transferred to all schedules by refinement |
| C12, C13, C14 | acceptance step of `iter_batch_mh` | reals: direct; binary64: NaN propagation through Flocq operations |
| C15, C16 | `iter_batch_mh` (array program) | loop invariant, induction on batch length |
| C17, C18, C20 | stack and flow loops | invariant on (i_tmp, i_next, counter), induction on remaining iterations |
| C19 | same loops | refuted: stuck loop for every fuel; undefined behaviour on an empty batch |
| C21, C23, C25 | `mpi_judge_and_swap` | computation on arrays, Permutation |
| C22 | same over reals | algebra and monotonicity of exp |
| C24 | whole-run invariant | induction over batches/stacks with ladder tuning off; refuted with tuning on |
| C26, C27, C30 | ladder adaptation | loop invariant; reals for positivity |
| C28, C29 | ladder adaptation | refuted by rational witnesses; proved for the three-rank case |
| C31, C32, C33, C37 | flow and tune phases | frame invariants on the rank-state vector |
| C34, C36 | decision functions | case analysis; induction on the arrays |
| C35 | log grid over reals | exp/ln algebra; refuted without the ratio condition |
| C38, C39, C43 | process semantics | diamond property for labelled steps, one canonical rendezvous run, progress by commuting steps |
| C40, C41, C42 | traces of all schedules | per-rank logs are schedule independent; witness pair of schedules for the order; happens-before by program order and message causality; prefix property of logs |
| C44, C45 | byte-level reader | induction on the byte list; witness files |
| C46, C47, C48 | byte-level configuration reader | string lemmas; decimal print/parse round trip; witnesses |
| C49 | snprintf truncation and decimal rank | injectivity of decimal printing |
| C50 | address arithmetic | nonlinear integer arithmetic |
| C51 | shipped likelihoods over any `Arith` | unfolding to one final product; binary64 x*1 = x |
| C52 | shipped priors over reals | Coquelicot integral |
| C53 | Newton iteration over reals | Taylor bound, quadratic contraction |
| C54 | swap statistics | counting along the attempts of a stack |
| C55 | shipped files, byte for byte | the reader run inside Coq, for every strtod |
| C56, C57 | orbit likelihood over reals | trigonometric algebra, C53, exp/ln algebra |
| C58, C62 | planet table and planet likelihood of hier_R | induction over the planets; witnesses for files read wrongly |
| C59 | initial draws | bounds on one normal draw (witness seed), uniform draws inside |
| C60, C61, C63 | likelihoods over reals | exp/ln algebra; inequalities for the refutations |
| C64, C65 | the congruential generator, runs | orders modulo powers of two; counting the draws of every step of a run |
| C66 | shipped files joined to their models | reader run on the bytes, then the theorems for all runs |
| C67 | printf on binary64, bytes of the files | exact integer arithmetic of the digits; token lemmas; row length along runs |
| C68 | Box-Muller over reals, the generator | Gaussian integral by a differential identity; measure of the level sets; exact search of the extreme states |
| C69 | step and swap kernels over reals | Fubini for uniformly continuous functions, folding of the steps at the walls, detailed balance |
| C70 | tuning decision over reals | loops as folds, algebra of the variance |
| C71 | ranks that exit at a file, every schedule | the invariant of runs cut to the living ranks; final barrier |
| C72 | files of several runs in one directory | row counters of C16, bytes of C67 |
| C73 | all ranks over reals | integrals over all rows, the kernels of C69, C25 for the pairs of runs |
| C74 | all ranks over reals | lower bound on the kernel of a batch, contraction of ranges |
| C75 | paths of all ranks over reals | second moment of the sum of rows, by C74 |
| C76 | runs after the tuning, over reals | C31 and the ladder invariants for the part; one lower bound for all widths and posteriors |
| C77 | saved rows of executions | C18 cut at the stack where saving begins, bounds of C76 |
| C78 | heap blocks and files of a rank, every path | triples with what each variable points to; size bounds by structure of the commands |
| C79 | shipped models and inputs, over reals | one bound for all ladders from two betas; C35 for the widths; C66 for the bytes of the input |
| C80 | texts of the result files with losses, binary64 | a piece of a row in front of another adds a field or changes only the first; counters |
| C81 | readers on files that end early | each reader on a prefix of the lines or bytes |
| C82 | heap paths with failing allocations | after an unchecked allocation every path uses the block before it is assigned again |
| C83 | script on the bytes of input.ini against the reader | second word against text after the colon |
| C84 | scripts on the text of a chain file, binary64 | induction on the lines; division by 1/2 is exact |
| C85 | the program with another number of ranks | failing-run calculus up to the first log posteriors; C26, C28 for the shorter ladder |
| C86 | faulty runs in which no file can be opened | simulation by processes cut at their first append, then the schedule theorem |
| C87 | newton_solver and the orbit likelihood in binary64; newton_solver in exact reals | error bound of one turn from the roundings and the library, quadratic convergence; explicit cycles of length two |
| C88 | the two decisions (mh_ok, swap_ok) in binary64 and over the reals | error of exp at rounded differences, two thresholds with at most one draw between them |
| C89 | reg_logll, reg_log_prior, walks and swap attempts in binary64 | error analysis operation by operation; induction over the lines; cached values from C24 |
| C90 | r8_logunif_ab, init_parm_set and the rows of runs in binary64 | error of log and exp against the width of the range; C66 for the rows |
| C91 | create_logspace_array, check_bounce and the widths of runs in binary64 | error analysis of one entry, the three cases of check_bounce, induction over the stacks |
| C92 | tune_ladder with three ranks in binary64 | each new temperature is a rounded mean of two old ones, so monotone rounding keeps it in the range; induction over the stacks |
| C93 | tune_ladder over the reals when neighbouring rates are equal | the gaps of ln beta are averaged around a circle; n-2 adaptations shrink their largest distance from the mean by a fixed factor |
| C94 | tune_ladder over the reals, adaptations of runs | an inner temperature is written in its own turn only; signs of the increment and of the limits; C54 for the counts |
| C95 | egg_value, val_logll in binary64, histories | rounding errors operation by operation, sine and cosine 1-Lipschitz; walk_real and swap_near of C89; box invariant of C11 |
| C96 | multi_value, val_logll in binary64, histories | rounding errors operation by operation, exp 1-Lipschitz below 0; otherwise as C95 |
| C97 | curved_value, val_logll in binary64, histories | computed exponents within 1 of the exact ones; exp underflows to 0; refuse_neginf |

## 3. What is modelled and what is not

Modelled, with every branch that can be reached:
* `main.c`, `mpi_init.c`, `mpi_flow.c`, `mpi_stack.c`, `mpi_batch.c`, `mpi_tune.c`, `mpi_ladder.c`, `rand_func.c`: all control flow, arithmetic, messages and the records appended to the result files.
* `readin.c`, `data_loader.c`: on the bytes of the files. The conversion of text to double (`strtod` inside `sscanf("%lf")`, `atof`) is an arbitrary function.
* `alloc.c`: as address arithmetic on blocks.
* Which heap blocks and files a rank uses, in which order (`Heap.v`, for C78 only): a second model of the same functions, in which branches on data are left open. It is not derived from `Prog.v`; the cells read and written are transcribed from the C code separately.
* `models/*`: priors, boundary maps, initial draws, scale functions and likelihoods. `fit_orbit` and `hier_R` are written for release 1.0.0 (argument lists that do not match the present `mpi_*.c`), so their functions are modelled and proved about one by one, not inside runs.
* `mjob.sh` (the number of processes, from the bytes of `input.ini`; `Launch.v`), `models/eggbox/merge_lines.py` and the counting of `models/eggbox/sampling_static.py` (`Scripts.v`; Python's `float` is an arbitrary function, of its white space only blank and newline). The other scripts are not modelled.

Simplified:
* The MPI program takes the configuration and the file contents already read; `InputRuns.v`, `Shipped.v` and `Whole.v` join the two parts.
* Sampling arrays of one rank are lists of rows; distinct C arrays are distinct lists (no aliasing; `Alloc.v` proves that the allocator gives that).
* A user model is a record of pure functions, so a user function that keeps static state, fails or calls `drand48` outside `init_parm_set` is not covered.

Not modelled:
* The progress messages on the terminal and wall-clock times. Whether a NaN prints as `nan` or `-nan` is left open (both are covered).
* Failure of MPI itself. A directory that cannot be made is modelled for C86 only (no result file can be opened). Failure of malloc is modelled for C82 only (`HeapFail.v`, one rank; the others are not followed), failing reads for C81 only (`ShortFacts.v`: the file seems to end). Failure of fprintf and fclose is modelled for C80 only, as the loss of the end of what one session wrote. Failure of fopen of a result file is modelled for C71 only (`Faults.v`: the rank leaves through exit(3), the others go on without it); directories used again for C72 only.
* Debug branches guarded by constants that are 0 in the source.
* Torn writes: crash points of runs are between records; C67_torn then cuts the bytes of a file anywhere. What an operating system may lose besides the end of a file is not modelled.
* Decimal literals are correctly rounded quotients of integers; `1.9891e33` alone is not exact in the binary64 reading (only used over the reals).

## 4. Trusted base

* Coq 8.16.1's kernel (and `coqchk`), with the axioms of section 5.
* The transcription from C to Gallina, and the reading of the C and POSIX standards in section 1 (LCG constants of `drand48`, IEEE binary64 without extended precision or contraction, round to nearest).
* Flocq, Coquelicot and the standard library contribute definitions and proved theorems only.

## 5. Axioms per theorem

As printed by `Print Assumptions`. All come from the standard library:
`functional_extensionality_dep` (equality of states that contain functions),
`sig_forall_dec`, `sig_not_dec` (construction of the reals) and `classic`
(used by Flocq and by the real library).

**`classic`, `functional_extensionality_dep`, `sig_forall_dec`, `sig_not_dec`**

`C01_index_draw_in_range`, `C02_jitter_in_range`, `C03_uniform_draw_in_range`, `C04_loguniform_draw_in_range`, `C07_jitter_uniform_refuted`, `C08_lands_in_box`, `C09_inside_unchanged`, `C10_steps`, `C10_density`, `C10_wall_symmetry_refuted`, `C11_rows_in_box`, `C11_models_return_nan`, `C11_uniform_start`, `C12_rule`, `C12_runs`, `C12_tuning`, `C12_probability`, `C13_never_accepted`, `C13_better_accepted`, `C13_step`, `C13_rows`, `C14_never_moves`, `C14_recovers_refuted`, `C14_from_minus_infinity`, `C18_row_by_row_refuted`, `C19_empty_batch_exists`, `C19_any_configuration_refuted`, `C20_batch_bound_exists`, `C22_rule`, `C22_runs`, `C22_balance`, `C24_adapting_refuted`, `C25_all_drawn`, `C25_other_modes_refuted`, `C27_positive`, `C27_one`, `C27_run`, `C27_positive_refuted`, `C28_three`, `C28_run`, `C28_order_refuted`, `C29_three`, `C29_within_ends_refuted`, `C34_numbers`, `C35_candidates`, `C35_run`, `C35_range_refuted`, `C36_doubles`, `C45_refuted`, `C51_linear`, `C51_linear_real`, `C51_old`, `C51_zero`, `C52_regression`, `C52_rastrigin`, `C52_orbit`, `C52_densities`, `C52_constant`, `C52_refuted`, `C53_half`, `C53_wide`, `C53_limit`, `C53_solution`, `C54_statistics`, `C54_statistics_real`, `C56_likelihood`, `C57_third_law`, `C57_radius`, `C58_exact`, `C58_wrong`, `C58_refuted`, `C59_uniform`, `C59_refuted`, `C60_likelihood`, `C61_curved`, `C61_multi`, `C61_multi_refuted`, `C62_planet`, `C63_value`, `C63_refuted`, `C66_widths`, `C66_rows_real`, `C66_rows`, `C66_multi_ladder`, `C66_four_ladder`, `C67_chain_file`, `C67_reload`, `C67_other_files`, `C67_torn`, `C67_exact_refuted`, `C68_law`, `C68_phi`, `C68_pdf`, `C68_bounded`, `C68_symmetric_refuted`, `C68_finite_refuted`, `C69_code`, `C69_step`, `C69_swap`, `C69_within`, `C69_wide_refuted`, `C69_models`, `C70_spread`, `C70_choice`, `C72_glued_refuted`, `C73_sequence`, `C73_cold`, `C73_run`, `C74_converges`, `C74_cold`, `C74_run`, `C75_average`, `C75_run`, `C76_frozen`, `C76_uniform`, `C76_run`, `C77_saved`, `C77_shipped_refuted`, `C79_run`, `C79_curved`, `C79_rastrigin_refuted`, `C80_count`, `C80_chain`, `C80_start_refuted`, `C80_inner_refuted`, `C84_merge`, `C84_repeats`, `C84_bins`, `C84_edge_refuted`, `C84_weights_refuted`, `C84_reference_refuted`, `C85_cold_refuted`, `C87_ends`, `C87_orbit`, `C87_nan`, `C87_large_refuted`, `C87_eccentric_refuted`, `C88_metropolis`, `C88_runs`, `C88_swap`, `C88_every_refuted`, `C88_large_refuted`, `C89_posterior`, `C89_runs`, `C89_swaps`, `C89_shipped`, `C89_cancel_refuted`, `C90_draw`, `C90_rows`, `C90_shipped`, `C90_narrow_refuted`, `C91_candidates`, `C91_run`, `C91_shipped`, `C91_exact_refuted`, `C92_adapt`, `C92_run`, `C92_lower`, `C92_stretch_refuted`, `C93_one`, `C93_order`, `C93_fixed`, `C93_limit`, `C93_run`, `C94_one`, `C94_run`, `C94_close_refuted`, `C95_posterior`, `C95_runs`, `C95_swaps`, `C95_inside`, `C96_posterior`, `C96_runs`, `C96_swaps`, `C96_inside`, `C97_flat`, `C97_runs`, `C97_exact_refuted`

**No axioms (closed under the global context)**

`C05_streams_distinct`, `C06_positive`, `C06_zero`, `C06_negative`, `C06_negative_refuted`, `C08_shipped_models`, `C09_coordinates_independent`, `C15_batch`, `C17_lengths`, `C21_exchange`, `C23_after`, `C24_states`, `C24_adaptation`, `C25_partners`, `C26_ends`, `C30_off`, `C30_stop`, `C30_adapts`, `C31_window`, `C31_stack`, `C31_after`, `C31_before`, `C32_rank`, `C32_run`, `C33_tuned`, `C33_others`, `C34_three`, `C36_argmin`, `C36_argmax`, `C36_closest`, `C37_widths`, `C44_load`, `C45_count`, `C46_ints`, `C46_unsigned`, `C46_reals`, `C46_words`, `C46_delimiter`, `C46_betas`, `C46_ranges`, `C46_parameter_e_refuted`, `C46_int`, `C46_other_lines`, `C46_word`, `C46_range`, `C47_missing`, `C47_twice`, `C47_overlong`, `C47_no_file`, `C47_other_key_refuted`, `C47_no_number_refuted`, `C48_exact`, `C48_more`, `C48_refuted`, `C49_distinct`, `C49_name`, `C49_truncated`, `C49_truncated_refuted`, `C49_clash_refuted`, `C50_2d`, `C50_3d`, `C50_refuted`, `C50_3d_refuted`, `C55_usable`, `C55_regression`, `C55_eggbox_refuted`, `C55_old_files_refuted`, `C56_odd_line`, `C58_ends`, `C64_period`, `C64_run`, `C64_initial`, `C65_difference`, `C65_offset`, `C65_no_overlap`, `C65_run`, `C65_overlap_refuted`, `C66_fixed_ladder`, `C71_silent`, `C76_cached`, `C78_safe`, `C78_bounded`, `C78_mismatch_refuted`, `C81_lines`, `C81_ranges`, `C81_bytes`, `C81_bytes_refuted`, `C81_data`, `C81_count`, `C81_data_refuted`, `C82_checked`, `C82_never_unnoticed`, `C82_no_failure`, `C82_unchecked_refuted`, `C83_agree`, `C83_starts`, `C83_shipped`, `C83_layout_refuted`

**`functional_extensionality_dep`**

`C05_ranks_use_those_seeds`, `C15_runs`, `C16_columns`, `C16_columns_any_time`, `C16_final_counters`, `C17_steps`, `C18_saved_batches`, `C18_slack`, `C18_early_rows`, `C19_stack_nonpositive`, `C19_empty_batch`, `C19_one_rank`, `C20_no_overflow`, `C20_iter_bound_needed`, `C20_batch_bound_needed`, `C24_rows`, `C26_file`, `C33_agree`, `C38_no_deadlock`, `C39_schedule_independent`, `C39_equals_reference`, `C40_seed_lines_fixed`, `C40_seed_order_refuted`, `C41_directory_first`, `C42_crash_prefix`, `C42_crash_seed_lines`, `C43_messages_matched`, `C45_overflow`, `C48_fewer`, `C49_files`, `C66_completes`, `C71_prefix`, `C71_no_success`, `C71_together`, `C72_cut`, `C72_one_chain_refuted`, `C77_where`, `C85_more`, `C85_fewer`, `C86_all_leave`, `C86_trace`, `C86_reached`

**`functional_extensionality_dep`, `sig_forall_dec`**

`C10_density_symmetric`, `C67_numbers`

**`functional_extensionality_dep`, `sig_forall_dec`, `sig_not_dec`**

`C12_balance`

**`classic`, `functional_extensionality_dep`**

`C71_terminates_refuted`, `C86_some_file_refuted`

