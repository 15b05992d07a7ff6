# A Rocq model of probtorch/combinators

Everything is in `rocq/theories/`. Files named like a part of the code (`Program.v`,
`Inference.v`, ...) are the model and contain no proofs; `Spec*.v` are the specifications the
theorems are stated with; `Thm_*.v`, `*Facts.v`, `Run*.v` are proofs; `Prop_*.v` contain the
property theorems, the examples that show their hypotheses are met, and `Print Assumptions`.

## How the code is modelled

* **torch / probtorch boundary.** Nothing of torch or probtorch is in /repo. Every operation
  the code calls is a field of the record `lib` (Lib.v). Theorems quantify over *every*
  `lib`; the algebraic laws a theorem needs are explicit hypotheses: `lib_laws` (addition is a
  commutative monoid, the iteration order of a set is a permutation), `tensor_laws` (sums of
  log-densities are tensors), `array_view` (tensors are arrays), `measures` (an abstract
  integral), `population_laws` (a tensor is a family of particles), `sorts_laws`. Instances
  (Instances.v, InstancesArr.v, InstancesPop.v) show that the laws are satisfiable.
* **Exceptions** are values (`res`). **State** is explicit: the `_cond_trace` attribute of
  every conditionable object, the global store, its resample hook, and a ghost log of the
  user-model invocations. State survives exceptions.
* **Randomness** is a *sampling tree* (Tree.v): inner nodes are draws, leaves are results.
  "Every random outcome" is "every leaf"; an expectation integrates over the draws of
  the same tree.
* **User models** are trees of interactions with the trace, conditioning trace, store and
  random number generator: arbitrary Python code between two interactions is an arbitrary
  Gallina function.
* **Inference programs** are trees of combinators (`inf`), with object identities so that
  sharing of instances is visible. `run` is the interpreter: one case per `__call__`.

## What is modelled

| /repo file | modelled | model file |
|---|---|---|
| combinators/program.py | all | Program.v, Dispatch.v |
| combinators/inference.py | all | Inference.v |
| combinators/trace/utils.py | maybe_sample, valeq, trace_eq, copytraces, rerun_with_detached_values | TraceUtils.v, Program.v |
| combinators/resamplers.py | all; ancestor_indices_systematic also in binary32 | Resamplers.v, Arrays.v, Floats.v |
| combinators/metrics.py | all (on one fiber along sample_dims) | Resamplers.v |
| combinators/out.py | PropertyDict, GlobalStore, Out | OutDict.v |
| combinators/utils.py | models_as_dict, save_models, load_models, adam (its groups), propagate, ppr_show | Utils.v, Modules.v, Propagate.v, Display.v |
| the printers of combinators/out.py and trace/utils.py | show_nest, PropertyDict.__repr__, show, showRV, showall, showvals, showprobs, showdists, over the texts of their leaves | Display.v |
| experiments/annealing/models.py | Density.model, Distribution.model (hence FixedMultivariateNormal), ConditionalMultivariateNormal.model (the network is a parameter), Tempered, anneal_between, GMM.log_density_fn, the component means of RingGMM, GMM.sample (its distribution, with values abstract and the integral over them any linear functional that may be exchanged with itself, and its shape), ResMLPJ and paper_model | Annealing.v, Tempering.v, TemperingFloats.v, Mixture.v, Networks.v |
| experiments/annealing/vsmc.py, utils.py, objectives.py | all of vsmc.py; traverse_proposals, get_stats; _estimate_mc, _eval_detached, _eval0, _eval1, _eval_nrep, stl_trace, nvo_avo, nvo_rkl, nvo_rkl_mod; save_nvi_model, load_nvi_model | Annealing.v, Objectives.v, Runs.v |
| experiments/annealing/main.py | nvi_test (Evaluation.v); nvi_train (TrainNvi.v; torch's gradients, optimizer and metrics are parameters of the theorems); the arguments, run names and the wiring of the script (Runs.v); the whole script as what it leaves behind (Script.v) | Evaluation.v, TrainNvi.v, Runs.v, Script.v |
| experiments/annealing/plotting.py | which names it can refer to, its loops and the file it saves (not the drawing) | Script.v |
| experiments/apgs/gibbs.py, models.py, objectives.py, utils.py | all; layers and rendering in exact arithmetic | Gibbs.v, Networks.v, Affine.v |
| the module trees (parameters and their owners) of both experiments | Program, ResMLPJ, ConditionalMultivariateNormal, Tempered, anneal_between, paper_model, mk_model; _Decoder, Enc_coor, Enc_digit, init_models | Modules.v |
| experiments/apgs/affine_transformer.py | all | Affine.v |
| experiments/apgs/dataset/simulator.py | trajectories, shapes, chunks and file names (not rendering) | Simulator.v |
| experiments/apgs/main.py | get_data_paths, batching, budget (Training.v); model versions, log file and training loop (Runs.v); the metrics train_apg prints (ApgReport.v); whole trainings with checkpoints, also interrupted ones (ApgTrain.v); the command line and test_gibbs_sweep up to the run (ApgMain.v) | Training.v, Runs.v, ApgReport.v, ApgTrain.v, ApgMain.v |
| experiments/apgs/plotting.py | viz_samples: which images and rectangles it shows and what it saves (not the drawing) | Viz.v |
| combinators/tensor/utils.py | autodevice, kw_autodevice; prettyshape, show, thash (over an abstract hash) | ApgMain.v, Display.v |

Not modelled: the hash in the text of a tensor and showDist,
CUDA placement beyond the choice of a device, seeding, git/IPython/startup helpers, the drawing of plots, notebooks,
optimisers and their steps, rendering of images, the file system beyond
the names of files, floating point except in Floats.v and TemperingFloats.v (numbers are exact reals or abstract), typeguard's run-time
checks, the internals of torch and probtorch. Every model definition cites the lines it models
and states its simplifications.

### External contract of probtorch (trusted)

`Trace` is an insertion-ordered dict of random variables. `trace.variable` with an explicit
value records it with provenance OBSERVED unless another provenance is given; otherwise a
name in the conditioning trace is REUSED with that value; otherwise a value is drawn and
marked SAMPLED; a duplicate name raises ValueError. `_inject` overwrites. `log_joint` sums
`batch_sum(log_prob)` over the given names that are present, starting from 0.0, in an
arbitrary order, and may raise ValueError for a node that fails the `reparameterized` check
(abstract predicate `lj_ok`).

## Trusted base

Coq 8.16.1's kernel; the reading of the Python code documented in the comments; the contract
above. No axioms of our own, no functors or module types, no switched-off checks. The axioms that
`Print Assumptions` lists for the theorems of MANIFEST.json (all of the standard library):

* S = `ClassicalDedekindReals.sig_forall_dec`
* N = `ClassicalDedekindReals.sig_not_dec`
* F = `FunctionalExtensionality.functional_extensionality_dep`
* C = `Classical_Prop.classic`

Theorems not listed here are closed under the global context.

| theorem | axioms |
|---|---|
| C26_whole_particles | S, N, F, C |
| C27_default_resampler | S, N, F, C |
| C27_default_raises | S, N, F, C |
| C28_ancestors_valid | S, N, F |
| C28_vector_never_fails | S, N, F, C |
| C28_matrix_never_fails | S, N, F, C |
| C29_floor_ceil_refuted | S, N, F |
| C29_floor_ceil_partial | S, N, F |
| C29_within_one | S, N, F |
| C30_expected_copies | S, N, F |
| C30_unbiased | S, N, F |
| C31_weightless_refuted | S, N, F |
| C31_weightless_die_partial | S, N, F |
| C31_weight_zero | S, N, F |
| C32_mean_weight | S, N, F, C |
| C32_normalised | S, N, F, C |
| C33_shape_partial | S, N, F, C |
| C33_shape_without_batch | S, N, F, C |
| C33_shape_refuted | S, N, F, C |
| C34_ess | S, N, F, C |
| C34_bounds | S, N, F, C |
| C34_maximal | S, N, F, C |
| C34_shift | S, N, F, C |
| C35_log_mean | S, N, F, C |
| C35_bounds | S, N, F, C |
| C35_shift | S, N, F, C |
| C41_annealed_weight | S, F |
| C44_tempered_path | S, N, F, C |
| C44_too_few | S, N, F, C |
| C44_trained | S, N, F |
| C44_binary32 | S, N, F, C |
| C45_eval0 | S, F |
| C45_eval1 | S, N, F |
| C45_avo | S, N, F |
| C45_rkl | S, N, F, C |
| C45_rkl_nonneg | S, N, F, C |
| C45_loss_is | S, N, F |
| C47_systematic | S, N, F, C |
| C49_moments | S, F |
| C49_reverse_order | S |
| C49_symmetric | S, F |
| C49_semidefinite | S, F |
| C49_definite | S, F |
| C50_properly_weighted | S, N, F |
| C50_normalising_constant | S, N, F |
| C50_extend_alone_refuted | S, N, F, C |
| C50_well_formed_weighted | S, N, F |
| C51_mixture | S, N, F, C |
| C51_ring | S, N, F |
| C54_bounces | S, N, F |
| C54_inside | S, N, F |
| C54_leaving_velocity_refuted | S, N, F |
| C54_start_apart | S, N, F |
| C54_all_apart_refuted | S, N, F |
| C54_too_few_objects | S, N, F |
| C58_round_trip | S, F |
| C58_patch_inside | S, F |
| C58_drawn_there | S, F |
| C59_population_weighted | S, N, F, C |
| C59_normalising_constant | S, N, F, C |
| C59_well_formed_weighted | S, N, F, C |
| C60_populations | S, N, F |
| C60_systematic | S, N, F, C |
| C61_annealed_population | S, N, F, C |
| C61_normalising_constant | S, N, F, C |
| C61_never_raises | S, N, F, C |
| C62_observations_stay | S, N, F, C |
| C62_gibbs_stays | S, N, F, C |
| C62_population_refuted | S, N, F, C |
| C63_no_gradient | S, F |
| C63_hierarchical_refuted | S, F |
| C63_default_refuted | S, F |
| C64_ancestors_valid | S, N, F, C |
| C64_copies | S, N, F, C |
| C64_weightless_die | S, N, F, C |
| C65_evaluation | S, F |
| C68_sampler | S, N, F, C |
| C68_complete | S, N, F, C |
| C69_iid_partial | S, N, F, C |
| C70_resample_refuted | S, N, F, C |
| C71_weights | S, F |
| C71_batch_refuted | S, F |
| C72_systematic | S, N, F, C |
| C73_initial_kernel | S, N, F, C |
| C73_arguments_refuted | S, N, F, C |
| C73_always_normal | S, N, F, C |
| C73_paper_model | S, N, F, C |
| C73_untrained_weight | S, N, F, C |
| C74_positions | S, N, F |
| C74_sequential | S, N, F |
| C74_digits | S, N, F |
| C74_reconstruction | S, N, F |
| C77_report | S, N, F, C |
| C77_smoke_refuted | S, N, F, C |
| C77_batch | S, N, F, C |
| C77_log_p | S, N, F, C |
| C77_ess_constant | S, N, F, C |
| C77_ess_refuted | S, N, F, C |
| C77_training | S, N, F, C |
| C82_sweeps_properly_weighted | S, N, F |
| C82_evidence | S, N, F |
| C82_initial_properly_weighted | S, N, F |
| C84_rkl_first_step | S, N, F, C |
| C84_rkl_first_step_sign | S, N, F, C |
| C84_rkl_average_partial | S, N, F, C |
| C84_average_refuted | S, N, F, C |
| C85_divergence_gradient | S, N, F, C |
| C85_expected_gradient | S, N, F, C |
| C85_unbiased_partial | S, N, F, C |
| C85_unbiased_refuted | S, N, F, C |
| C86_single | S, N, F, C |
| C86_importance | S, N, F, C |
| C86_resampled | S, N, F, C |
| C86_sampler | S, N, F, C |
| C86_log_Z_hat | S, N, F, C |
| C87_loss | S, N, F, C |
| C87_bounded | S, N, F, C |
| C87_bound | S, N, F, C |
| C88_interrupted | S, N, F, C |
| C88_finished | S, N, F, C |
| C88_steps | S, N, F, C |
| C90_images | S, F |
| C90_rectangles | S, F |
| C90_objects | S, F |
| C90_colors | S, F |
| C90_saved_refuted | S, F |
| C91_equal | S, N, F |
| C91_equal_refuted | S, N, F |
| C91_order | S, N, F |
| C91_twice | S, N, F, C |
| C91_twice_refuted | S, N, F, C |
| C92_one_more | S, N, F, C |
| C92_tighter | S, N, F, C |
| C93_resampler | S, N, F, C |
| C94_separate | S, N, F |
| C96_vectorised | S, N, F |
| C97_chosen | S, N, F |
| C98_resampler | S, N, F, C |
| C98_batches | S, N, F |
| C99_rkl_rescaled | S, N, F, C |
| C99_avo_rescaled | S, N, F |
| C99_loss_is_rescaled | S, N, F |
| C99_rkl_order | S, N, F, C |
| C99_avo_order | S, N, F |
| C99_loss_is_order | S, N, F |
| C99_metrics_order | S, N, F, C |
| C99_evidence_order | S, N, F, C |

## Findings: where the code does not do what one would rely on

Each is a theorem with a witness, proved about the faithful model; the positive version that does
hold is proved next to it (suffix `_partial` where it is the property with a restriction).

| theorem | what happens |
|---|---|
| C16_sharing_refuted | leaving an Extend resets the conditioning of its parts to None; a kernel instance shared by two nested Extends is then run unconditioned |
| C25_check_exist_refuted | valeq's flag check_exist is ignored |
| C29_floor_ceil_refuted, C31_weightless_refuted | at offset exactly 0 systematic resampling gives particle 0 one copy too many, even if its weight is zero |
| C33_shape_refuted | without batch_dim the resampled weights get an extra dimension |
| C36_attributes_refuted, C36_missing_refuted | attributes of PropertyDict named like dict methods are not items |
| C40_bare_program_refuted | Propose with a Program as proposal always raises AttributeError (it reads `q._debug`) |
| C43_only_forward_node_refuted | stl_trace's exclusion is a substring test (g1 is dropped for g10) |
| C50_extend_alone_refuted | Extend outside a Propose is not properly weighted |
| C52_prior_chain_refuted | with three or more frames the decoder centres later positions at the current time step |
| C53_rkl_mod_refuted | nvo_rkl_mod raises NameError on every call |
| C54_leaving_velocity_refuted, C54_all_apart_refuted | see the property |
| C56_only_requested_refuted | asking for 3 objects also reads the files with 30 |
| C57_all_used_refuted | the last incomplete batch is dropped |
| C62_population_refuted | Resample leaves observed variables and their log-probabilities in place, Propose then charges them unresampled: the weights are not proper |
| C63_default_refuted, C63_hierarchical_refuted | the gradient of an outer objective reaches the inner proposal: always with `_no_reruns=True`, for hierarchical targets with `False` |
| C67_flag_refuted, C67_budget_refuted | `--resample False` resamples; the sample budget given is replaced by 288 |
| C68_fresh_directory_refuted | training without ./results stops with FileNotFoundError |
| C69_shape_refuted | the Gaussian mixture returns the requested sample shape only if it has one dimension |
| C70_resample_refuted | after resampling, log_prob is not that of the stored distribution at the stored value |
| C71_batch_refuted | nvi_train with a batch raises ValueError after it has changed the parameters |
| C73_arguments_refuted | offset and off-diagonal covariance given to the kernel's constructor are ignored |
| C77_ess_refuted, C77_smoke_refuted | the reported effective sample size is always the number of particles; a smoke test divides by the number of all batches |
| C79_*_refuted | displaying raises on empty PropertyDicts and on non-empty traces; unbalanced parentheses; ignored formatting arguments |
| C80_*_refuted | flags given as False are on; the test mode never loads a checkpoint; different trainings share a checkpoint |
| C81_kw_device_refuted | kw_autodevice raises TypeError for a torch.device |
| C84_average_refuted | nvo_rkl adds up over the particles in the first step, and averages in the others |
| C85_unbiased_refuted | with a learned annealing path the expected gradient of nvo_rkl exceeds that of the divergence by the gradient of the proposal's log normalising constant |

## Testing the theorems against wrong programs

`seeded/LOG.jsonl` records edits of model definitions in a scratch copy, which theorems
failed, and which theorems were tightened. An edit is made to a definition, every proof that no
longer goes through is admitted in the scratch copy, and the theorems that fail or depend on an
admitted lemma are reported (`lemmas_failed` names the lemmas).

## Per property: what is modelled and how it is proved

| id | model and proof |
|---|---|
| C01 | `forward`; every leaf; weight = independent sum over the returned trace filtered by the membership condition; permutation argument for set order; once more for the statements the model executes |
| C02 | corollary of C01 with no substitution |
| C03 | `exec` on models made of sample/observe statements; induction on the model; draws read off the path in the sampling tree |
| C04 | corollary of C01 |
| C05, C06 | inversion of `run (ICompose ..)`; copytraces lemmas |
| C07, C08 | inversion of `run (IExtend ..)`, both directions (violations raise) |
| C09-C13 | inversion of `run (IPropose ..)`, with a transformation of the proposal's trace (C09_transformed); C13 for every value/gradient view of tensors |
| C14 | induction over the tree, all leaves including exceptions |
| C15 | C14 plus "run only reads conds, store and hook" over finite histories |
| C16 | false for nested Extend sharing a kernel: refutation with a witness; positive theorem for well-scoped sharing |
| C17 | ghost call log compared with an independently computed list of leaves and effective ix; a keyword argument for a positional parameter (C17_positional) |
| C18 | membership characterisation of `dispatch_kwargs` |
| C19 | inversion, and fold along the spine of debug results; every recorded part is the result of the matching part of the program (C19_same_run) |
| C20 | relational induction over the tree |
| C21, C22, C23 | induction over traces |
| C24, C25 | `valeq`; C25 is refuted |
| C26, C27 | `Systematic.__call__` at trace level and Resample |
| C28-C33 | ancestor indices over reals: searchsorted on cumulative sums, counting, integral over the offset |
| C34, C35 | real analysis over lists |
| C36-C38 | state machines over histories of operations |
| C39 | decimal printing is injective and contains no underscore |
| C40 | refuted: always AttributeError |
| C41 | induction on K over the tree built by vsmc |
| C42 | induction on K over debug results |
| C43 | refuted in general (substring test), positive for the pairs vsmc produces; which runs apply it (C43_applied) |
| C44, C45 | real arithmetic, C44 also in binary32/binary64 by error bounds (TemperingFloats.v); dual numbers |
| C46 | injectivity of the string keys |
| C47 | induction over timesteps and sweeps on the store and the traces of every run of gibbs_sweeps |
| C48 | the hook's loop over the store |
| C49 | matrices as functions, block equations |
| C50 | expectation over sampling trees for an abstract integral; the target of a program is a model defined by recursion; induction over nesting, with the run under substitution as induction hypothesis |
| C51 | real sums over components, trigonometry for the ring |
| C52 | the store invariant of C47, for each time step and direction |
| C53 | refuted: NameError on every call |
| C54, C55 | induction over frames, draws and chunks |
| C56, C57 | decimal file names as in C39; induction over batches |
| C58 | affine grids over the reals, nearest-pixel rounding |
| C59 | a tensor of particles is related to a single-particle program (`copies`); the invariant says that each particle is properly weighted given the others are integrated out; Resample by C30 and C32 |
| C60 | contracts (`well_formed`) and sorts of tensors; induction over the program with the run under any substitution |
| C61 | the model of vsmc (C41) on the populations of C59; induction over the annealing steps with the claim of proper weighting and the form of the results as invariant |
| C62 | the resampling law (C26), the laws of Compose and Propose (C05, C12) combined: observed variables are charged unresampled. Refuted by an exact calculation of an expectation over two particles and the offset |
| C63 | an abstract autograd tape (which parameters a tensor depends on), laws for add, sub, detach, log_prob; one invariant of `run` by induction on the nesting, through all user models; vsmc by induction on K. Outputs of programs are tensors or flat dicts (Propose detaches no deeper). Refuted in general by two computed derivatives |
| C64 | ancestor_indices_systematic over Flocq's rounded operations; monotonicity of rounding for the indices, accumulated error bounds for the copies |
| C65 | nvi_test over the model of vsmc and get_stats; the coupling of C41 extended by the results of the inner steps along the debug spine |
| C66 | a file system of normalised paths; injectivity of the name by parsing its fields; the file survives other saves by injectivity; then C39 |
| C67 | the argument handling as a function from the arguments given to the run; what it does for every command line, and counterexamples to the claim |
| C68 | the loop as the sequence of its effects, by induction over batches, files and epochs; the log file on the file system of C66; a fresh directory is a counterexample |
| C69 | the sampler as an expectation functional (component indices, counts, values per component, uniform permutation), equated with iterated integration against exp(log_density_fn)/K; sums over components by linearity, the grouping by a permutation argument, the shuffle by exchangeability; the shape arithmetic for every sample shape |
| C70 | agreement as an invariant of all traces, by induction over programs; Resample as a hypothesis on its resampler; Systematic keeps agreement for distributions that treat all particles alike, and a two-particle program whose second distribution depends on the particle is a counterexample |
| C71 | nvi_train as a tree over sampler runs carrying parameters and gradients (optimizer, gradient, metrics abstract); induction on the iterations gives the linked sequence of iterations (C71_training), the AIS weights of C65 per iteration and absence of exceptions (C71_weights); for batches of more than one the display's .item() raises after the first step (C71_batch_refuted) |
| C72 | the sweeps of C47 with an invariant that ties trace, output dictionary and shared dictionary, by induction over steps and sweeps (C72_step_weight, C72_initial_weight, C72_in_step); the densities are written out over the networks in SpecGibbsWeight.v; the systematic resampler meets the hypothesis (C72_systematic) |
| C73 | the residual network, its initialisation and paper_model written out over real vectors (Networks.v); the initial kernel equals the random walk for every input (C73_initial_kernel), every parameter setting gives a positive scale (C73_always_normal), the wiring of paper_model (C73_paper_model), and the weight of an untrained step (C73_untrained_weight); the last sentence is refuted (C73_arguments_refuted) |
| C74 | the batched networks with the code's index arithmetic (Networks.v, Affine.v) against the same networks for one particle (C74_positions, C74_sequential, C74_digits, C74_reconstruction) |
| C75 | a debugging run records the results of its parts; every result tracks its program (C19_same_run, by induction on the program), so the chain of proposal results is read off and the loss computed from it (C75_annealing, C75_gibbs) |
| C76 | the three programs run by the general Program semantics (Annealing.v, Program.v): the tree of draws is stated up to extensional equality (C76_distribution_draws, C76_kernel_draws, C76_substituted, C76_refuses) |
| C77 | ApgReport.v models the metrics and the batch loop; C77_report and C77_smoke_refuted by induction over the batches, C77_log_p from the trace theorem of the sweeps (C72), C77_ess_constant from the step-weight theorem and the normalisation in the systematic resampler; C77_ess_refuted is a run of the whole sampler, worked out in ApgWitness.v |
| C78 | Modules.v: module trees with parameter identities, built in a fresh-identity monad; adam_spec by induction over the groups (C78_adam, C78_adam_refuses), the constructions by induction over the number of targets (C78_annealing), the rest by computation for a symbolic first identity (C78_apg, C78_checkpoints) |
| C79 | Display.v: the printers over texts of their leaves; by nested induction over the PropertyDict which displays succeed (C79_repr) and that each entry occurs (C79_entries); showall through a specification of its rows (C79_showall); the text of a tensor by injectivity of the printed numbers (C79_tensor); refutations C79_ndarray_refuted, C79_repr_refuted, C79_show_refuted, C79_delimiter_refuted, C79_ppr_refuted, C79_parentheses_refuted, C79_format_refuted |
| C80 | ApgMain.v: the parsed arguments, the call made, the test mode over a disk of data files and checkpoints; C80_plan, C80_test, C80_checkpoint_names by case analysis and injectivity of the printed numbers; refutations C80_flag_refuted, C80_test_file_refuted, C80_test_untrained_refuted, C80_test_budget_refuted, C80_overwrite_refuted |
| C81 | ApgMain.v: autodevice over the availability of CUDA, the environment variable and an abstract torch.device; case analysis (C81_autodevice, C81_kw_autodevice), C81_kw_device_refuted |
| C82 | expectation over the sampling tree of the sweeps of C47 and C72, by induction over steps and sweeps: a step keeps 'properly weighted for the density the step records' (C82_sweeps_properly_weighted, C82_evidence); importance sampling before the first sweep for any resampler (C82_initial_properly_weighted); SpecGibbsProper.v writes out p(frames, positions, digits); an instance with dice, two objects and any number of frames, where the evidence is computed (C82_hypotheses, C82_case) |
| C83 | paths of the sampling trees of C01's `run`: a Compose node is split into its two runs and the joining of traces and weights (node_from, node_to), then induction over the nesting (composes) reaches one normal form, the programs run in turn (C83_any_nesting, C83_associative); a program that draws nothing is one step of the log of calls, and runs that differ in the log only agree (C83_unit_last, C83_unit_first) |
| C84 | inversion of the run of a first vsmc step (C41's init_free, kernel_free): the proposal's log-weight is the float 0.0, the result's px_lw its tensor (C84_first_weight); Objectives' tensors broadcast along the sample dimension, `estimate_mc` with one weight is a sum (C84_rkl_first_step, C84_rkl_first_step_sign), with equal weights an average (C84_rkl_average_partial); three particles refute the statement (C84_average_refuted) |
| C85 | SpecKl.v writes out the divergence over a finite space of outcomes and the expectation over independent particles; its gradient by calculus (C85_divergence_gradient); the gradient of nvo_rkl from C84_rkl_average_partial and its expectation by induction over the particles (C85_expected_gradient); they agree for learned reverse kernels (C85_unbiased_partial), two outcomes refute the rest for every number of particles (C85_unbiased_refuted) |
| C86 | SpecBound.v adds to the expectations of C50 and C59 only that larger functions have larger expectations; ln x <= ln Z + (x/Z - 1) turns the proved expected weight Z (C50, C59, C61) into the bound, by induction over the sampling tree (Thm_Bound.v); instances: dice (ln 5/16), two particles without Resample (ln 9/16) and with systematic resampling, whose offset is averaged by an upper Darboux-style integral (PopU) |
| C87 | ObjectivesArr.v models nvo_avo on tensors with a particle and a batch dimension; SpecElbo.v defines the loss per batch entry, the average log-weight and the factor of a step; invariant over the loop of vsmc (Thm_Sampler.v: prop_elbo, resample_elbo): a Propose step adds the same number to minus the loss and to the average log-weight, a Resample step replaces every log-weight by the logarithm of the average weight, which is at least the average; then C86; bounded factors give bounded weights and losses by the same induction (prop_within, resample_within); instance: the coin path of C61, whose bound is ln (1 + e^2) |
| C88 | ApgTrain.v models the three nested loops of train_apg over the real sampler, with the list of optimiser steps, saves and printed lines as part of every result, also of an exception; the observable functions checkpoint, in_memory and only_in read that list; induction over batches, files and epochs shows that the list has the form train_log, whose prefixes have the property; trained_by follows parameters and state along the list; linked to C68 (order of steps and saves) and C77 (printed means) by C68_sampler, C68_complete and C77_training; instances: a training whose second file cannot be loaded, and one that finishes |
| C89 | Script.v models the script as the list of what it leaves behind, kept when an exception ends it, with plotting.py's global names as a list that line by line evaluation looks up; by cases on the outcomes of training, loading, evaluation and drawing; the names by injectivity of the run name (C66); refuted by the missing import; instances: the configuration of the paper and one with four targets |
| C90 | Viz.v models the loops of viz_samples with the corners and colours of the rectangles over exact reals; the rectangle is compared with Affine.digit_to_frame in pixel coordinates, in both directions (a drawn pixel is near the rectangle, a pixel well inside is drawn); induction over the loops; the saving of all figures is refuted; instance: two sequences with two objects |
| C91 | the partial sums of equal normalised weights are i/n, which fixes the position found for each point (k+u)/n; the weights after Systematic do not depend on the particle (from the formula of the new weights, normalised or not), and every moved variable has the leading dimensions of the index array, so that the gathered arrays are the old ones; instance: two particles resampled twice, three equal weights at offsets 1/2 and 0 |
| C92 | calls in sequence are independent repetitions of one law (from C15, given that the program does not write the global store); a repetition that is not looked at integrates to one, so the average over n+1 calls is the mean of its n+1 leave-one-out averages, and Jensen's inequality for ln gives the step; the upper end is proper weighting (C50); instance: the dice program, for all n <= m |
| C93 | a relational proof: related user code under the same combinators gives related runs (C93_natural, by induction on the combinators, for any relations that the tensor operations respect); renaming is the instance in which everything but the addresses is equal; the systematic resampler is related to itself; instance: a nested program with 'model/' in front of its addresses |
| C94 | instance of the relational theorem of C93: two runs are related when a given particle cannot tell them apart; the population laws of C59 are what the tensor operations respect; instance: two particles of the sampler of C59, with arbitrary draws |
| C95 | instance of the relational theorem of C93: two tensors are related when they are equal after detach; the tensor operations are assumed to compute numbers from numbers; instance: an observed value with and without a gradient |
| C96 | instance of the relational theorem of C93 between two libraries: a run over populations and a run over single particles are related when the second is what a given particle sees of the first; the population laws of C59 and the evidence measures of C57 say what the tensor operations respect; instance: both particles of the nested sampler of C59, arbitrary draws |
| C97 | instance of the relational theorem of C93: two runs are related when every chosen particle sees in the second what the one it was chosen from sees in the first; the population laws of C59 for both sizes; instance: the two particles of the sampler of C59 swapped, or one of them twice, arbitrary draws |
| C98 | instance of C97 for choices of whole batch entries, where the Systematic resampler is shown to preserve the relation (C98_resampler); instance: coins for every number of particles and batch entries, proposed, resampled and extended, all draws and offsets |
| C99 | softmax ignores a shift and commutes with a permutation; the surrogates ignore constants; equality of the losses as functions (functional extensionality) |
| C100 | words in SpecReplay.v; Extend from the two replays of its parts; induction over the program shows that execution under an agreeing trace follows the recorded path; the weight from the formula of the weight of a program (C01, C02) |
| C101 | C100 with C09: the target, run under the proposal's trace, replays the run; both sums of log-densities range over the same variables (Permutation); C83's neutral program for the second theorem |
