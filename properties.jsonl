{"id": "C01", "title": "Program weight law", "statement": "Calling a Program (possibly under a substituted trace) returns log_weight equal to the sum of the log-probabilities of exactly those addresses of the returned trace that are OBSERVED, or that are latent both in the returned trace and in the substituted trace. No other address contributes and none is counted twice.", "quantifier": "every user model (any sequence of samples, observes, injections, draws, raises), every substituted trace, every input and kwargs, every random outcome, every set-iteration order", "why_tests_cant": "models, traces, substitution overlaps and hash orders are unbounded; a test fixes one", "anchors": ["combinators/program.py:Program.forward"]}
{"id": "C02", "title": "Unconditioned Program is weighted by its observations only", "statement": "Calling a Program with no substitution returns log_weight equal to the sum of the log-probabilities of its OBSERVED addresses, and exactly 0.0 when it observes nothing.", "quantifier": "every user model, input, kwargs and random outcome", "why_tests_cant": "unbounded space of models", "anchors": ["combinators/program.py:Program.forward"]}
{"id": "C03", "title": "Substitution reuses values and marks provenance", "statement": "Under a substituted trace a sampled address present in that trace takes exactly the substituted value with provenance REUSED and costs no random draw; a sampled address absent from it is drawn and marked SAMPLED; an explicitly valued address keeps its value. Without substitution nothing is REUSED.", "quantifier": "every user model built from trace sampling/observing statements, every substituted trace, every outcome", "why_tests_cant": "needs every overlap pattern of addresses", "anchors": ["combinators/program.py:Program.forward", "combinators/trace/utils.py:maybe_sample"]}
{"id": "C04", "title": "A fully substituted Program is weighted by its joint density", "statement": "If every latent address of the returned trace is latent in the substituted trace then log_weight equals the full log joint of the returned trace.", "quantifier": "every model and substituted trace", "why_tests_cant": "unbounded", "anchors": ["combinators/program.py:Program.forward"]}
{"id": "C05", "title": "Compose law", "statement": "Compose(q2, q1) runs q1 on the input and q2 on q1's output; its log_weight is the sum of the two weights, its trace is the union of both traces (every address of either, each with the random variable of the side it came from), and its output is q2's output.", "quantifier": "every pair of nested inference programs, input, kwargs, initial state, outcome", "why_tests_cant": "all nestings and all random outcomes", "anchors": ["combinators/inference.py:Compose.__call__"]}
{"id": "C06", "title": "Compose rejects overlapping addresses", "statement": "If the two sides of a Compose produce a common address the call raises; a call that returns normally had disjoint address sets.", "quantifier": "every pair of nested inference programs and outcome", "why_tests_cant": "unbounded", "anchors": ["combinators/inference.py:Compose.__call__"]}
{"id": "C07", "title": "Extend law", "statement": "Extend(p, f) runs p on the input and f on p's output; its log_weight is p's weight plus the log-density of every address of f's trace; its trace is the union; its output is f's output, and it also reports p's addresses and p's output as the marginal.", "quantifier": "every p, f, substitution, input, outcome", "why_tests_cant": "unbounded", "anchors": ["combinators/inference.py:Extend.__call__"]}
{"id": "C08", "title": "Extend enforces the kernel contract", "statement": "A returning Extend call had a kernel f with no OBSERVED address, with addresses disjoint from p's, and, when not under substitution, with no REUSED address and weight 0; any violation raises.", "quantifier": "every p, f, substitution, outcome", "why_tests_cant": "unbounded", "anchors": ["combinators/inference.py:Extend.__call__"]}
{"id": "C09", "title": "Propose weight law", "statement": "Propose(p, q) returns log_weight = q.log_weight + p.log_weight - (log-density under q of the addresses of q's trace that are OBSERVED in q or latent in both q and p), with p run under substitution of q's trace.", "quantifier": "every p, q, trace transform, input, outcome", "why_tests_cant": "unbounded", "anchors": ["combinators/inference.py:Propose.__call__"]}
{"id": "C10", "title": "Propose computes an importance weight", "statement": "When p is a Program all of whose latent addresses are latent in q's trace, the incremental weight reported by Propose(p, q) is the full log joint of p's trace minus q's log-density restricted to q's observations and the shared latent addresses: auxiliary latent variables of q that p does not use never enter the weight.", "quantifier": "every such p and q and outcome", "why_tests_cant": "unbounded", "anchors": ["combinators/inference.py:Propose.__call__", "combinators/program.py:Program.forward"]}
{"id": "C11", "title": "Propose returns the target's marginal", "statement": "Propose(p, q) returns p's trace and output when p is not an Extend; when p is Extend(p', f) it returns exactly the addresses of p' (none of the kernel f), with the random variables p' produced, and p's marginal output.", "quantifier": "every p, q, nesting of Extend, outcome", "why_tests_cant": "unbounded", "anchors": ["combinators/inference.py:Propose.marginalize", "combinators/inference.py:Propose.__call__"]}
{"id": "C12", "title": "Propose reports consistent objective data", "statement": "In the result of Propose, lw is q's weight, lw + lv equals the (undetached) log_weight, proposal_trace has the content of q's trace, target_trace the content of p's full trace (kernel included), and nodes is the set of addresses charged to q.", "quantifier": "every p, q, outcome", "why_tests_cant": "unbounded", "anchors": ["combinators/inference.py:Propose.__call__"]}
{"id": "C13", "title": "Propose stops gradients", "statement": "log_weight and the tensors in output (top level or one dict level) returned by Propose carry no gradient; with reruns enabled so do all values of the returned trace, whose log-densities are recomputed at the detached values; values are unchanged numerically.", "quantifier": "every p, q, outcome", "why_tests_cant": "unbounded", "anchors": ["combinators/inference.py:Propose.__call__", "combinators/trace/utils.py:rerun_with_detached_values"]}
{"id": "C14", "title": "Substitution is scoped, even on exceptions", "statement": "After any inference call, whether it returns or raises at any point, no program of the tree is left conditioned, and programs outside the tree keep the conditioning they had.", "quantifier": "every tree, state, outcome, raise point", "why_tests_cant": "every raise point of every nesting", "anchors": ["combinators/program.py:WithSubstitution", "combinators/inference.py:Extend.__call__", "combinators/inference.py:Propose.__call__"]}
{"id": "C15", "title": "Calls are independent of history", "statement": "After any sequence of inference calls on any programs (sharing instances, some raising), a call behaves exactly as it would on fresh programs: its set of possible results depends only on its arguments and the user's global store.", "quantifier": "every finite history of calls and every next call", "why_tests_cant": "histories are unbounded", "anchors": ["combinators/program.py:WithSubstitution", "combinators/program.py:Program.forward"]}
{"id": "C16", "title": "Sharing one Program instance is harmless", "statement": "Using the same Program instance at several places of one inference tree gives the same results as using distinct but equal instances.", "quantifier": "every inference tree", "why_tests_cant": "needs all aliasing patterns; false for nested Extend sharing", "anchors": ["combinators/program.py:WithSubstitution.__exit__", "combinators/inference.py:Extend.__call__"]}
{"id": "C17", "title": "Index and keyword arguments reach every program", "statement": "Every user model run inside an inference tree receives, for the keyword parameters it accepts, the caller's sample_dims, batch_dim, reparameterized and shared keyword arguments, and as ix the ix of the nearest enclosing combinator that defines one (else the caller's).", "quantifier": "every tree, kwargs, model signature, outcome", "why_tests_cant": "all depths and signatures", "anchors": ["combinators/inference.py:Resample.__call__", "combinators/inference.py:Extend.__call__", "combinators/inference.py:Compose.__call__", "combinators/inference.py:Propose.__call__", "combinators/program.py:dispatch"]}
{"id": "C18", "title": "dispatch passes exactly the acceptable keyword arguments", "statement": "dispatch(fn, ...) forwards every keyword argument that the callee (or, for modules, its forward or model) accepts, with its value unchanged, and no other; a callee with **kwargs receives all of them.", "quantifier": "every signature and keyword set", "why_tests_cant": "unbounded", "anchors": ["combinators/program.py:dispatch", "combinators/program.py:check_passable_kwarg"]}
{"id": "C19", "title": "Loss is a fold along the proposal spine", "statement": "The loss of a result is the combinator's loss function applied to the result and to the loss of its spine child (q for Propose and Resample, q1 for Compose, p for Extend), starting from loss0 (default 0.0) when that child is a Program; Resample forwards the loss unchanged.", "quantifier": "every tree and loss functions", "why_tests_cant": "unbounded depth", "anchors": ["combinators/inference.py:Inf.__init__", "combinators/inference.py:Propose.__call__", "combinators/inference.py:Compose.__call__", "combinators/inference.py:Extend.__call__", "combinators/inference.py:Resample.__call__"]}
{"id": "C20", "title": "_debug only adds information", "statement": "Passing _debug=True to an inference call changes nothing but the presence of the intermediate results (q_out, p_out, f_out, q1_out, q2_out): same random draws, trace, weight, output, loss and errors, provided no user model takes a _debug parameter.", "quantifier": "every tree, input and outcome", "why_tests_cant": "relational, all trees", "anchors": ["combinators/inference.py:Resample.__call__", "combinators/inference.py:Extend.__call__", "combinators/inference.py:Compose.__call__", "combinators/inference.py:Propose.__call__"]}
{"id": "C21", "title": "copytraces merges as specified by its mode", "statement": "copytraces of any number of traces yields a trace whose addresses are exactly the non-excluded addresses of the inputs; on overlap FirstWriteWins keeps the earliest random variable, LastWriteWins the latest, and NoOverlaps raises iff some non-excluded address occurs twice.", "quantifier": "every number of traces, every exclusion, every mode", "why_tests_cant": "unbounded", "anchors": ["combinators/trace/utils.py:copytraces"]}
{"id": "C22", "title": "Copying one trace is the identity on content", "statement": "copytraces(t) succeeds for every trace t and has the same addresses in the same order with the same random variables, in every mode.", "quantifier": "every trace", "why_tests_cant": "unbounded", "anchors": ["combinators/trace/utils.py:copytraces"]}
{"id": "C23", "title": "Rerunning with detached values preserves the trace", "statement": "rerun_with_detached_values keeps addresses, order, provenance, distribution and (numerically) values, recomputes each log-density at the detached value, and raises only on an unsupported node type.", "quantifier": "every trace", "why_tests_cant": "unbounded", "anchors": ["combinators/trace/utils.py:rerun_with_detached_values"]}
{"id": "C24", "title": "valeq decides value-equivalence on the selected names", "statement": "valeq(t1,t2,...) returns True iff every selected name is in both traces with equal values, and otherwise raises (it never returns False); selected names are the given nodes, or the union (strict) or intersection (default) of the two address sets.", "quantifier": "every pair of traces, node selection and flags", "why_tests_cant": "unbounded", "anchors": ["combinators/trace/utils.py:valeq", "combinators/trace/utils.py:trace_eq"]}
{"id": "C25", "title": "valeq honours check_exist", "statement": "With check_exist=False names that do not exist in both traces are skipped, as documented.", "quantifier": "every pair of traces and nodes", "why_tests_cant": "documentation claim over all inputs; false in the code", "anchors": ["combinators/trace/utils.py:valeq"]}
{"id": "C26", "title": "Resample acts on whole particles", "statement": "Resample with the Systematic resampler replaces the value and the log-density of every resamplable non-OBSERVED random variable by picking along the sample dimension with one common ancestor index, leaves OBSERVED and non-resamplable variables untouched, keeps the addresses and their order, provenances and distributions, and every output entry whose key is an address becomes the new trace's value at that address while other entries are unchanged.", "quantifier": "every q, trace, weight, random offset", "why_tests_cant": "unbounded", "anchors": ["combinators/inference.py:Resample.__call__", "combinators/resamplers.py:Systematic.__call__", "combinators/resamplers.py:Resampler.pick"]}
{"id": "C27", "title": "Resample validates its input", "statement": "Resample raises if q's output is not a dict or if an output entry at a resampled address is not a tensor; the default resampler raises unless sample_dims is 0, and with batch_dim None unless the weight is one-dimensional.", "quantifier": "every q and outcome", "why_tests_cant": "unbounded", "anchors": ["combinators/inference.py:Resample.__call__", "combinators/resamplers.py:Systematic.__call__"]}
{"id": "C28", "title": "Systematic ancestors are valid indices", "statement": "For any number n>=1 of particles, any log-weights, any batch and any offset u in [0,1), every ancestor index is in 0..n-1, and the ancestors of a batch entry are non-decreasing.", "quantifier": "every n, weights, offset", "why_tests_cant": "unbounded sizes and real weights", "anchors": ["combinators/resamplers.py:Systematic.ancestor_indices_systematic"]}
{"id": "C29", "title": "Systematic offspring counts are proportional to the weights", "statement": "For every offset, the number of copies of particle i is within 1 of n times its normalised weight: it is floor or ceiling of it.", "quantifier": "every n, weights, offset", "why_tests_cant": "unbounded", "anchors": ["combinators/resamplers.py:Systematic.ancestor_indices_systematic"]}
{"id": "C30", "title": "Systematic resampling is unbiased", "statement": "Averaged over the uniform offset, the expected number of copies of particle i is exactly n times its normalised weight, so averages over resampled particles are unbiased for the weighted averages.", "quantifier": "every n, weights and function of particles", "why_tests_cant": "an expectation over a continuum", "anchors": ["combinators/resamplers.py:Systematic.ancestor_indices_systematic"]}
{"id": "C31", "title": "Weightless particles die", "statement": "A particle whose normalised weight is zero is never selected as an ancestor.", "quantifier": "every n, weights, offset", "why_tests_cant": "measure-zero corner u=0 is never sampled by tests", "anchors": ["combinators/resamplers.py:Systematic.ancestor_indices_systematic"]}
{"id": "C32", "title": "Resampling preserves total weight", "statement": "After resampling every particle of a batch entry has the same log-weight, the log of the mean of the incoming weights, so the evidence estimate is unchanged; with normalize_weights each becomes -log n.", "quantifier": "every n and weights", "why_tests_cant": "real arithmetic over all inputs", "anchors": ["combinators/resamplers.py:Systematic.__call__"]}
{"id": "C33", "title": "Resampling preserves the weight's shape", "statement": "The log-weight returned by Systematic has the shape of the log-weight given.", "quantifier": "every shape with and without batch_dim", "why_tests_cant": "tests compare with broadcasting comparisons; false without batch_dim", "anchors": ["combinators/resamplers.py:Systematic.__call__"]}
{"id": "C34", "title": "Effective sample size bounds", "statement": "effective_sample_size of n log-weights equals (sum w)^2 / sum w^2, lies in [1, n], is n exactly when all weights are equal, and does not change when a constant is added to all log-weights.", "quantifier": "every n>=1 and real log-weights", "why_tests_cant": "unbounded reals", "anchors": ["combinators/metrics.py:effective_sample_size"]}
{"id": "C35", "title": "Evidence estimate", "statement": "log_Z_hat of n log-weights is the log of the average weight, lies between the smallest and largest log-weight, and shifts by c when all log-weights shift by c.", "quantifier": "every n>=1 and real log-weights", "why_tests_cant": "unbounded reals", "anchors": ["combinators/metrics.py:log_Z_hat", "combinators/metrics.py:Z_hat"]}
{"id": "C36", "title": "PropertyDict attributes are items", "statement": "Reading, writing and deleting attributes of a PropertyDict is reading, writing and deleting the item of the same name; missing names raise AttributeError.", "quantifier": "every history of attribute and item operations and every name", "why_tests_cant": "fails for names of dict methods, histories unbounded", "anchors": ["combinators/out.py:PropertyDict"]}
{"id": "C37", "title": "Out unpacks to trace, weight, output, extras", "statement": "Iterating an Out yields exactly four things: trace, log_weight, output and a dict with those of ix, program, kernel, proposal that are present; extras given at construction are items of the Out.", "quantifier": "every extras dict", "why_tests_cant": "unbounded", "anchors": ["combinators/out.py:Out"]}
{"id": "C38", "title": "Global store hooks", "statement": "With default hooks the global store behaves as a dict over any history of operations; installed hooks run before/after each item read/write exactly once, a pre-set hook that raises leaves the store unchanged, a post-get hook's non-None result replaces the value read, and unknown hook names are rejected.", "quantifier": "every history of operations and hooks", "why_tests_cant": "histories unbounded", "anchors": ["combinators/out.py:GlobalStore"]}
{"id": "C39", "title": "Model checkpoint keys never collide", "statement": "models_as_dict gives each model of each group its own key, so no model is lost, and saving then loading restores every model's own state. A checkpoint that lacks a model, or whose entry for a model has other parameter names or a parameter of another shape, raises an error at that model instead of being loaded in part without notice.", "quantifier": "every number of groups, names (with any characters) and sizes", "why_tests_cant": "string-format collisions need a proof over all names and indices", "anchors": ["combinators/utils.py:models_as_dict", "combinators/utils.py:save_models", "combinators/utils.py:load_models"]}
{"id": "C40", "title": "Proposal may be a bare Program", "statement": "Propose(p, q) can be called with q a Program, as its signature says.", "quantifier": "every p and Program q", "why_tests_cant": "false: every such call raises", "anchors": ["combinators/inference.py:Propose.__call__"]}
{"id": "C41", "title": "Annealed importance weight telescopes", "statement": "For any number of annealing steps K, running vsmc without resampling gives a final log-weight equal to log g_K(z_K) + sum of reverse-kernel log-densities - log g_0(z_0) - sum of forward-kernel log-densities at the sampled chain z_0..z_K.", "quantifier": "every K, targets, forward and reverse kernels and random outcome", "why_tests_cant": "needs induction over K; the repo's own test of it is skipped", "anchors": ["experiments/annealing/vsmc.py:vsmc", "tests/test_annealing.py:compute_nvi_weight"]}
{"id": "C42", "title": "Annealing statistics list every step in order", "statement": "get_stats on a debug vsmc result returns one entry per annealing step, innermost first.", "quantifier": "every K, with and without resampling", "why_tests_cant": "unbounded depth", "anchors": ["experiments/annealing/utils.py:traverse_proposals", "experiments/annealing/vsmc.py:vsmc"]}
{"id": "C43", "title": "stl_trace replaces only the forward node", "statement": "stl_trace(trace, ix) differs from the trace only at address g{ix+1}.", "quantifier": "every trace and ix", "why_tests_cant": "the exclusion is a substring test: needs all ix", "anchors": ["experiments/annealing/objectives.py:stl_trace"]}
{"id": "C44", "title": "Tempered path is well formed", "statement": "anneal_between(left, right, n) has n targets, starts at left, ends at right, and its intermediate inverse temperatures are strictly increasing in (0,1); each intermediate log-density is the convex combination of the end log-densities.", "quantifier": "every n>=2", "why_tests_cant": "unbounded n, real arithmetic", "anchors": ["experiments/annealing/models.py:anneal_between", "experiments/annealing/models.py:Tempered"]}
{"id": "C45", "title": "Stop-gradient surrogates", "statement": "_eval0(e) has value 0 and the gradient of e; _eval1(e) has value 1 and the gradient of e; nvo_avo has as value the negated average incremental log-weight and its gradient; nvo_rkl is the log of the average incremental weight minus the weighted average of the incremental log-weights, never negative with equal weights, with the score-function gradient; loss_is is the batch average of weighted negated log-densities, with no gradient through the weights.", "quantifier": "every differentiable expression", "why_tests_cant": "gradient identities over all reals", "anchors": ["experiments/annealing/objectives.py:_eval0", "experiments/annealing/objectives.py:_eval1", "experiments/annealing/objectives.py:nvo_avo"]}
{"id": "C46", "title": "APG address keys are injective", "statement": "z_where and z_what addresses of different (time, sweep) never coincide with each other nor with recon or frames.", "quantifier": "every time and sweep index", "why_tests_cant": "string formatting over all naturals", "anchors": ["experiments/apgs/utils.py:key"]}
{"id": "C47", "title": "Gibbs sweeps never collide", "statement": "For any number of timesteps and sweeps every Compose/Extend in gibbs_sweeps has disjoint address sets, and every latent of each target is supplied by its proposal.", "quantifier": "every T>=1, every number of sweeps", "why_tests_cant": "unbounded", "anchors": ["experiments/apgs/gibbs.py:gibbs_sweeps", "experiments/apgs/models.py"]}
{"id": "C48", "title": "The store follows resampling", "statement": "After a Resample with the APG hook, every stored reference that pointed at a value of the incoming trace points at the resampled value of the same address, and every other stored reference is unchanged.", "quantifier": "every store, trace and resampled trace", "why_tests_cant": "aliasing patterns unbounded", "anchors": ["experiments/apgs/utils.py:_resample_hook", "combinators/inference.py:Resample.__call__"]}
{"id": "C49", "title": "Gaussian propagation", "statement": "propagate(N,F,t,B) returns the moments of the joint of (x, Fx+t+noise): its blocks are the source moments, the marginalize=True moments and the cross terms; it is symmetric, positive semidefinite and positive definite when the inputs are; reverse_order only swaps the blocks.", "quantifier": "every dimension and matrices", "why_tests_cant": "unbounded dimensions", "anchors": ["combinators/utils.py:propagate"]}
{"id": "C50", "title": "Inference combinators are properly weighted", "statement": "The expectation of exp(log_weight) times any function of the returned values equals the sum (integral) of that function over the executions of the target weighted by its unnormalised density, for any nesting of Program, Compose and Propose whose proposals cover the targets, where a target may be extended by any number of Extends. (Extend run on its own, outside a Propose, is not: it samples its kernel and multiplies the kernel's density into the weight as well.)", "quantifier": "every nesting, every test function", "why_tests_cant": "a statement about expectations, not runs", "anchors": ["combinators/inference.py", "combinators/program.py"]}
{"id": "C51", "title": "Targets of the annealing experiment", "statement": "The density of the mixture target is the sum of the densities of its components, and the component means of the ring are count different points at distance radius from the origin.", "quantifier": "every list of components, every point, every radius and count", "why_tests_cant": "real analysis over all counts", "anchors": ["experiments/annealing/models.py:GMM", "experiments/annealing/models.py:RingGMM"]}
{"id": "C52", "title": "The decoder's prior is a chain over time", "statement": "In every Gibbs step the decoder's prior of the position at time t>0 is centred at the current position of time t-1: the one of this sweep if time t-1 has been updated already, else the one of the previous sweep.", "quantifier": "every number of frames, time step, sweep and store", "why_tests_cant": "unbounded number of frames", "anchors": ["experiments/apgs/models.py:_Decoder.get_z_where"]}
{"id": "C53", "title": "Every objective can be evaluated", "statement": "nvo_rkl_mod returns a loss for the results Propose hands to it.", "quantifier": "every result", "why_tests_cant": "false: every call raises", "anchors": ["experiments/annealing/objectives.py:nvo_rkl_mod"]}
{"id": "C54", "title": "Simulated objects bounce inside the frame", "statement": "A simulated object moves like a ball in the square [-1,1]x[-1,1]: started inside with speed dv at most 2, every position is inside, each step moves it by its velocity and reflects it at a wall it would pass, and every velocity has length dv. The velocity returned for a frame is the one after the bounce into the next frame (it is not the velocity with which the frame is left). The first three objects of a video start more than sqrt(1/2) apart, whatever the number of rejected draws; further objects may overlap.", "quantifier": "every number of frames, speed, direction, start and sequence of draws", "why_tests_cant": "unbounded number of frames and real inputs", "anchors": ["experiments/apgs/dataset/simulator.py:Sim_BShape.sim_trajectory", "experiments/apgs/dataset/simulator.py:Sim_BShape.sim_trajectories"]}
{"id": "C55", "title": "A simulated data set is complete", "statement": "Saving num_seqs sequences ends, writes files with pairwise different names numbered from 1, every one with chunk_size sequences except possibly the last one, which is not empty, num_seqs sequences in all; the objects of one sequence have pairwise different shapes. A simulator object can do this only once.", "quantifier": "every num_seqs, chunk_size and permutation of the shapes", "why_tests_cant": "unbounded sizes", "anchors": ["experiments/apgs/dataset/simulator.py:Sim_BShape.sim_save_data", "experiments/apgs/dataset/simulator.py:Sim_BShape.load_resize_shapes"]}
{"id": "C56", "title": "Training reads the requested data files", "statement": "get_data_paths returns the paths of exactly the data files simulated with the requested number of time steps and objects, and raises ValueError if there are none.", "quantifier": "every directory of simulated files, every pair of numbers", "why_tests_cant": "number formatting over all naturals", "anchors": ["experiments/apgs/main.py:get_data_paths", "experiments/apgs/dataset/simulator.py:Sim_BShape.sim_save_data"]}
{"id": "C57", "title": "Training batches and budget", "statement": "One pass over a data file never uses a sequence twice; all batches have batch_size sequences (a single smaller one if the file is smaller) and fewer than batch_size sequences are left out; all are used if batch_size divides their number. num_sweeps + 1 times the sample size is within the budget, and would not be with one more sample.", "quantifier": "every file size, batch size, permutation, budget and number of sweeps", "why_tests_cant": "unbounded sizes", "anchors": ["experiments/apgs/main.py:train_apg"]}
{"id": "C58", "title": "Drawing a digit and reading it back", "statement": "For positions in [-1,1]x[-1,1], frame_to_digit applied to the frame in which digit_to_frame drew a digit, at the same position, returns that digit pixel for pixel; the patch read lies inside the frame; the frame is 0 away from the digit, which is centred at the position scaled by 1 - digit_pixels/frame_pixels with the vertical axis upwards.", "quantifier": "every sizes digit_pixels <= frame_pixels, position, digit, sample, batch, time and object index", "why_tests_cant": "real positions and rounding, unbounded image sizes", "anchors": ["experiments/apgs/affine_transformer.py:Affine_Transformer.digit_to_frame", "experiments/apgs/affine_transformer.py:Affine_Transformer.frame_to_digit"]}
{"id": "C59", "title": "Populations with resampling are properly weighted", "statement": "For a population of N particles in B batch entries and any nesting of Program, Compose, Propose and Resample (systematic) in which nothing is observed before a Resample: for every batch entry, the expectation of the particle average of exp(log_weight) times any function of a particle's values and output equals the sum (integral) of that function over the executions of the single-particle target weighted by its unnormalised density; in particular the expected average weight is the normalising constant.", "quantifier": "every N, B, nesting, number of Resample steps and test function", "why_tests_cant": "a statement about expectations over all draws and offsets", "anchors": ["combinators/inference.py:Resample", "combinators/resamplers.py:Systematic", "combinators/inference.py:Propose"]}
{"id": "C60", "title": "Well-formed inference programs run to the end", "statement": "A nesting of Program, Compose, Extend, Propose and Resample whose models use each address once, whose composed parts use different addresses, whose Extend kernels observe nothing, whose proposals are not bare Programs and whose Propose or Resample weights are tensors, never raises, whatever is drawn; it returns a trace, log-weight and output of the promised form.", "quantifier": "every well-formed nesting, every draw", "why_tests_cant": "all executions of all programs", "anchors": ["combinators/inference.py", "combinators/program.py"]}
{"id": "C61", "title": "The annealing sampler on a population is properly weighted", "statement": "The program vsmc builds for K annealing steps, run on N particles in B batch entries, with or without resampling and for either objective, never raises, and for every batch entry the expectation of the particle average of exp(log_weight) times any function of a particle's value and output is the integral of that function against the unnormalised density of the last target; in particular the expected average weight is its normalising constant.", "quantifier": "every K, N, B, targets, kernels, objective, test function, with and without resampling", "why_tests_cant": "a statement about expectations over all draws and offsets, for every number of steps", "anchors": ["experiments/annealing/vsmc.py:vsmc", "combinators/inference.py:Propose", "combinators/inference.py:Extend", "combinators/inference.py:Resample"]}
{"id": "C62", "title": "Resampling a program with observations", "statement": "Resampling keeps every particle together with its observation likelihoods, so that a Propose over a resampled (and then moved) program weights each particle with the likelihood its own values have, and proper weighting is preserved when the resampled program observes data; in particular for the steps of the amortized Gibbs sweeps, which follow a Resample.", "quantifier": "every program, particle population and offsets", "why_tests_cant": "a statement about expectations over all draws and offsets", "anchors": ["combinators/resamplers.py:Systematic", "combinators/inference.py:Resample", "combinators/inference.py:Propose", "experiments/apgs/gibbs.py:gibbs_sweeps"]}
{"id": "C63", "title": "Nested objectives are local", "statement": "The gradient of what a Propose stores for its objective (and of its result) reaches only the parameters of the programs of its own level: Propose detaches what it passes on, so that the loss of a nesting is a constant plus one term for each Propose, the term of each Propose depending only on the parameters of its target and of what its proposal kept. For the annealing sampler with K steps: one term per step, depending only on the targets k and k+1 and the forward and reverse kernel of step k.", "quantifier": "every nesting, every user model, every sequence of draws, every K, set of parameters and objective", "why_tests_cant": "a statement about the autograd graphs of all nestings", "anchors": ["combinators/inference.py:Propose", "combinators/trace/utils.py:rerun_with_detached_values", "experiments/annealing/vsmc.py:vsmc"]}
{"id": "C64", "title": "Systematic resampling in floating point", "statement": "Computed with 32-bit floating-point tensors, Systematic still selects valid particle indices in ascending order (so that resampling never reads out of range, in spite of the rounding of the weights, of their cumulative sum and of the stratified points), never copies a particle of weight zero (except the first for an offset of zero), and makes of each particle a number of copies within 1 + n/2^14 of n times its exact normalised weight.", "quantifier": "every population of at most 2^24 particles with a finite log-weight, every offset, every order of summation in softmax, every exponential function with two units in the last place", "why_tests_cant": "rounding errors depend on all inputs", "anchors": ["combinators/resamplers.py:Systematic.ancestor_indices_systematic"]}
{"id": "C65", "title": "The evaluation of an annealing sampler reports every intermediate target", "statement": "nvi_test on a sampler of K >= 1 steps without resampling returns; it draws one chain z_0, ..., z_K, the sample it labels g_k is the chain's point z_k for k = 1..K in order, and the k-th effective sample size and log-evidence estimate are those of the importance weights the chain has at step k for the target g_k; the k-th loss is the accumulated loss of step k.", "quantifier": "every K, targets, kernels, objective, sample shape and drawn chain", "why_tests_cant": "any number of steps and any drawn values", "anchors": ["experiments/annealing/main.py:nvi_test", "experiments/annealing/utils.py:get_stats", "experiments/annealing/vsmc.py:vsmc"]}
{"id": "C66", "title": "Every annealing run keeps its checkpoints apart, and loading resumes the run asked for", "statement": "Runs of the annealing experiment with different settings (resampling, path optimisation, objective, sample budget, number of targets, iterations, seed) have different names, and APG models with different (timesteps, objects, sweeps, samples) different versions. After any history of runs that saved their models, load_nvi_model under a run's name puts into the models at every position the parameters that the last run with those settings saved for that position, whatever other runs saved in between, and changes no other model; a name under which nothing was saved raises FileNotFoundError and changes nothing.", "quantifier": "every settings, every history of saves by any runs, any initial weights directory, models and groups", "why_tests_cant": "any history of saves and any combination of settings", "anchors": ["experiments/annealing/main.py:__main__", "experiments/annealing/utils.py:save_nvi_model", "experiments/annealing/utils.py:load_nvi_model", "experiments/apgs/main.py:get_model_version", "combinators/utils.py:save_models"]}
{"id": "C67", "title": "The annealing command line does what its arguments say", "statement": "A boolean argument given as False is off, and the sampler trained uses the sample budget given on the command line divided by the number of targets.", "quantifier": "every command line", "why_tests_cant": "any argument values", "anchors": ["experiments/annealing/main.py:__main__"]}
{"id": "C68", "title": "APG training visits every batch once per epoch and saves after each file", "statement": "Started in any directory, train_apg performs in every epoch, for every data file in turn, one optimisation step per batch in order and then saves the models; a smoke test of m iterations performs the same actions up to and including the m-th step and nothing after it.", "quantifier": "every number of epochs, files and batches, every m and every working directory", "why_tests_cant": "any sizes and any state of the file system", "anchors": ["experiments/apgs/main.py:train_apg"]}
{"id": "C69", "title": "Sampling a Gaussian mixture target gives independent values of the mixture, in the requested shape", "statement": "GMM.sample(sample_shape) returns a tensor of the requested sample shape whose entries are independent draws from the normalised mixture density exp(log_density_fn(x))/K, although the values are drawn component by component and then shuffled.", "quantifier": "every number and choice of components, every sample shape, every test function of the values", "why_tests_cant": "a statement about the joint distribution of the returned values; tests only see finitely many draws", "anchors": ["experiments/annealing/models.py:GMM.sample", "experiments/annealing/models.py:GMM.log_density_fn"]}
{"id": "C70", "title": "The recorded log-density of a random variable is that of its distribution at its value", "statement": "In every trace a user can get from an inference call (the returned trace, proposal_trace, target_trace, forward_trace and those of the debug results), the log_prob of each random variable is the log-density of its distribution (or log-density function) at its value, so that rerunning a trace with detached values changes no log-density.", "quantifier": "every nesting of Program, Compose, Extend, Propose and Resample, every call, state and conditioning", "why_tests_cant": "every program tree and every execution; a wrong log_prob is invisible unless it is recomputed", "anchors": ["combinators/inference.py:Propose.__call__", "combinators/program.py:Program.forward", "combinators/resamplers.py:Systematic.__call__", "combinators/trace/utils.py:rerun_with_detached_values"]}
{"id": "C71", "title": "Training an annealing sampler takes one optimizer step per iteration on that iteration's loss and reports every iteration", "statement": "nvi_train(q, targets, forwards, reverses, ..., iterations=N) calls the sampler once to size its arrays and then once per iteration; every iteration runs the sampler at the parameters the previous one left and moves them by one optimizer step along the gradient of the mean of its own loss, counted from zero; row i of the returned losses, effective sample sizes and log-evidence estimates belongs to iteration i, with one entry per annealing step, computed from the importance weights of that iteration's chain at that iteration's parameters. This holds for every sample_shape.", "quantifier": "every number of iterations and of annealing steps, every family of targets and kernels over the parameters, every draw, sample_shape, objective and resampling flag", "why_tests_cant": "ranges over all lengths of training and all draws, each iteration depending on the parameters all the previous ones left; a run in CI takes few iterations of one shape", "anchors": ["experiments/annealing/main.py:nvi_train", "experiments/annealing/utils.py:get_stats", "experiments/annealing/vsmc.py:vsmc", "combinators/utils.py:adam", "combinators/metrics.py:effective_sample_size"]}
{"id": "C72", "title": "Every Gibbs step of the bouncing-digits experiment reweights by the joint and the reverse kernel over the recorded densities and the forward kernel", "statement": "In gibbs_sweeps, for any number of sweeps and frames, the initial importance sampling returns the log-weight log-joint(sample, frames) minus the log-densities of the sample under the encoders; every later step (a position update at time t, or the digit update) adds to the log-weight of the sample it starts from: the log-joint of the updated sample and the frames, plus the log-density of the replaced value under the encoder of that step, minus the log-density of the new value under the same encoder, minus the log-densities recorded in the trace it starts from. All these densities are taken at one consistent sample: the returned trace, the returned dictionary and the dictionary of frame positions that the programs share hold the same values, also after resampling.", "quantifier": "every number of sweeps and frames, every step of every sweep, every encoder, decoder, frames tensor, draw and every resampler that keeps addresses and observations", "why_tests_cant": "each weight depends on the traces left by all the previous steps and resamplings and on a mutable dictionary the programs share behind the API; a test runs one video and cannot recompute the densities independently", "anchors": ["experiments/apgs/gibbs.py:gibbs_sweeps", "experiments/apgs/models.py:Enc_coor", "experiments/apgs/models.py:Enc_digit", "experiments/apgs/models.py:Decoder", "combinators/inference.py:Propose", "combinators/inference.py:Compose", "combinators/inference.py:Extend", "combinators/inference.py:Resample"]}
{"id": "C73", "title": "The kernels of the annealing experiment start as random walks of the requested scale and stay normal distributions under any parameters", "statement": "paper_model(num_targets) builds, for every requested number of targets, one forward and one reverse kernel per annealing step; before training each kernel moves a point by a normal distribution centred at the point itself with the requested diagonal covariance, and whatever values its parameters are given later, it always draws from a normal distribution with positive scale at its own address. As a consequence an untrained chain weighs a path by the ratio of the two random walks. The initial mean and the off-diagonal entries of the initial covariance that the constructor accepts are used too.", "quantifier": "every number of targets and steps, every input point, every initial covariance, every setting of the parameters of the network", "why_tests_cant": "the initial parameters are only observable through densities, and the claim ranges over all inputs and all later parameter values", "anchors": ["experiments/annealing/models.py:ResMLPJ", "experiments/annealing/models.py:ConditionalMultivariateNormal", "experiments/annealing/models.py:paper_model"]}
{"id": "C74", "title": "The encoders and the decoder of the bouncing-digits experiment treat every particle on its own", "statement": "The position encoder, the digit encoder and the decoder compute, for each particle of a batch, exactly what they would compute for that particle alone: the mean and scale of object k's position depend only on that particle's frame with its objects before k removed and on its digit k; the mean and scale of its digit features only on its own frames cropped at the object's own positions; and the reconstructed frame is the sum of its own decoded digits drawn at its own positions, clamped to [0, 1]. Particles that share a batch never influence each other.", "quantifier": "every number of particles, batch entries, frames, objects and pixels, every layer weight, every input", "why_tests_cant": "the code merges and splits the particle and batch axes, convolves all particles in one grouped convolution and repeats tensors along new axes; an index mixed up between particles gives plausible output on every test image", "anchors": ["experiments/apgs/models.py:Enc_coor", "experiments/apgs/models.py:Enc_digit", "experiments/apgs/models.py:DecoderFull", "experiments/apgs/affine_transformer.py:Affine_Transformer"]}
{"id": "C75", "title": "The loss of a nested sampler is the sum of the objectives of its steps, and particles are resampled exactly between steps", "statement": "A run of the annealing sampler (vsmc) with K steps performs K proposal steps, numbered 0 to K-1; the loss it returns is the objective of every step added up in order, each evaluated on that step's own result; with resampling on, every step after the first continues from resampled particles and the last step's particles are not resampled, with it off no step is. A run of the APG sampler performs one initial step labelled (T, 0, forward) and then, for each sweep 1..n, one step for the shared digits and one for each of the T frames, in this order and with these labels; its loss is the importance objective of the initial step plus the APG objective of every later step; and every later step, and none other, continues from resampled particles.", "quantifier": "every number of steps, sweeps and frames, all programs and networks, every objective, every random outcome of a run that returns", "why_tests_cant": "the loss is threaded through nested calls of arbitrary depth; a dropped or doubled term only changes a number that is random anyway, and no test compares it to the per-step values for every K", "anchors": ["experiments/annealing/vsmc.py:vsmc", "experiments/apgs/gibbs.py:gibbs_sweeps", "experiments/apgs/objectives.py:loss_is", "experiments/apgs/objectives.py:loss_apg", "combinators/inference.py:Propose", "combinators/inference.py:Resample"]}
{"id": "C76", "title": "The ready-made programs draw, substitute and refuse as documented", "statement": "Distribution run on its own makes one draw from its distribution, of the sample shape asked for and by the pathwise sampler exactly when it is reparameterised, records it under its name with its log-density, and has weight 0; the conditional normal does the same with the normal its network computes from the named input. When the address is substituted (conditioning trace), Distribution, Density and the conditional normal draw nothing, keep the given value, record their own log-density at it as REUSED, and the weight is that log-density summed as asked for. Density with nothing to substitute is an AssertionError; a conditional normal whose input lacks the named value is a KeyError.", "quantifier": "every name, distribution, density, network, input, keyword arguments, conditioning trace and state", "why_tests_cant": "each is called inside arbitrary combinators with arbitrary conditioning; tests sample a few names and check nothing about which random calls were made", "anchors": ["combinators/program.py:Program", "experiments/annealing/models.py:Density", "experiments/annealing/models.py:Distribution", "experiments/annealing/models.py:ConditionalMultivariateNormal", "combinators/trace/utils.py:maybe_sample"]}
{"id": "C77", "title": "APG training prints the averages it claims to print", "statement": "For every data file, train_apg prints the averages over its batches of the effective sample size, the log-joint and the loss, where each batch is run with the parameters the batch before it left; log_p is the log-joint of the returned positions and digits with the frames, averaged over particles and batch; ess is the effective sample size of the particles. (Holds for log_p and for the averaging over whole files; refuted for ess, which is computed from the weights the last step received, all equal after the resampling before it, and therefore always is the number of particles; refuted for the smoke test, which divides the sums of the batches it ran by the number of batches of the file.)", "quantifier": "every number of sweeps, frames and batches, every network, parameters, optimizer, resampler (ess: systematic) and state", "why_tests_cant": "the numbers look plausible for every run (the effective sample size is even the best possible); only the relation between the weight that enters the metric and the sampler's state shows that it is a constant", "anchors": ["experiments/apgs/main.py:train_apg", "experiments/apgs/main.py:cleanup", "combinators/metrics.py:effective_sample_size", "experiments/apgs/gibbs.py:gibbs_sweeps"]}
{"id": "C78", "title": "The optimizer trains every parameter, each once", "statement": "adam given a collection of models puts every parameter of every model (however deeply nested, shared sub-modules included) into one group and one only, and refuses (ValueError) exactly an empty collection or models that share a parameter. In both experiments it accepts the models as built, for every number of targets and with or without path optimisation, and trains exactly the parameters that building the models created: six per kernel and one per intermediate target when the path is optimised; 24 in the APG networks, where the position encoder uses the decoder but does not own it. In the checkpoint each parameter is in the state dict of one model under one name.", "quantifier": "every collection of module trees; every number of targets, with and without optimised path", "why_tests_cant": "a parameter that is not registered, or registered twice, changes nothing in the shapes or the first loss; the first is silent and the second appears only for particular combinations of models", "anchors": ["combinators/utils.py:adam", "experiments/annealing/models.py:paper_model", "experiments/annealing/main.py:nvi_train", "experiments/apgs/models.py:init_models", "experiments/apgs/models.py:Enc_coor", "experiments/apgs/main.py:train_apg"]}
{"id": "C79", "title": "Displaying an output or a trace shows all of it", "statement": "The text of a PropertyDict contains every entry with its name, at every depth of nesting, and can be produced for every PropertyDict; the text of a trace has one line per random variable, with the value, log probability or distribution asked for, sorted by name; ppr shows any output or trace; the text of a tensor determines its dtype, shape and whether it carries a gradient. (Refuted: numpy arrays cannot be shown although accepted; a PropertyDict that is or contains an empty PropertyDict cannot be displayed, ValueError; show fails on every non-empty trace; showall and ppr in their default mode fail on traces with a variable that has no distribution; the text with distributions opens two parentheses more than it closes; showvals, showprobs and showdists ignore their formatting arguments.)", "quantifier": "every PropertyDict of any depth; every trace, delimiter, width, order and choice of attributes", "why_tests_cant": "tests display one output; whether every entry of every nesting appears, and which shapes make displaying fail, concerns all structures", "anchors": ["combinators/out.py:show_nest", "combinators/out.py:PropertyDict.__repr__", "combinators/trace/utils.py:show", "combinators/trace/utils.py:showRV", "combinators/trace/utils.py:showall", "combinators/utils.py:ppr_show"]}
{"id": "C80", "title": "The bouncing-digits script does what its arguments say and tests what was trained", "statement": "Every command-line argument of the bouncing-digits script reaches the call it belongs to and flags given as False are off; the test mode evaluates the trained networks, on a data file with the requested numbers of frames and objects, with as many particles as training; trainings with different settings keep their checkpoints apart. (Refuted: --test False tests; the test mode evaluates freshly initialised networks whatever has been trained, on the first data file of any kind, and accepts a budget that leaves no particle; two trainings share a checkpoint exactly when frames, objects, sweeps and particles agree, so one with other layer sizes, seed or learning rate overwrites it.)", "quantifier": "every command line, data directory, set of checkpoints and network state", "why_tests_cant": "the defect of the test mode is an omission that leaves every shape and result type intact; clashes concern pairs of runs", "anchors": ["experiments/apgs/main.py:__main__", "experiments/apgs/main.py:test_gibbs_sweep", "experiments/apgs/main.py:get_model_version", "combinators/utils.py:save_models"]}
{"id": "C81", "title": "Device selection respects the preference and the environment", "statement": "autodevice returns a given device, or the device a given text names; without a preference or with a number it returns the CPU if CUDA is unavailable or hidden by CUDA_VISIBLE_DEVICES set to nothing, else the GPU of that number or the current one; kw_autodevice returns the same device as a keyword argument. (Refuted for devices: kw_autodevice rejects a torch.device that autodevice accepts.)", "quantifier": "every preference, availability of CUDA and environment", "why_tests_cant": "depends on the machine: a test runs on one", "anchors": ["combinators/tensor/utils.py:autodevice", "combinators/tensor/utils.py:kw_autodevice"]}
{"id": "C82", "title": "The sweeps of the bouncing-digits sampler are properly weighted as long as nothing is resampled", "statement": "In gibbs_sweeps, when the resampling step leaves the particles as they are, the returned weighted sample is properly weighted for the model of the video: for every function h of the positions and digits of the last sweep, the expectation of exp(log_weight) * h over all random draws is the sum over all positions and digits of p(frames, positions, digits) * h. In particular the expected weight is the evidence p(frames), after any number of sweeps. Before the first sweep this holds for the sampler as it is, whatever the resampler. The position priors used within a sweep (C52) do not spoil this: their error cancels by the end of each sweep.", "quantifier": "every number of sweeps, frames and objects, every encoder, decoder and prior, every frames tensor and every function h of the latent variables", "why_tests_cant": "it is an equation between an expectation over all random draws and a sum over all latent values; a test estimates one such number with noise, for one choice of networks, and cannot tell a small bias from it", "anchors": ["experiments/apgs/gibbs.py:gibbs_sweeps", "experiments/apgs/models.py:Enc_coor", "experiments/apgs/models.py:Enc_digit", "experiments/apgs/models.py:Decoder", "combinators/inference.py:Propose", "combinators/inference.py:Extend", "combinators/inference.py:Compose"]}
{"id": "C83", "title": "Chaining programs with Compose does not depend on how the chain is nested, and a program without variables is neutral", "statement": "Compose(q3, Compose(q2, q1)) and Compose(Compose(q3, q2), q1) give the same result: on the same random draws one returns exactly when the other does, with the same trace, log-weight, output and loss and the same state left behind. The same holds for every nesting of a chain of two or more programs. Composing with a program that has no variables and returns its argument, before or after, changes neither the trace, the log-weight nor the output. Only runs that return are compared: with an address used twice both nestings raise, but after different draws.", "quantifier": "every chain of programs and inference objects of any length, every way to nest it with default losses and no index inside, every argument, keyword dictionary, conditioning and sequence of draws", "why_tests_cant": "the nestings of a chain of n programs grow exponentially and each must agree on every draw; a test compares two nestings of a few programs on one seed", "anchors": ["combinators/inference.py:Compose", "combinators/program.py:dispatch"]}
{"id": "C84", "title": "Each annealing step adds an average over the particles to the training loss", "statement": "With its default objective nvo_rkl the annealing sampler adds, in every step, an average over the S particles: with equal incoming weights the value is the log of the average incremental weight minus the average incremental log-weight, and the gradient is the averaged one. It holds where the incoming weight is a tensor with one entry per particle. It does not hold in the first step: there the incoming log-weight is torch.tensor(0.0), one number, its softmax is 1, and the objective adds up over the particles. Its value is (2 - S) S times the divergence estimate, so it is never positive for S >= 2, and the gradient through the incremental weights is S times the averaged one.", "quantifier": "every number of particles, every incremental weight and its derivative, every first step of vsmc, every keyword dictionary, state and sequence of draws", "why_tests_cant": "the loss of the first step is a finite number in any test; that it is on the wrong scale by a factor S shows only in the formula over all S", "anchors": ["experiments/annealing/objectives.py:nvo_rkl", "experiments/annealing/objectives.py:_estimate_mc", "experiments/annealing/vsmc.py:vsmc", "combinators/inference.py:Propose"]}
{"id": "C85", "title": "The training gradient is, on average, the gradient of the divergence", "statement": "With nvo_rkl, the gradient that a step of the annealing sampler gives the parameters is, on average over independent particles from the proposal, the gradient of the divergence KL(proposal || target) of that step, up to the usual self-normalised estimate of the target's normalising constant. It holds when only the reverse kernels are learned. It does not hold when the annealing path is learned (optimize_path): the gradient of the log normalising constant of the proposal's density is added and never subtracted, for every number of particles, so that the parameters are pushed away even where proposal and target agree; and the score term is too small by the factor (S-1)/S, because the baseline contains the particle's own term.", "quantifier": "every finite space of outcomes, every differentiable proposal density, target density and reverse kernel, every number of particles and step index", "why_tests_cant": "an expectation over all outcomes of all particles, for every differentiable family; a test sees single noisy gradients", "anchors": ["experiments/annealing/objectives.py:nvo_rkl", "experiments/annealing/objectives.py:_eval1", "experiments/annealing/models.py:Tempered", "experiments/annealing/vsmc.py:vsmc"]}
{"id": "C86", "title": "The reported log-evidence is, on average, a lower bound", "statement": "The log-evidence estimate log_Z_hat of a run (the logarithm of the average weight of its particles) is on average at most the logarithm of the normalising constant of the run's target: training or model selection by this number never rewards a sampler for overestimating the evidence. It holds for one particle, for a population without Resample, for a population with any number of Resample steps, and for the annealing sampler with and without resampling.", "quantifier": "every inference program built from covered Programs, Compose, Propose and Resample, every number of particles and batch entries, every target with a positive normalising constant; with Resample, log-weights that are bounded over the values that can be drawn", "why_tests_cant": "an inequality between an expectation over all draws and a sum over the sample space; any single run may exceed the bound", "anchors": ["combinators/metrics.py:log_Z_hat", "combinators/inference.py:Propose", "combinators/inference.py:Resample", "experiments/annealing/vsmc.py:vsmc", "experiments/annealing/main.py:nvi_train"]}
{"id": "C87", "title": "Training an annealing path with nvo_avo minimises an upper bound of minus the log-evidence", "statement": "The loss of a run of the annealing sampler built by vsmc with the objective nvo_avo is, for every batch entry, at least minus the average of the particles' final log-weights (equal to it without resampling), which is at least minus the log-evidence estimate of the run. On average over the draws, the loss is therefore at least minus the expected log-evidence estimate and at least minus the logarithm of the normalising constant of the last target: whatever path and kernels training finds, with or without resampling, the loss never falls on average below that constant.", "quantifier": "every path length, number of particles and batch entries, all targets, kernels and draws; the expected bound with resampling for paths whose steps multiply weights by bounded factors", "why_tests_cant": "the inequality is between an expectation over all draws and an integral; single runs can have smaller losses; with resampling the loss accumulates step by step while the weights are replaced by averages", "anchors": ["experiments/annealing/objectives.py:nvo_avo", "experiments/annealing/objectives.py:_estimate_mc", "experiments/annealing/vsmc.py:vsmc", "combinators/inference.py:Propose", "combinators/inference.py:Resample"]}
{"id": "C88", "title": "Wherever APG training stops, the checkpoint holds the parameters after the last completed file", "statement": "Whenever a run of train_apg is interrupted - by an exception of the sampler, the optimiser or the data loader, by a smoke test's limit, or at any point between two of its actions - the checkpoint written by this run holds exactly the parameters that were in memory after the last batch of some file, and every optimiser step made since then was made on the one file that follows it in the order of visits. If the checkpoint has not been written, steps were made only on the first file of the first epoch. A training that runs to its end has written its final parameters. Every step is the optimiser's step from the parameters the step before it left, on the sampler's result on that batch of that file.", "quantifier": "all numbers of epochs, files and batches, all data, networks, optimisers, samplers' draws, smoke-test limits and interruption points, also runs that end with an exception", "why_tests_cant": "a crash can come at any of the actions of a training of any length; the checkpoint must be usable after each of them", "anchors": ["experiments/apgs/main.py:train_apg", "combinators/utils.py:save_models"]}
{"id": "C89", "title": "A run of the annealing script leaves its checkpoint, metrics and figure behind", "statement": "A run of experiments/annealing/main.py that is given valid arguments and whose training and evaluation succeed saves (or loads) the models under the name of its configuration, saves and prints the metrics unless it is a smoke test, draws the figure in the configuration of the paper (resampling, optimised path, eight targets) and ends. Metrics of different configurations go to different files.", "quantifier": "all command lines, smoke-test arguments, existing directories, and outcomes of training, loading, evaluation and matplotlib", "why_tests_cant": "the script's branches depend on all its arguments together, and the failing one is only reached after hours of training in one configuration", "anchors": ["experiments/annealing/main.py", "experiments/annealing/plotting.py:plot", "experiments/annealing/plotting.py:plot_sample_hist"]}
{"id": "C90", "title": "The pictures of samples show each sequence, its reconstruction and a rectangle around each object, and are saved", "statement": "For every sequence viz_samples makes a figure with one column per time, showing the observed frame above and the first particle's reconstruction below; on the frame, each object has one rectangle in its own colour, inside the picture and around the place where the decoder draws that object for the first particle: no pixel of the object is two or more pixels outside the rectangle, and no pixel well inside it is outside the object. It works for up to seven objects. With save=True the figures are saved.", "quantifier": "all numbers of sequences, times and objects, frame and object sizes (at least two pixels), frames, reconstructions, digits and positions in [-1, 1]", "why_tests_cant": "the rectangle and the decoder compute the place in different coordinates (one with a flipped axis); that they agree is a statement about all sizes and positions", "anchors": ["experiments/apgs/plotting.py:viz_samples", "experiments/apgs/affine_transformer.py:Affine_Transformer.digit_to_frame"]}
{"id": "C91", "title": "Resampling particles of equal weight changes nothing, so that resampling twice is resampling once", "statement": "Systematic resampling keeps the order of the particles. Of particles of equal weight it keeps each exactly once, in its place. Since all particles have equal weights after a Resample, a Resample of a Resample returns the particles, log-densities and (unless normalised) weights of the inner one.", "quantifier": "every number of particles and batch entries, every program below, all weights that are not all -inf, all offsets", "why_tests_cant": "the ancestors are found by comparing cumulated weights with stratified points; that equal weights give the identity is a statement about all sizes and offsets", "anchors": ["combinators/resamplers.py:Systematic.ancestor_indices_systematic", "combinators/resamplers.py:Systematic.__call__", "combinators/inference.py:Resample"]}
{"id": "C92", "title": "The more calls of a sampler are averaged, the tighter the bound on the log-evidence", "statement": "Calling an inference program n times and taking the logarithm of the average of the n weights gives, on average, a number that does not decrease with n: it starts at the average log-weight of one call and never exceeds the logarithm of the normalising constant of the target.", "quantifier": "every inference program without Resample, all targets and proposals, every number of calls, every clean starting state, in whatever state the earlier calls leave the program objects", "why_tests_cant": "a statement about expectations over all draws of any number of calls; a test sees finitely many samples", "anchors": ["combinators/inference.py:Propose", "combinators/inference.py:Compose", "combinators/inference.py:Extend", "combinators/program.py:Program", "combinators/metrics.py:log_Z_hat"]}
{"id": "C93", "title": "Renaming the addresses of a model changes nothing but the names", "statement": "If every address of a nested inference program is renamed consistently, so that no two addresses collide, then on the same draws it returns the same log-weight, the same loss and, in the same order, the same values and log-probabilities under the new names; it draws from the same distributions in the same order. This includes Resample steps with the systematic resampler.", "quantifier": "every inference program, every injective renaming, all arguments, draws, starting states and conditioning traces", "why_tests_cant": "one would have to try every program under every renaming; a bug that compares, sorts or splits address strings shows for some names only", "anchors": ["combinators/inference.py:Propose", "combinators/inference.py:Compose", "combinators/inference.py:Extend", "combinators/inference.py:Resample", "combinators/program.py:Program", "combinators/trace/utils.py:copytraces", "combinators/resamplers.py:Systematic"]}
{"id": "C94", "title": "Without resampling, particles do not influence each other", "statement": "In a program without resampling whose user code treats particles separately, the log-weight, values and log-probabilities of a particle depend only on what this particle is given and draws: two calls that differ in the other particles only give it the same results.", "quantifier": "every inference program without resampling, every number of particles and batch entries, every particle, all arguments and draws", "why_tests_cant": "a leak between particles may need a particular nesting, shape or data value to become visible; a test compares finitely many populations", "anchors": ["combinators/inference.py:Propose", "combinators/inference.py:Compose", "combinators/inference.py:Extend", "combinators/inference.py:Resample", "combinators/program.py:Program", "combinators/trace/utils.py:copytraces"]}
{"id": "C95", "title": "Gradients do not influence numbers", "statement": "Two programs whose user code computes the same numbers but tracks different gradients (parameters frozen, values detached) return, on draws with the same numbers, log-weights, losses, values and log-probabilities with the same numbers, and raise no error the other does not raise.", "quantifier": "every pair of inference programs that differ in gradients only, all arguments, draws and states", "why_tests_cant": "requires comparing every program with all ways of detaching parts of it", "anchors": ["combinators/inference.py:Propose", "combinators/inference.py:Compose", "combinators/inference.py:Extend", "combinators/inference.py:Resample", "combinators/program.py:Program", "combinators/trace/utils.py:copytraces", "combinators/trace/utils.py:rerun_with_detached_values"]}
{"id": "C96", "title": "A vectorised program computes per particle what the single-particle program computes", "statement": "Running a program without resampling on N particles for each of B batch entries is the same as running the single-particle program once per particle: for every particle, the single-particle program, given the particle's share of the arguments and of the draws, terminates normally, draws from the distributions the particle drew from, and returns the particle's log-weight, output, values and log-probabilities at the same addresses with the same provenance.", "quantifier": "every inference program without resampling whose user code acts on each particle separately, every number of particles and batch entries, every particle, all arguments and draws", "why_tests_cant": "whether broadcasting, summation over dimensions and nesting of combinators always commute with taking one particle out cannot be sampled: a test compares finitely many programs, shapes and populations", "anchors": ["combinators/inference.py:Propose", "combinators/inference.py:Compose", "combinators/inference.py:Extend", "combinators/trace/utils.py:log_prob", "combinators/tensor/utils.py", "combinators/program.py:Program"]}
{"id": "C97", "title": "The numbering and the number of particles carry no meaning", "statement": "Choose N' particles for each of B' batch entries from a population of N for each of B, by any map of positions (a permutation, part of the population, copies of some particles). A program without resampling, given the arguments and draws of the chosen particles, returns for each of them the log-weight, values and log-probabilities it returned for the particle it was chosen from, at the same addresses.", "quantifier": "every inference program without resampling whose user code treats the particles alike, all numbers of particles and batch entries, every choice of particles, all arguments and draws", "why_tests_cant": "a dependence on the position of a particle, or on how many there are, may show only for one nesting and one population; a test tries finitely many permutations and sizes", "anchors": ["combinators/inference.py:Propose", "combinators/inference.py:Compose", "combinators/inference.py:Extend", "combinators/trace/utils.py:log_prob", "combinators/tensor/utils.py", "combinators/program.py:Program"]}
{"id": "C98", "title": "Batch entries do not influence each other, with resampling", "statement": "Choose any of the batch entries of a call (one of them, a minibatch, a reordering). The program called with their arguments, draws and resampling offsets alone returns, for every particle of a chosen entry, the log-weight, values and log-probabilities it returned for it in the call on the whole batch, at the same addresses; this includes Resample steps with the Systematic resampler, with and without normalisation.", "quantifier": "every inference program, with any number of systematic Resample steps, whose user code treats batch entries alike, all numbers of particles and batch entries, every choice of entries, all arguments, draws and offsets", "why_tests_cant": "resampling mixes the particles of an entry through cumulative sums and gathers along one dimension; that nothing leaks into another entry must hold for all weights, offsets and sizes", "anchors": ["combinators/resamplers.py:Systematic", "combinators/resamplers.py:ancestor_indices_systematic", "combinators/inference.py:Resample", "combinators/inference.py:Propose", "combinators/inference.py:Compose", "combinators/inference.py:Extend", "combinators/program.py:Program"]}
{"id": "C99", "title": "Constant factors and the order of the particles drop out of the objectives", "statement": "Multiplying the incoming weights, the incremental weights or the density of any random variable of a step by constant factors does not change the loss nvo_rkl, neither its value nor its gradient; so the targets may be given up to their normalising constants. Under nvo_avo such a factor of the incremental weights moves the loss by minus its logarithm, and leaves the gradient as it is. The losses of the bouncing-digits experiment do not change when the weights of a batch entry are multiplied by a constant. Numbering the particles differently changes none of the losses, nor the effective sample size, nor the estimated log-evidence.", "quantifier": "every step (its tensors, traces and index), every choice of constant factors, every number of particles and every permutation of them, all values and directions of the parameters", "why_tests_cant": "invariance under all factors and permutations, as functions of the parameters, is not visible on sample inputs", "anchors": ["experiments/annealing/objectives.py:nvo_rkl", "experiments/annealing/objectives.py:nvo_avo", "experiments/annealing/objectives.py:_estimate_mc", "experiments/annealing/objectives.py:_eval0", "experiments/annealing/objectives.py:_eval1", "experiments/apgs/objectives.py:loss_is", "combinators/metrics.py:effective_sample_size", "combinators/metrics.py:log_Z_hat"]}
{"id": "C100", "title": "A program can be replayed under the trace it returned", "statement": "A program called again with the same argument, while conditioned on part of the trace it returned, draws exactly the variables that are not given. If these get the values they had, the call returns the same output and the same trace, with the given variables marked as reused, and leaves the parameter store as the first call did; its log-weight is then the sum of the log-densities of the variables that were observed or given. Conditioned on its whole trace the program draws nothing: it has a single result, the earlier one, weighted by its joint density. The same holds for a program extended by a kernel (Extend); its log-weight has all variables of the kernel. The program is one whose course depends on the values of its variables only; for log-densities the call is entitled to sum (no reparameterised variable it must refuse).", "quantifier": "every program made of sample, observe and store statements, every argument, every run of it, every part of its trace (with or without further addresses), every starting state with the same store", "why_tests_cant": "it relates every pair of runs of every program; tests replay one program under one trace", "anchors": ["combinators/program.py:Program.forward", "combinators/trace/utils.py:maybe_sample"]}
{"id": "C101", "title": "Proposing to a target what it produces itself changes no weight", "statement": "Propose with a program as its target: if the proposal only returns traces that hold a run of the target (its variables with their values, densities and observed values, and possibly further latent variables), then the incremental log-weight is a number minus itself, the weight is the one the proposal came with, the target draws nothing, and the values and the output are those of that run (detached). In particular a program proposed to itself (through a Compose with a program without variables, since a bare Program is refused as a proposal, C40) has as weight the density of its observations, as if it had been called alone. The same holds when the target is a program extended by a kernel; the output and the addresses are then those of the program without the kernel.", "quantifier": "every program made of sample, observe and store statements as target, every proposal, argument, keyword arguments and starting state", "why_tests_cant": "it relates every run of a proposal with every run of the target; tests try one pair of programs", "anchors": ["combinators/inference.py:Propose.__call__", "combinators/program.py:Program.forward"]}
