{"id": "C01", "title": "Time grid covers [t1,t2] with step 0.001", "statement": "For every t1 <= t2, `DPFC(...).timegrid` is an increasing sequence starting exactly at t1 with constant step 0.001 whose last point is within half a step of t2 (and is exactly t2, with n+1 points, when t2-t1 is n steps).", "quantifier": "all real t1, t2", "why_tests_cant": "uncountably many intervals; a test samples a few lengths and the half-step boundary is exactly where they differ", "anchors": ["DeterministicParticleFlowControl/DeterministicParticleFlowControl.py:DPFC.__init__ (timegrid, k)"]}
{"id": "C02", "title": "Degenerate intervals: no grid point or one grid point", "statement": "If t2 + 0.0005 <= t1 the constructor raises IndexError (numpy) and never returns an object. If the grid has exactly one point the constructed time-reversed flow sits at y1 and the terminal condition y2 is silently dropped.", "quantifier": "all inputs, callables, random streams with 0 or 1 grid points", "why_tests_cant": "every combination of callables and modes would have to be run", "anchors": ["DeterministicParticleFlowControl/DeterministicParticleFlowControl.py:DPFC.__init__", "DeterministicParticleFlowControl/DeterministicParticleFlowControl.py:DPFC.backward_simulation"]}
{"id": "C03", "title": "Forward flow starts at the initial state", "statement": "After successful construction in deterministic mode with at least two grid points, every particle of the forward flow Z is exactly at y1 at grid index 0, in every coordinate, whatever the drift, noise, path constraint or bridge flag.", "quantifier": "all dimensions, particle numbers, drifts, diffusion, constraints, random streams, number systems (including IEEE doubles)", "why_tests_cant": "unbounded sizes and arbitrary user callables", "anchors": ["DeterministicParticleFlowControl/DeterministicParticleFlowControl.py:DPFC.forward_sampling_Otto"]}
{"id": "C04", "title": "Time-reversed flow satisfies both boundary conditions", "statement": "After successful construction with at least two grid points, every particle of B is exactly at y1 at index 0 and exactly at y2 at the last index, in deterministic and in stochastic mode.", "quantifier": "all inputs, modes, callables, random streams, number systems", "why_tests_cant": "unbounded sizes and arbitrary user callables", "anchors": ["DeterministicParticleFlowControl/DeterministicParticleFlowControl.py:DPFC.backward_simulation"]}
{"id": "C05", "title": "Shape and particle-count invariant", "statement": "After successful construction Z, B (and Ztr when it exists) have exactly shape dim x N x k; no trajectory is ever removed, whatever the value of `reject`.", "quantifier": "all inputs and modes", "why_tests_cant": "shape must hold for every configuration, not for sampled ones", "anchors": ["DeterministicParticleFlowControl/DeterministicParticleFlowControl.py:DPFC.__init__", "DeterministicParticleFlowControl/DeterministicParticleFlowControl.py:DPFC.backward_simulation"]}
{"id": "C06", "title": "Forward flow obeys the particle-flow recurrence at every step", "statement": "In deterministic mode without reweighting, index 1 is one Euler-Maruyama step of the uncontrolled SDE from y1 evaluated at the time of index 0, and every index i>=2 is exactly one explicit Euler step of f(x,t) - 1/2 g^2 * score evaluated on slice i-1 at time t_i - dt.", "quantifier": "all indices of all runs", "why_tests_cant": "holds for every step of every history; a test checks finitely many", "anchors": ["DeterministicParticleFlowControl/DeterministicParticleFlowControl.py:DPFC.forward_sampling_Otto", "DeterministicParticleFlowControl/DeterministicParticleFlowControl.py:DPFC.f_seperate"]}
{"id": "C07", "title": "Time-reversed flow obeys its recurrence at every step, without gaps", "statement": "For every index j from k-2 down to 1, B[j] is obtained from B[j+1] by the documented backward step (stochastic for the first step or in stochastic mode, deterministic otherwise), using drift, time, forward score and backward score of index j+1 only; no slice between the two boundary slices is left unwritten.", "quantifier": "all indices of all runs", "why_tests_cant": "off-by-one errors in reversed indices show only for particular k", "anchors": ["DeterministicParticleFlowControl/DeterministicParticleFlowControl.py:DPFC.backward_simulation", "DeterministicParticleFlowControl/DeterministicParticleFlowControl.py:DPFC.density_estimation", "DeterministicParticleFlowControl/DeterministicParticleFlowControl.py:DPFC.bw_density_estimation"]}
{"id": "C08", "title": "Bridge auxiliary flow Ztr is unreweighted and driven by f_true", "statement": "With reweight and brown_bridge, Ztr starts at y1, follows the forward recurrence with f_true in place of f, and does not depend on U or on Z except through the position of the random stream.", "quantifier": "all inputs and indices", "why_tests_cant": "independence from a callable cannot be tested exhaustively", "anchors": ["DeterministicParticleFlowControl/DeterministicParticleFlowControl.py:DPFC.forward_sampling_Otto_true", "DeterministicParticleFlowControl/DeterministicParticleFlowControl.py:DPFC.f_seperate_true"]}
{"id": "C09", "title": "The Brownian-bridge terminal pin of Z has no lasting effect", "statement": "With at least two grid points, the forward flow Z produced with brown_bridge=True equals the one produced with brown_bridge=False (same other inputs and random stream): the end pin written at the first step is overwritten. With one grid point it overwrites the initial condition instead.", "quantifier": "all inputs and random streams", "why_tests_cant": "equality of two runs for every configuration", "anchors": ["DeterministicParticleFlowControl/DeterministicParticleFlowControl.py:DPFC.forward_sampling_Otto"]}
{"id": "C10", "title": "Kernel selection", "statement": "kern='periodic' gives the same object as kern='RBF' (up to nothing but the warning); any other kernel name makes construction fail as soon as one score has to be estimated (three or more grid points).", "quantifier": "all kernel strings and inputs", "why_tests_cant": "infinitely many strings and inputs", "anchors": ["DeterministicParticleFlowControl/DeterministicParticleFlowControl.py:DPFC.__init__", "DeterministicParticleFlowControl/score_estimators/score_function_estimators.py:score_function_multid_seperate"]}
{"id": "C11", "title": "Parameters without effect", "statement": "Changing `reject` or `dens_est` never changes the flows; without reweight, changing U, f_true or (k>=2) brown_bridge never changes the flows.", "quantifier": "all values of the ignored parameters and all other inputs", "why_tests_cant": "non-interference ranges over pairs of runs", "anchors": ["DeterministicParticleFlowControl/DeterministicParticleFlowControl.py:DPFC.__init__"]}
{"id": "C12", "title": "Where randomness enters a deterministic run", "statement": "In deterministic mode construction draws exactly one dim x N Gaussian matrix for the forward flow (none if k=1), one for Ztr if present, one for the backward flow (if k>=3), and otherwise only uniform inducing points: dim x M per score estimate, so the total numbers of draws are fixed functions of k, dim, M and the mode.", "quantifier": "all inputs, all k", "why_tests_cant": "draw counts as functions of unbounded k", "anchors": ["DeterministicParticleFlowControl/DeterministicParticleFlowControl.py:DPFC.forward_sampling_Otto", "DeterministicParticleFlowControl/DeterministicParticleFlowControl.py:DPFC.backward_simulation", "DeterministicParticleFlowControl/DeterministicParticleFlowControl.py:DPFC.f_seperate"]}
{"id": "C13", "title": "Inducing points stay in the sampled region", "statement": "Every inducing point used by a forward score lies, coordinate by coordinate, between the minimum and maximum of the particles; those used by the backward pass and by calculate_u lie inside both ranges of the forward and backward particles whenever these overlap, and in the gap between the two ensembles when they do not.", "quantifier": "all runs, steps, ensembles and random draws", "why_tests_cant": "all real ensembles", "anchors": ["DeterministicParticleFlowControl/DeterministicParticleFlowControl.py:DPFC.f_seperate", "DeterministicParticleFlowControl/DeterministicParticleFlowControl.py:DPFC.density_estimation", "DeterministicParticleFlowControl/DeterministicParticleFlowControl.py:DPFC.calculate_u", "DeterministicParticleFlowControl/DeterministicParticleFlowControl.py:DPFC.bw_density_estimation"]}
{"id": "C14", "title": "Stochastic mode initialises only two coordinates", "statement": "In stochastic mode (deterministic=False) the forward flow starts at y1 in coordinates 0 and 1 and at 0 in every further coordinate; a one-dimensional system raises IndexError. Hence `starts at y1` is false for dim >= 3 with nonzero y1[2].", "quantifier": "all dims, all inputs", "why_tests_cant": "ranges over all dimensions", "anchors": ["DeterministicParticleFlowControl/DeterministicParticleFlowControl.py:DPFC.forward_sampling", "DeterministicParticleFlowControl/DeterministicParticleFlowControl.py:torched_DPFC.forward_sampling"]}
{"id": "C15", "title": "Stochastic mode calls f and U with one argument", "statement": "In numpy stochastic mode with two or more grid points, a drift that requires (x,t) makes construction raise TypeError; with reweight, a constraint U(x,t) of the documented two-argument form makes it raise TypeError, while deterministic mode requires the two-argument form.", "quantifier": "all drifts/constraints of the given arity", "why_tests_cant": "all callables", "anchors": ["DeterministicParticleFlowControl/DeterministicParticleFlowControl.py:DPFC.forward_sampling"]}
{"id": "C16", "title": "Stochastic mode pins the forward flow to the target and gives the first backward score a zero lengthscale", "statement": "After numpy stochastic forward sampling every particle of Z is at y2 at the last index, so the lengthscale vector used for the first backward score estimate is identically zero and all its inducing points equal y2.", "quantifier": "all inputs with k>=2 over exact reals", "why_tests_cant": "all inputs", "anchors": ["DeterministicParticleFlowControl/DeterministicParticleFlowControl.py:DPFC.forward_sampling", "DeterministicParticleFlowControl/DeterministicParticleFlowControl.py:DPFC.density_estimation"]}
{"id": "C17", "title": "Stochastic mode with a bridge never fills Ztr", "statement": "With deterministic=False, reweight=True, brown_bridge=True the auxiliary flow Ztr is identically zero at every index after construction, although calculate_u uses it.", "quantifier": "all inputs", "why_tests_cant": "all inputs", "anchors": ["DeterministicParticleFlowControl/DeterministicParticleFlowControl.py:DPFC.__init__"]}
{"id": "C18", "title": "Construction succeeds on well-shaped problems", "statement": "If N>=1, y1 and y2 have the same length, the drift (and f_true, U where used) return arrays of the right shape, g is a scalar or a per-coordinate column, the kernel name is supported and no linear solve is singular, the deterministic constructor returns an object (no exception) for every grid with at least one point. With deterministic=False the same holds for at least two coordinates, a number g, a drift that can also be called with one argument on a single particle and a one-argument U.", "quantifier": "all such problems of any size", "why_tests_cant": "absence of any exception for unbounded sizes and all callables", "anchors": ["DeterministicParticleFlowControl/DeterministicParticleFlowControl.py:DPFC.__init__"]}
{"id": "C19", "title": "Diffusion is applied elementwise", "statement": "A dim x dim diffusion matrix with dim >= 2 and N different from dim makes construction raise (shape mismatch) as soon as there are two grid points; g is never used as a matrix product: in deterministic mode only its entries after broadcasting to dim x N matter, so a number, a dim x 1 column and a dim x N array with the same entries give the same run (same exceptions, same random stream), and a dim x 1 column scales the noise of each coordinate by its own entry. In numpy stochastic mode with at least three grid points the forward pass reads g as a row and the backward pass as a dim x N array, so construction succeeds only with a number (or with N = dim and a row whose entries mean coordinates in one pass and particles in the other); the column that works in deterministic mode raises.", "quantifier": "all dims, N, matrices", "why_tests_cant": "all sizes", "anchors": ["DeterministicParticleFlowControl/DeterministicParticleFlowControl.py:DPFC.forward_sampling_Otto", "DeterministicParticleFlowControl/DeterministicParticleFlowControl.py:DPFC.forward_sampling", "DeterministicParticleFlowControl/DeterministicParticleFlowControl.py:DPFC.backward_simulation"]}
{"id": "C20", "title": "Control near the ends is the difference of two Gaussian scores", "statement": "For grid indices in the first six or last five positions, calculate_u returns, for every evaluation point and coordinate, d/dx log N(x; mean_B, var_B) - d/dx log N(x; mean_Z, var_Z) with the empirical mean and (population) variance of the two flows at that index (Ztr instead of Z when reweight and brown_bridge).", "quantifier": "all flows with non-degenerate spread, all evaluation points", "why_tests_cant": "all real inputs", "anchors": ["DeterministicParticleFlowControl/DeterministicParticleFlowControl.py:DPFC.calculate_u"]}
{"id": "C21", "title": "Exact window of the Gaussian approximation", "statement": "For k grid points the kernel estimator is used exactly for 6 <= ti <= k-6; for every other valid index the Gaussian formula is used and no random number is consumed. In particular grids with k <= 11 never use the kernel estimator.", "quantifier": "all k and ti", "why_tests_cant": "all pairs (k,ti)", "anchors": ["DeterministicParticleFlowControl/DeterministicParticleFlowControl.py:DPFC.calculate_u"]}
{"id": "C22", "title": "Interior control is the difference of two score estimates on common inducing points", "statement": "For 6 <= ti <= k-6 without bridge, calculate_u returns score_B(x) - score_Z(x), both estimated with the same inducing points (one draw of dim x M uniforms per call) and lengthscale twice the standard deviation of the respective flow.", "quantifier": "all flows, points, random streams", "why_tests_cant": "all inputs", "anchors": ["DeterministicParticleFlowControl/DeterministicParticleFlowControl.py:DPFC.calculate_u"]}
{"id": "C23", "title": "Orientation of evaluation points", "statement": "calculate_u takes points as rows (K x dim) and returns dim x K, i.e. the transposed shape; a dim x K argument as documented raises IndexError when K < dim.", "quantifier": "all K, dim", "why_tests_cant": "all shapes", "anchors": ["DeterministicParticleFlowControl/DeterministicParticleFlowControl.py:DPFC.calculate_u"]}
{"id": "C24", "title": "Controls are evaluated point by point", "statement": "The control returned for row j of the batch is the same as the one returned when row j is passed alone (same random state), for every batch size.", "quantifier": "all batches", "why_tests_cant": "all batch sizes and contents", "anchors": ["DeterministicParticleFlowControl/DeterministicParticleFlowControl.py:DPFC.calculate_u"]}
{"id": "C25", "title": "Control is singular at both ends", "statement": "At ti=0 both standard deviations entering the control are exactly 0, and at the last index the one of the time-reversed flow is exactly 0 (over exact reals), so the Gaussian formula divides by zero there although it is documented to avoid singularities: in exact arithmetic with an undefined value, calculate_u at the first and at the last index (also addressed from the end, ti=-k and ti=-1) returns an array whose entries are all undefined, for every query point.", "quantifier": "all constructed objects", "why_tests_cant": "all runs", "anchors": ["DeterministicParticleFlowControl/DeterministicParticleFlowControl.py:DPFC.calculate_u"]}
{"id": "C26", "title": "Antisymmetry and vanishing of the control", "statement": "Exchanging the forward and time-reversed flows flips the sign of the control; if the two flows coincide at an index the control there is zero at every point.", "quantifier": "all flows, points, indices", "why_tests_cant": "all real inputs", "anchors": ["DeterministicParticleFlowControl/DeterministicParticleFlowControl.py:DPFC.calculate_u"]}
{"id": "C27", "title": "Bridge-mode interior control clips the evaluation point with mixed-up bounds", "statement": "With reweight and brown_bridge, calculate_u at interior indices raises for every dim other than 2; for dim 2 the forward score for coordinate 0 is evaluated at a point with both coordinates <= 0 whatever x is, so it is not the score at x.", "quantifier": "all x, all flows", "why_tests_cant": "all inputs", "anchors": ["DeterministicParticleFlowControl/DeterministicParticleFlowControl.py:DPFC.calculate_u"]}
{"id": "C28", "title": "Negative time indices", "statement": "A negative ti in -k..-1 selects the same slice as ti+k but always uses the Gaussian formula; an index outside -k..k-1 raises IndexError.", "quantifier": "all k, ti", "why_tests_cant": "all pairs", "anchors": ["DeterministicParticleFlowControl/DeterministicParticleFlowControl.py:DPFC.calculate_u"]}
{"id": "C29", "title": "Queries do not change the object", "statement": "No sequence of calculate_u / check_if_covered calls (including failing ones) changes the flows or the grid; coverage answers and edge-window controls are the same after any history of queries.", "quantifier": "all query sequences", "why_tests_cant": "all histories", "anchors": ["DeterministicParticleFlowControl/DeterministicParticleFlowControl.py:DPFC.calculate_u", "DeterministicParticleFlowControl/DeterministicParticleFlowControl.py:DPFC.check_if_covered"]}
{"id": "C30", "title": "check_if_covered means: inside the range of both flows", "statement": "DPFC.check_if_covered(X,ti) is true exactly when every coordinate of X lies between the minimum and the maximum of Z and of B at that index.", "quantifier": "all X, ti, flows", "why_tests_cant": "all real inputs", "anchors": ["DeterministicParticleFlowControl/DeterministicParticleFlowControl.py:DPFC.check_if_covered"]}
{"id": "C31", "title": "torched check_if_covered means: inside the union hull", "statement": "torched_DPFC.check_if_covered is true exactly when every coordinate of X lies between the smaller minimum and the larger maximum of the two flows; it is implied by the numpy answer but not conversely (a point in neither flow can be reported covered).", "quantifier": "all X, ti, flows", "why_tests_cant": "all real inputs", "anchors": ["DeterministicParticleFlowControl/DeterministicParticleFlowControl.py:torched_DPFC.check_if_covered"]}
{"id": "C32", "title": "Coverage at the boundary times", "statement": "In deterministic mode with at least two grid points, at index 0 exactly y1 is covered; at the last index a point can be covered only if it equals y2.", "quantifier": "all constructed objects and all X", "why_tests_cant": "all runs", "anchors": ["DeterministicParticleFlowControl/DeterministicParticleFlowControl.py:DPFC.check_if_covered"]}
{"id": "C33", "title": "Importance weights", "statement": "The reweighting weights are positive, sum to one, are unchanged by adding a constant to U, equal 1/N for constant U and are strictly increasing in U.", "quantifier": "all real constraint values and N>=1", "why_tests_cant": "all real vectors", "anchors": ["DeterministicParticleFlowControl/DeterministicParticleFlowControl.py:DPFC.forward_sampling_Otto"]}
{"id": "C34", "title": "Reweighting moves particles only to convex combinations of particles", "statement": "For every transport plan with the requested marginals each reweighted particle is a convex combination of the particles before reweighting; hence it stays in their bounding box, and Z stays within the box of the unreweighted step.", "quantifier": "all ensembles, weights, transport plans", "why_tests_cant": "all real inputs and solver outputs", "anchors": ["DeterministicParticleFlowControl/reweighting/optimal_transport_reweighting.py:reweight_optimal_transport_multidim", "DeterministicParticleFlowControl/DeterministicParticleFlowControl.py:DPFC.forward_sampling_Otto"]}
{"id": "C35", "title": "Reweighting preserves the weighted mean", "statement": "The plain average of the reweighted particles equals the weighted average of the original ones.", "quantifier": "all ensembles, weights, plans", "why_tests_cant": "all real inputs", "anchors": ["DeterministicParticleFlowControl/reweighting/optimal_transport_reweighting.py:reweight_optimal_transport_multidim"]}
{"id": "C36", "title": "A constant path constraint changes nothing", "statement": "With U constant in x, every optimal transport plan leaves all particles where they are, and the whole forward flow of a run with reweight=True equals that of a run with reweight=False.", "quantifier": "all ensembles, runs, optimal plans", "why_tests_cant": "all runs of any length", "anchors": ["DeterministicParticleFlowControl/reweighting/optimal_transport_reweighting.py:reweight_optimal_transport_multidim", "DeterministicParticleFlowControl/DeterministicParticleFlowControl.py:DPFC.forward_sampling_Otto"]}
{"id": "C37", "title": "Sign of the path constraint", "statement": "Weights grow with U, so with the README example U=(x-sin t)^2 particles farther from the line get strictly larger weight: the constraint repels from sin(t), contrary to the documented `pushing towards`.", "quantifier": "all ensembles", "why_tests_cant": "all real inputs", "anchors": ["DeterministicParticleFlowControl/DeterministicParticleFlowControl.py:DPFC.forward_sampling_Otto", "README.md"]}
{"id": "C38", "title": "my_cdist result and schedule independence", "statement": "my_cdist writes sqrt of the sum of squared differences ('euclidean') or that sum ('sqeuclidean') to every output cell, for every order in which the parallel iterations run; 'l1' yields the Euclidean (not L1) distance and any other name leaves the output untouched.", "quantifier": "all inputs, all interleavings of the parallel loop", "why_tests_cant": "all schedules", "anchors": ["DeterministicParticleFlowControl/score_estimators/score_function_estimators.py:my_cdist"]}
{"id": "C39", "title": "Kernel values", "statement": "The RBF kernel lies in (0,1], equals 1 exactly on coinciding points, is symmetric, with equal per-dimension lengthscales equals the scalar-lengthscale kernel, and numpy and torch kernels agree.", "quantifier": "all points, nonzero lengthscales", "why_tests_cant": "all real inputs", "anchors": ["DeterministicParticleFlowControl/score_estimators/score_function_estimators.py:score_function_multid_seperate (K)", "DeterministicParticleFlowControl/kernels/RBF_pytorch.py:RBF.Kernel"]}
{"id": "C40", "title": "Kernel gradient", "statement": "The matrix computed as kernel gradient is exactly minus the partial derivative of the kernel with respect to the coordinate of its first argument (so the negated value used by the estimators is the true gradient); RBF.gradient_X therefore has the opposite sign of its documentation.", "quantifier": "all points, lengthscales, coordinates", "why_tests_cant": "derivative statement over the reals", "anchors": ["DeterministicParticleFlowControl/score_estimators/score_function_estimators.py:score_function_multid_seperate (grdx_K)", "DeterministicParticleFlowControl/kernels/RBF_pytorch.py:RBF.gradient_X"]}
{"id": "C41", "title": "RBF objects: gradient depends on the last Kernel call", "statement": "After any sequence of Kernel/gradient_X calls on an RBF object, gradient_X(X,Y) uses the kernel values of the most recent Kernel call: it equals the kernel gradient at (X,Y) whenever that call was on (X,Y), raises if there was none, and is in general wrong (or raises) otherwise. The constructor raises IndexError for multil=True with a scalar lengthscale and accepts everything else; several lengthscales with multil=False (the default) are silently used per point of Y instead of per coordinate (or Kernel raises when their number does not match the number of points).", "quantifier": "all call histories", "why_tests_cant": "all histories", "anchors": ["DeterministicParticleFlowControl/kernels/RBF_pytorch.py:RBF"]}
{"id": "C42", "title": "Score estimation never hits a singular matrix", "statement": "For all samples, inducing points, nonzero lengthscales and C > -0.001 the Gram matrix is positive semidefinite and both linear systems solved by the RBF estimators are invertible, so LinAlgError is never raised (exact arithmetic).", "quantifier": "all sample sets of any size and dimension", "why_tests_cant": "positive definiteness for all point sets", "anchors": ["DeterministicParticleFlowControl/score_estimators/score_function_estimators.py:score_function_multid_seperate"]}
{"id": "C43", "title": "The estimate is the minimiser of regularised score matching", "statement": "The returned function is sum_m a_m k(.,z_m) where a is the unique minimiser over all coefficient vectors of sum_n [ s(x_n)^2/2 + ds/dx_d(x_n) ] + (C+0.001)/2 * a^T (K_zz + 0.001 I) a.", "quantifier": "all samples, inducing points, lengthscales", "why_tests_cant": "optimality over an infinite set", "anchors": ["DeterministicParticleFlowControl/score_estimators/score_function_estimators.py:score_function_multid_seperate"]}
{"id": "C44", "title": "Function output agrees with sample output", "statement": "For the RBF estimators evaluating the returned function (func_out=True) at the samples gives the same values as func_out=False.", "quantifier": "all inputs", "why_tests_cant": "all inputs", "anchors": ["DeterministicParticleFlowControl/score_estimators/score_function_estimators.py:score_function_multid_seperate", "DeterministicParticleFlowControl/score_estimators/score_function_estimators.py:score_function_multid_seperate_all_dims", "DeterministicParticleFlowControl/score_estimators/score_function_estimators.py:score_function_multid_seperate_old"]}
{"id": "C45", "title": "The numpy estimators agree with each other", "statement": "Column d of score_function_multid_seperate_all_dims equals score_function_multid_seperate with which_dim=d+1, and score_function_multid_seperate_old agrees with it.", "quantifier": "all inputs", "why_tests_cant": "all inputs", "anchors": ["DeterministicParticleFlowControl/score_estimators/score_function_estimators.py"]}
{"id": "C46", "title": "The torch estimator agrees with the numpy one at C=0.001 and ignores C", "statement": "torched_score_function_multid_seperate_all_dims returns the same values as the numpy all-dims estimator called with C=0.001, whatever C it is given.", "quantifier": "all inputs and C", "why_tests_cant": "all inputs", "anchors": ["DeterministicParticleFlowControl/score_estimators/score_function_estimators_pytorch.py:torched_score_function_multid_seperate_all_dims"]}
{"id": "C47", "title": "Symmetries of the score estimate", "statement": "The estimate is invariant under reordering the samples, under reordering the inducing points and under translating samples, inducing points and evaluation points together; scaling space and lengthscale by a>0 divides it by a.", "quantifier": "all inputs, permutations, shifts, scales", "why_tests_cant": "all permutations and real transformations", "anchors": ["DeterministicParticleFlowControl/score_estimators/score_function_estimators.py:score_function_multid_seperate"]}
{"id": "C48", "title": "Estimator variants that cannot work", "statement": "score_function_multid_seperate_all_dims with kern='periodic' raises for every input; score.py's score_function_multid_seperate2 with vector lengthscale and func_out=True ignores every coordinate from the third on, so it disagrees with func_out=False for dim>=3, and raises for dim 1.", "quantifier": "all inputs", "why_tests_cant": "all inputs", "anchors": ["DeterministicParticleFlowControl/score_estimators/score_function_estimators.py:score_function_multid_seperate_all_dims", "DeterministicParticleFlowControl/score_estimators/score.py:score_function_multid_seperate2"]}
{"id": "C49", "title": "torched_DPFC boundary conditions and shapes", "statement": "After successful construction of torched_DPFC with at least two grid points B is at y1 at index 0 and y2 at the last index, Z starts at y1 (deterministic mode), and all flows have shape dim x N x k.", "quantifier": "all inputs", "why_tests_cant": "all runs", "anchors": ["DeterministicParticleFlowControl/DeterministicParticleFlowControl.py:torched_DPFC"]}
{"id": "C50", "title": "torched_DPFC bridge mode fails", "statement": "torched_DPFC in deterministic mode with reweight and brown_bridge raises on every grid of at least three points unless the number of particles equals the dimension and the number of inducing points is the dimension or one.", "quantifier": "all such inputs", "why_tests_cant": "all inputs", "anchors": ["DeterministicParticleFlowControl/DeterministicParticleFlowControl.py:torched_DPFC.f_seperate_true"]}
{"id": "C51", "title": "torched_DPFC one-dimensional systems fail", "statement": "torched_DPFC with a one-dimensional state and at least three grid points never returns an object (UnboundLocalError in the function output of the estimator at the latest).", "quantifier": "all such inputs", "why_tests_cant": "all inputs", "anchors": ["DeterministicParticleFlowControl/score_estimators/score_function_estimators_pytorch.py:torched_score_function_multid_seperate_all_dims (K_sz)", "DeterministicParticleFlowControl/DeterministicParticleFlowControl.py:torched_DPFC.density_estimation"]}
{"id": "C52", "title": "torched_DPFC rejects numpy initial states", "statement": "torched_DPFC raises TypeError for every y1 that is a numpy array, although a conversion branch for it exists.", "quantifier": "all inputs", "why_tests_cant": "all inputs", "anchors": ["DeterministicParticleFlowControl/DeterministicParticleFlowControl.py:torched_DPFC.__init__"]}
{"id": "C53", "title": "numpy and torch controls differ by (N-1)/N near the ends", "statement": "On the same flows (N>=2) and within the Gaussian window the torch control equals (N-1)/N times the numpy control.", "quantifier": "all flows, N, points", "why_tests_cant": "all real inputs", "anchors": ["DeterministicParticleFlowControl/DeterministicParticleFlowControl.py:DPFC.calculate_u", "DeterministicParticleFlowControl/DeterministicParticleFlowControl.py:torched_DPFC.calculate_u"]}
{"id": "C54", "title": "torch sampling box", "statement": "In deterministic mode torched_DPFC completes only if every forward slice a step starts from takes at least two values in every coordinate; in particular it raises with one particle, and for every problem with a coordinate without noise whose drift does not separate coinciding particles.", "quantifier": "all problems, random streams and grids with at least three points", "why_tests_cant": "all inputs", "anchors": ["DeterministicParticleFlowControl/DeterministicParticleFlowControl.py:torched_DPFC.f_seperate"]}
{"id": "C55", "title": "The package cannot be imported at this commit", "statement": "In every sequence of import attempts, whatever third-party packages are installed at each of them, `import DeterministicParticleFlowControl` (or any module of it) raises ImportError - also from inside the package directory for the module with the classes and for the estimators; the numpy implementation is not usable without torch even with the broken line repaired.", "quantifier": "all sequences of import attempts and all sets of installed packages at each of them", "why_tests_cant": "2^n environments, and only absence in all of them is informative", "anchors": ["DeterministicParticleFlowControl/__init__.py", "DeterministicParticleFlowControl/score_estimators/__init__.py", "DeterministicParticleFlowControl/score_estimators/score_function_estimators_pytorch.py", "DeterministicParticleFlowControl/DeterministicParticleFlowControl.py"]}
{"id": "C56", "title": "Stochastic mode: every forward slice is one Euler-Maruyama step per particle", "statement": "With deterministic=False, every forward slice between the initial and the last one is obtained from the previous slice by one Euler-Maruyama step per particle (own draw of dim normals, drift called with the particle alone), followed, with reweight, by the transport reweighting with exponents U(x) - not multiplied by dt as in deterministic mode; the last slice is replaced by the target.", "quantifier": "all drifts, diffusions, constraints, ensemble sizes, grids and random streams for which construction succeeds", "why_tests_cant": "the recurrence must hold at every index, particle and coordinate for every input and random stream", "anchors": ["DeterministicParticleFlowControl/DeterministicParticleFlowControl.py: DPFC.forward_sampling"]}
{"id": "C57", "title": "torch: every forward slice is one flow step", "statement": "In deterministic mode every forward slice of torched_DPFC (the last one included) is obtained from its predecessor by: the first slice by an Euler-Maruyama step, later ones by drift minus g^2/2 times the score estimated at the particles from M inducing points drawn in the bounding box of the slice; with reweight followed by the transport reweighting with exponents U dt.", "quantifier": "all drifts, diffusions, constraints, sizes, grids and random streams for which construction succeeds", "why_tests_cant": "the recurrence must hold at every index, particle and coordinate", "anchors": ["DeterministicParticleFlowControl/DeterministicParticleFlowControl.py:torched_DPFC.f_seperate", "DeterministicParticleFlowControl/DeterministicParticleFlowControl.py:torched_DPFC.f_seperate_true", "DeterministicParticleFlowControl/DeterministicParticleFlowControl.py:torched_DPFC.forward_sampling_Otto", "DeterministicParticleFlowControl/DeterministicParticleFlowControl.py:torched_DPFC.forward_sampling_Otto_true"]}
{"id": "C58", "title": "torch: every backward slice is one reversed step", "statement": "Every backward slice of torched_DPFC is obtained from the slice after it by reversing the drift and adding g^2 times the score of the forward flow and, except at the first step and in stochastic mode where noise is added instead, subtracting g^2/2 times the score of the backward flow.", "quantifier": "all inputs and random streams for which construction succeeds", "why_tests_cant": "the recurrence must hold at every index, particle and coordinate", "anchors": ["DeterministicParticleFlowControl/DeterministicParticleFlowControl.py:torched_DPFC.backward_simulation"]}
{"id": "C59", "title": "torch: stochastic mode", "statement": "With deterministic=False every forward slice of torched_DPFC is an Euler-Maruyama step from its predecessor (the whole ensemble at once), with reweight followed by transport reweighting with exponents U; the last slice is not replaced by the target, unlike in the numpy class.", "quantifier": "all inputs and random streams for which construction succeeds", "why_tests_cant": "the recurrence must hold at every index, particle and coordinate", "anchors": ["DeterministicParticleFlowControl/DeterministicParticleFlowControl.py:torched_DPFC.forward_sampling"]}
{"id": "C60", "title": "torch: time grid", "statement": "The time grid of torched_DPFC is t1, t1+0.001, ... up to t2 within half a step, strictly increasing, equal to the grid of the numpy class for the same interval; if t2 lies more than half a step before t1 construction raises RuntimeError.", "quantifier": "all intervals", "why_tests_cant": "all real end points", "anchors": ["DeterministicParticleFlowControl/DeterministicParticleFlowControl.py:torched_DPFC.__init__"]}
{"id": "C61", "title": "torch: the control", "statement": "calculate_u of torched_DPFC is the difference of the scores of the backward and forward slice at the queried points: Gaussian scores with the slice's mean and unbiased spread within five indices of either end, estimated scores from inducing points drawn in the common bounding box elsewhere; indices outside the flow raise IndexError.", "quantifier": "all objects, query points and time indices", "why_tests_cant": "all queries", "anchors": ["DeterministicParticleFlowControl/DeterministicParticleFlowControl.py:torched_DPFC.calculate_u"]}
{"id": "C62", "title": "torch: reweighting", "statement": "Reweighting in torched_DPFC moves the particles by an optimal transport for the squared distances from the softmax weights to uniform weights: every new particle is a convex combination of the old ones, the weighted mean is kept, and equal weights move nothing. For whole runs: adding to U a number that is the same for all particles does not change the outcome of the constructor; a constraint with the same value for every particle leaves a completed run exactly as without reweighting; with the README example U=(x-sin t)^2 the particles are moved away from sin(t).", "quantifier": "all ensembles whose particles do not all coincide, all constraints, all runs", "why_tests_cant": "optimality against every transport plan", "anchors": ["DeterministicParticleFlowControl/DeterministicParticleFlowControl.py:torched_DPFC.forward_sampling_Otto_true", "DeterministicParticleFlowControl/DeterministicParticleFlowControl.py:torched_DPFC.forward_sampling", "DeterministicParticleFlowControl/DeterministicParticleFlowControl.py:torched_DPFC.forward_sampling_Otto"]}
{"id": "C63", "title": "Scores, steps and control are bounded", "statement": "Estimated scores never blow up where the ensemble has spread: from N samples with lengthscale l_d and regularisation C every estimate in coordinate d is at most 2N/((C+0.001)|l_d|) in absolute value, at the samples and anywhere the score function is evaluated, and it varies between two points by at most that bound times the kernel distance; hence a deterministic forward step deviates from the drift step by at most N g^2/(4 sigma_d), a backward step by at most N g^2 (1/(2 sigma_x) + 1/(4 sigma_b)), and the interior control is at most 500 N (1/sigma_x + 1/sigma_b) at every query point.", "quantifier": "all samples, inducing points, lengthscales, regularisations, evaluation points, time steps (exact arithmetic)", "why_tests_cant": "a bound over every point of space and every sample set", "anchors": ["DeterministicParticleFlowControl/score_estimators/score_function_estimators.py:score_function_multid_seperate", "DeterministicParticleFlowControl/score_estimators/score_function_estimators.py:score_function_multid_seperate_all_dims", "DeterministicParticleFlowControl/DeterministicParticleFlowControl.py:DPFC.calculate_u", "DeterministicParticleFlowControl/DeterministicParticleFlowControl.py:DPFC.forward_sampling_Otto", "DeterministicParticleFlowControl/DeterministicParticleFlowControl.py:DPFC.backward_simulation"]}
{"id": "C64", "title": "Time grid in double precision", "statement": "In IEEE double arithmetic rounding neither adds nor drops a grid point: for finite t1, t2 with |t1|,|t2| <= 2^20 whose difference is within 0.499 steps of n steps the grid has n+1 points; all points are finite, strictly increasing, the first is t1, and point i is within (i+6) max(1,|t1|,|t2|) 2^-52 of t1 + i/1000; a grid that starts at 0 has point i within relative error 3*2^-53 of i/1000. The torch class has the same number of grid points for the same times; its points are finite and strictly increasing, the first is t1, and every point is within 5 max(1,|t1|,|t2|) 2^-52 of t1 + i/1000 whatever i is, hence within (i+11) max(1,|t1|,|t2|) 2^-52 of the numpy class's point i.", "quantifier": "all pairs of finite doubles up to 2^20 in magnitude, all grid points", "why_tests_cant": "rounding of every pair of doubles", "anchors": ["DeterministicParticleFlowControl/DeterministicParticleFlowControl.py:DPFC.__init__", "DeterministicParticleFlowControl/DeterministicParticleFlowControl.py:torched_DPFC.__init__"]}
{"id": "C65", "title": "A run is the only solution of its recurrences along one random stream", "statement": "A successful construction (both classes, both modes) consists of a forward flow, then (numpy, reweight and brown_bridge) the reference flow Ztr, then the time-reversed flow; each starts with the random generator exactly where the previous one left it, and every slice is obtained from its neighbour by the documented step. Given the constructor arguments, the grid and the generator state at the start, these recurrences have no other solution: Z, Ztr, B and the final generator state are determined, so a run is reproducible from its seed and nothing else (no hidden state, no value left over from another run) enters.", "quantifier": "all drifts, diffusions, constraints, sizes, modes, grids of at least two points and random streams for which construction succeeds (torch: no bridge)", "why_tests_cant": "uniqueness over all flows and chaining of the generator through every one of unboundedly many steps", "anchors": ["DeterministicParticleFlowControl/DeterministicParticleFlowControl.py:DPFC.__init__", "DeterministicParticleFlowControl/DeterministicParticleFlowControl.py:DPFC.forward_sampling_Otto", "DeterministicParticleFlowControl/DeterministicParticleFlowControl.py:DPFC.backward_simulation", "DeterministicParticleFlowControl/DeterministicParticleFlowControl.py:torched_DPFC.__init__"]}
{"id": "C66", "title": "Units and origins do not matter: a moved problem gives the moved run", "statement": "Describe the same control problem in coordinates x' = a*x + v (one unit a > 0, one offset per coordinate) and time t' = t + c, with drift and diffusion converted to the new unit and the constraint unchanged at corresponding points. Then construction consumes the random stream identically, raises the same exception or returns an object whose time grid, forward flow, reference flow and time-reversed flow are the converted ones; check_if_covered gives the same answer at converted points; and calculate_u returns exactly 1/a times the original control (same exception, same random draws), except at the interior indices of bridge mode, where C27 makes it depend on the origin. The same holds of torched_DPFC (outside deterministic bridge mode, where the torch class transposes the inducing points, C50; queries at points with one column per coordinate), there even with reweighting in any unit, since the torch class normalises the transport costs by their maximum.", "quantifier": "all drifts, diffusions, constraints, end points, grids, sizes, unit changes a > 0, offsets v and c and random streams, in exact arithmetic; unit changes with reweighting need an optimal-transport routine whose plan does not depend on the unit of cost (pure translations do not); stochastic mode up to dimension 2", "why_tests_cant": "ranges over all affine maps, all problems and all random streams, through every step of the run", "anchors": ["DeterministicParticleFlowControl/DeterministicParticleFlowControl.py:DPFC.__init__", "DeterministicParticleFlowControl/DeterministicParticleFlowControl.py:DPFC.calculate_u", "DeterministicParticleFlowControl/DeterministicParticleFlowControl.py:DPFC.check_if_covered", "DeterministicParticleFlowControl/score_estimators/score_function_estimators.py:score_function_multid_seperate", "DeterministicParticleFlowControl/reweighting/optimal_transport_reweighting.py:reweight_optimal_transport_multidim", "DeterministicParticleFlowControl/DeterministicParticleFlowControl.py:torched_DPFC.__init__", "DeterministicParticleFlowControl/DeterministicParticleFlowControl.py:torched_DPFC.calculate_u"]}
{"id": "C67", "title": "The forward flow does not look ahead", "statement": "The forward particles at a grid time depend only on what is known up to that time: two constructions (same class and mode, same start, sizes, options and seed) whose drift and path constraint agree at the grid times up to index m have identical forward particles at all indices up to m, whatever the horizon t2, the target y2, the bridge options, f_true, and the drift and constraint at later times are. In particular a run to a later t2 or another y2 extends the forward flow of the shorter run bit for bit (in numpy stochastic mode except at the last index, which is overwritten with the target).", "quantifier": "all pairs of problems agreeing up to an index, all number systems, random streams, sizes and indices for which both constructions succeed (torch: no bridge)", "why_tests_cant": "universal over pairs of problems, over all possible futures and over all prefixes of unboundedly long runs", "anchors": ["DeterministicParticleFlowControl/DeterministicParticleFlowControl.py:DPFC.__init__", "DeterministicParticleFlowControl/DeterministicParticleFlowControl.py:DPFC.forward_sampling_Otto", "DeterministicParticleFlowControl/DeterministicParticleFlowControl.py:DPFC.forward_sampling", "DeterministicParticleFlowControl/DeterministicParticleFlowControl.py:torched_DPFC.forward_sampling_Otto"]}
{"id": "C68", "title": "Constructing a well-posed torched_DPFC returns an object or raises ValueError, nothing else", "statement": "For the torch class with at least two coordinates, a drift and constraint returning arrays of the right shape and t1 <= t2, in every mode without bridge (and in stochastic mode always), the constructor either returns the object or raises ValueError (the empty sampling box); no other exception is possible when the matrix inverse works. Horizons of a single step always succeed. A single particle over two or more steps in deterministic mode always ends in ValueError. A control query at an interior index on a finished object answers exactly when the two flows together take two different values in every coordinate at that time, and otherwise raises ValueError without consuming a random number.", "quantifier": "all problems, particle numbers, dimensions >= 2, seeds, random streams, grids, query points and interior indices", "why_tests_cant": "the exception raised depends on the random positions of all particles at all times; a test sees single runs", "anchors": ["DeterministicParticleFlowControl/DeterministicParticleFlowControl.py:torched_DPFC.__init__", "DeterministicParticleFlowControl/DeterministicParticleFlowControl.py:torched_DPFC.forward_sampling_Otto", "DeterministicParticleFlowControl/DeterministicParticleFlowControl.py:torched_DPFC.backward_simulation", "DeterministicParticleFlowControl/DeterministicParticleFlowControl.py:torched_DPFC.calculate_u", "DeterministicParticleFlowControl/score_estimators/score_function_estimators_pytorch.py:torched_score_function_multid_seperate_all_dims"]}
{"id": "C69", "title": "Documented controlled simulation is Euler-Maruyama with the returned control; trajectories do not interact; the last state is undefined", "statement": "The simulation cell of the example notebook, applied to a finished DPFC object: when it returns, the three arrays have shape dim x reps x k, both ensembles start at y1, and every later slice is one Euler-Maruyama step of dX = (f(X) + g^2 u) dt + g dW (control calculate_u at grid index t on the states of index t-1) and of dX = f(X) dt + g dW, with the random numbers taken in program order. The example script differs: its loop leaves out the last grid time, so the state arrays have k-1 columns, the control array k with a last column of zeros, and it computes exactly the first k-1 columns of the notebook's result. A trajectory simulated together with others is the same as when simulated alone with its own noise columns. With a correct matrix inverse both simulations always run to the end. The control at the last index being undefined, every controlled trajectory of the notebook has an undefined last state, for every problem.", "quantifier": "all constructed objects, drifts of the right shape, numbers of trajectories, starting points, noise levels and random streams", "why_tests_cant": "all problems, ensembles and random streams; a test sees the plot of one run", "anchors": ["DeterministicParticleFlowControl/Bridge_2D_on_Limit_Cycle.ipynb", "DeterministicParticleFlowControl/DeterministicParticleFlowControl.py:DPFC.calculate_u", "notebooks/Stochastic_bridge_on_Limit_Cycle_2D/Bridge_2D_on_Limit_Cycle.py"]}
{"id": "C70", "title": "Particles are exchangeable: renumbering them changes nothing but their numbers", "statement": "In deterministic mode, with a drift, reference drift, constraint and noise amplitude that treat all particles alike: if the columns of the noise arrays are permuted (and the transport solver breaks ties in the correspondingly permuted way), the constructor raises the same exception or returns an object with the same time grid whose flows Z, B (and the reference flow) are the same trajectories with permuted particle numbers, leaving the generator in the same state; and every sequence of control and coverage queries gets exactly the same answers (over exact reals). Such a permuted environment exists for every environment and permutation and is as correct as the original one. The same holds for the PyTorch class in both modes (bridge mode: stochastic only), with its own transport solver.", "quantifier": "all problems, dimensions, particle numbers, permutations, random streams, with and without reweighting and bridge mode, all query sequences", "why_tests_cant": "all permutations, problems and random streams; a test permutes one ensemble", "anchors": ["DeterministicParticleFlowControl/DeterministicParticleFlowControl.py:DPFC.__init__", "DeterministicParticleFlowControl/DeterministicParticleFlowControl.py:DPFC.forward_sampling_Otto", "DeterministicParticleFlowControl/DeterministicParticleFlowControl.py:DPFC.backward_simulation", "DeterministicParticleFlowControl/DeterministicParticleFlowControl.py:DPFC.calculate_u", "DeterministicParticleFlowControl/DeterministicParticleFlowControl.py:DPFC.check_if_covered", "DeterministicParticleFlowControl/reweighting/optimal_transport_reweighting.py:reweight_optimal_transport_multidim"]}
{"id": "C71", "title": "What the periodic kernel really computes", "statement": "score_function_multid_seperate with kern='periodic' (over exact reals, correct matrix inverse, no sample sharing the chosen coordinate with an inducing point): with one coordinate and one lengthscale it never meets a singular matrix, both outputs are the periodic-kernel expansion minimising the regularised score-matching objective, and the function output has period 2*pi. With a list of lengthscales the kernel is negated: the estimator raises LinAlgError (which does happen) or returns the expansion at the unique stationary point of an objective whose penalty has the wrong sign and which can be unbounded below; the function output uses another kernel of the first two coordinates only with the opposite sign (with one inducing point: values of opposite sign to those on the samples) and raises IndexError for one-dimensional data. With one lengthscale for two coordinates the gradient is not that of the kernel: it can return a non-zero estimate where the best one is 0. If a sample shares the chosen coordinate with an inducing point, every number of either output is undefined (0/0).", "quantifier": "all samples, inducing points, dimensions, lengthscales, penalties and query points; the negative clauses are existential where they say 'can' or 'does happen'", "why_tests_cant": "for all data and query points; the sign error is invisible on the samples when the penalty is small", "anchors": ["DeterministicParticleFlowControl/score_estimators/score_function_estimators.py:score_function_multid_seperate"]}
{"id": "C72", "title": "The limit-cycle examples run to the end and solve the problem they describe", "statement": "script_1.py and the limit-cycle example script (over exact reals, correct matrix inverse, uniform draws that do not overflow), for any length of the simulation, start index, number of steps, particles and inducing points: they raise no exception; F is the Euler-Maruyama path of dX = f(X) dt + 0.1 dW from (0,-1) with f(x,y) = (-y + x(1-x^2-y^2), x + y(1-x^2-y^2)) and the displacements drawn in order; the bridge has steps+1 times on the grid of the simulation, both flows have shape 2 x N x (steps+1), Z and B start at the chosen point of the path and B ends at the point `steps` later. That script_1.py takes the start time at index 10 but the start point at index 100 changes nothing but the time labels. The drift handed to DPFC has the components of f for every particle of a matrix of points, at every time, and for a single point; the noise amplitude handed over is 0.1. The controlled simulation that follows runs to the end with the shapes and recurrences of C69. The function glnfss of script_1.py is the gradient of the log of a density that solves the stationary Fokker-Planck equation of the system, and with it as score the velocity f - sigma^2/2 * score of a flow particle is the pure rotation (-y, x). If each displacement is at most b(b^2-2)/1000 long for a b with 2 <= b^2 <= 1000/3, the whole simulated path stays within distance b of the origin.", "quantifier": "all simulation lengths, start indices, step counts, particle and inducing-point numbers, noise streams, points of the plane and noise amplitudes", "why_tests_cant": "all lengths, random streams and points; stationarity is a differential identity on the whole plane; the bound holds for paths of any length", "anchors": ["DeterministicParticleFlowControl/script_1.py:f", "DeterministicParticleFlowControl/script_1.py:glnfss", "notebooks/Stochastic_bridge_on_Limit_Cycle_2D/Bridge_2D_on_Limit_Cycle.py"]}
{"id": "C73", "title": "The Kuramoto class and script: flows of phases, control and simulation", "statement": "Class BRIDGE_ND_reweight and the script around it. For every drift, constraint, number system and random stream: if the constructor succeeds, Z starts from N draws around y1 with covariance g/2 times the identity, makes one Euler-Maruyama step and then deterministic steps x + dt (f - g^2/2 score), each new state is reduced modulo 2 pi and, with reweight=True, resampled by the transport plan from weights proportional to exp(U) (not scaled by dt); with k equal to the number of grid points B starts from the last column of Z, goes back with the score of Z one index earlier and its own score, one stochastic step first, and its first column is y1. k smaller than the grid makes the constructor fail; k larger makes B start from zeros. No kernel but 'RBF' survives three grid points. calculate_u is the difference of the two scores with the lengthscales of B. The simulation starts every repetition at y0 and follows the controlled and uncontrolled Euler-Maruyama recurrences with separate noise; the last grid point stays nan. Over exact reals with a correct inverse: the constructor and the whole script run to the end; every computed phase is in [0, 2 pi), every recorded order parameter is that of the recorded state and lies in [0,1]. Reduction modulo 2 pi changes neither drift nor order parameter. Reweighting averages phases as plain numbers: rotating the coordinates by pi/4 does not rotate the reweighted ensemble (negative). check_if_covered is true exactly if every coordinate of the point lies within the ranges of both ensembles at that index. The script builds the object with the constraint and its reweighting switched on, on 501 grid points, and simulates with it.", "quantifier": "all drifts, constraints, parameters, random streams, particle, inducing-point, oscillator and repetition numbers; all optimal transport solvers for the negative result", "why_tests_cant": "all parameters and random streams; the recurrences hold at every step of runs of any length", "anchors": ["notebooks/Kuramoto_synchronisation/systematic_multi_N_kuramoto_inhomogeneous_for_cluster.py:BRIDGE_ND_reweight", "notebooks/Kuramoto_synchronisation/systematic_multi_N_kuramoto_inhomogeneous_for_cluster.py:forward_sampling_Otto", "notebooks/Kuramoto_synchronisation/systematic_multi_N_kuramoto_inhomogeneous_for_cluster.py:backward_simulation", "notebooks/Kuramoto_synchronisation/systematic_multi_N_kuramoto_inhomogeneous_for_cluster.py:calculate_u", "notebooks/Kuramoto_synchronisation/systematic_multi_N_kuramoto_inhomogeneous_for_cluster.py"]}
{"id": "C74", "title": "The Kuramoto oscillators: order parameter, constraint, drift, frequencies", "statement": "Over exact reals and for any number of oscillators: R_t(x) is the modulus of the mean of exp(i x_j); it lies in [0,1], is 1 exactly when all phases agree modulo 2 pi, and does not change when all phases are shifted by a constant or by multiples of 2 pi. U gives one exponent per particle, R-1, between -1 and 0, so the weights of one reweighting lie between 1/(eN) and e/N. f is the Kuramoto field w_j + K/n sum_i sin(x_i - x_j), particle by particle (ValueError for a wrong number of oscillators); it equals w_j + K R sin(psi - x_j) for a mean phase psi, its coupling terms cancel in the sum, it depends only on phase differences modulo 2 pi, and equals w at synchronised states. The frequencies are freq for the first round(dim/2) (half to even) oscillators and -freq for the rest; for an even number they cancel, and the drift then conserves the mean phase.", "quantifier": "all numbers of oscillators, phases, couplings and frequencies", "why_tests_cant": "identities of real trigonometric sums for every n and every state", "anchors": ["notebooks/Kuramoto_synchronisation/systematic_multi_N_kuramoto_inhomogeneous_for_cluster.py:R_t", "notebooks/Kuramoto_synchronisation/systematic_multi_N_kuramoto_inhomogeneous_for_cluster.py:U", "notebooks/Kuramoto_synchronisation/systematic_multi_N_kuramoto_inhomogeneous_for_cluster.py:f", "notebooks/Kuramoto_synchronisation/systematic_multi_N_kuramoto_inhomogeneous_for_cluster.py:ws"]}
{"id": "C75", "title": "The two-dimensional systems of the figures: drifts, their potentials and derivatives", "statement": "Over exact reals. Conservative figure: f is minus the gradient of b (y - x^2)^2 + (1 - x)^2, for b > 0 its only equilibrium is (1,1); U_path of an ensemble is, particle by particle, minus the squared distance of the second coordinate from the target's. Cell-differentiation figure: f is the field of two genes, each activating itself and repressing the other by Hill functions with exponent 4 and half-saturation 1/2; it is symmetric under exchange of the genes, has no potential, vanishes at the target (1,1), is smaller than 1/10000 at the start (1.996, 0.004), and its noiseless Euler steps of length at most 1 keep the square [0,2]^2. gradfs has the right off-diagonal entries, but its diagonal entries (and hence divf) are right exactly on the lines where the coordinate is 0 or has fourth power 15/16; at the target divf is -2 instead of -2 + 128/289, and the linearisation used for the Gaussian approximation has diagonal -1 instead of 64/289 - 1 (negative). flin is, for every target, the affine function with the value of f at the target and the slopes of gradfs, and m_t is its Euler sequence with step 0.001; Uc is |f|^2/(2 sigma^2) + divf/2, and -1 at the target for every sigma; f1 is the drift of the Brownian bridge: straight lines that arrive at the target at T solve it, one Euler step over the remaining time lands on the target from everywhere, and at T it is 0.", "quantifier": "all points of the plane, all positive parameters, all step lengths up to 1, all ensembles", "why_tests_cant": "identities and inequalities of rational functions at every point of the plane; non-existence of any potential", "anchors": ["DeterministicParticleFlowControl/data/scripts_for_plots/conservative_system_2D/plot_2d_evolutionary_UPDATED-fig2-of-paper-nmore.py:f", "DeterministicParticleFlowControl/data/scripts_for_plots/conservative_system_2D/plot_2d_evolutionary_UPDATED-fig2-of-paper-nmore.py:U_path", "DeterministicParticleFlowControl/data/scripts_for_plots/nonconservative_system_2D/plot_c_elegans_differentiation_2D_systematic.py:f", "DeterministicParticleFlowControl/data/scripts_for_plots/nonconservative_system_2D/plot_c_elegans_differentiation_2D_systematic.py:divf", "DeterministicParticleFlowControl/data/scripts_for_plots/nonconservative_system_2D/plot_c_elegans_differentiation_2D_systematic.py:gradfs", "DeterministicParticleFlowControl/data/scripts_for_plots/nonconservative_system_2D/plot_c_elegans_differentiation_2D_systematic.py:flin", "DeterministicParticleFlowControl/data/scripts_for_plots/nonconservative_system_2D/plot_c_elegans_differentiation_2D_systematic.py:Uc", "DeterministicParticleFlowControl/data/scripts_for_plots/nonconservative_system_2D/plot_c_elegans_differentiation_2D_systematic.py:f1"]}
{"id": "C76", "title": "Gaussian approximations and the mis-specified noise experiment", "statement": "Over exact reals with a correct matrix inverse. grad_log_p of an ensemble is, at every particle, the gradient of the log density of the Gaussian with the given mean and covariance (cell-differentiation script), or with covariance + 0.0001 identity, for which every covariance matrix is accepted (phenotype script). The covariance recursion flin_var, and f_var of the phenotype script, are the rates at which the covariance of the Euler-Maruyama scheme of a linear equation changes; but f_var's parameter shadows the matrix C, so its linear equation has the state-dependent matrix -2 K P instead of the drift's -2 K C: the covariance diag(1/8, 1/16) at which the ensemble of the simulated equation is at rest is not one of f_var, and f_var's own rest point diag(1/2,1/2) is not one of the ensemble (negative). With the mis-specified (diagonal) noise on one side and the true noise on the other, the rate is a symmetric matrix only if the true noise has no off-diagonal part or equal diagonal noise (negative). The control is the difference of the backward and the forward Gaussian score multiplied by the noise matrix. The simulation runs both ensembles from y1 through the Euler-Maruyama recurrence with their own controls and separate noise and consumes exactly two draws per step. The matrix A of the cell-differentiation script is the linear part of its linearised drift, so that its covariance recursion is the one of this drift's Euler-Maruyama ensemble.", "quantifier": "all noise matrices, means, covariances, ensembles, grids, numbers of repetitions and random streams", "why_tests_cant": "derivatives and matrix identities for all matrices; the recurrence holds at every step of runs of any length", "anchors": ["DeterministicParticleFlowControl/data/scripts_for_plots/nonconservative_system_2D/plot_c_elegans_differentiation_2D_systematic.py:grad_log_p_Gauss", "DeterministicParticleFlowControl/data/scripts_for_plots/nonconservative_system_2D/plot_c_elegans_differentiation_2D_systematic.py:flin_var", "DeterministicParticleFlowControl/data/scripts_for_plots/evolutionary_process/gaussian_phenotype_compute_theoretical.py:grad_log_p", "DeterministicParticleFlowControl/data/scripts_for_plots/evolutionary_process/gaussian_phenotype_compute_theoretical.py:f_var", "DeterministicParticleFlowControl/data/scripts_for_plots/evolutionary_process/gaussian_phenotype_compute_theoretical.py:f", "DeterministicParticleFlowControl/data/scripts_for_plots/evolutionary_process/gaussian_phenotype_compute_theoretical.py:u"]}
{"id": "C77", "title": "The class and the controlled simulation of the cell-differentiation figure", "statement": "In the plane, with the Gaussian kernel, a scalar noise amplitude and no path constraint, over exact reals. If the constructor succeeds, the grid has at least two points; Z starts at y1, makes one noisy and then deterministic steps, exactly as the package's class with the same random numbers; B is made of trajectories that start at y2, end at y1 and go back with the score of Z one index EARLIER than the package's class uses; with reject=False all N trajectories are kept, with reject=True exactly those (in order) whose first coordinate at the second grid point is strictly closer than 4 g^2 sqrt(dt) to y1 + f(y1) dt: the second coordinate is never tested (the source tests the first one twice), and without noise every trajectory is discarded, after which every calculate_u fails with ValueError. Under the package's conditions and with a correct inverse the constructor succeeds. reweight=True never succeeds (undefined name). calculate_u is the difference of two scores learned by score matching from the backward and the forward particles on common inducing points inside both ranges, both with the lengthscales of the BACKWARD particles; it answers whenever both ensembles are non-empty. The simulation follows the controlled and the uncontrolled Euler-Maruyama recurrences from y1, with separate noise; at the last four grid points the Gaussian score, indexed from the end, replaces calculate_u; it runs to the end when trajectories are left. check_if_covered is true exactly if every coordinate of the point lies within the ranges of both ensembles at that index, and fails with ValueError when every trajectory was discarded.", "quantifier": "all drifts, amplitudes, end points, particle and inducing-point numbers, random streams, query points and grid indices", "why_tests_cant": "all parameters and random streams; the recurrences hold at every step of runs of any length", "anchors": ["DeterministicParticleFlowControl/data/scripts_for_plots/nonconservative_system_2D/plot_c_elegans_differentiation_2D_systematic.py:BRIDGE_ND_reweight", "DeterministicParticleFlowControl/data/scripts_for_plots/nonconservative_system_2D/plot_c_elegans_differentiation_2D_systematic.py:forward_sampling_Otto", "DeterministicParticleFlowControl/data/scripts_for_plots/nonconservative_system_2D/plot_c_elegans_differentiation_2D_systematic.py:backward_simulation", "DeterministicParticleFlowControl/data/scripts_for_plots/nonconservative_system_2D/plot_c_elegans_differentiation_2D_systematic.py:reject_trajectories", "DeterministicParticleFlowControl/data/scripts_for_plots/nonconservative_system_2D/plot_c_elegans_differentiation_2D_systematic.py:calculate_u", "DeterministicParticleFlowControl/data/scripts_for_plots/nonconservative_system_2D/plot_c_elegans_differentiation_2D_systematic.py"]}
{"id": "C78", "title": "The PICE training of the cell-differentiation figure", "statement": "Over exact reals, with a correct pseudo-inverse, at least one path, one grid point and two iterations, and at most sixteen features, the training of the comparison method ends without an error, whatever the drift of the plane, the noise and the targets. It is a sequence of at most max_iter-1 simulations, all from y1, with fresh noise: in each one the control is a linear combination of the features (monomials in the two coordinates) with coefficients depending on coordinate and time; the paths get positive weights that sum to one, proportional to exp(-cost), cost = control energy + stochastic integral of the control + end cost; and unless the mean end point is within 0.01 of the target in both coordinates, in which case it stops, each coefficient vector changes by the weighted least squares fit of least norm of eta*noise/dt. The first simulation is uncontrolled; at the first grid point the control changes by eta times the weighted mean of the noise per unit of time (the path integral formula); the coefficients of the last grid point stay zero; each end weight is a power of 5/4 and grows at most once in 51 iterations, not before iteration 51, only when the mean end point has moved by less than 0.049 in fifty iterations. The first eleven features (the script uses six) are linearly independent; from twelve on the coefficients are not determined, because features 10, 11 and 14, 15 coincide.", "quantifier": "all drifts, noise amplitudes, learning rates, targets, grids, numbers of paths, features and iterations, random streams and pseudo-inverses that meet the contract", "why_tests_cant": "the history of a training of any length; least squares optimality against all coefficient vectors", "anchors": ["DeterministicParticleFlowControl/data/scripts_for_plots/nonconservative_system_2D/plot_c_elegans_differentiation_2D_systematic.py:bas", "DeterministicParticleFlowControl/data/scripts_for_plots/nonconservative_system_2D/plot_c_elegans_differentiation_2D_systematic.py:uf_pice", "DeterministicParticleFlowControl/data/scripts_for_plots/nonconservative_system_2D/plot_c_elegans_differentiation_2D_systematic.py:phi", "DeterministicParticleFlowControl/data/scripts_for_plots/nonconservative_system_2D/plot_c_elegans_differentiation_2D_systematic.py:phi2", "DeterministicParticleFlowControl/data/scripts_for_plots/nonconservative_system_2D/plot_c_elegans_differentiation_2D_systematic.py"]}
{"id": "C79", "title": "What the PICE comparison weighs, deploys and plots", "statement": "Over exact reals. On every simulated path of the training, exp(-cost) times the density of the path under the controlled dynamics equals the density under the uncontrolled dynamics times exp(-end cost) times exp((1-sigma) sum u.W): the weights are the importance weights of the method exactly if sigma = 1 or the stochastic integral vanishes; the script also uses sigma = 0.75, 1.25, 1.5 (negative). The end cost is symmetric in the two coordinates; for a target on the diagonal (the script: (1,1)) and positive weights it vanishes at the target only, for any other target and equal weights every point of the square spanned by the two target coordinates has the least cost (negative). The simulation with the trained coefficients follows the Euler-Maruyama recurrence from y1 with the control multiplied by g^2, records the control from index 1 on and draws once per step: it is the training dynamics for g times the trained policy, not for the trained policy (negative for g other than 1). The plotted control number is the squared sum of the control norms over the number of steps: at most the sum of the squared norms, with equality only if the norm is constant, hence, because the record starts with zero, only if no control was used; the other number is the distance of the end point to the target.", "quantifier": "all drifts, amplitudes, policies, paths, targets, weights, grids, numbers of repetitions and random streams", "why_tests_cant": "identities and inequalities for all real paths, policies and lengths", "anchors": ["DeterministicParticleFlowControl/data/scripts_for_plots/nonconservative_system_2D/plot_c_elegans_differentiation_2D_systematic.py:phi", "DeterministicParticleFlowControl/data/scripts_for_plots/nonconservative_system_2D/plot_c_elegans_differentiation_2D_systematic.py:phi2", "DeterministicParticleFlowControl/data/scripts_for_plots/nonconservative_system_2D/plot_c_elegans_differentiation_2D_systematic.py:uf_pice", "DeterministicParticleFlowControl/data/scripts_for_plots/nonconservative_system_2D/plot_c_elegans_differentiation_2D_systematic.py"]}
{"id": "C80", "title": "Importance weights in double precision", "statement": "In IEEE binary64, with any correctly rounded summation (any order and association) and any exp with the usual guarantees: if the exponents of the N particles are numbers, the weights handed to the transport solver are either proper (each finite and in [0,1], adding up to 1 within N*2^-50), or all NaN (exactly when every exponential underflows to zero), or 0/NaN (when the sum of exponentials overflows). If every exponent is at most -760 all weights are NaN: a constraint below -760000 everywhere (times dt = 0.001) breaks the run, since no maximum is subtracted before exponentiating. If all exponents lie in [-600, 600], each weight agrees with the exact softmax weight to a relative error of (4N+14)*2^-53. All this holds for the weights of every step of a whole run, in both classes and both modes: every reweighted slice is the moved ensemble pushed through the plan of such weights (exponents U*0.001 in the deterministic mode, U in the stochastic one). Nothing is raised when the weights are NaN: the construction completes.", "quantifier": "all particle numbers up to 2^51 (2^30 for the accuracy), exponents, exp functions and summation orders within the contracts, problems, random streams, transport solvers", "why_tests_cant": "holds for every exponent pattern, every summation order and every exp implementation; rounding errors of particular cases do not bound the others", "anchors": ["DeterministicParticleFlowControl/DeterministicParticleFlowControl.py:DPFC.forward_sampling_Otto", "DeterministicParticleFlowControl/DeterministicParticleFlowControl.py:DPFC.forward_sampling", "DeterministicParticleFlowControl/DeterministicParticleFlowControl.py:torched_DPFC.forward_sampling_Otto", "DeterministicParticleFlowControl/DeterministicParticleFlowControl.py:torched_DPFC.forward_sampling"]}
{"id": "C81", "title": "Queries in double precision", "statement": "In IEEE binary64, check_if_covered of the numpy class reports a point as covered exactly when in every coordinate the forward flow has no NaN and its range contains the point, and the range of the time reversed flow contains the point or that flow has a NaN (Python's max/min ignore a NaN in second position; a NaN query point is never covered); the torch class likewise with the hull of the two ranges, and the range of the forward flow alone if the time reversed flow has a NaN. At the first grid point of a deterministic run the control is 0 or NaN in every entry, and NaN in every entry of a coordinate of y1 with few significant bits (|m|*N <= 2^53 for y1_d = m*2^e, e.g. any integer below 2^53/N), whatever the query point; at the last grid point it is infinite or NaN in every entry of such a coordinate of y2.", "quantifier": "all problems, random streams, flows, query points (infinities and NaN included), summation orders", "why_tests_cant": "all doubles including NaN and infinities, all summation orders and query points", "anchors": ["DeterministicParticleFlowControl/DeterministicParticleFlowControl.py:DPFC.check_if_covered", "DeterministicParticleFlowControl/DeterministicParticleFlowControl.py:torched_DPFC.check_if_covered", "DeterministicParticleFlowControl/DeterministicParticleFlowControl.py:DPFC.calculate_u"]}
{"id": "C82", "title": "RBF kernels in double precision", "statement": "In IEEE binary64 the kernel matrices of the three numpy score estimators are symmetric to the last bit: exchanging the two point sets transposes the matrix, for all doubles (NaN and infinities included), every exp and every summation order. With finite points and lengthscales between 2^-500 and 2^500 in absolute value every entry is finite and in [0,1], and exactly 1.0 for coinciding points. A lengthscale of at most 2^-540 (e.g. 0.0, the lengthscale of an ensemble without spread) makes the entry NaN for points that coincide in that coordinate, in particular the whole diagonal of the matrix of the inducing points. For coordinates up to 10^4, lengthscales between 10^-6 and 10^4, at most 1000 dimensions and an exact exponent V = sum_d (x_d-y_d)^2/(2 l_d^2) of at most 590, every entry is exp(-V) up to a relative error of 48 (D+1) (V+1) 2^-53. The torch kernel with signal variance 1.0 has the same symmetry, the same values and the same accuracy.", "quantifier": "all point sets, dimensions, lengthscales, summation orders, exp functions within the contract", "why_tests_cant": "all doubles, all summation orders", "anchors": ["DeterministicParticleFlowControl/score_estimators/score_function_estimators.py:score_function_multid_seperate (K)", "DeterministicParticleFlowControl/score_estimators/score_function_estimators.py:score_function_multid_seperate_all_dims (K)", "DeterministicParticleFlowControl/score_estimators/score_function_estimators.py:score_function_multid_seperate_old (K)", "DeterministicParticleFlowControl/kernels/RBF_pytorch.py:RBF.Kernel"]}
{"id": "C83", "title": "NaN in double-precision runs", "statement": "In IEEE binary64, for every callables, generator and linear solver: (1) if some coordinate d of some particle of the time-reversed or of the forward flow is NaN at a grid point, calculate_u at this grid point is NaN in component d for every query point. (2) np.random.uniform raises unless high-low is finite; hence in the deterministic mode every coordinate of every forward particle of a returned object is finite at all inner grid points (the unweighted flow of a bridge problem too), and in both modes no forward particle is NaN from the third grid point on: a NaN or infinity in the forward flow stops the construction instead of being returned. (3) Not so for the time-reversed flow: a NaN coordinate of a time-reversed particle makes all coordinates of this particle NaN at every earlier inner grid point, and in the deterministic mode all particles, without any exception (so a number at one grid point certifies numbers at all later ones). (4) deterministic=False: when a coordinate of y2 is an ordinary number, every time-reversed particle is NaN at every inner grid point, and calculate_u returns no finite number at any grid point for any query point. (5) One NaN value of the drift at the last grid point (for instance the 0/0 of a Brownian-bridge drift (y2-x)/(T-t), since the time-reversed flow starts at y2 and evaluates the drift at T) makes, in the deterministic mode, every time-reversed particle NaN at every inner grid point but the last one and calculate_u NaN there, without any exception. (6) torched_DPFC: the same NaN contagion, the same control and the same terminal-drift failure; torch's Uniform raises ValueError unless low<high, hence the forward particles of a returned deterministic run contain no NaN and are not all equal in any coordinate at any inner grid point, and in both modes they contain no NaN from the third grid point on.", "quantifier": "all problems, sizes, callables, generators and solvers within the contracts, all query points and time indices", "why_tests_cant": "all doubles, all histories of a run", "anchors": ["DeterministicParticleFlowControl/DeterministicParticleFlowControl.py:DPFC.forward_sampling_Otto", "DeterministicParticleFlowControl/DeterministicParticleFlowControl.py:DPFC.forward_sampling", "DeterministicParticleFlowControl/DeterministicParticleFlowControl.py:DPFC.backward_simulation", "DeterministicParticleFlowControl/DeterministicParticleFlowControl.py:DPFC.density_estimation", "DeterministicParticleFlowControl/DeterministicParticleFlowControl.py:DPFC.calculate_u", "DeterministicParticleFlowControl/DeterministicParticleFlowControl.py:torched_DPFC.forward_sampling_Otto", "DeterministicParticleFlowControl/DeterministicParticleFlowControl.py:torched_DPFC.backward_simulation", "DeterministicParticleFlowControl/DeterministicParticleFlowControl.py:torched_DPFC.calculate_u"]}
{"id": "C84", "title": "Accuracy of the control near the ends in double precision", "statement": "Binary64. At the first six and the last five grid indices (and negative indices), for an object of DPFC with N particles (2 <= N <= 10^6): take a coordinate d whose values in the time-reversed and in the forward flow are finite and at most Xb, Xa in size (10^-6 <= Xb, Xa <= 5000), with exact variances var_b, var_a >= 10^-12 and N X^2 <= 10^14 var (so that the spread is visible at this offset). Then for every point x with |x_d| <= 10^4 component d of calculate_u is a finite number within 17 N 2^-53 ((|x_d|+Xb)/var_b + (|x_d|+Xa)/var_a) of the exact difference of the two Gaussian scores -(x_d - mean_b)/var_b + (x_d - mean_a)/var_a. The same for torched_DPFC with the N-1 variance. No restriction on exp, on the summation order of numpy/torch, or on how the flows arose.", "quantifier": "all objects with consistent flows (every constructed object is one), all grid sizes and indices near the ends, all batches of points, all ensembles that satisfy the conditioning bound, every order of summation", "why_tests_cant": "the bound is over all ensembles and summation orders; tests see a handful of float values", "anchors": ["DeterministicParticleFlowControl/DeterministicParticleFlowControl.py:DPFC.calculate_u", "DeterministicParticleFlowControl/DeterministicParticleFlowControl.py:torched_DPFC.calculate_u"]}
{"id": "C85", "title": "Rounding error of every step of the flows in double precision", "statement": "Binary64, step width 0.001 (itself not a double). For every constructed object of either class and every stored step of the forward, the unweighted bridge and the time-reversed flow: a stored coordinate is finite only if the previous position, the drift value, the diffusion value and (where they occur) the score and noise values it was computed from are finite; and if these are at most 10^6 in size (the diffusion at most 500) the stored double is finite and within 2^-50 A + 10^-20 of the exact Euler-Maruyama or flow step x + f/1000 + gW, x + (f - g^2 s/2)/1000, x - f/1000 + g^2 s/1000 + gW, x - (f - g^2 s_z + g^2 s_b/2)/1000 from the stored previous position, A being the sum of the absolute values of the exact terms. Reweighting moves a particle to the exact N sum_m y_m plan(m,n) up to 2(N+4)2^-53 N sum_m |y_m plan(m,n)| + 10^-10 for every order of summation (up to 10^6 particles, coordinates up to 10^5, plan entries up to 1), and the moved coordinate is finite only if that coordinate of all particles and the whole plan column are. Hence an infinity or NaN never heals: a finite coordinate of a time-reversed particle was finite at all later grid points.", "quantifier": "all problems, sizes, callables, generators, solvers and orders of summation, both classes, both modes, all steps, particles and coordinates", "why_tests_cant": "the bound is over all doubles, problems and summation orders", "anchors": ["DeterministicParticleFlowControl/DeterministicParticleFlowControl.py:DPFC.forward_sampling_Otto", "DeterministicParticleFlowControl/DeterministicParticleFlowControl.py:DPFC.forward_sampling_Otto_true", "DeterministicParticleFlowControl/DeterministicParticleFlowControl.py:DPFC.forward_sampling", "DeterministicParticleFlowControl/DeterministicParticleFlowControl.py:DPFC.backward_simulation", "DeterministicParticleFlowControl/DeterministicParticleFlowControl.py:torched_DPFC.forward_sampling_Otto", "DeterministicParticleFlowControl/DeterministicParticleFlowControl.py:torched_DPFC.forward_sampling", "DeterministicParticleFlowControl/DeterministicParticleFlowControl.py:torched_DPFC.backward_simulation", "DeterministicParticleFlowControl/reweighting/optimal_transport_reweighting.py:reweight_optimal_transport_multidim"]}
{"id": "C86", "title": "Stochastic mode in double precision follows the run in exact arithmetic", "statement": "Binary64, both classes, deterministic=False, reweight=False. Compare the constructed object with one constructed for the same data in exact real arithmetic whose generator passes through the same states and draws the same normals up to eps (at most Om in size). If the exact drift is Lipschitz with constant L (maximum norm) and the double-precision drift evaluates it with error at most delta (values at most Phi in size), the diffusion is the same (at most G) and the exact run stays within [-X, X], then at grid point t every coordinate of every particle is a finite double within t rho exp(L t/1000) of the exact one, where rho = delta/1000 + G eps + 2^-50 (X + 1 + Phi/1000 + G Om) + 10^-20, as long as this bound at the end of the run is at most 1. So rounding is not amplified by more than the flow of the drift, whatever the number of steps and particles.", "quantifier": "all problems, drifts, generators, sizes, numbers of steps, particles and coordinates", "why_tests_cant": "the bound is over all drifts, noise sequences and run lengths", "anchors": ["DeterministicParticleFlowControl/DeterministicParticleFlowControl.py:DPFC.forward_sampling", "DeterministicParticleFlowControl/DeterministicParticleFlowControl.py:torched_DPFC.forward_sampling", "DeterministicParticleFlowControl/DeterministicParticleFlowControl.py:DPFC.__init__", "DeterministicParticleFlowControl/DeterministicParticleFlowControl.py:torched_DPFC.__init__"]}
{"id": "C87", "title": "Near the ends the control is a linear feedback", "statement": "At the first six and last five grid indices (and negative indices), wherever both flows have spread in a coordinate (means mb, mz and variances vb, vz of the time-reversed and the forward flow), that coordinate of calculate_u is, over all query points, a linear feedback in that coordinate alone: if vb < vz it pulls towards one point (vz mb - vb mz)/(vz - vb), which lies at or beyond mb seen from mz, with gain 1/vb - 1/vz > 0; if vb > vz it pushes away from that point, which lies at or beyond mz seen from mb, with gain 1/vz - 1/vb; if vb = vz it is the constant (mb - mz)/vb. Averaged over points whose mean is mz (such as the forward particles) it is (mb - mz)/vb, over points whose mean is mb (the time-reversed particles) (mb - mz)/vz. In torched_DPFC the same feedback times (N-1)/N. In the documented controlled simulation the difference of two trajectories is at such a step multiplied by 1 - dt g^2 (1/vb - 1/vz), apart from the differences of their drifts and noises.", "quantifier": "all objects, flows with spread, window indices, query points, and steps of controlled simulations", "why_tests_cant": "holds for every ensemble and every query point", "anchors": ["DeterministicParticleFlowControl/DeterministicParticleFlowControl.py:DPFC.calculate_u", "DeterministicParticleFlowControl/DeterministicParticleFlowControl.py:torched_DPFC.calculate_u", "DeterministicParticleFlowControl/Bridge_2D_on_Limit_Cycle.ipynb"]}
{"id": "C88", "title": "The double-well system of the figures", "statement": "Over exact reals. The drift of the double-well scripts is, particle by particle, minus the derivative of their potential V; V has exactly two wells, at -1 and 1, of depth 1, and a barrier at 0 of height 0; the drift vanishes at these three points only and both are symmetric. Without noise and control no particle changes wells: Euler steps of any length up to 1/15 from anywhere in (0, 3/2] (or [-3/2, 0)) stay between the start and the bottom of the well, never overshoot it and approach it exponentially, with factor 1 - 4 h m (m+1), m = min(|x0|,1), per step. For any end points a, b, diffusion g, N >= 1 particles and t1 <= t2 DPFC constructs the one-dimensional bridge, with flows of the right shapes pinned at a and b.", "quantifier": "all points, step lengths up to 1/15, starting points, numbers of steps; all end points, intervals and ensemble sizes", "why_tests_cant": "inequalities at every point and for every number of steps", "anchors": ["DeterministicParticleFlowControl/data/scripts_for_plots/double-well/plot_extreme_double_well.py:f", "DeterministicParticleFlowControl/data/scripts_for_plots/double-well/plot_extreme_double_well.py:V", "DeterministicParticleFlowControl/data/scripts_for_plots/double-well/plot_non_extreme_double_well.py:f", "DeterministicParticleFlowControl/data/scripts_for_plots/double-well/plot_non_extreme_double_well.py:V", "DeterministicParticleFlowControl/DeterministicParticleFlowControl.py:DPFC.__init__"]}
{"id": "C89", "title": "Stochastic mode: nearby problems have nearby forward flows", "statement": "Exact reals, deterministic=False, no reweighting. Construct two objects from the same generator state, with the same number of particles, dimensions and grid points and equal diffusions. If the starting coordinates differ by at most delta and the drifts at points at distance e (maximum norm) differ by at most L e + eta (a Lipschitz drift and one that is within eta of it), then after t steps every coordinate of every forward particle differs by at most (delta + t eta/1000) exp(L t/1000): at every slice but the pinned last one in the numpy class, at every slice in the torch class. So errors in the data do not blow up faster than the drift expands distances.", "quantifier": "all pairs of problems, environments, generator states, particles and steps", "why_tests_cant": "all perturbations, all noise realisations, every number of steps", "anchors": ["DeterministicParticleFlowControl/DeterministicParticleFlowControl.py:DPFC.forward_sampling", "DeterministicParticleFlowControl/DeterministicParticleFlowControl.py:torched_DPFC.forward_sampling"]}
{"id": "C90", "title": "Stochastic mode: pulling drifts forget the start, order-preserving drifts keep the flows ordered", "statement": "Exact reals, deterministic=False, no reweighting; two objects constructed from the same generator state, with the same number of particles, dimensions and grid points and equal diffusions. (1) If every component of the drift pulls back its own coordinate at some rate c with lam <= c <= 2000-lam (0 < lam <= 1000; the rate may depend on the points) up to an error eta, and the starting coordinates differ by at most delta, then after t steps every coordinate of every forward particle differs by at most (1-lam/1000)^t delta + eta/lam: the start is forgotten geometrically and an error of the drift does not accumulate. (2) If one start is coordinatewise below the other and an Euler step of 1/1000 does not carry ordered points past each other, the forward particles stay ordered at every step. Both at every slice but the pinned last one in the numpy class, at every slice in the torch class.", "quantifier": "all pairs of problems, environments, generator states, particles and steps", "why_tests_cant": "all perturbations, all noise realisations, every number of steps", "anchors": ["DeterministicParticleFlowControl/DeterministicParticleFlowControl.py:DPFC.forward_sampling", "DeterministicParticleFlowControl/DeterministicParticleFlowControl.py:torched_DPFC.forward_sampling"]}
