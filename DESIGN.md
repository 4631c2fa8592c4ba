# Formal model of DeterministicParticleFlowControl (Rocq / Coq 8.16.1)

## 1. What is modelled

| /repo file | model |
|---|---|
| `DeterministicParticleFlowControl/DeterministicParticleFlowControl.py`, class `DPFC` | `Model/DPFC.v` |
| same file, class `torched_DPFC` | `Model/TDPFC.v` |
| `score_estimators/score_function_estimators.py` (my_cdist, the three estimators, RBF and periodic kernels) | `Model/Cdist.v`, `Model/Score.v` |
| `score_estimators/score.py` | `Model/Score.v` |
| `score_estimators/score_function_estimators_pytorch.py`, `kernels/RBF_pytorch.py` | `Model/ScoreTorch.v` |
| `reweighting/optimal_transport_reweighting.py` | `Model/Reweight.v` |
| import statements of all package modules | `Model/Imports.v` |
| `Bridge_2D_on_Limit_Cycle.ipynb` and `.py`, the cell simulating the controlled system | `Model/Controlled.v` |
| `script_1.py`, `Bridge_2D_on_Limit_Cycle.py`: drift, simulation, choice of the end points, call of DPFC, `glnfss` | `Model/LimitCycle.v` |
| `notebooks/Kuramoto_synchronisation/systematic_multi_N_kuramoto_inhomogeneous_for_cluster.py`: class BRIDGE_ND_reweight (without forward_sampling and reject_trajectories, never called), R_t, U, f, ws, simulation | `Model/Kuramoto.v` |
| `data/scripts_for_plots/`: drifts, divergences, Gaussian approximations and simulation of the conservative, cell-differentiation and phenotype figures | `Model/Examples.v` |
| `data/scripts_for_plots/double-well/`: drift and potential | `Model/DoubleWell.v` |
| `.../nonconservative_system_2D/plot_c_elegans_differentiation_2D_systematic.py`: class BRIDGE_ND_reweight (with reject_trajectories, without the unused forward_sampling) and the controlled simulation | `Model/CellFate.v` |
| the same script: the PICE comparison (features, training, simulation, the two plotted numbers; not the plots) | `Model/Pice.v` |

Every definition in `Model/` carries the file and line numbers it models and says where it simplifies.

Not modelled: plot contents (only the `IndexError` that drawing a one-coordinate ensemble raises, `plot_guard`), logging,
time measurement, duecredit, `version.py`, `setup.py`, the other notebook cells, the rest of `data/` and `notebooks/*/analyse_*.py` (plotting of stored results; the App_fig Kuramoto copies repeat the modelled script), `docs/`, the `tests/` copies, device
placement, dtypes (float32 torch tensors, integer arrays), autograd (`requires_grad`), numba's `fastmath` reassociation, BLAS
reduction order beyond "some function of the list of summands", y1/y2 that are not one-dimensional, flags that are not bool, and
Python features a caller could use to subvert the object (mutation of attributes, callables with side effects: user callables
are pure functions in the model). In the torch class a Python list of lengthscales and a tensor are distinguished; numpy
arrays passed where tensors are required are modelled only for y1 (C52).

## 2. How it is modelled

* **Number system** (`Base/Num.v`): every function is written over an abstract class `NumOps T` (operations +,-,*,/,sqrt,exp,
  sin,cos, comparisons, min/max, reductions `nsum`, decimal literals, ceil). No law is assumed. Theorems about *structure*
  (boundary conditions, recurrences, shapes, exceptions, draw counts, dispatch, non-interference) are proved for every `T`,
  hence in particular for IEEE doubles with whatever summation order. Theorems about *values* are proved for the instance
  `T = R` (Coq's reals; `Lib/RBase.v`): they idealise rounding, overflow and nan. Over `R`, `x/0 = 0`, so statements whose
  floating-point counterpart is nan (zero lengthscale, zero maximal cost) either exclude that case by hypothesis or say in their
  comment that the code yields nan there. C25 and C69 use in addition
  the instance `T = option R` (`Run/PartialReal.v`), in which division by zero is undefined and undefined is contagious. C64 and C80-C86 use
  the instance `T = binary64` of Flocq (`Run/Double.v`): correctly rounded +, -, *, /, sqrt; exp and the order of summation are arguments
  with contracts. Fused multiply-add and the reassociations and no-NaN assumptions of numba's `fastmath` inside `my_cdist` are outside these contracts. A third instance, fixed
  point integers (`Run/Toy.v`), is executable in the kernel and is used for concrete runs.
  *Number types in the torch class.* `torch_DPFC` is float64 throughout (`dtype=torch.float64`) except at two places: `torch.eye` in the
  torch estimator is float32 (so the jitter `1e-3*torch.eye(...)` is 0.001 rounded to float32, about 0.0010000000475, promoted), and the
  noise `torch.empty([dim,N]).normal_` (repo lines 920, 1088) consists of float32 normals. The model uses one number type; the
  float32-rounded normals are still arbitrary draws for it, and the rounded jitter differs from the modelled literal by less than 5e-11.
* **Arrays** (`Base/Arr.v`): `mat` = rows, columns, list of rows; numpy broadcasting of 2-d arrays is written out (`bc2`), a shape
  mismatch is an exception value. 1-d arrays are 1-row (or, on the right of `@`, 1-column) matrices. 3-d flows are
  a list of `k` slices `dim x N` (so the axis order is changed; every access in the code is by slice `[:, :, t]`,
  row `[d, :, t]` or column `[:, i, t]`; numpy's negative indices are kept).
* **Exceptions and state** (`Base/Py.v`): `res A = Ok a | Err e`; the stateful part is `M A = S -> res A * S` with `S` the state of
  the random generator.
* **External code** (`Model/Ext.v`) is a record `Ext` of oracles: Gaussian and uniform draws, `np.linalg.inv`,
  `pyemd.emd_with_flow`, `ot.emd`. Nothing is assumed about them except in theorems whose statement names a contract of
  `Spec/Contracts.v`, `Spec/TotalSpec.v` or `Spec/RangeSpec.v` (`inv_contract`: an inverse of every invertible matrix;
  `emd_contract`/`otemd_contract`: a minimal-cost plan with the given marginals; `uniform_in_range`: draws lie in the interval; in binary64 `uniform_point` (an interval of one finite point gives this point) and
  `uniform_finite` (np.random.uniform raises unless high - low is finite);
  `no_overflow`; `no_singular`). All contracts hold together of the environment `RealExt` (`Run/RealExt.v`; existence of optimal
  plans is proved in `Lib/LP.v`, `Lib/PlanExists.v`), and `Props/Witnesses.v` runs problems in it.
* **User callables** `f`, `f_true`, `U` are records of their one- and two-argument behaviours (`Err TypeError` when the
  arity is wrong) returning arbitrary arrays or raising.
* **Specifications** (`Spec/*.v`) use only definitions about functions `nat -> nat -> T` or `R` (means, variances, Gaussian density,
  score matching functional, transport plans, one step of the flow), not the model's helpers.

## 3. Properties and how each is proved

See `properties.jsonl` for the statements, `MANIFEST.json` for theorem names. "gen" = for every number system; "R" = over exact
reals; "binary64" = over IEEE doubles. "met by" names the concrete case that meets the hypotheses.

| id | kind | what is modelled and how it is proved | met by |
|---|---|---|---|
| C01 | R | `np.arange(t1, t2+dt/2, dt)`; bounds of `ceil` | C01_example |
| C02 | gen, R | case analysis on the grid, symbolic execution of the constructor | C02_toy, C02_example |
| C03-C05 | gen | invariants over the time loops, induction on the grid | C03_C04_toy |
| C06-C08 | gen, R | invariant "every slice written so far satisfies the recurrence and is not written again"; over R the scores in the step are the score-matching minimisers of C43 | toy runs, W06, W07 |
| C09, C11 | gen | relational induction over two runs | C09_toy |
| C10 | gen | equality of runs; unknown kernel: the first score call raises | toy runs |
| C12 | gen | counting and logging generators wrapped around any environment, induction over the loops | C12_toy |
| C13 | R | uniform contract, min/max; per step of a whole run from C06, C07, C08, C22 (`Props/Boxes.v`) | W06, W13_bridge, W13_gap |
| C14-C17 | gen, R | symbolic execution of stochastic sampling, witnesses | C14_toy, C16_C17_toy |
| C18 | gen, R | every step of every loop returns `Ok` under shape hypotheses; over R the linear solves cannot fail (C42) | C18_toy, real_run, C83_example (stochastic mode) |
| C19 | gen | broadcasting; elementwise: the two constructors are compared step by step (fold congruence under a shape invariant); stochastic: shapes extracted from the first particle step and the first backward step (`Props/Diffusion.v`) | W19_same, W19_column |
| C20 | R | derivative of the log of the Gaussian density (`derivable_pt_lim`) | W20 |
| C21-C24, C27, C28 | gen, R | case analysis, pointwise lemmas | C21_toy, C22_toy, W22 |
| C25, C26, C32 | R, partial R | variance of a constant sample is 0; symmetry of the intersection box; C25_undefined over `option R` where x/0 is undefined (`Run/PartialReal.v`) | beside the theorems, W25_undefined |
| C29 | gen | induction over query lists | C29_toy |
| C30, C31 | R | min/max characterisation, witness for the difference | in the statements |
| C33-C37 | R | sums; transport plan contract; optimality of the identity plan; two-run induction (C36); rearrangement inequality (C37) | W34, W36, W37 |
| C38 | gen, R | permutation of the parallel loop's iterations | in the statement |
| C39-C41 | R | exp/sums; `derivable_pt_lim`; kernel objects as state machines | beside the theorems |
| C42 | R | the Gaussian Gram matrix is PSD: exp(<x,y>) is a limit of sums of powers, each a sum of squares | beside the theorems |
| C43 | R | normal equations and positive definiteness; unique minimiser | W43 |
| C44-C47 | R | matrix algebra over lists, uniqueness of inverses | W47, beside the theorems |
| C48, C50-C52, C54 | gen, R | symbolic execution to the exception | toy runs |
| C49 | gen | as C03-C05 for the torch class | C49_toy |
| C53 | R | population against sample variance | W20 (numpy side) |
| C55 | gen | interpreter for the package's import statements; the environment is an arbitrary predicate | quantifies over all environments |
| C56 | gen | as C06 for stochastic mode, one particle at a time | C14_toy |
| C57-C59 | gen | as C06, C07, C56 for the torch class | C49_toy |
| C60 | R | `torch.arange`, compared with the numpy grid | beside the theorems |
| C61 | gen | symbolic execution of the torch `calculate_u` | C61_toy |
| C62 | R | as C34-C36 with squared distances and `ot.emd`; whole runs (`Props/TorchReweighting.v`): two-run induction, an induction over the grid that carries the slices of the unreweighted run; the last slice of a deterministic run (every slice of a stochastic one) must not be a single point, the others cannot be by C54 | W26, W34 (same lemmas), W62_repels, W62_constant |
| C63 | R | Cauchy-Schwarz in the reproducing kernel Hilbert space spanned by the inducing points (`Lib/Rkhs.v`) | W63 |
| C64 | binary64 | rounding error of each operation of `arange` (Flocq), induction-free interval bounds; torch grid: every point is one rounded product and one rounded sum, so the bound does not grow with i | C64_run, C64_torch_run |
| C65 | gen | the step relations of `Spec/FlowSpec.v` are functional; the whole history is chained through the generator state and unique by induction over the grid | C65_toy, C65_toy_stochastic, C65_torch_toy |
| C66 | R | relational (simulation) proof: every primitive of the model maps related arguments to related results; `Spec/AffineSpec.v` states what the moved problem and the moved object are; induction over the grid for each flow ; the same for the torch class (`Lib/TAffine*.v`, `Props/TAffine.v`) | W66, W66_hypotheses, W66_reweight, W66_torch_hypotheses, W66_torch |
| C67 | gen | from C65: both runs are chains of functional step relations along the same stream; the steps depend on drift and constraint at one time only; induction on the index | C67_toy |
| C68 | gen, R | success-or-ValueError predicate on the monad, closed under bind and folds; every score estimate succeeds on arrays of the right shape (generic: no singular inverse; R: inverse contract); query: the box is non-empty iff the flows are jointly spread (`Spec/TTotalSpec.v`) | W68_toy, W68_R, W68_short, W68_query |
| C69 | gen, partial R, R | the simulation cell of the notebook and its variant in the example script as folds over the grid (`Model/Controlled.v`), invariant of the fold against the one-step specification (`Spec/ControlledSpec.v`); relational invariant between the joint and the single simulation; undefined last state over `option R` | W69, W25_undefined |
| C70 | R | two runs side by side (`Lib/Sim.v`): sums, minima, maxima and standard deviations over the particles are invariant, kernel matrices have permuted rows, the matrix inverse gets equal arguments, the plan is permuted on both sides (`Spec/LabelSpec.v`); the permuted environment is constructed; `Lib/TLabel.v`: the same for the PyTorch class | W70, W70_torch |
| C71 | R | kernel matrices in closed form (`Lib/Periodic.v`), estimator for an arbitrary kernel and penalty matrix (`Lib/KEst.v`), objective with penalty matrix (`Spec/PeriodicSpec.v`); positive semidefiniteness from exp of inner products of (cos, sin) features; undefined results in partial real arithmetic | W71_one, W71_list, W71_undefined |
| C72 | R | the two example scripts (`Model/LimitCycle.v`) as one parametrised program; fold invariant for the simulated path, then C03-C05/C18/C69 for the bridge and C66 (time shift of an autonomous problem) for the index mismatch; derivatives by Coquelicot, the stationary Fokker-Planck equation as an identity of explicit derivatives (`Spec/LimitCycleSpec.v`); path bound by induction with the triangle inequality | W72_script_1, W72_time_index, W72_bounded, W72_score |
| C73 | any / R | the class as a fold over the grid with a parameter `wrap` for `% (2*np.pi)` (`Model/Kuramoto.v`); loop invariants give the recurrences of `Spec/KuramotoSpec.v` for every number system; totality over R as for C18; the simulation by a fold invariant over repetitions and times; the negative result by solving the 2x2 transport problem | W73_construct, W73_k_too_small, W73_script, W73_initial_not_reduced, W73_cut |
| C74 | R | order parameter squared as a double sum of cosines of differences; equality case by a vanishing sum of non-negative terms; mean-field form by polar coordinates of the mean phase factor (`Spec/OscSpec.v`) | W74_order, W74_frequencies |
| C75 | R | the drifts and derived quantities as functions over the number system (`Model/Examples.v`); derivatives as limits of difference quotients (`Spec/ExampleSpec.v`); non-existence of a potential by comparing increments along two paths | W75_point |
| C76 | R | derivative of the quadratic form of the inverse; covariance rates as derivatives of the exact covariance of one Euler-Maruyama step; the simulation by a total fold invariant | W76_simulation, W76_equilibria |
| C77 | R | `Model/CellFate.v`; in the plane its estimator agrees with the package's (C45), so the forward flow is the package's and the backward flow the package's run on a delayed forward flow; deletion of trajectories from the last to the first equals selection (list induction); C43 for the scores (`Spec/CellFateSpec.v`) | W77_runs, W77_control, covered_example |
| C78 | R | `Model/Pice.v`; induction over the iterations with the history as an invariant (`Spec/PiceSpec.v`), the pseudo-inverse as an argument with the Penrose equations it needs (`Spec/PiceContracts.v`); normal equations, least norm and the existence of a pseudo-inverse of a symmetric matrix in `Lib/Ginv.v` | C78_example, real_pinv_ok, fate_map_ok |
| C79 | R | `Model/Pice.v`; density ratio step by step; loop invariant of the simulation; Cauchy-Schwarz as a sum of squares | C78_example, fate_map_ok |
| C80 | binary64 | `Spec/DoubleSpec.v`: contracts for exp and for summation (any order and association, each addition correctly rounded); error of a sum of non-negative doubles by induction on the summation tree; `Run/DoubleExp.v` proves that the correctly rounded exp meets the contract ; runs: C06/C56/C57/C59 and `weights_worth` | C80_example, C80_example_nan, C80_example_run (a run that completes with NaN particles) |
| C81 | binary64 | minimum and maximum of doubles with NaN by list induction; sums of copies of a short number are exact by induction on the summation tree, so the standard deviation is exactly 0 | C81_example |
| C82 | binary64 | entries of the kernels for every number system; (a-b)^2 = (b-a)^2 exactly; monotonicity of rounding; accuracy by bracketing each step multiplicatively | C82_example, C82_example_zero, C82_example_accuracy |
| C83 | binary64 | NaN absorption through mean, std, min/max, kernel and products; np.random.uniform's range check (contract `uniform_finite`, `uniform_point`); induction along the recurrences of C06, C07, C08 (torch: C57, C58); of the exponential only exp(NaN)=NaN is used | C83_example, C83_example_drift, C83_example_finite (executed run), C83_torch_example, C83_torch_example_drift (executed runs) |
| C84 | binary64 | forward error analysis: signed sums in any association (`tree_signed`), mean, sum of squares with the shift identity, sqrt and square, quotient, difference; exact side = `exact_score`, `spread`, `resolved` (Spec/DoubleSpec); on top of C21, C61 | C84_example (an executed construction, the control at index 2) |
| C85 | binary64 | the recurrences C06-C08, C56-C59 give the stored double as an expression; error bookkeeping with absolute-value sums (`appr`, Lib/RoundLemmas), the literal 0.001 evaluated by the kernel, `tree_signed` for the mapped ensemble; exact side = Spec/RoundSpec (same drift, draws and estimator calls as in FlowSpec, last line replaced by the distance to the real expression) | C85_example (an executed construction, the flow step to grid point 2 with its executed scores) |
| C86 | binary64 against exact reals | the recurrences C56/C59 of both runs side by side: the generator states coincide, one step is `noisy_close` (C85) plus the Lipschitz drift, errors by a discrete Gronwall inequality (`drifted_step`); closeness relations in Spec/FollowSpec | C86_example (problem of C64_run in the stochastic mode, drift -x, 21 grid points: within 10^-12 of the exact run) |
| C87 | exact reals | C21 and C53 give the control as a difference of two Gaussian scores; algebra (`feedback_of_scores`), averages of affine maps; the simulation step of C69 with this control substituted; specification Spec/FeedbackSpec | W87_run (21-point run, its simulation), W87_narrow (hand-made flows, target and gain computed) |
| C88 | exact reals | derivatives of polynomials, factorisations; induction on the number of steps (x'-1 = (x-1)(1-4hx(x+1))); C18, C03, C04 for the bridge | C88_case (step 1/1000 from 1/2), C88_bridge_case |
| C89 | exact reals | recurrences C56/C59 of both runs side by side: equal generator states, discrete Gronwall inequality (`apart_step`); closeness in Spec/NearbySpec | C89_example (starts [0;1] and [a;1], drifts -x and c-x, all a and c, 21 grid points), C89_torch_example (2 grid points) |
| C90 | exact reals | recurrences C56/C59 of both runs side by side carry any relation kept by a step (`relate`, `t_relate`); instances: distance bound and coordinatewise order; Spec/ForgetSpec | C90_example, C90_torch_example (the problems of C89; all a, c) |

Properties that the unchanged code violates in the form a user would expect are stated as the exact behaviour, and where
useful accompanied by a theorem with suffix `_refuted` or `_fails`. No property of `properties.jsonl` is left out and none is partial.

### Findings about the code made while modelling

* deterministic=False pins the last slice of the forward flow on copies of y2, so the lengthscale of the first backward step is 0.0 and, in double
  precision, all inner time-reversed particles and the whole control are NaN, without an exception (C83); a NaN or infinite forward particle
  raises OverflowError (np.random.uniform), a NaN time-reversed one is silently ignored by Python's min/max (C83); a drift that divides by T-t gives 0/0 at the terminal grid point,
  after which all inner time-reversed particles but the last and the control are NaN without an exception, in both classes (C83);
* stochastic mode weights particles by exp(U(x)), deterministic mode by exp(U(x,t) dt) (C56 against C06);
* stochastic mode calls f and U with one argument, deterministic mode with two (C15); it initialises two coordinates only (C14);
* the diffusion `g` may be a scalar or a column; a full matrix is multiplied elementwise (C19);
* the transport cost of the numpy class is the Euclidean distance, of the torch class its square (C34, C62);
* sign of U: weights grow with U, so the README's U=(x-sin t)^2 drives particles away from the line it is said to attract to (C37);
* `torched_DPFC` in bridge mode works only when N, M and dim satisfy special equalities (C50), never in one dimension (C51), and
  raises when a coordinate has no noise (C54);
* periodic kernels: `DPFC` replaces them by RBF (C10), `score_function_multid_seperate_all_dims` cannot use them (C48);
* `score.py` handles two coordinates only (C48);
* bridge-mode interior control clips query points with bounds of the wrong coordinates (C27);
* the package is not importable at this commit (C55);
* script_1.py reads the start time and the start point of its bridge at different indices; harmless since the drift is autonomous (C72);
* RBF with several lengthscales and multil=False (the default) uses lengthscale j for the j-th point of Y, not the j-th coordinate (C41);
* the Kuramoto class takes k independently of its grid: too small fails, too large silently starts the reversed flow at zero (C73); its documented kern='periodic' fails in the first deterministic step (C73);
* the Kuramoto reweighting uses exp(U), not exp(U dt), and averages phases linearly, so the result depends on the origin of the circle (C73); its initial ensemble and the first column of B are not reduced modulo 2 pi (C73);
* the Kuramoto script seeds Python's `random`, but draws from `np.random`: its runs are not reproducible; the last column of Fcont/Fnon is nan and the first and last rows of Rttcont/Rttnon are 0 (C73);
* cell-differentiation script: the diagonal of gradfs and divf miss a square in the denominator (C75); reject_trajectories tests coordinate 0 twice and never coordinate 1, the backward flow reads the forward flow one index earlier than the package, reweight=True ends in a NameError (C77); the PICE comparison of the same script: features 10/11 and 14/15 coincide (C78), the stochastic integral in the path cost carries a factor sigma and the weights are importance weights for sigma = 1 only, np.vectorize feeds the end cost single coordinates so that it cannot tell them apart, the trained policy is deployed with g^2 instead of g (C79);
* phenotype script: the parameter C of f_var shadows the global matrix C of the drift; f_var0 mixes two noise matrices and is not symmetric (C76);
* the package documents reject_trajectories, but its body is a comment: reject has no effect (C11);
* far from 0 the double-precision grid drifts by up to 2^-52 max(1,|t|) per step (C64);
* in double precision: no maximum is subtracted before the exponentials of the weights, so very negative constraints give NaN weights (C80); a NaN in the time reversed flow goes unnoticed by check_if_covered (C81); calculate_u at the first (last) grid point is NaN (infinite or NaN) for ordinary y1 (y2) (C81).

## 4. Testing the theorems against wrong programs

`seeded/LOG.jsonl` has one line per edited model (made in a copy outside /verif and rebuilt): the definition, the edit, the claim
it breaks, the theorems that then fail (a theorem counts as failed if it no longer proves, or rests on a lemma that no longer proves)
and the theorems tightened as a consequence.

## 5. Trusted base

Coq 8.16.1's kernel (no check is switched off); the axioms below; the faithfulness of the hand-written model (each definition cites its
lines); the contracts of external code named in individual theorems. Libraries used: Coq's standard library, and Flocq 4 in
the files about binary64 (`Run/Double*.v`, `Spec/DoubleSpec|RoundSpec|FollowSpec.v`, `Lib/DoubleLemmas|RoundLemmas|NaNLemmas|TNaNLemmas.v`,
`Props/Double*.v`, `Props/Follow*.v`), Coquelicot (derivatives) in `Props/LimitCycleODE.v` only; neither adds an axiom of its own. `Run/RealExt.v` and `Props/Witnesses.v` (examples) also use
`ClassicalEpsilon.constructive_indefinite_description`.

What `Print Assumptions` lists for each theorem of MANIFEST.json (produced by `tools/assumptions.py`):

* **closed under the global context (no axiom)**: C02_single_grid_point, C02_empty_grid_fails, C03_forward_starts_at_y1, C04_time_reversed_boundaries, C05_shape, C06_forward_recurrence, C07_backward_recurrence, C08_bridge_flow, C08_bridge_independent_of_f_and_U, C09_bridge_pin_no_effect_on_Z, C09_bridge_pin_no_effect_without_reweight, C10_periodic_is_rbf, C10_unknown_kernel_fails, C11_reject_and_dens_est_ignored, C11_unused_without_reweight, C12_draws, C12_log, C12_log_is_transparent, C14_stochastic_start, C14_start_refuted, C14_one_dimensional_fails, C15_stochastic_needs_one_argument_drift, C15_stochastic_needs_one_argument_constraint, C15_deterministic_needs_two_arguments, C16_stochastic_end_pinned, C17_stochastic_bridge_flow_is_zero, C18_construction_succeeds, C18_stochastic_construction_succeeds, C19_elementwise, C19_column, C19_stochastic_shape, C19_diffusion_shape, C19_matrix_diffusion_fails, C21_gaussian_window, C21_short_grids, C22_interior_control, C23_too_few_columns, C23_too_few_columns_edge, C24_pointwise, C28_negative_index, C28_out_of_range, C28_coverage_negative, C29_object_unchanged, C29_answers_stable, C38_cdist, C38_schedule_independent, C48_torch_single_lengthscale, C48_torch_list_lengthscales, C48_torch_unknown_kernel, C48_periodic_all_dims, C48_two_coordinates, C48_one_dimension, C49_torch_shape, C49_torch_forward_start, C49_torch_stochastic_start, C49_torch_backward_boundaries, C50_bridge_needs, C50_bridge_mode_raises, C51_one_dimension_raises, C52_numpy_start_raises, C54_boxes_have_width, C54_zero_spread_raises, C55_package_never_imports, C55_not_from_the_directory_either, C55_what_it_would_need, C55_torch_is_required, C56_stochastic_recurrence, C57_torch_forward_recurrence, C58_torch_backward_recurrence, C59_torch_stochastic_recurrence, C61_torch_gaussian_window, C61_torch_interior_control, C61_torch_out_of_range, C65_one_stream, C65_determined, C65_only_solution, C65_torch_one_stream, C65_torch_determined, C67_causal, C67_causal_stochastic, C67_longer_horizon, C67_torch_causal, C68_torch_construct, C68_torch_short, C69_controlled_simulation, C69_script, C69_no_interaction, C69_script_prefix, C73_forward_flow, C73_reverse_flow, C73_k_at_least_grid, C73_k_too_large, C73_only_rbf, C73_control, C73_simulation

* **ClassicalDedekindReals.sig_forall_dec**: C41_constructor

* **ClassicalDedekindReals.sig_forall_dec, FunctionalExtensionality.functional_extensionality_dep**: C79_end_cost

* **ClassicalDedekindReals.sig_forall_dec, ClassicalDedekindReals.sig_not_dec, FunctionalExtensionality.functional_extensionality_dep**: C01_timegrid, C01_exact_multiple, C01_increasing, C02_reversed_interval_fails, C02_short_interval, C06_score_matching, C07_score_matching, C13_reweighted_run, C13_bridge_run, C13_backward_run, C13_query, C13_own_box, C13_common_box, C13_forward_run, C16_zero_lengthscale, C18_construction_succeeds_R, C22_interior_answers, C22_score_matching, C25_zero_spread, C25_undefined, C26_antisymmetric, C26_vanishes, C27_bridge_fails, C27_bridge_misplaced, C30_covered, C31_torch_covered, C31_implied, C31_converse_fails, C32_initial, C32_terminal, C33_weights_exist, C33_weights_shift_invariant, C33_shift_of_U_changes_nothing, C34_transport_matrix, C34_reweighting, C34_reweighting_stochastic, C35_mean_preserved, C35_average_of_run, C36_equal_weights_move_nothing, C38_euclidean, C38_l1_is_not_l1, C39_numpy_kernels, C39_function_kernel, C39_torch_kernel, C39_equal_lengthscales, C40_numpy_gradients, C40_all_dims_gradient, C41_vector_without_multil, C41_no_kernel_call, C41_last_kernel_call, C41_same_arguments, C42_gram, C42_never_singular, C42_never_singular_all_dims, C42_functions_never_singular, C42_boundary, C43_samples, C43_functions, C43_all_dims, C43_unique, C44_separate, C44_all_dims, C44_old, C45_old, C45_columns, C45_function_columns, C46_samples, C46_functions, C47_reordered_samples, C47_reordered_inducing_points, C47_translation, C47_scaling, C48_two_coordinate_values, C50_bridge_square, C53_torch_numpy_ratio, C54_every_coordinate_spread, C54_one_particle_raises, C54_noise_free_coordinate_raises, C60_torch_timegrid, C60_torch_reversed_interval, C60_same_grid, C62_torch_reweighting, C62_torch_reweighting_stochastic, C62_squared_distance_transport, C62_equal_weights_move_nothing, C62_shift_of_U_changes_nothing, C62_constant_constraint_changes_nothing, C62_average_of_run, C66_run, C66_covered, C66_control, C66_torch_run, C66_torch_covered, C66_torch_control, C68_torch_construct_R, C68_torch_one_particle, C68_torch_query, C69_last_state_undefined, C69_runs, C70_run, C70_answers, C70_environment, C70_torch_run, C70_torch_answers, C71_one_dimension, C71_period, C71_list, C71_opposite_sign, C71_ignores_coordinates, C71_list_no_minimum, C71_single_lengthscale, C71_undefined, C72_drift, C72_script, C72_time_index, C72_controlled, C72_flow_rotates, C72_bounded, C73_covered, C73_phases, C73_reduction_harmless, C73_runs, C73_control_exists, C73_script, C74_order_parameter, C74_order_range, C74_synchronised, C74_order_invariant, C74_constraint, C74_drift, C74_drift_wrong_size, C74_coupling_cancels, C74_drift_invariant, C74_synchronised_rest, C74_frequencies, C74_mean_phase_conserved, C75_conservative, C75_conservative_equilibrium, C75_conservative_path, C75_fate_drift, C75_fate_symmetric, C75_fate_cross_derivatives, C75_fate_diagonal, C75_fate_divergence, C75_fate_linearisation, C75_fate_affine, C75_fate_mean, C75_fate_Uc, C75_fate_Uc_target, C75_bridge_drift, C75_fate_target, C75_fate_start, C75_fate_square, C76_linearised_score, C76_regularised_score, C76_linear_covariance, C76_fate_covariance, C76_phenotype_covariance, C76_phenotype_drift, C76_phenotype_equilibria, C76_misspecified_noise, C76_control, C76_simulation, C76_simulation_runs, C77_object, C77_runs, C77_same_forward, C77_zero_noise, C77_all_rejected, C77_reweight, C77_control, C77_control_answers, C77_simulation, C77_simulation_runs, C77_covered, C78_training, C78_first_iteration, C78_last_time, C78_weights, C78_path_weights, C78_first_time, C78_features, C79_simulation, C79_numbers, C87_feedback, C87_torch_feedback, C87_simulation, C88_gradient, C88_wells, C88_trapped_right, C88_trapped_left, C88_bridge, C90_forget, C90_order, C90_torch_forget, C90_torch_order

* **ClassicalDedekindReals.sig_forall_dec, ClassicalDedekindReals.sig_not_dec, Classical_Prop.classic, FunctionalExtensionality.functional_extensionality_dep**: C20_gaussian_control, C33_weights, C36_constant_constraint_changes_nothing, C36_constant_constraint_bridge, C37_constraint_repels, C39_values, C41_stale_factor, C48_disagrees, C62_constraint_repels, C63_samples_bounded, C63_function_bounded, C63_forward_step_bounded, C63_backward_step_bounded, C63_control_bounded, C64_number_of_points, C64_points, C64_zero_start, C64_torch_same_number_of_points, C64_torch_number_of_points, C64_torch_points, C64_torch_near_numpy, C71_list_singular, C72_score, C72_stationary, C73_reweighting_depends_on_origin, C74_weights, C74_mean_field, C75_fate_no_potential, C79_importance, C80_every_step, C80_torch_every_step, C80_weights, C80_underflow, C80_accuracy, C80_run, C81_covered, C81_torch_covered, C81_start, C81_end, C82_accuracy, C82_torch_accuracy, C82_symmetric, C82_values, C82_vanishing_lengthscale, C82_torch_values, C83_control, C83_forward_finite, C83_forward_no_nan, C83_contagion, C83_certificate, C83_terminal_drift, C83_stochastic_nan, C83_stochastic_control, C83_torch_control, C83_torch_forward, C83_torch_forward_no_nan, C83_torch_contagion, C83_torch_certificate, C83_torch_terminal_drift, C84_accuracy, C84_torch_accuracy, C85_forward, C85_bridge_flow, C85_backward, C85_stochastic, C85_finite_history, C85_torch_forward, C85_torch_backward, C85_torch_stochastic, C85_torch_finite_history, C86_stochastic_accuracy, C86_torch_stochastic_accuracy, C89_stochastic, C89_torch_stochastic

