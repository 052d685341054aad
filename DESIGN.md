# Formal model of gpgradpy in Rocq/Coq: design

## Trusted base

* Coq 8.16.1's kernel.  Every theorem in `rocq/theories/Props/*.v` is followed by `Print Assumptions`; the only axioms
  that appear are those of the standard library's real numbers and classical logic:
  `ClassicalDedekindReals.sig_forall_dec`, `ClassicalDedekindReals.sig_not_dec`,
  `FunctionalExtensionality.functional_extensionality_dep`, `Classical_Prop.classic`.
  Theorems without real arithmetic use a subset (e.g. those of C46 or C44 about shapes: none or fewer); Coquelicot and
  mathcomp-free parts add none.  No axiom is declared by this development, no kernel check is switched off, there are no
  functors, module types or admitted goals.
* The hand translation of the Python source into `theories/Model/*.v` (each definition cites file and lines).  It is
  shallow and goes branch by branch: exceptions are values (`res`, with the exception class), NumPy's shape checks,
  broadcasting, clipping slices, boolean masks, fancy indexing and in-place updates are explicit (`Base/NpLite.v`).
* Floats are idealised: a binary64 number is a real number, and rounding is **not** modelled, so the statements about
  condition numbers, factorisations and interpolation hold for exact arithmetic; the exceptions are `C66` to `C73`, where
  the kernel matrices, the factorisation, the solution of the linear system, the predictions and the likelihood are modelled with rounding
  errors (`KernFl.v`, `CholFl.v`, `EvalFl.v`, `LkdFl.v`, no overflow or
  underflow; Flocq's rounding function is used for double precision and adds no axioms).  Where the code branches on NaN or stores
  it, a float is `fl = option R` with `None` for NaN; where it distinguishes None from NaN, `pyf`.  Infinities are left out:
  `np.log10` of a number that is not positive is an error in `StartPts.v` and `HpBounds.v`.
* numba's `@jit` is the identity.  `scipy.linalg.cho_factor` / `cho_solve` are an exact Cholesky algorithm (fails iff a
  pivot is not positive) and exact triangular solves (`Chol.v`); that it factors the matrix is proved, not assumed.

External programs are parameters of the theorems, never axioms:

| program | in the model | assumed where needed |
|---|---|---|
| `scipy.optimize.minimize` | an arbitrary resumption tree that asks for values and gradients at vectors of its choice (`OptzLkd.v`) | nothing; `C42`: the vectors asked for have the right length |
| smt's LHS sampler | an arbitrary function | `samples_within`: right number of points, within the limits |
| `np.linalg.cond`, `np.linalg.eig` | arbitrary functions (record `npla`) | `numpy_ok`: the condition number of a symmetric positive definite matrix / an eigendecomposition, in any order; `C42`: right shapes |
| time | left out, or an argument | - |

## Layout

| directory | content |
|---|---|
| `Base/` | NumPy fragment (`NpLite`) and its reasoning rules, derivative rules |
| `Model/` | the code, function by function, no proofs |
| `Spec/` | vocabulary of the properties, independent of the model's helpers |
| `Proofs/` | lemmas |
| `Props/` | the theorems, one file per area, with `Print Assumptions` and examples that meet the hypotheses |

Names: `Cxx_..._partial` proves part of the property (what is missing is said above it); `Cxx_..._refuted` proves that the
code breaks the property in a case that is described above it.  `tools/mkmanifest.py` marks a property with such a theorem "partial".

## What is modelled (gpgradpy/src)

| source | model |
|---|---|
| kernel/KernelSqExp.py, KernelMatern5f2.py, KernelRatQuad.py (classes *Base, *GradMod and the kernel classes; the older *Grad classes), KernelCommon.py | `KernelSqExp.v`, `KernelMatern.v`, `KernelRatQuad.v`; `KernelMaskFree.v` |
| kernel/Kernel.py | `KernelDispatch.v`, `Cov.v`, `WellCond.v` |
| base/CommonFun.py | `CommonFun.v`; `test_grad_calc` in `GradTest.v` |
| base/GpWellCond.py | `WellCond.v` |
| base/Rescaling.py | `Rescaling.v`, `NlcScaling.v` |
| base/GpHpara.py, base/GpParaDef.py | `HpInfo.v`, `History.v`, `Object.v` |
| base/GpInfo.py | `Tables.v` (the tables, not the text) |
| eval/GpMeanFun.py | `MeanFun.v` |
| eval/GpEvalModel.py | `EvalModel.v`; the two forms of the points and squeeze_nx in `EvalWrap.v` |
| optz/CalcLkd.py, GpHparaCon.py | `Lkd.v`, `HpBounds.v` |
| optz/GpHparaGrad.py | `HpGrad.v` |
| optz/GpHparaX0.py | `StartPts.v` |
| optz/OptzLkd.py, GpHparaOptz.py | `OptzLkd.v`, `OptzHp.v`, `RescaleLoop.v`, `HpInfo.v` |
| plt/*.py, results/PltOptzResults.py (numerical functions) | `Scripts.v` |
| GaussianProcess.py | `GpState.v`, `SetDataState.v`, `Object.v`, `Session.v`, `Construct.v` |

Not modelled: plotting and debugging output (`plt_debug_lkd`), text formatting and printing, timers, the file
system (the npz export is the mapping it writes), the scripts beyond the functions in `Scripts.v`,
`calc_model_mean_w_data_init/_scl` (never called), negative Python indices.

## Properties: model and proof

* **C01-C05 kernel matrices** (`KernelProps.v`, `PsdProps.v`).  `calc_KernGrad` of the three kernels with its loops and in-place
  block updates.  Loop invariants give the closed form of every block (`KernGradBlocks`); a chain-rule development for radial
  kernels (`RadialCalculus`, `RadialFns`) shows that each entry is the claimed (mixed) partial derivative (`is_derive`).
  Matern at coincident points by a one-sided extension lemma.  Symmetry, diagonal, masks from the closed form.
  Refuted: 'RatQu' with only the first mask.
* **C06-C08 derivative tensors** in theta, alpha and x (`KernelDerivProps.v`): loop invariants, then `is_derive`.  `FloorProps.v` settles the Matern entries below the 1e-16 floor (derivative exists, returned entry differs).  Refuted: partial masks
  (SqExp, Matern raise), Matern's gradient-free theta derivative.
* **C09 positive semidefiniteness** (`PsdProps.v`): SqExp by expanding exp into non-negative features, gradient rows as limits of
  difference quotients (jets), Matern and RatQu as mixtures of SqExp.
* **C10-C13 nuggets** (`CondProps.v`, `PreconProps.v`): Gershgorin row sums, jets for the cross terms, one-variable inequalities; the
  condition number is the quotient of extreme Rayleigh quotients (`CondBound`).
* **C14 Cholesky**, **C15 preconditioner**: induction over the elimination; algebra.
* **C16-C19, C44 rescaling** (`RescaleProps.v`, `ThetaProps.v`, `NlcProps.v`, `NlcHessProps.v`): invariants over every history of calls on the scaling object, derivatives of
  scaled functions by the chain rule; the theta-based loop by an invariant over its passes.  Refuted: off-diagonal Hessian entries with
  unequal scales, a shift given by the user, rescaling after constraint data, the anisotropy the loop finds, default method of set_nlc_data.
* **C20, C36 data** (`DataProps.v`): set_data with all argument forms.  Refuted: unchecked number of points, unknown noise without gradients, empty mask with known noise.
* **C21 hyperparameter vector** (`HpGradProps.v`): the index sets are a partition; round trips.
* **C22, C39, C45 bounds and start points** (`StartProps.v`, `BoundProps.v`).  Refuted: first iteration (NaN bounds), one failed candidate.
* **C23-C26 likelihood and derivatives** (`LkdProps.v`, `HpGradProps.v`, `OptzProps2.v`): generalised least squares and the closed-form variance by completing squares / one-variable calculus; the
  gradient by Jacobi's formula for log det and the derivative of the inverse (`Det`, `LinDeriv`); adjoint = direct by trace algebra.  Partial masks raise (refuted); a varying nugget makes the derivatives of the covariance and of the likelihood wrong by a multiple of its own derivative (proved and refuted, `VaryProps.v`).  `LkdFloorProps.v` settles the closed-form varK held at 1e-32: the gradients returned there use the unclamped derivative (refuted on one point with gradient 1e-17).
* **C27, C28, C38 running the optimiser** (`OptzProps.v`, `SelectProps.v`, `ReportProps.v`): induction over the resumption tree; selection by nanargmin; with an external optimiser that never ends above its own start the selected fit is no worse than any usable start.  Refuted: two reported diagnostics are constants.
* **C29-C32, C34, C37 evaluation** (`EvalProps*.v`): the posterior mean and variance as a projection; Schur complement; derivatives of the returned functions; all masks.
  Refuted: Hessians after unequal rescaling, Hessians with a mask, RatQu with a mask, noise that is not normalised alike in the two models, eval_model_var.
* **C33, C43 the object as a state machine** (`ObjProps*.v`): arbitrary programs of operations, with shared arrays and views of the history as references to a heap; operations that raise half-way keep what they wrote.
  Refuted: data replaced, arrays written in place, failed set-up.
* **C47 session** (`SessionProps.v`, `SessionExample.v`): invariants of all call sequences (options, history widths, no stale cached likelihood, data up to rescaling), then C28/C41 (what is found), C30/C34 (what is predicted), C42 (it does not raise).  Excluded between set_data and the fit: reading hyperparameters back, which changes whether noise counts as known (C43_stored).
* **C48 construction** (`NewProps.v`): case analysis over argument values.  Refuted: switching away from 'rescale_eta_vary' or using it without gradients (the nugget stays varying), dimensions below 1, the bound of the constraint after cond_max is assigned, the nugget when the method is chosen after set_data.
* **C49 mask-free kernel classes** (`MaskFreeProps.v`): `KernelMaskFree.v` models the three older classes; their loops are shown to fill the same block structure as the masked ones with no mask.
* **C50 order of the data** (`OrderProps.v`, `OrderLkd.v`): a renumbering of the points and of the gradients induces one of the rows (`sig`), under which the covariance matrix, the data vector (up to the shift of the outputs), the noise and the nugget are the same; solutions, weighted squares and determinants are invariant (`Proofs/Reorder.v`: the determinant through d/dt ln det along a segment of matrices).  The scaling factors after set_data are extrema over the points, hence also invariant.
* **C51 more observations** (`OrderProps.v`, `OrderLkd.v`): the posterior variance is a minimum over linear predictors, and a predictor from fewer rows extends by zeros; proved when the nugget does not grow.  Refuted: the default nugget n/(cond_max-1) grows with n, and one more point increases the uncertainty at the first.
* **C52 units of the data** (`UnitProps.v`, `UnitProps2.v`, `UnitLkd.v`, vocabulary `Spec/UnitSpec.v`): a change of units is a congruence of the covariance matrix by a positive diagonal matrix, under which the predictor is equivariant; the relative nugget of 'precon' and the scaled data of the rescaling methods respect it.  The determinant of the congruence gives the constant by which the log-likelihood moves.  Refuted by one-point data: noise (not divided by varK) and lengths (absolute nugget on derivative rows).  `UnitPnlt.v`: with the optional penalty on varK (var_fval held at its lower bound) the likelihoods in two units do not differ by a constant.
* **C53 linearity** (`LinearProps.v`, vocabulary `Spec/LinearSpec.v`): the matrices, the nugget and the kernel rows depend on the sites only (`l_*`), the residuals combine linearly (`s_res`), and the solution of a linear system is linear.  Constant data leave no residual.
* **C54 far from the data** (`FarProps.v`, `Proofs/FarFacts.v`): explicit decay bounds for the radial functions and their first two derivatives (`tail_se`, `tail_ma`, `tail_rq`) give a bound on every covariance between an observation and a distant point (`kj_small`); the weights do not depend on the evaluation point. The Hessians (`FarProps2.v`, `Proofs/FarHess.v`): the same for the third derivatives (`tail3_small`), an explicit second derivative of the covariances (`kd2_dx`), and uniqueness of derivatives to identify the entries `eval_model` returns.
* **C55 batches** (`BatchProps.v`): every output of `eval_model` is a function of the row of its point alone (`ei_eval`); the wrapper of `EvalWrap.v` only adds or drops an axis.
* **C56 order of the coordinates** (`CoordProps.v`, vocabulary `Spec/CoordSpec.v`): a renaming of the coordinates renumbers the derivative rows; kernels depend on a sum over the coordinates, so the covariance matrix is the same up to that renumbering; Hessians by uniqueness of second derivatives of the renamed functions.  Factors: distances are sums over the coordinates.
* **C57 symmetric Hessians** (`HessSym.v`): the closed form of the second derivatives of the kernel (`HessX.v`) is symmetric, every tensor with the derivatives of the cross-covariances equals it by uniqueness; for the standard deviation also the symmetry of the inverse. In general entry (l,i) times factor_l^2 = entry (i,l) times factor_i^2, hence the refutation after rescaling.
* **C58 gradient check** (`GradTest.v`, `GradTestProps.v`, `GradTestProps2.v`, vocabulary `Spec/GradTestSpec.v`): the handles are arbitrary functions that may raise; limits by the definition of the derivative, error bounds by the mean value theorem used two or three times; applied to the surrogate through C31 and C32.
* **C59 calls that raise** (`SetDataState.v`, `SetDataFacts.v`, `RejectProps.v`, vocabulary `Spec/RejectSpec.v`): set_data is modelled a second time as a sequence of checks and assignments on the data part of the object, equal to `GpState.set_data` when it returns (`set_data_run_eq`); the steps of `Object.v` and `Session.v` use it for calls that raise. Simplifications: an object whose first set_data is refused is one without data; a refused store_new_para_surr on an object without data leaves the history alone (the code may have written some columns).
* **C60–C65 scripts** (`Scripts.v`, vocabulary `Spec/ScriptSpec.v`; `CorrProps.v`, `ScriptProps.v`, `AcqProps.v`, `ResultProps.v`, `NuggetCurveProps.v`, `ScaleProps.v`): the functions of gpgradpy/plt and gpgradpy/results that compute numbers. C60 reads the correlation coefficients off the covariance matrix `calc_KernGrad` returns and compares them with the formulas of the script. C61 by termwise differentiation and the invariant of the loop. C62 integrates by an antiderivative and takes the limit; scipy's norm.cdf is a function argument assumed to be the integral of the density (`normal_cdf`; `C62_cdf_exists` shows there is one). C63 by loop invariants. C64 by Rayleigh quotients, Gershgorin and the trace bound; eigenvalues, and the condition number in the 1-norm, are arguments described by a specification. Not modelled: drawing, the Latin hypercube of smt, reading of files (contents are the input).
* **C66, C67, C68, C69 rounding errors** (`CholFl.v`, `EvalFl.v`, vocabulary `Spec/FloatSpec.v`; `FlChol.v`, `FlOrder.v`, `FlMargin.v`, `FlSolve.v`, `FlSol.v`, `FlTarget.v`, `FlEval.v`; `FloatProps.v` to `FloatProps5.v`): everything else in the model is exact arithmetic. Here the Cholesky factorisation, the multiplication of its rows by the preconditioner and the triangular solves are modelled with an arbitrary arithmetic whose operations have a relative error of at most u (no overflow or underflow); the sums may be taken in any order, in blocks, with or without fused multiply-adds, and divisions by the pivots may be multiplications by the reciprocal (`any_order`; `C66_any_order_of_summation` in `FlOrder.v` shows that each of these orders has the errors the other theorems assume), and the entries of the matrix may carry errors e in relation to its diagonal. Proved by an invariant of the elimination (backward error in relation to the computed factors) and a margin of positive definiteness that follows from the condition number and does not depend on diagonal scaling: the factorisation succeeds if k n (e + about n u) < 1, where k is cond_max_target, and the solution has a relative error of about k n (e + 3 n u). Double precision is an instance: `double_arith` rounds with Flocq's `round` in the format FLX with 53 bits, to nearest, for any rule for ties, and sums in any order. Examples show that it fails without nugget (coincident points) and for a condition number of 1e16 (the default of cond_max_abs). C68: the accuracy of the weights is measured in the energy norm of the matrix, so that quadratic forms and linear functionals have relative errors; the determinant is compared pivot by pivot: a pivot of a positive definite matrix is the minimum of its quadratic form over vectors with one fixed entry, so it is monotone in the form. C69: the nugget is at least the share 1/cond_max_target of the diagonal, so that the exact variance 1 - 2 k.w + w.A w of any predictor w is at least that share of the weights; the rounding errors of 1 - k.w are smaller than this, which keeps the computed variance from becoming negative.
* **C70 rounding errors of the matrices** (`KernFl.v`, vocabulary `Spec/FloatKernSpec.v`; `FlFac.v`, `FlKern.v`, `FlCov.v`, `FlCovMain.v`, `FlPred.v`; `FloatKernProps.v` to `FloatKernProps3.v`): the kernel matrices of 'SqExp' and 'Ma5f2' are written entry by entry with a rounding in every operation, in the order of the code; then noise, preconditioner, nugget (constant, or the computed row sums), varK, and the factorisation and predictions of C66-C69. The exponential function turns an absolute error of its argument into a relative one; it is large only where the kernel is small, and x^k exp(-x) is bounded, so that the error of an entry in relation to the diagonal is a constant times u, whatever the distance and theta. The factorisation reads one triangle only (`read_half`), since rounded products need not be symmetric. The errors are then fed to C66, C68 and C69 (`computed`, `within`). `FloatKernProps3.v` evaluates the bounds for 53 bits. 'RatQu' is left out: the relative error of the power function grows with alpha.
* **C71 rounding errors of the fitted mean and the likelihood** (`LkdFl.v`, vocabulary `Spec/FloatLkdSpec.v`; `FlLkd.v`, `FlLkdFree.v`, `FloatLkdProps.v`, `FloatLkdProps2.v`): the last steps of `calc_lkd_all` - normal equations of the constant mean (one unknown), residuals, solve, product, logarithms of the diagonal of the factor - with a rounding in every operation, after the matrices of C70. The exact value is characterised independently of the formula: `best_likelihood` is the largest likelihood over all constant means. The computed mean is wrong to first order in the precision; since the residuals of the exact mean are orthogonal to the basis in the inner product of the inverse, this changes the quadratic form to second order only; the rounding of the residuals themselves is multiplied by at most sqrt(n k) (the share 1/k of the diagonal). The logarithms of the pivots are bounded by the diagonal and cond_max_target: each pivot lies between a_ii/k and a_ii. Without noise: the closed form of varK with its lower limit (`closed_form`; `C71_closed_form_is_best` relates it to the likelihood), whose relative error is that of the quadratic form divided by the unexplained share of the data; the penalty on varK is left out.
* **C72 rounding errors of the gradient of the mean** (`EvalGradFl.v`; `FlGrad.v`, `FloatGradProps.v`): `dKxy_dx @ invKernEta_fdiff` at one point and direction, with the rounded entries of C70 for the covariances of the data with the derivative and the rounded weights of C67. `gradient_within` compares with the partial derivative (`is_partial`) of any function that is the posterior mean at every point, not with a formula. The joint positive semidefiniteness of data and derivative bounds the covariances in the inner product of the inverse by the prior standard deviation of the derivative, which replaces varK's part in C69.
* **C73 rounding errors of the gradient of the standard deviation** (`EvalStdGradFl.v`, vocabulary `Spec/FloatGradSpec.v`; `FlStd.v`, `FloatGradProps2.v`): `calc_dsigdx` and `calc_dsig2dx` at one point and direction. The derivative of sigma is a quotient with a sigma that may be small, so the claim is about the product t sigma, which is exactly half the derivative of the variance for exact numbers, and about eval_model_var. The computed weights solve a system with a rounded right-hand side; the difference to the exact one is bounded in the inner product of the matrix (`shift_weights`). The computed variance is strictly positive (`var_fl_pos`, the strict form of C69).
* **C74 bounded and Lipschitz predictions** (`LipFacts.v`, `LipProps.v`): joint positive semidefiniteness of the observations and two further ones gives the 2x2 posterior covariance form (`pc_cs`), Cauchy-Schwarz in the inverse covariance bounds differences of means, a lower bound 1 - s on the three kernels (`phi0_lower`) turns the distance of the kernel into a Euclidean one.
* **C75 noise and uncertainty** (`NoiseOrderProps.v`, vocabulary `Spec/NoiseOrderSpec.v`): the posterior variance is a minimum over linear predictors (as in C51), and a larger diagonal makes every predictor worse; the values and their noise are not assumed to be equal.
* **C76 agreeing observations** (`BelieverProps.v`, vocabulary `Spec/BelieverSpec.v`): the weights of the first system, extended by zeros, solve the second one, row by row; uniqueness of the solution.
* **C77 error certificate** (`NativeProps.v`, vocabulary `Spec/NativeSpec.v`): positive semidefiniteness of the kernel jets over the observations, the point and the centres gives a Cauchy–Schwarz inequality for the error functional (`mixed_cs`); the quadratic form with noise and nugget dominates the one without.
* **C35, C46 history and tables** (`HistProps.v`, `TableProps.v`): frame conditions of the row writes; export/load.  Refuted: file export, absent kernel hyperparameter, saving the text.
* **C40 condition-number constraint** (`CondGradProps*.v`): derivative of a simple extreme eigenvalue by first-order perturbation of the Rayleigh quotient, of the Frobenius
  condition number by the derivative of the inverse; histories of calls.  Refuted: gradient above the limit in log coordinates.
* **C41, C42 optimisation end to end** (`OptzHpProps.v`, `OptzTotal*.v`): what set_hpara('optz') stores, and that it never raises, for every behaviour of optimiser and sampler, with the rescale methods, any nugget and both start-point methods ('hp_best' outside 'precon': some candidate must be acceptably conditioned, or none beyond cond_max_abs; C39 shows what happens otherwise).  Refuted: the rational quadratic kernel with a parameter that is not optimised (`FixedKernelProps.v`); the Frobenius norm with noisy data (`FroProps.v`).

`MANIFEST.json` gives the status and the theorems of each property; `seeded/LOG.jsonl` the wrong programs the theorems were tested against.
