{
 "C03": [
  "partial",
  "false of the code when only the first mask is given (refutations)"
 ],
 "C05": [
  "partial",
  "RatQu with only the first mask excluded: there the code raises or is wrong (C03 refutations)"
 ],
 "C06": [
  "partial",
  "false of the code for the gradient-free Matern kernel and for partial masks with SqExp/Matern (refutations); for distinct points closer than the 1e-16 floor the gradient-enhanced Matern entries are wrong (refutation); everywhere else exact"
 ],
 "C08": [
  "partial",
  "gradient-enhanced tensors with a partial mask raise (refutation); for distinct points closer than the 1e-16 floor the Matern entries are wrong (refutation); everywhere else exact"
 ],
 "C20": [
  "partial",
  "proved whenever the noise vector exists; a gradient-free object with unknown noise has none (refutation)"
 ],
 "C36": [
  "partial",
  "flags and checks proved; x_eval shape unchecked without rescaling and empty masks with known std_grad rejected (refutations)"
 ],
 "C16": [
  "partial",
  "proved for every history; a given shift is never accepted and no rescaling is possible once nonlinear-constraint data are stored (refutations); points closer than 1e-14 undershoot the requested distance"
 ],
 "C18": [
  "partial",
  "values, deviations, gradients proved; Hessian off-diagonal entries are wrong for anisotropic scales (refutation)"
 ],
 "C19": [
  "partial",
  "the single rescaling step is proved exact; the loop keeps the kernel only when it stops at its first iteration and for rescale_origin, otherwise the code loses the anisotropy (refutations)"
 ],
 "C26": [
  "partial",
  "all slices proved exact for a constant nugget wherever the theta-derivative of the kernel is (theta_grad_supported: see C06); with a partial mask and SqExp/Matern the call raises (refutation); with a nugget that varies with the hyperparameters ('rescale_eta_vary') the slices ignore its derivative and the varK slice uses the wrong nugget (refutations)"
 ],
 "C25": [
  "partial",
  "value and every gradient slice proved exact, in natural and in the optimiser's coordinates after any history, and adjoint = direct, for a constant nugget, wherever the theta-derivative of the kernel is exact (theta_grad_supported) and the closed-form varK is above its 1e-32 floor; with a partial mask and SqExp/Matern the call raises (refutation); with a nugget that varies with the hyperparameters the gradient lacks a multiple of the nugget's derivative (proved for every noise-free state, refuted on a concrete one); where varK is held at the floor the returned gradient differs from the derivative by N/2 times the unclamped varK gradient over the floor (C25_below_the_floor) and is not the derivative on a concrete data set (C25_below_the_floor_refuted)"
 ],
 "C34": [
  "partial",
  "values, variances and first derivatives proved for every mask except kernel 'RatQu', for which evaluation raises (refutation); Hessians with a mask raise (refutation)"
 ],
 "C37": [
  "partial",
  "proved without noise or with varK = 1; otherwise the surrogate does not divide the noise by varK (refutation)"
 ],
 "C30": [
  "proved",
  "bounds proved for eval_model and, without data scaling, eval_model_var; eval_model_var raises with data scaling or calc_hess (refutation)"
 ],
 "C22": [
  "partial",
  "box, start points and their number proved for every finite history; at the first iteration (no history) the call succeeds with NaN bounds (refutation)"
 ],
 "C39": [
  "partial",
  "proved whenever the call returns, and that it returns when some acceptable point has a likelihood; it raises when one factorisation failed and all the other points are over the limit (refutation)"
 ],
 "C33": [
  "partial",
  "an evaluation always uses the current data, hyperparameters and options after a successful setup; new data, arrays changed in place and failed setups leave a stale surrogate (refutations)"
 ],
 "C35": [
  "partial",
  "stored hyperparameters are returned and export/load is a round trip; an absent kernel hyperparameter comes back as NaN and export with save2file raises (refutations)"
 ],
 "C38": [
  "partial",
  "fractions, iteration counts and the number of ill-conditioned start points proved; the largest initial condition number is always NaN and failed factorisations are never counted (refutation)"
 ],
 "C40": [
  "partial",
  "value and gradient proved in both norms (eigenvalues above the code's 1e-16 floor, constant nugget, no preconditioner, theta_grad_supported); above the limit the gradients lack the log10 chain factor (refutation)"
 ],
 "C31": [
  "partial",
  "Mean, gradient and Hessian are exact for every state left by set_data. After the optimisation (methods 'rescale_*') or the user has changed the scaling of the coordinates, mean and gradient are still exact and every Hessian entry is the second derivative times the quotient of the two scaling factors (proved), so off-diagonal entries are wrong when the factors differ (refuted on a concrete state). Hessians with a gradient mask: see C34."
 ],
 "C32": [
  "partial",
  "As C31 for the standard deviation: exact for every state left by set_data; Hessian entries are off by the quotient of the scaling factors after an anisotropic rescaling."
 ],
 "C48": [
  "partial",
  "true of construction; false of the code when leaving 'rescale_eta_vary', for 'rescale_eta_vary' without gradients, for dimensions below 1, for cond_max assigned later and for a method chosen after set_data (refutations)"
 ],
 "C47": [
  "proved",
  "hyperparameters read back from the history between set_data and the fit are excluded (they change the noise flags, C43); the fit-then-predict statement uses calc_cond False or 'precon' (otherwise C30 decides whether the surrogate is set up)"
 ],
 "C42": [
  "partial",
  "refuted for the rational quadratic kernel with b_optz_hp_kernel False (every evaluation raises) and for cond_norm 'fro' with noisy data; proved otherwise for any nugget, logarithmic scales, both start-point methods"
 ],
 "C49": [
  "proved",
  ""
 ],
 "C50": [
  "proved",
  "set_data, likelihood and evaluation; the condition number of numpy (la_cond) is arbitrary, so it and the gradients of the likelihood are not compared"
 ],
 "C51": [
  "partial",
  "proved whenever the nugget does not grow (always with a user-set nugget, and for further gradients at the same points); with the default nugget, which grows with the number of points, a further point can increase the uncertainty (refutation)"
 ],
 "C52": [
  "partial",
  "proved for \"precon\" (any units of each coordinate), for data without gradients, and for rescaled data in any common unit; noisy data need the same scaled values. The likelihood moves by a constant (noisy data too), with the penalty on varK off and varK above its floor. Refuted: the noise variance is added to the correlation matrix without being divided by varK, and the nugget of the other methods is added to derivative rows as it is. With the optional penalty on varK switched on the likelihood depends on the unit of the values: the differences of the log-likelihoods in two units are not constant (C52_penalty_refuted)"
 ],
 "C53": [
  "proved",
  "mean, standard deviation, gradients and Hessians; the scaling factors are assumed equal (always so without rescaling)"
 ],
 "C54": [
  "proved",
  "mean, standard deviation, their gradients (any number of points) and their Hessians (one point, gradient observations at every point or none, as eval_model requires), all three kernels; model over the reals"
 ],
 "C55": [
  "proved",
  "eval_model and (for data that are not rescaled, see C32) eval_model_var"
 ],
 "C56": [
  "proved",
  "values, gradients, Hessians, likelihood, factors after set_data"
 ],
 "C57": [
  "partial",
  "every state in which the coordinates have one scaling factor, in particular every state left by set_data; after the optimisation has rescaled the coordinates the entries differ by the squares of the factors (refuted)"
 ],
 "C58": [
  "proved",
  "exact real arithmetic: rounding errors of the differences are outside the model"
 ],
 "C59": [
  "partial",
  "refused requests and refused masks change nothing, refused data change at most the sizes and two flags, accepted data put everything right; that the sizes and flags stay, and what follows (a set-up that raises, a nugget on every entry, new points beside old distances), is refuted"
 ],
 "C60": [
  "partial",
  "the curves and the surface are proved for every kernel, point set and length scale; that calc_sq_exp_2d_corr uses its arguments is refuted (it reads the module's own grid)"
 ],
 "C61": [
  "proved",
  "every dimension from two on (in dimension one the gradient raises), every point and parameter; the one-dimensional function too"
 ],
 "C62": [
  "partial",
  "proved for every positive standard deviation, as limits of integrals; with no uncertainty the value is right except at exactly the best value, where it is NaN (refuted)"
 ],
 "C63": [
  "partial",
  "best_at_all_iter proved; every loaded entry proved; that the three arrays have one shape is refuted (the feasibility array keeps n_x0_init runs when the number of iterations is given)"
 ],
 "C64": [
  "partial",
  "all nuggets proved sufficient and the minimal one sharp; the flag for diagonal dominance is refuted (it requires zero correlations)"
 ],
 "C65": [
  "partial",
  "proved for data that vary; constant data give NaN (refuted); the mark is on the largest value drawn, but the axes are exchanged, so it is not at the maximiser (refuted)"
 ],
 "C66": [
  "proved",
  "any arithmetic with relative rounding errors (no overflow, no underflow; sums in any order, with or without fused operations, divisions possibly by reciprocals); double precision as an instance with Flocq's rounding; examples show that it fails without nugget and for a condition number of 1e16"
 ],
 "C67": [
  "proved",
  "error of the weights in the length scaled by the diagonal of Kcov; linear functionals; double precision"
 ],
 "C68": [
  "proved",
  "factor and solves in floating point as in C66 and C67; the logarithm, the sums over the diagonal and the dot product with the residuals are exact; the residuals are given"
 ],
 "C69": [
  "proved",
  "the factor, the solves, the sums, the final subtraction, square roots and product in floating point (no overflow, no underflow; sums of matrix products and solves in any order); the residuals and the mean function are given; an example shows that the check fails without nugget"
 ],
 "C70": [
  "proved",
  "'SqExp' and 'Ma5f2' (the error of 'RatQu' grows with alpha); scaled points, residuals and hyperparameters are exact inputs; no overflow or underflow, row sums, matrix products and solves in any order, the library's exponential within gam(2) of the exact one; without 'precon' in double precision: constant nugget without gradients up to 1e10, nugget from the row sums up to 1e8"
 ],
 "C71": [
  "proved",
  "'SqExp' and 'Ma5f2'; no penalty on varK; data, scaled points and hyperparameters are exact inputs; no overflow or underflow; sums in any order; without 'precon' in double precision: constant nugget without gradients up to 1e10, nugget from the row sums up to 1e8"
 ],
 "C72": [
  "proved",
  "'SqExp' and 'Ma5f2'; the derivative of the rescaled model in scaled coordinates; scaled points, residuals and hyperparameters are exact inputs; no overflow or underflow; sums in any order; without 'precon': C72_plain_gradient, stated through the general bound (nugget from the row sums, or gradient-free with a constant nugget)"
 ],
 "C73": [
  "proved",
  "'SqExp' and 'Ma5f2'; derivatives of the rescaled model in scaled coordinates; scaled points and hyperparameters are exact inputs; no overflow or underflow; sums in any order; the general theorems assume cond_max_target var_err < 1, which holds in the double-precision theorem"
 ],
 "C74": [
  "proved",
  "mean, standard deviation and their gradients, all three kernels, masks, noise; model over the reals"
 ],
 "C75": [
  "proved",
  "the noise the surrogate uses (C37: it does not divide it by varK); a larger nugget is excluded by hypothesis, and by a constant nugget for equal places"
 ],
 "C76": [
  "proved",
  "same nugget by hypothesis: it holds for a constant nugget when only gradients are added, and for the nugget of the user; the default grows with the number of points (C51)"
 ],
 "C77": [
  "proved",
  "function error bounded by sigma, masks and noise included; the gradient by a constant bound (not by the posterior variance of the derivative)"
 ]
}