{"id": "C01", "title": "Squared-exponential gradient kernel matrix holds exact derivatives", "statement": "For kernel_type 'SqExp' the gradient-enhanced kernel matrix built from two point sets contains, in its four block families, exactly k(x,y), dk/dx_i, dk/dy_j and d2k/dx_i dy_j of k(x,y)=exp(-sum theta_d (x_d-y_d)^2), in the documented layout (function rows first, then one block of rows per dimension restricted to the selected points), and the call never raises for consistent shapes.", "quantifier": "all dimensions, numbers of points, point sets (coincident points included), theta vectors and gradient masks (None or any boolean vector on either side)", "why_tests_cant": "the shipped tests compare against finite differences at 1-3 fixed points in at most 2 dimensions; a wrong sign, index or mask in a block that only exists for larger dim or partial masks is invisible to them", "anchors": ["gpgradpy/src/kernel/KernelSqExp.py:KernelSqExpGradMod.sq_exp_calc_KernGrad", "gpgradpy/src/base/CommonFun.py:calc_Rtensor"]}
{"id": "C02", "title": "Matern-5/2 gradient kernel matrix holds exact derivatives", "statement": "For kernel_type 'Ma5f2' the gradient-enhanced kernel matrix contains exactly the values and first/mixed second partial derivatives of k(x,y)=(1+sqrt5 nu+5/3 nu^2)exp(-sqrt5 nu), nu=sqrt(sum theta_d (x_d-y_d)^2), including where x=y (nu=0, where nu itself is not differentiable).", "quantifier": "all dimensions, sizes, point sets including coincident points, non-negative theta and all gradient masks", "why_tests_cant": "nu is not differentiable at 0, so finite-difference tests there are unreliable, and sampling cannot cover all sizes and masks", "anchors": ["gpgradpy/src/kernel/KernelMatern5f2.py:KernelMatern5f2GradMod.matern_5f2_calc_KernGrad"]}
{"id": "C03", "title": "Rational-quadratic gradient kernel matrix holds exact derivatives", "statement": "For kernel_type 'RatQu' the gradient-enhanced kernel matrix contains exactly the values and first/mixed second partial derivatives of k(x,y)=(1+sum theta_d (x_d-y_d)^2/alpha)^(-alpha), whichever of the two mask arguments is given.", "quantifier": "all dimensions, sizes, point sets, theta>=0, alpha>0 and all combinations of gradient masks", "why_tests_cant": "tests use fixed tiny data and never give only one of the two masks", "anchors": ["gpgradpy/src/kernel/KernelRatQuad.py:KernelRatQuadGradMod.rat_quad_calc_KernGrad"]}
{"id": "C04", "title": "Kernel matrices of a point set with itself are symmetric with known diagonal", "statement": "For each kernel and any gradient mask, the gradient-enhanced kernel matrix of the training points with themselves is symmetric, its function diagonal is 1 and its gradient diagonal in direction i is gamma_i^2, where gamma=theta2gamma(theta).", "quantifier": "all point sets, dimensions, theta>0, alpha>0, masks", "why_tests_cant": "symmetry of every block pair for all sizes cannot be sampled; Cholesky silently reads only one triangle so asymmetry would go unnoticed", "anchors": ["gpgradpy/src/kernel/KernelSqExp.py", "gpgradpy/src/kernel/KernelMatern5f2.py", "gpgradpy/src/kernel/KernelRatQuad.py", "gpgradpy/src/kernel/Kernel.py:calc_all_K_w_chofac"]}
{"id": "C05", "title": "Gradient masks only select rows and columns", "statement": "Using bvec_use_grad yields exactly the sub-matrix of the all-gradients kernel matrix that keeps the function rows/columns and the selected points' gradient rows/columns, in order.", "quantifier": "all masks, sizes, kernels", "why_tests_cant": "there are 2^n masks per size; tests try none or one", "anchors": ["gpgradpy/src/kernel/KernelSqExp.py:sq_exp_calc_KernGrad", "gpgradpy/src/kernel/KernelMatern5f2.py:matern_5f2_calc_KernGrad", "gpgradpy/src/kernel/KernelRatQuad.py:rat_quad_calc_KernGrad"]}
{"id": "C06", "title": "Theta-derivatives of the kernel matrices are exact", "statement": "calc_Kern_grad_theta returns, slice by slice, the exact derivative with respect to theta_d of every entry of the kernel matrix (gradient-free and gradient-enhanced) for each kernel and any gradient mask.", "quantifier": "all dimensions, sizes, point sets, theta>0, alpha>0, masks", "why_tests_cant": "finite-difference tests only see sampled points; the gradient-free Matern-5/2 formula and the masked paths are never differentiated in the tests", "anchors": ["gpgradpy/src/kernel/KernelSqExp.py:sq_exp_calc_KernBase_grad_th", "gpgradpy/src/kernel/KernelSqExp.py:sq_exp_calc_KernGrad_grad_th", "gpgradpy/src/kernel/KernelMatern5f2.py:matern_5f2_calc_KernBase_grad_th", "gpgradpy/src/kernel/KernelMatern5f2.py:matern_5f2_calc_KernGrad_grad_th", "gpgradpy/src/kernel/KernelRatQuad.py:rat_quad_calc_KernBase_grad_th", "gpgradpy/src/kernel/KernelRatQuad.py:rat_quad_calc_KernGrad_grad_th"]}
{"id": "C07", "title": "Alpha-derivative of the rational-quadratic kernel matrices is exact", "statement": "calc_Kern_grad_alpha for 'RatQu' returns the exact derivative with respect to alpha of every entry of the (gradient-free and gradient-enhanced) kernel matrix; the other two kernels reject the call.", "quantifier": "all dimensions, sizes, point sets, theta>=0, alpha>0, masks", "why_tests_cant": "finite differences at sampled points only", "anchors": ["gpgradpy/src/kernel/KernelRatQuad.py:rat_quad_calc_KernBase_grad_alpha", "gpgradpy/src/kernel/KernelRatQuad.py:rat_quad_calc_KernGrad_grad_alpha"]}
{"id": "C08", "title": "Second and third x-derivatives used for surrogate Hessians are exact", "statement": "calc_Kern_hess_x returns the exact second x-derivatives of the kernel (function columns) and of its y-gradient (gradient columns), so the model Hessian is that of the model.", "quantifier": "all dimensions, sizes, point sets, theta, alpha, masks", "why_tests_cant": "sampling; Matern third derivatives at coincident points cannot be tested by finite differences", "anchors": ["gpgradpy/src/kernel/KernelSqExp.py:sq_exp_calc_KernGrad_grad_x", "gpgradpy/src/kernel/KernelMatern5f2.py:matern_5f2_calc_KernGrad_grad_x", "gpgradpy/src/kernel/KernelRatQuad.py:rat_quad_calc_KernGrad_grad_x"]}
{"id": "C09", "title": "Kernel matrices are positive semidefinite", "statement": "For any training points and hyperparameters the gradient-enhanced and gradient-free kernel matrices are symmetric positive semidefinite, so they are valid covariance matrices.", "quantifier": "all point sets, dimensions, masks, theta>0 (alpha>0)", "why_tests_cant": "positive semidefiniteness is a statement about all vectors and all point sets", "anchors": ["gpgradpy/src/kernel/Kernel.py:calc_all_K_w_chofac", "gpgradpy/src/kernel/KernelSqExp.py", "gpgradpy/src/kernel/KernelMatern5f2.py", "gpgradpy/src/kernel/KernelRatQuad.py"]}
{"id": "C10", "title": "Preconditioned covariance condition number never exceeds the target", "statement": "With wellcond_mtd='precon' and the default constant nugget, the regularised preconditioned covariance matrix has 2-norm condition number at most cond_max_target, for all data and hyperparameters.", "quantifier": "all point sets (coincident points included), dimensions, theta>0, masks, non-negative noise, varK>0, cond_max_target>1", "why_tests_cant": "this is the headline guarantee of the library; it is a worst case over all points and hyperparameters and cannot be sampled", "anchors": ["gpgradpy/src/base/GpWellCond.py:calc_nugget", "gpgradpy/src/kernel/Kernel.py:calc_all_K_w_chofac"]}
{"id": "C11", "title": "Row-sum nugget bounds the condition number", "statement": "With cond_eta_is_const False the nugget computed from the largest absolute row sum bounds the 2-norm condition number of the (preconditioned, or noise-free) regularised matrix by cond_max_target.", "quantifier": "all matrices/data/hyperparameters for which the kernel matrix is positive semidefinite", "why_tests_cant": "worst case over all data", "anchors": ["gpgradpy/src/kernel/Kernel.py:calc_all_K_w_chofac"]}
{"id": "C12", "title": "Gradient-free nugget bounds the condition number", "statement": "For a gradient-free GP the nugget n/(cond_max_target-1) bounds the condition number of the noise-free regularised kernel matrix by cond_max_target for each of the three kernels.", "quantifier": "all point sets, dimensions, theta, alpha, cond_max_target>1", "why_tests_cant": "worst case over all data", "anchors": ["gpgradpy/src/base/GpWellCond.py:calc_nugget_Kbase", "gpgradpy/src/kernel/Kernel.py:calc_all_K_w_chofac"]}
{"id": "C13", "title": "Nugget selection is total, positive and monotone", "statement": "calc_nugget never raises for the supported methods, returns positive finite nuggets for cond_max_target>1, and decreases as cond_max_target grows; the rescale method's internal assertions can never fail.", "quantifier": "all n_eval>=1, dim>=1, cond_max_target>1, kernels and well-conditioning methods", "why_tests_cant": "the assertions depend on transcendental inequalities over all n_eval and dim", "anchors": ["gpgradpy/src/base/GpWellCond.py"]}
{"id": "C14", "title": "Cholesky factorisation succeeds and factors the covariance", "statement": "With the default nugget the Cholesky factorisation of the covariance succeeds, and the factor returned on the preconditioned path (P times the factor of the preconditioned matrix) is a Cholesky factor of the unpreconditioned covariance: solving with it solves with Kcov and the log determinant is twice the sum of the logs of its diagonal.", "quantifier": "all point sets, hyperparameters, masks, noise", "why_tests_cant": "depends on positive definiteness for all data", "anchors": ["gpgradpy/src/kernel/Kernel.py:calc_all_K_w_chofac", "gpgradpy/src/optz/CalcLkd.py"]}
{"id": "C15", "title": "Preconditioner is exact and its derivative is right", "statement": "Kern_precon returns the diagonal matrix with entries 1 and gamma_i, its inverse, and its derivative with respect to theta; theta2gamma and gamma2theta are mutually inverse on positive values.", "quantifier": "all sizes, theta>0, kernels", "why_tests_cant": "all sizes and values", "anchors": ["gpgradpy/src/kernel/KernelCommon.py", "gpgradpy/src/kernel/KernelSqExp.py:sq_exp_Kern_precon", "gpgradpy/src/kernel/KernelMatern5f2.py:matern_5f2_Kern_precon", "gpgradpy/src/kernel/KernelRatQuad.py:rat_quad_Kern_precon"]}
{"id": "C16", "title": "Design-point rescaling is invertible and reaches the requested distance", "statement": "Rescaling maps points forward and back without loss, and after set_vmin/set_vmax the minimum/maximum pairwise distance of the scaled points equals the requested distance.", "quantifier": "all point sets with distinct points, all positive scale vectors, all requested distances", "why_tests_cant": "all inputs", "anchors": ["gpgradpy/src/base/Rescaling.py:RescalingX", "gpgradpy/src/base/CommonFun.py:calc_dist_min"]}
{"id": "C17", "title": "Rescaled bounds and linear constraints describe the same feasible set", "statement": "A point satisfies the original box bounds/linear constraints iff its scaled image satisfies the scaled ones.", "quantifier": "all points, bounds, constraint matrices, positive scale vectors", "why_tests_cant": "all inputs", "anchors": ["gpgradpy/src/base/Rescaling.py"]}
{"id": "C18", "title": "Function, uncertainty and derivative rescaling is consistent and invertible", "statement": "obj_init_2_scl followed by obj_scl_2_init is the identity, and the scaled gradient (Hessian) is the gradient (Hessian) of the scaled function of the scaled variable.", "quantifier": "all data, positive scale vectors (anisotropic included), all sizes", "why_tests_cant": "tests use isotropic scaling only", "anchors": ["gpgradpy/src/base/Rescaling.py:RescalingObj"]}
{"id": "C19", "title": "Theta-based rescaling preserves the kernel", "statement": "The new scaling and the new isotropic theta estimate returned by rescaling_data_w_theta_sol describe the same kernel on the original data, and the minimum distance in the new scaling equals the required distance; iterating it in the hyperparameter optimisation keeps that agreement.", "quantifier": "all data with distinct points, theta>0, dims, numbers of iterations", "why_tests_cant": "all inputs and iteration histories", "anchors": ["gpgradpy/src/base/GpWellCond.py:rescaling_data_w_theta_sol", "gpgradpy/src/optz/GpHparaOptz.py"]}
{"id": "C20", "title": "Noise and data vectors share the kernel matrix layout", "statement": "Entry r of the data vector and of the noise vector refer to the same observation as row r of the kernel matrix: function values in order, then for each dimension the selected points' partial derivatives in that dimension.", "quantifier": "all sizes, dims, masks, noise configurations", "why_tests_cant": "all sizes; a transposed (C-order) flattening agrees for n=1 or dim=1", "anchors": ["gpgradpy/src/base/CommonFun.py:make_data_vec", "gpgradpy/src/kernel/Kernel.py:calc_noise_vec"]}
{"id": "C21", "title": "Hyperparameter vector layout is a partition and round-trips", "statement": "The index sets assigned to theta, kernel, varK, var_fval and var_fgrad partition the optimisation vector, and converting a vector to the hyperparameter class and back (with log10 coordinates where configured) is the identity.", "quantifier": "all dims, all combinations of has_* flags and log flags, all vectors", "why_tests_cant": "all flag combinations and dims", "anchors": ["gpgradpy/src/optz/GpHparaOptz.py", "gpgradpy/src/base/GpHpara.py:hp_vec2dataclass"]}
{"id": "C22", "title": "Start points and bounds are consistent", "statement": "The lower bounds never exceed the upper bounds, and every generated start point of the hyperparameter optimisation lies within the optimisation box, for every iteration index with a finite history.", "quantifier": "all histories, dims, factors, numbers of start points", "why_tests_cant": "all histories", "anchors": ["gpgradpy/src/optz/GpHparaX0.py"]}
{"id": "C23", "title": "Mean coefficients are the generalised least squares solution", "statement": "With a Cholesky factor of the covariance, the computed beta minimises (y-V b)^T Kcov^-1 (y-V b) over all b.", "quantifier": "all data vectors, masks and SPD covariances (the constant mean function is the only one the library has)", "why_tests_cant": "all data", "anchors": ["gpgradpy/src/optz/CalcLkd.py"]}
{"id": "C24", "title": "Closed-form variance maximises the likelihood", "statement": "Without noise, the closed-form varK is the unique maximiser over varK>0 of the Gaussian log marginal likelihood with the other hyperparameters fixed.", "quantifier": "all SPD kernel matrices and non-zero residuals, all varK>0", "why_tests_cant": "all data", "anchors": ["gpgradpy/src/optz/CalcLkd.py"]}
{"id": "C25", "title": "Likelihood gradient is exact, and adjoint and direct methods agree", "statement": "The gradient of the log marginal likelihood returned by the adjoint method equals the one returned by the direct method and is the derivative of the returned likelihood value in each optimised hyperparameter (chain rule for log10 coordinates included).", "quantifier": "all hyperparameters, data, covariance matrices", "why_tests_cant": "finite-difference tests only cover fixed data", "anchors": ["gpgradpy/src/optz/CalcLkd.py", "gpgradpy/src/optz/GpHparaGrad.py"]}
{"id": "C26", "title": "Covariance hyperparameter derivatives are exact", "statement": "For a constant nugget, the returned derivatives of Kcov with respect to theta, alpha, varK, var_fval and var_fgrad are the exact derivatives of the covariance matrix that is factorised, on the preconditioned path as well.", "quantifier": "all data, hyperparameters, masks, sizes", "why_tests_cant": "all inputs; the dependence of the nugget term on theta through the preconditioner is easily missed", "anchors": ["gpgradpy/src/optz/GpHparaGrad.py"]}
{"id": "C27", "title": "Likelihood evaluation is never stale", "statement": "The likelihood value, gradient and condition number returned for a hyperparameter vector are those of that vector and of the current data, whatever was evaluated before.", "quantifier": "all histories of evaluations", "why_tests_cant": "all histories", "anchors": ["gpgradpy/src/optz/OptzLkd.py"]}
{"id": "C28", "title": "Hyperparameter selection returns the best feasible candidate", "statement": "Among the optimiser results the selected hyperparameters have the best objective of those satisfying the condition number constraint (when any does), and NaN results are never selected when a finite feasible one exists.", "quantifier": "all sets of candidate results, NaN included", "why_tests_cant": "all candidate sets including NaN patterns", "anchors": ["gpgradpy/src/optz/OptzLkd.py"]}
{"id": "C29", "title": "Surrogate mean interpolates up to the nugget", "statement": "At a training point the surrogate mean (and gradient for selected gradients) differs from the data by exactly the nugget-plus-noise term of the weights, so it interpolates exactly when nugget and noise vanish.", "quantifier": "all data, masks, hyperparameters, kernels", "why_tests_cant": "all data", "anchors": ["gpgradpy/src/eval/GpEvalModel.py"]}
{"id": "C30", "title": "Surrogate variance lies between 0 and varK", "statement": "The predicted variance is never negative and never exceeds varK.", "quantifier": "all evaluation points, data, hyperparameters", "why_tests_cant": "all inputs", "anchors": ["gpgradpy/src/eval/GpEvalModel.py"]}
{"id": "C31", "title": "Returned mean gradient and Hessian are those of the returned mean", "statement": "dmu/dx (and d2mu/dx2) returned by eval_model are the derivatives of the returned mean at every evaluation point.", "quantifier": "all evaluation points, data, hyperparameters, masks, kernels", "why_tests_cant": "all inputs", "anchors": ["gpgradpy/src/eval/GpEvalModel.py"]}
{"id": "C32", "title": "Returned standard deviation gradient is that of the returned standard deviation", "statement": "dsig/dx returned by eval_model is the derivative of the returned standard deviation wherever it is positive.", "quantifier": "all evaluation points, data, hyperparameters, masks, kernels", "why_tests_cant": "all inputs", "anchors": ["gpgradpy/src/eval/GpEvalModel.py"]}
{"id": "C33", "title": "Stale surrogate state is rejected", "statement": "eval_model refuses to evaluate when the current hyperparameters or data differ from those of the stored factorisation.", "quantifier": "all interleavings of set_data, set_custom_hp, set_hpara and eval_model", "why_tests_cant": "all histories", "anchors": ["gpgradpy/src/eval/GpEvalModel.py", "gpgradpy/src/GaussianProcess.py"]}
{"id": "C34", "title": "Surrogate evaluation works with partial gradients", "statement": "When bvec_use_grad selects a subset of points, eval_model returns mean, variance and their first derivatives for every kernel exactly as if the unselected gradients had never been supplied.", "quantifier": "all masks, sizes, kernels", "why_tests_cant": "2^n masks", "anchors": ["gpgradpy/src/eval/GpEvalModel.py", "gpgradpy/src/kernel/KernelRatQuad.py"]}
{"id": "C35", "title": "Stored hyperparameter history round-trips", "statement": "Hyperparameters stored at iteration i are returned unchanged by the 'stored' method and survive export followed by load.", "quantifier": "all histories, dims, missing values", "why_tests_cant": "all histories", "anchors": ["gpgradpy/src/base/GpParaDef.py", "gpgradpy/src/base/GpHpara.py"]}
{"id": "C36", "title": "set_data validates shapes and derives the noise configuration", "statement": "set_data accepts exactly shape-consistent data and sets the known/optimised/zero noise flags so that varK is optimised in closed form exactly when all given standard deviations are below 1e-10.", "quantifier": "all inputs", "why_tests_cant": "all combinations of None/NaN/zero noise", "anchors": ["gpgradpy/src/GaussianProcess.py:set_data"]}
{"id": "C37", "title": "Surrogate and likelihood describe the same model", "statement": "For the same data and hyperparameters the covariance matrix whose likelihood is maximised is varK times the (normalised) matrix the surrogate is built from, so the fitted noise and variance mean the same thing in both.", "quantifier": "all data, noise levels, hyperparameters, regularisation methods", "why_tests_cant": "the two code paths only differ for noisy data with varK different from 1, and then by a plausible amount", "anchors": ["gpgradpy/src/kernel/Kernel.py:calc_all_K_w_chofac", "gpgradpy/src/eval/GpEvalModel.py:setup_eval_model"]}
{"id": "C38", "title": "Optimisation diagnostics report what happened", "statement": "The numbers reported about a hyperparameter optimisation (numbers of failed factorisations, of violated constraints, largest condition numbers, fractions) count the events they are named after.", "quantifier": "all sets of candidate results, NaN included", "why_tests_cant": "all histories of the optimiser", "anchors": ["gpgradpy/src/optz/GpHparaOptz.py"]}
{"id": "C39", "title": "The start point chosen by 'hp_best' is the most likely acceptable one", "statement": "With lkd_optz_start_mtd 'hp_best' the single start point is one of the generated points and has the largest likelihood among those whose factorisation succeeded and whose condition number is at most 1.2 times the limit; when all exceed it, the one of least condition number is used; the selection succeeds whenever some point has a likelihood.", "quantifier": "all sets of generated points, likelihood values and condition numbers, failed factorisations included", "why_tests_cant": "needs points that are ill-conditioned or whose factorisation fails, which no shipped test produces", "anchors": ["gpgradpy/src/optz/GpHparaX0.py:select_hp_optz_x0"]}
{"id": "C40", "title": "The condition-number constraint and its gradient are exact", "statement": "The value of the constraint handed to the optimiser is the condition number (2-norm, or Frobenius norm if so configured) of the matrix whose likelihood is maximised, and the gradient handed to it is the derivative of that value with respect to the optimiser's own (possibly log10) coordinates; the same holds for the objective when the matrix is too ill-conditioned to be factorised and the condition number is used in its place.", "quantifier": "all data, hyperparameters, kernels, noise settings and call histories; every eigen-decomposition numpy may return", "why_tests_cant": "the derivative of an extreme eigenvalue quotient along every coordinate cannot be settled by finite differences on a few matrices, and no shipped test reaches the fallback branch", "anchors": ["gpgradpy/src/optz/GpHparaCon.py:calc_cond_L2_w_grad", "gpgradpy/src/optz/GpHparaCon.py:calc_cond_fronorm_w_grad", "gpgradpy/src/optz/OptzLkd.py:calc_store_likelihood"]}
{"id": "C41", "title": "What an optimisation of the hyperparameters stores", "statement": "After set_hpara with method 'optz' the stored length scales, kernel parameter and noise variances are 10 to the power of the vector selected by the optimiser, beta is the generalised least squares mean for them, varK without noise is the maximiser of the likelihood, the reported condition number is that of the covariance matrix of the stored values, and the stored values can be used by every evaluation method; with at most hp_const_n_eval points the documented constants are stored instead; after a change of the scaling all of this refers to the new scaling.", "quantifier": "all data, options, kernels, call histories, start points and every behaviour of the optimiser and the sampler", "why_tests_cant": "the optimiser is an external program whose answers vary; a test sees a few runs", "anchors": ["gpgradpy/src/optz/GpHparaOptz.py:optz_hp", "gpgradpy/src/optz/GpHparaOptz.py:optz_closed_form_hp", "gpgradpy/src/optz/OptzLkd.py:optz_hp_max_lkd", "gpgradpy/src/optz/OptzLkd.py:optz_hp_max_lkd_mtd_rescale"]}
{"id": "C42", "title": "An optimisation of the hyperparameters never raises", "statement": "Whatever vectors of the right length the optimiser asks for, the objective, the constraint and their gradients are returned as numbers, at every condition number, and an optimisation whose optimiser ends normally ends with stored hyperparameters.", "quantifier": "all supported data and options, all vectors, every behaviour of the optimiser", "why_tests_cant": "an exception needs a vector at which the matrix is not factorised or an array has another shape; the optimiser may ask for any vector", "anchors": ["gpgradpy/src/optz/OptzLkd.py:calc_store_likelihood", "gpgradpy/src/optz/OptzLkd.py:optz_hp_max_lkd", "gpgradpy/src/optz/GpHparaOptz.py:optz_hp", "gpgradpy/src/optz/GpHparaCon.py:calc_cond_w_grad"]}
{"id": "C43", "title": "set_hpara makes the requested hyperparameters current, and those of an iteration come back", "statement": "After a successful set_hpara the current hyperparameters are the ones asked for: those given ('set'), those the history holds about the iteration ('stored'), those the optimisation found ('optz'), the previous ones ('current'); and hyperparameters found at an iteration are current again after 'stored' for that iteration, whatever other operations took place in between that do not concern it.", "quantifier": "all states an object can reach, all programs of operations between the two calls, operations that raise included", "why_tests_cant": "ranges over every sequence of operations on an object with shared arrays and views", "anchors": ["gpgradpy/src/GaussianProcess.py:set_hpara", "gpgradpy/src/base/GpHpara.py:set_hp_from_idx", "gpgradpy/src/base/GpParaDef.py:store_new_para_surr"]}
{"id": "C44", "title": "Nonlinear-constraint data in the scaled coordinates", "statement": "After set_nlc_data the scaled constraint values are the given ones shifted and scaled, their gradients are the gradients of the scaled constraints with respect to the scaled coordinates, converting back gives the given data, and the scale is positive: 1 without a method and the scale of the objective with 'obj_scl'; this stays so after every further call on the object.", "quantifier": "all data, scaling methods, and histories of calls on the scaling object", "why_tests_cant": "the values returned depend on the whole history of scaling calls; a test sees one", "anchors": ["gpgradpy/src/base/Rescaling.py:RescalingNonlincon", "gpgradpy/src/base/Rescaling.py:set_nlc_data"]}
{"id": "C45", "title": "Bounds around the past hyperparameters", "statement": "get_hp_bounds returns, in the coordinates of the optimiser, a lower bound below an upper bound for every optimised hyperparameter, both within its allowed range; without cstr_w_old_hp, at the first iteration, and for hyperparameters the past does not restrict they are the range itself, otherwise the part of the range within range_frac of its length (in orders of magnitude) of the median of the recent past values, which it contains; a missing past value is an error and never a NaN bound.", "quantifier": "all histories, ranges, iteration indices, sets of optimised hyperparameters and coordinates", "why_tests_cant": "depends on medians of arbitrary histories and clipping at both ends of every range", "anchors": ["gpgradpy/src/optz/GpHparaCon.py:get_hp_bounds"]}
{"id": "C46", "title": "The summary tables show the history", "statement": "The tables of get_txt_info_surr have one row per iteration of the history and, under every header, the recorded quantity that header names: hyperparameters, the ratio of varK to the variance of the data, the length scales (or their least, greatest and median value above dimension 3), times, success rates in percent, iterations, condition number; no column is left unfilled or shifted.", "quantifier": "all dimensions, noise settings, histories and numbers of iterations", "why_tests_cant": "the columns move with the dimension and two flags; a test looks at one layout", "anchors": ["gpgradpy/src/base/GpInfo.py:info_surr_summary", "gpgradpy/src/base/GpInfo.py:info_surr_theta", "gpgradpy/src/base/GpInfo.py:info_surr_optz", "gpgradpy/src/base/GpInfo.py:get_txt_info_surr"]}
{"id": "C47", "title": "A session: fit, then predict", "statement": "After set_data and a later set_hpara('optz'), whatever happened before and in between (earlier data, earlier optimisations, other hyperparameters, histories begun or finished, evaluations), eval_model returns the posterior mean and standard deviation of the Gaussian process conditioned on exactly the data handed over, with the hyperparameters the optimisation found; these are the current hyperparameters of the object, the recorded ones of that iteration, and have the likelihood-maximising mean and variance for the data. What is found does not depend on the past of the object but for the history that start points are taken from; and set_hpara('optz') does not raise when the iteration lies in the history and the start points, the optimiser and NumPy return.", "quantifier": "all options of the object but the noise setting that cannot be optimised, all data, all pasts and all programs between set_data and set_hpara('optz') without new data or hyperparameters read back, all optimisers and samplers, all evaluation points", "why_tests_cant": "it composes the data scaling, the optimisation loop, the history and the prediction, for every sequence of calls; a test runs one sequence", "anchors": ["gpgradpy/src/GaussianProcess.py:set_data", "gpgradpy/src/GaussianProcess.py:set_hpara", "gpgradpy/src/optz/GpHparaOptz.py:optz_hp", "gpgradpy/src/base/GpParaDef.py:store_new_para_surr", "gpgradpy/src/eval/GpEvalModel.py:eval_model"]}
{"id": "C48", "title": "Constructing an object and choosing the method against ill-conditioning", "statement": "The constructor accepts exactly an integer dimension, a boolean use_grad, the three kernel names, the six method names and the mean function 'poly_ord_0'; the new object has the requested dimension, gradients and kernel, the requested method with gradients and 'base' without, a condition-number constraint (bounded by cond_max) exactly when the method is not 'precon', rescaled coordinates exactly for the rescaling and set-distance methods, and a varying nugget exactly for 'rescale_eta_vary'; every new object of positive dimension meets the requirements of the other properties. set_wellcond_mtd on an object has the effect of constructing it with that method; without gradients the method makes no difference; options assigned later take effect.", "quantifier": "all argument values, all pairs of methods, all values of cond_max", "why_tests_cant": "arguments of any type and combinations of methods; a test constructs a few", "anchors": ["gpgradpy/src/GaussianProcess.py:__init__", "gpgradpy/src/GaussianProcess.py:set_wellcond_mtd", "gpgradpy/src/kernel/Kernel.py:__init__", "gpgradpy/src/eval/GpMeanFun.py:set_mean_fun_op"]}
{"id": "C49", "title": "The kernel classes without masks", "statement": "The mask-free classes KernelSqExpGrad, KernelMatern5f2Grad and KernelRatQuadGrad return, for the same points and hyperparameters, arrays of the same shape and with the same entries as the kernel classes in use called without masks: the covariance matrix (the exact derivative covariances), its derivatives in theta, in the evaluation points and in alpha; where the classes in use have no such derivative, neither have these.", "quantifier": "all point sets, dimensions and hyperparameters, the three kernels", "why_tests_cant": "block assembly in nested loops with different offsets and signs; equality must hold for every size and dimension", "anchors": ["gpgradpy/src/kernel/KernelSqExp.py:KernelSqExpGrad", "gpgradpy/src/kernel/KernelMatern5f2.py:KernelMatern5f2Grad", "gpgradpy/src/kernel/KernelRatQuad.py:KernelRatQuadGrad"]}
{"id": "C50", "title": "The order of the observations does not matter", "statement": "The same observations handed to set_data in another order (points with their values, gradients and standard deviations) give the same scaling factors, the same likelihood, closed-form variance and mean (in the units of the data), and at every point the same predicted mean, standard deviation, gradients and Hessians from eval_model, with the same hyperparameters.", "quantifier": "all data and masks, all reorderings of the points and of the gradients, all kernels and options, all hyperparameters and evaluation points", "why_tests_cant": "must hold for every permutation of every data set, while shifts, nuggets, masks and block positions all depend on the order of the rows", "anchors": ["gpgradpy/src/GaussianProcess.py:set_data", "gpgradpy/src/base/Rescaling.py:set_xscale_data", "gpgradpy/src/optz/CalcLkd.py:calc_lkd_all", "gpgradpy/src/eval/GpEvalModel.py:setup_eval_model", "gpgradpy/src/eval/GpEvalModel.py:eval_model"]}
{"id": "C51", "title": "More observations never increase the predicted uncertainty", "statement": "When every observation of one data set is also in a second one and the hyperparameters and scaling factors are the same, the standard deviation eval_model predicts with the second is nowhere larger than with the first.", "quantifier": "all pairs of data sets with gradients at any subset of points, kernels, methods, noise, hyperparameters and evaluation points", "why_tests_cant": "an inequality between two inverses of matrices of different sizes, at every evaluation point", "anchors": ["gpgradpy/src/eval/GpEvalModel.py:setup_eval_model", "gpgradpy/src/eval/GpEvalModel.py:eval_model", "gpgradpy/src/base/GpWellCond.py:calc_nugget"]}
{"id": "C52", "title": "The units of the data do not matter", "statement": "The same data and hyperparameters expressed in other units (a positive factor and a shift for each coordinate and for the values; gradients, standard deviations, theta, varK, noise variances and mean converted accordingly) give the same nugget and, at converted evaluation points, the predicted mean, standard deviation and their gradients of eval_model converted in the same way. The log-likelihood of all hyperparameters moves by one constant, so the best hyperparameters do not depend on the units, and the closed-form varK and mean are converted in the same way. With a method that rescales the data, one change of unit for all coordinates leaves the scaled data and hence the meaning of the hyperparameters unchanged.", "quantifier": "all data, gradients, kernels, methods, factors and shifts, hyperparameters and evaluation points", "why_tests_cant": "must hold for every conversion factor and data set; a test converts one data set and compares within tolerances that hide the size of the nugget", "anchors": ["gpgradpy/src/GaussianProcess.py:set_data", "gpgradpy/src/base/Rescaling.py:set_xscale_data", "gpgradpy/src/kernel/Kernel.py:calc_all_K_w_chofac", "gpgradpy/src/eval/GpEvalModel.py:setup_eval_model", "gpgradpy/src/eval/GpEvalModel.py:eval_model"]}
{"id": "C53", "title": "Predictions are linear in the observations", "statement": "With fixed hyperparameters, sites, standard deviations and scaling factors: the standard deviation eval_model predicts, its gradient and its Hessian do not depend on the observed values and gradients; the predicted mean, its gradient and its Hessian from observations c1*(f1,g1)+c2*(f2,g2) (with the mean of the process combined likewise) are the same combination of those from (f1,g1) and (f2,g2); and observations equal to the mean of the process with zero gradients give that value, with zero gradient, at every point.", "quantifier": "all sites, masks, noise, kernels, methods, hyperparameters, factors c1 and c2, observations and evaluation points", "why_tests_cant": "an identity between the outputs on three data sets for every choice of observations and points", "anchors": ["gpgradpy/src/GaussianProcess.py:set_data", "gpgradpy/src/eval/GpEvalModel.py:setup_eval_model", "gpgradpy/src/eval/GpEvalModel.py:eval_model"]}
{"id": "C54", "title": "Far from the data the model returns to the prior", "statement": "For every tolerance there is a distance such that at every evaluation point at least that far from every data point, eval_model predicts the mean of the process (in the units of the data) and the standard deviation sqrt(varK) (in those units), and the gradients of both are zero, and so are their Hessians where they can be asked for, all within the tolerance.", "quantifier": "all data, masks, noise, kernels, methods and hyperparameters, all tolerances, all evaluation points beyond the distance", "why_tests_cant": "a limit over an unbounded set of evaluation points", "anchors": ["gpgradpy/src/eval/GpEvalModel.py:setup_eval_model", "gpgradpy/src/eval/GpEvalModel.py:eval_model", "gpgradpy/src/kernel/KernelSqExp.py:KernelSqExpGradMod", "gpgradpy/src/kernel/KernelMatern5f2.py:KernelMatern5f2GradMod", "gpgradpy/src/kernel/KernelRatQuad.py:KernelRatQuadGradMod"]}
{"id": "C55", "title": "Evaluating many points is evaluating each", "statement": "eval_model (and eval_model_var) at a matrix of points returns, in row p, what it returns for the p-th point alone: mean, standard deviation and both gradients do not depend on the other points of the batch, nor on which derivatives are asked for. A vector of coordinates is treated as a matrix with one row, squeeze_nx drops the axis of the points and changes no number, and squeeze_nx with several points or an array with another number of axes raises.", "quantifier": "all set-up surrogates, batches of any size, positions in the batch, combinations of the flags calc_grad, calc_hess and squeeze_nx", "why_tests_cant": "must hold for every batch size and position; gradients of all points are computed in one reshaped product", "anchors": ["gpgradpy/src/eval/GpEvalModel.py:eval_model", "gpgradpy/src/eval/GpEvalModel.py:eval_model_var", "gpgradpy/src/eval/GpEvalModel.py:calc_dmudx", "gpgradpy/src/eval/GpEvalModel.py:calc_dsigdx"]}
{"id": "C56", "title": "The order of the coordinates does not matter", "statement": "The same problem with its coordinates in another order (the columns of the points, of the gradients and of their standard deviations, and the entries of theta) gives the same scaling factors, in the other order, the same nugget, log-likelihood, closed-form variance and mean, and at every evaluation point with its coordinates in that order the same predicted mean and standard deviation, with the entries of the gradients and Hessians in the other order.", "quantifier": "all data and masks, all permutations of the coordinates, all kernels and options, all hyperparameters and evaluation points", "why_tests_cant": "must hold for every permutation and dimension, while block positions in every matrix depend on the coordinate", "anchors": ["gpgradpy/src/GaussianProcess.py:set_data", "gpgradpy/src/base/Rescaling.py:set_xscale_data", "gpgradpy/src/kernel/Kernel.py:calc_all_K_w_chofac", "gpgradpy/src/optz/CalcLkd.py:calc_lkd_all", "gpgradpy/src/eval/GpEvalModel.py:eval_model"]}
{"id": "C57", "title": "Returned Hessians are symmetric", "statement": "The Hessians eval_model returns for the mean and for the standard deviation are symmetric in the two coordinates, in every state left by set_data.", "quantifier": "all data, kernels, methods, hyperparameters, evaluation points and pairs of coordinates", "why_tests_cant": "an equality of two differently computed entries for every pair of coordinates, data set and evaluation point", "anchors": ["gpgradpy/src/eval/GpEvalModel.py:eval_model", "gpgradpy/src/eval/GpEvalModel.py:calc_d2mudx2", "gpgradpy/src/eval/GpEvalModel.py:calc_d2sigdx2", "gpgradpy/src/base/Rescaling.py:obj_hess_2_init"]}
{"id": "C58", "title": "The finite-difference check of gradients is reliable", "statement": "test_grad_calc(x0, fun, grad, eps, calc_cent_diff) returns the given gradient and an array of the same shape whose entries tend to the partial derivatives of every differentiable function as eps tends to 0, with error at most B*eps/2 (forward, B a bound of the second derivative) or B*eps^2/6 (central, B a bound of the third), and are exact for every eps when the function is affine, or (central) quadratic, in the coordinate. A wrong entry of the gradient therefore shows for every small enough step, and the surrogate's own mean and standard deviation pass.", "quantifier": "all functions of any number of variables and values, points, steps, coordinates, both kinds of difference", "why_tests_cant": "a limit over all steps and all differentiable functions", "anchors": ["gpgradpy/src/base/CommonFun.py:test_grad_calc"]}
{"id": "C59", "title": "A call that raises leaves the object as it was", "statement": "When set_data refuses its arguments, or a request about hyperparameters is refused (a variance that is not positive, an iteration the history does not have), the object afterwards behaves as before the call: the same set-up succeeds and gives the same predictions. Whatever has happened before, rejected calls included, once set_data has accepted new data and hyperparameters have been given, set-up and evaluation behave as on a new object.", "quantifier": "all programs of calls before, all rejected arguments, all objects", "why_tests_cant": "the exception can come from any of the checks, between any two assignments, in any state", "anchors": ["gpgradpy/src/GaussianProcess.py:set_data", "gpgradpy/src/GaussianProcess.py:set_hpara", "gpgradpy/src/base/GpHpara.py:set_hp_from_idx"]}
{"id": "C60", "title": "The plotted correlations are those of the kernels", "statement": "The curves plt_kern_corr.py draws for the three kernels (value with value, value with derivative, derivative with derivative, over the scaled distance gamma*(x-y)) are the correlation coefficients of the library's covariance matrix of two points that differ in one coordinate, and the surface it draws for the Gaussian kernel is the correlation of the derivatives in two different coordinates; the functions compute the correlation of the arguments they are given.", "quantifier": "all kernels, points, dimensions, length scales and coordinates, all values of alpha", "why_tests_cant": "an identity between closed formulas and matrix entries for every distance and hyperparameter", "anchors": ["gpgradpy/plt/plt_kern_corr.py:calc_sq_exp_1d_corr", "gpgradpy/plt/plt_kern_corr.py:calc_Ma5f2_1d_corr", "gpgradpy/plt/plt_kern_corr.py:calc_rat_qd_corr", "gpgradpy/plt/plt_kern_corr.py:calc_sq_exp_2d_corr"]}
{"id": "C61", "title": "The gradients of the example functions are their gradients", "statement": "For the Rosenbrock function of plt_cond.py and plt_nugget_1d.py and the one-dimensional function of plt_acq.py and plt_surr_1d.py, calc_grad returns in row p and column i the partial derivative of calc_obj at point p in coordinate i, in every dimension; calc_obj of Rosenbrock is never negative and zero exactly at (1, ..., 1).", "quantifier": "all numbers of points, dimensions from two on, all points and parameters a", "why_tests_cant": "derivatives at every point and in every dimension", "anchors": ["gpgradpy/plt/plt_cond.py:calc_obj", "gpgradpy/plt/plt_cond.py:calc_grad", "gpgradpy/plt/plt_nugget_1d.py:calc_grad", "gpgradpy/plt/plt_acq.py:calc_grad", "gpgradpy/plt/plt_surr_1d.py:calc_grad"]}
{"id": "C62", "title": "The acquisition functions are what they are called", "statement": "calc_acq_exp_improvement(mu, sig, best) is minus the expectation of max(best - Y, 0) for Y normal with mean mu and standard deviation sig, and is defined for every prediction of the model, certain predictions included; calc_acq_upper_conf(mu, sig, beta) is the value below which Y falls with probability cdf(-beta).", "quantifier": "all means, deviations, best values and beta", "why_tests_cant": "an improper integral for every choice of the parameters, and the limit case of no uncertainty", "anchors": ["gpgradpy/plt/plt_acq.py:calc_acq_exp_improvement", "gpgradpy/plt/plt_acq.py:calc_acq_upper_conf", "gpgradpy/plt/plt_surr_1d.py:calc_acq_exp_improvement"]}
{"id": "C63", "title": "Histories of optimisations are loaded and reduced faithfully", "statement": "best_at_all_iter returns at every iteration up to the last number the best of the numbers so far (NaN when there is none) and NaN afterwards, for minimisation and maximisation, never raises on a history that is not empty, and changes nothing when applied to its own result. load_npz_data puts every number of every file, run and iteration up to the limit in its place, fills the rest with NaN, and returns three arrays of one shape, as large as the longest file needs.", "quantifier": "all histories with NaN anywhere, all lists of files, limits and numbers of runs", "why_tests_cant": "NaN can be anywhere and files can have any shapes", "anchors": ["gpgradpy/results/PltOptzResults.py:best_at_all_iter", "gpgradpy/results/PltOptzResults.py:load_npz_data"]}
{"id": "C64", "title": "The nuggets that are compared bound the condition number", "statement": "In plt_nugget_1d.py the nugget called minimal keeps the condition number of the correlation matrix within the limit and no smaller one does; the nuggets computed from the row sums, from the trace and from the condition numbers in the 2-norm and 1-norm are never below it, so they do too, and the row-sum nugget is never above the trace nugget; the constant one is the library's nugget for the preconditioned Gaussian kernel; the flag for diagonal dominance is set for matrices that are diagonally dominant.", "quantifier": "all correlation matrices of any size, all limits greater than one", "why_tests_cant": "an eigenvalue bound and its sharpness for every matrix", "anchors": ["gpgradpy/plt/plt_nugget_1d.py:eta_eig_all", "gpgradpy/plt/plt_nugget_1d.py:eta_Gcircle_all", "gpgradpy/plt/plt_nugget_1d.py:eta_w_cond_l1", "gpgradpy/plt/plt_nugget_1d.py:eta_Gaussian", "gpgradpy/plt/plt_nugget_1d.py:Kcor_is_diagdom"]}
{"id": "C65", "title": "Scaled curves and the mark of the largest likelihood", "statement": "calc_scl_data and plot_acq map the smallest number to 0, keep all numbers within [0, 1] and keep their order (calc_scl_data maps the largest to 1 and leaves NaN as NaN); the star in the plots of plt_cond.py stands at the hyperparameters (gamma_1, gamma_2) with the largest likelihood of the table, on the largest value that is drawn.", "quantifier": "all tables of numbers and NaN, all acquisition values", "why_tests_cant": "must hold for every table, constant tables and tables with NaN included", "anchors": ["gpgradpy/plt/plt_cond.py:calc_scl_data", "gpgradpy/plt/plt_cond.py:calc_cond_lkd", "gpgradpy/plt/SurrPlt.py:plot_acq"]}
{"id": "C66", "title": "The Cholesky factorisation does not fail in floating-point arithmetic", "statement": "With 'precon' (computed nugget) the factorisation of the covariance matrix succeeds although every operation and every entry of the matrix carries a rounding error, for all data sets, hyperparameters and noises, as long as the precision allows cond_max_target; in double precision this is so for the default 1e10 and up to 900 data with entries right to 14 digits. The same holds without preconditioning, with noise or not, when the nugget is computed from the row sums or the model is gradient-free. The product of the factors is the matrix up to the rounding errors of n operations.", "quantifier": "all arithmetics with relative rounding errors, all matrices and sizes, all data sets and hyperparameters", "why_tests_cant": "rounding errors can be anything within their bounds in every operation; a run shows one of them", "anchors": ["gpgradpy/src/kernel/Kernel.py:calc_all_K_w_chofac", "gpgradpy/src/kernel/Kernel.py:cho_factor", "gpgradpy/src/base/CommonFun.py"]}
{"id": "C67", "title": "The weights of the surrogate are accurate in floating-point arithmetic", "statement": "The weights obtained from the computed Cholesky factor - with 'precon' from the factor of the preconditioned matrix whose rows are multiplied by the preconditioner - are the exact ones up to a relative error of about cond_max_target n (e + 3 n u), for all data, noises, hyperparameters and right-hand sides, however ill-conditioned the covariance matrix itself is; and so are the predictions, which are linear in the weights. In double precision, up to 100 data and entries right to 14 digits, it is at most 5e-12 times cond_max_target.", "quantifier": "all arithmetics with relative rounding errors, all matrices, right-hand sides and sizes, all data sets and hyperparameters", "why_tests_cant": "accumulated rounding errors for every input, in terms of the condition number", "anchors": ["gpgradpy/src/kernel/Kernel.py:calc_all_K_w_chofac", "gpgradpy/src/eval/GpMeanFun.py:calc_mean_model_coeff", "gpgradpy/src/eval/GpEvalModel.py:cho_solve"]}
{"id": "C68", "title": "The likelihood is accurate in floating-point arithmetic", "statement": "With the computed Cholesky factor (with 'precon': the factor of the preconditioned matrix with multiplied rows) the logarithm of the determinant is right within -n ln(1-r), the quadratic form of the residuals with a relative error of at most r/(1-r), the log-likelihood for known variances within half of (-n ln(1-r) + r/(1-r) q), and the log-likelihood with the optimal varK within -(n/2) ln(1-2r), for all data, hyperparameters and residuals, where r is about cond_max_target n (e + 3 n u), however ill-conditioned the covariance matrix itself is. In double precision, up to 100 data and entries right to 14 digits, r is at most 5e-12 times cond_max_target.", "quantifier": "all arithmetics with relative rounding errors, all data sets, hyperparameters, residuals and sizes", "why_tests_cant": "accumulated rounding errors for every input, in terms of the condition number", "anchors": ["gpgradpy/src/optz/CalcLkd.py:calc_lkd_all_w_noise", "gpgradpy/src/optz/CalcLkd.py:calc_detKmat", "gpgradpy/src/kernel/Kernel.py:calc_all_K_w_chofac"]}
{"id": "C69", "title": "Predictions are safe and accurate in floating-point arithmetic", "statement": "With a computed nugget ('precon', or without preconditioning from the row sums or gradient-free) the check of eval_model that no variance is negative never fails although the factorisation, the solves, the sums and the covariances with the evaluation point carry rounding errors - at data points, where the exact variance is nearly zero, too - as long as the precision allows cond_max_target. The variance is right up to about r + sqrt(k n) (2 e + n u) in relation to varK, the mean up to about r + sqrt(k n) (e + n u) in relation to the length of the data, with k = cond_max_target and r about k n (e + 3 n u). In double precision, up to 100 data and entries right to 14 digits, this is so for the default 1e10 with errors of at most 6e-12 times cond_max_target.", "quantifier": "all arithmetics with relative rounding errors, all data sets, noises, hyperparameters and evaluation points", "why_tests_cant": "a single negative rounded variance raises; rounding errors can be anything within their bounds", "anchors": ["gpgradpy/src/eval/GpEvalModel.py:eval_model", "gpgradpy/src/eval/GpEvalModel.py:setup_eval_model", "gpgradpy/src/kernel/Kernel.py:calc_all_K_w_chofac"]}
{"id": "C70", "title": "The covariance matrix is accurate in floating-point arithmetic", "statement": "For the kernels 'SqExp' and 'Ma5f2', every entry of the kernel matrix computed with a rounding error in every operation (differences of the points, sums, products, square roots, exponential functions) is right up to about (6 d + 48) u in relation to the diagonal, for all points, gradients and theta, small or large. The matrix that is factored, after noise, preconditioner and computed or constant nugget, is right up to about (8 d + 88) u plus the error of the nugget; it need not be exactly symmetric. Hence the whole computation from the scaled points to the Cholesky factor, the mean and the standard deviation, with rounding errors everywhere, never fails and is accurate when the precision allows cond_max_target; in double precision, without any assumption on intermediate results, the 'precon' factorisation never fails up to 500 data in 20 dimensions with cond_max_target from 1e5 to 1e10, and up to 100 data weights, likelihood, means and variances have errors of at most 11e-12 times cond_max_target.", "quantifier": "all arithmetics with relative rounding errors, all data sets, noises, hyperparameters, evaluation points, dimensions and sizes", "why_tests_cant": "cancellation and accumulated rounding errors for every input; rounding errors can be anything within their bounds", "anchors": ["gpgradpy/src/kernel/KernelSqExp.py:sq_exp_calc_KernGrad", "gpgradpy/src/kernel/KernelMatern5f2.py", "gpgradpy/src/kernel/Kernel.py:calc_all_K_w_chofac", "gpgradpy/src/eval/GpEvalModel.py:eval_model"]}
{"id": "C71", "title": "The fitted mean and the likelihood are accurate in floating-point arithmetic", "statement": "For the kernels 'SqExp' and 'Ma5f2', with noise or without, the constant mean and the log-likelihood computed with a rounding error in every operation - entries of the covariance matrix, preconditioner, nugget, Cholesky factor, triangular solves, mean, residuals, logarithms of the pivots, sums - are close to the generalised least squares mean and to the largest likelihood over all constant means for the exact covariance matrix, for all data, noises and hyperparameters, however ill-conditioned the covariance matrix itself is. In double precision, up to 100 data, 20 dimensions and cond_max_target 1e10 (s = cond_max_target times 75e-15 with 'precon'): the mean within 260 s of the length of the data, the likelihood within s (5750 + 130 times the weighted sum of squares of the data) plus the rounding of the numbers themselves. Without noise the variance in closed form has a relative error of about 261 s divided by the share of the data that the mean does not explain, which enters the maximised value through a logarithm.", "quantifier": "all arithmetics with relative rounding errors, all data sets, noises (none included), hyperparameters, dimensions and sizes", "why_tests_cant": "accumulated rounding errors for every input; the errors of the mean enter the residuals and cancel only to first order", "anchors": ["gpgradpy/src/optz/CalcLkd.py:calc_lkd_all_w_noise", "gpgradpy/src/optz/CalcLkd.py:calc_detKmat", "gpgradpy/src/eval/GpMeanFun.py:calc_mean_model_coeff", "gpgradpy/src/kernel/Kernel.py:calc_all_K_w_chofac"]}
{"id": "C72", "title": "The gradient of the mean is accurate in floating-point arithmetic", "statement": "For the kernels 'SqExp' and 'Ma5f2', the partial derivative of the mean that eval_model returns, computed with a rounding error in every operation - entries of the covariance matrix, preconditioner, nugget, Cholesky factor, triangular solves, covariances of the data with the derivative at the point, their product with the weights - differs from the partial derivative of the posterior mean by at most about r + sqrt(k n) (e + n u) in relation to the prior standard deviation of the derivative times the length of the data (k = cond_max_target), for all data, noises, hyperparameters, evaluation points and directions, however ill-conditioned the covariance matrix itself is. In double precision, up to 100 data, 20 dimensions and cond_max_target 1e10, with 'precon' it is at most 11e-12 times cond_max_target.", "quantifier": "all arithmetics with relative rounding errors, all data sets, noises, hyperparameters, evaluation points, directions, dimensions and sizes", "why_tests_cant": "accumulated rounding errors for every input; differentiation of a formula says nothing about the rounded values", "anchors": ["gpgradpy/src/eval/GpEvalModel.py:eval_model", "gpgradpy/src/eval/GpEvalModel.py:calc_dmudx", "gpgradpy/src/kernel/KernelSqExp.py:sq_exp_calc_KernGrad", "gpgradpy/src/kernel/KernelMatern5f2.py", "gpgradpy/src/kernel/Kernel.py:calc_all_K_w_chofac"]}
{"id": "C73", "title": "The gradient of the standard deviation is accurate in floating-point arithmetic", "statement": "For the kernels 'SqExp' and 'Ma5f2', with a rounding error in every operation from the scaled points on, the standard deviation sigma that eval_model returns is positive (so that its derivative is never replaced by 0) and the returned derivative times sigma differs from half the partial derivative of the posterior variance by at most varK times about r + sqrt(n k) (2 e + n u) in relation to the prior standard deviation of the derivative (k = cond_max_target), for all data, noises, hyperparameters, evaluation points - data points included - and directions; the derivative of the variance that eval_model_var returns by twice that. In double precision, up to 100 data, 20 dimensions and cond_max_target 1e10, with 'precon' it is at most 11e-12 times cond_max_target.", "quantifier": "all arithmetics with relative rounding errors, all data sets, noises, hyperparameters, evaluation points, directions, dimensions and sizes", "why_tests_cant": "a division by a standard deviation that may be as small as the noise; accumulated rounding errors for every input", "anchors": ["gpgradpy/src/eval/GpEvalModel.py:eval_model", "gpgradpy/src/eval/GpEvalModel.py:calc_dsigdx", "gpgradpy/src/eval/GpEvalModel.py:eval_model_var", "gpgradpy/src/eval/GpEvalModel.py:calc_dsig2dx", "gpgradpy/src/kernel/Kernel.py:calc_all_K_w_chofac"]}
{"id": "C74", "title": "Predictions are bounded and change no faster than the kernel", "statement": "After a successful set-up, with G the size of the residuals of the observations in the metric of the covariance matrix (in the units of the data): the predicted mean is within sqrt(G (1 - sigma^2 / prior variance)) of the mean of the process; two predicted means differ by at most sqrt(G), two predicted standard deviations by at most the prior standard deviation, times the distance sqrt(2 - 2 k(x, x')) of the two points in the metric of the kernel, which is at most sqrt(2 sum theta_i s_i^2 (x_i - x'_i)^2); the partial derivatives of mean and standard deviation that eval_model returns are bounded in the same way. So one Lipschitz constant holds for all evaluation points, however far from the data.", "quantifier": "all data sets (with and without gradients, masks, noise), kernels, hyperparameters, numbers and pairs of evaluation points, dimensions and sizes", "why_tests_cant": "a bound over all pairs of evaluation points; sampling gives a lower bound of a Lipschitz constant only", "anchors": ["gpgradpy/src/eval/GpEvalModel.py:eval_model", "gpgradpy/src/eval/GpEvalModel.py:setup_eval_model", "gpgradpy/src/kernel/KernelSqExp.py", "gpgradpy/src/kernel/KernelMatern5f2.py", "gpgradpy/src/kernel/KernelRatQuad.py"]}
{"id": "C75", "title": "Noisier observations never make the surrogate more certain", "statement": "If every observation of a first data set has, in a second, a counterpart of the same kind at the same place that is not noisier - whatever the observed values are, and whatever else the second observes - then with equal covariance hyperparameters and scaling factors, and a nugget that is not larger, the standard deviation returned by eval_model with the second is at no evaluation point larger than with the first. In particular, with a constant nugget, larger standard deviations std_fval, std_grad, or larger fitted variances of the noise when these are unknown, or noise instead of none, never decrease the returned standard deviation.", "quantifier": "all pairs of data sets (values, standard deviations, masks), kernels, preconditioned or not, hyperparameters, evaluation points, dimensions and sizes", "why_tests_cant": "an order between the inverses of two covariance matrices of any size, at every evaluation point", "anchors": ["gpgradpy/src/eval/GpEvalModel.py:eval_model", "gpgradpy/src/eval/GpEvalModel.py:setup_eval_model", "gpgradpy/src/kernel/Kernel.py:calc_all_K_w_chofac"]}
{"id": "C76", "title": "Observations that agree with their prediction change no prediction", "statement": "If a data set is extended by observations - function values at new points, or gradients at old or new points - whose values are those that eval_model of the surrogate with the first data set returns there, then with the same nugget, hyperparameters, mean of the process and scaling factors eval_model with the extended data returns, at every evaluation point, the mean and the gradient of the mean that it returned with the first data set, whatever the noise of the new observations. (So filling in predictions for pending evaluations, as batch optimisation does, leaves the mean as it is.)", "quantifier": "all data sets and extensions (order, masks, noise), kernels, preconditioned or not, hyperparameters, evaluation points, dimensions and sizes", "why_tests_cant": "two different linear systems have to give the same function at every point", "anchors": ["gpgradpy/src/eval/GpEvalModel.py:eval_model", "gpgradpy/src/eval/GpEvalModel.py:setup_eval_model", "gpgradpy/src/kernel/Kernel.py:calc_all_K_w_chofac"]}
{"id": "C77", "title": "The returned standard deviation bounds the error for functions made of the kernel", "statement": "If the data are exact values and partial derivatives of a function F = m + sum_j c_j k(., z_j) made of the mean and the kernel of the model, with any centres and coefficients, then after a successful set-up, at every evaluation point, |F - mu|^2 <= size^2 sigma^2 / prior variance with size^2 = sum_ij c_i c_j k(z_i, z_j) - whatever noise and nugget were assumed - and the gradient of the mean differs from that of F by at most size sqrt(gamma2 s_i^2). The errors at two points differ by at most size sqrt(2 - 2 k(x, x')) <= size sqrt(2 sum theta_i s_i^2 (x_i - x'_i)^2), so that a bound at one point is a bound around it; and the size of the residuals in the metric of the covariance matrix, which bounds the predicted mean and its slopes, is at most the size of F. So the returned standard deviation is a certificate, not an indication, for these functions, and wherever it is 0 the mean is F.", "quantifier": "all data sets of such functions (with and without gradients, masks, assumed noise), kernels, hyperparameters, numbers of centres, coefficients, evaluation points, dimensions and sizes", "why_tests_cant": "an inequality over all functions of an infinite-dimensional space and all points", "anchors": ["gpgradpy/src/eval/GpEvalModel.py:eval_model", "gpgradpy/src/eval/GpEvalModel.py:setup_eval_model", "gpgradpy/src/kernel/Kernel.py:calc_all_K_w_chofac"]}
