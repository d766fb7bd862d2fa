{"id": "C01", "title": "Incompressibility is invariant under solve() for NS and NS2D", "statement": "If the spectral velocity handed to solve() is divergence free (sum_i K[i]*U_hat[i] = 0 in every mode) and the source term is divergence free, then after every accepted time step of the NS/NS2D solver the velocity in context.U_hat is still divergence free, so get_divergence() is zero up to rounding.", "quantifier": "every initial spectral field, source, viscosity, mesh, domain size, Nyquist mask, dealiasing choice (any forward/backward transform pair), each of the four convection forms, each integrator (RK4, ForwardEuler, AB2, BS5_fixed, BS5_adaptive) and any number of steps", "why_tests_cant": "tests sample one Taylor-Green field on one mesh; the invariant must survive every field and every number of steps", "anchors": ["spectralDNS/solvers/NS.py:add_pressure_diffusion", "spectralDNS/solvers/NS.py:ComputeRHS", "spectralDNS/maths/integrators.py:RK4,ForwardEuler,AB2,adaptiveRK", "spectralDNS/__init__.py:solve"]}
{"id": "C02", "title": "MHD keeps velocity and magnetic field solenoidal", "statement": "In the MHD solver, if U_hat and B_hat are divergence free initially then they stay divergence free after every step; the magnetic field needs no projection because the Elsasser form of the induction term is exactly divergence free mode by mode.", "quantifier": "every UB_hat state, every nu, eta, mask, transform pair, integrator and number of steps", "why_tests_cant": "tests run one TGMHD case and only compare energies", "anchors": ["spectralDNS/solvers/MHD.py:set_Elsasser,add_pressure_diffusion,ComputeRHS"]}
{"id": "C03", "title": "VV keeps the vorticity solenoidal and recovers the velocity from its curl", "statement": "The velocity reconstructed from the vorticity by the VV solver is divergence free for any vorticity, equals the original velocity whenever that velocity is divergence free with zero mean and the vorticity is its curl, and the vorticity remains divergence free during solve().", "quantifier": "every vorticity/velocity field, mesh, source with zero divergence, integrator and number of steps", "why_tests_cant": "needs to hold mode by mode for every field including the K=0 mode", "anchors": ["spectralDNS/solvers/VV.py:compute_velocity,getConvection,ComputeRHS,add_linear"]}
{"id": "C04", "title": "Bq2D keeps the velocity divergence free in the presence of buoyancy", "statement": "In the Boussinesq solver the pressure absorbs exactly the divergent part of the buoyancy force: if the velocity is divergence free it stays so after every step, for every density field.", "quantifier": "every (velocity, density) spectral state, nu, Ri, Pr, mask, transform pair, integrator and number of steps", "why_tests_cant": "one density profile is tested; a wrong sign or component in the buoyancy pressure shows only for other fields", "anchors": ["spectralDNS/solvers/Bq2D.py:add_pressure_diffusion,ComputeRHS"]}
{"id": "C05", "title": "project() is the orthogonal projection onto divergence-free fields", "statement": "project(u, K, K_over_K2) returns a divergence-free field, is idempotent, leaves divergence-free fields and the mean mode unchanged, and removes exactly the gradient part (result and removed part are orthogonal in every mode).", "quantifier": "every spectral field of any dimension and every wavenumber vector, including K=0", "why_tests_cant": "universal over fields and wavenumbers", "anchors": ["spectralDNS/maths/maths.py:project", "spectralDNS/solvers/NS.py:get_context"]}
{"id": "C06", "title": "Convection and pressure do no work (semi-discrete energy conservation)", "statement": "For the Vortex and Skewed forms the convection term plus pressure gradient computed by ComputeRHS transfers no net kinetic energy: the discrete energy input by them is exactly zero for every divergence-free velocity, with or without dealiasing and padding.", "quantifier": "every spectral velocity, every finite mesh and padded mesh, every truncation mask", "why_tests_cant": "conservation must hold for all fields, tests only see one decaying flow to 7 digits", "anchors": ["spectralDNS/solvers/NS.py:Cross,compute_curl,standard_convection,divergence_convection,getConvection,add_pressure_diffusion"]}
{"id": "C07", "title": "Viscosity only removes energy", "statement": "With no source, the instantaneous rate of change of kinetic energy produced by ComputeRHS (Vortex or Skewed form) equals -2 nu times the enstrophy-like sum of K2*|U_hat|^2/2 and is therefore never positive when nu >= 0.", "quantifier": "every divergence-free state, nu >= 0, mesh, dealiasing choice", "why_tests_cant": "universal over states", "anchors": ["spectralDNS/solvers/NS.py:ComputeRHS,add_pressure_diffusion"]}
{"id": "C08", "title": "Mean momentum is conserved by the divergence form", "statement": "With convection='Divergence' and no source the mean velocity (K=0 mode) is exactly constant during solve(); with the other forms the K=0 mode changes by precisely the mean of the computed convection term, because the K=0 mode is neither projected nor damped.", "quantifier": "every field, transform pair, integrator, number of steps", "why_tests_cant": "must hold for every field and history", "anchors": ["spectralDNS/solvers/NS.py:divergence_convection,add_pressure_diffusion,ComputeRHS"]}
{"id": "C09", "title": "Masked Nyquist modes never acquire energy", "statement": "If mask_nyquist is on and a masked mode of the initial field and of the source is zero, then that mode is exactly zero after every step for the NS, VV, NS2D, MHD and Bq2D solvers (for Bq2D: of velocity and density).", "quantifier": "every field, every mask, every convection form, integrator, number of steps", "why_tests_cant": "history property", "anchors": ["spectralDNS/solvers/NS.py:ComputeRHS", "spectralDNS/solvers/VV.py:ComputeRHS", "spectralDNS/solvers/MHD.py:ComputeRHS", "spectralDNS/solvers/Bq2D.py:ComputeRHS"]}
{"id": "C10", "title": "NS (Vortex) and VV compute the same flow", "statement": "Starting VV from W_hat = curl(U_hat) of a divergence-free zero-mean field and NS with convection Vortex from U_hat, with matching sources and the same explicit integrator and dt, the VV vorticity equals the curl of the NS velocity after every step, provided the convection term has zero mean.", "quantifier": "every initial field, viscosity, mesh, mask, transform pair, number of steps", "why_tests_cant": "tests compare one scalar energy of one case", "anchors": ["spectralDNS/solvers/VV.py", "spectralDNS/solvers/NS.py"]}
{"id": "C11", "title": "Skewed convection is the average of Standard and Divergence, all up to sign -1", "statement": "For every velocity the Skewed convection term equals the arithmetic mean of the Standard and Divergence terms, and each returned term is minus the documented expression; the tensor used in the divergence form is symmetric, so six transforms suffice.", "quantifier": "every spectral velocity and transform pair", "why_tests_cant": "universal over fields", "anchors": ["spectralDNS/solvers/NS.py:standard_convection,divergence_convection,getConvection"]}
{"id": "C12", "title": "ComputeRHS does not depend on stale buffers", "statement": "The right hand side returned by ComputeRHS depends only on the spectral field passed in (and parameters), not on the previous contents of the rhs array, of the cached work arrays, of P_hat or of u_dealias.", "quantifier": "every previous buffer content (i.e. every call history), each convection form, NS, NS2D, VV, MHD and Bq2D", "why_tests_cant": "leaks of stale data show up only in particular call sequences", "anchors": ["spectralDNS/solvers/NS.py:ComputeRHS,getConvection", "spectralDNS/solvers/VV.py:getConvection", "spectralDNS/solvers/NS2D.py:getConvection", "spectralDNS/solvers/Bq2D.py:getConvection", "spectralDNS/solvers/MHD.py:getConvection"]}
{"id": "C13", "title": "get_pressure solves the pressure Poisson equation", "statement": "After ComputeRHS has been called with a field u, get_pressure transforms back a spectral pressure p with i*K*p equal to the gradient part that was removed from the convection term; K2*p = -1j*K.conv in every mode and the K=0 pressure is zero.", "quantifier": "every field and mode", "why_tests_cant": "universal over fields; the sign convention in the code comment contradicts the code", "anchors": ["spectralDNS/solvers/NS.py:get_pressure,add_pressure_diffusion"]}
{"id": "C14", "title": "Pressure reported after a step belongs to the current velocity", "statement": "After a time step, get_pressure() is the pressure of the velocity now in U_hat (false for the multi-stage integrators: it is the pressure of the last stage; characterise exactly which state it belongs to).", "quantifier": "every integrator, every right hand side, every step", "why_tests_cant": "requires reasoning on the order of buffer updates across stages", "anchors": ["spectralDNS/solvers/NS.py:get_pressure", "spectralDNS/maths/integrators.py:RK4,AB2,ForwardEuler,adaptiveRK", "spectralDNS/h5io/HDF5File.py:update"]}
{"id": "C15", "title": "solve() with the periodic solvers stops exactly at T", "statement": "For NS/VV/MHD/NS2D/Bq2D with dt > 0 and t+dt <= T+1e-12, whatever step sizes the integrator proposes (bounded below), solve() terminates, never steps beyond T+1e-12, and ends with |t-T| < 1e-12.", "quantifier": "every start time, end time, step-size sequence returned by the integrator (fixed or adaptive)", "why_tests_cant": "termination and the end condition over all step-size histories cannot be tested", "anchors": ["spectralDNS/__init__.py:solve", "spectralDNS/solvers/NS.py:end_of_tstep"]}
{"id": "C16", "title": "solve() with the fixed-step channel solvers takes floor((T+1e-12-t)/dt) steps", "statement": "With a solver whose end_of_tstep returns False, solve() takes exactly n steps where n is the largest number with t0+n*dt <= T+1e-12; afterwards t = t0+n*dt, tstep has grown by n and t+dt > T+1e-12.", "quantifier": "every t0, dt > 0, T", "why_tests_cant": "closed form over all real parameters", "anchors": ["spectralDNS/__init__.py:solve", "spectralDNS/solvers/spectralinit.py:end_of_tstep", "spectralDNS/solvers/KMM.py:end_of_tstep"]}
{"id": "C17", "title": "solve() restores dt and advances t and tstep consistently", "statement": "On normal return params.dt equals its value at the call, params.tstep has increased by the number of steps, params.t by the sum of the step sizes taken, time is strictly increasing for positive steps, and update()/hdf5file.update() are called exactly once per step in that order; if the first step does not fit in the remaining time, no step is taken.", "quantifier": "every integrator behaviour, every number of steps", "why_tests_cant": "history property over all integrator behaviours", "anchors": ["spectralDNS/__init__.py:solve"]}
{"id": "C18", "title": "Time bookkeeping in binary64", "statement": "In double precision the last step dt=T-t makes t+dt equal T exactly whenever T/2 <= t <= T; conversely the loop condition allows a step that does not change t, so solve() can fail to terminate for representable positive dt and T.", "quantifier": "all binary64 t, T (first part); existence (second part)", "why_tests_cant": "rounding behaviour over 2^128 input pairs", "anchors": ["spectralDNS/__init__.py:solve", "spectralDNS/solvers/NS.py:end_of_tstep"]}
{"id": "C19", "title": "RK4 is the classical fourth-order Runge-Kutta step", "statement": "integrator='RK4' replaces u by u + dt/6*(k1+2k2+2k3+k4) with k1=f(u), k2=f(u+dt/2 k1), k3=f(u+dt/2 k2), k4=f(u+dt k3) for every right hand side f, returns (u, dt, dt) and calls ComputeRHS exactly four times; its coefficients satisfy all order-4 conditions.", "quantifier": "every right hand side function, state, dt", "why_tests_cant": "for all f; aliasing of u0,u1,u2,rhs must not matter", "anchors": ["spectralDNS/maths/integrators.py:RK4,getintegrator"]}
{"id": "C20", "title": "ForwardEuler and AB2 follow their recurrences over the whole history", "statement": "ForwardEuler gives u+dt*f(u). AB2 started at tstep=0 gives u1=u0+dt f(u0) and u_{n+1}=u_n+3/2 dt f(u_n)-1/2 dt f(u_{n-1}) for every later step; the difference of sums (u_n - 1/2 dt f(u_{n-1})) telescopes.", "quantifier": "every right hand side, initial state, dt and number of steps", "why_tests_cant": "history property", "anchors": ["spectralDNS/maths/integrators.py:AB2,ForwardEuler,getintegrator"]}
{"id": "C21", "title": "BS5 coefficients satisfy the Runge-Kutta order conditions", "statement": "The A, b, bhat arrays of the BS5 integrator satisfy the order conditions of every rooted tree up to order 5 (b) and 4 (bhat), the stage row-sum relations are consistent, A is strictly lower triangular and the last row of A equals b (first-same-as-last).", "quantifier": "every rooted tree of order at most 5 (resp. 4)", "why_tests_cant": "numerical convergence tests cannot distinguish a slightly wrong coefficient from roundoff and only sample some problems", "anchors": ["spectralDNS/maths/integrators.py:getintegrator"]}
{"id": "C22", "title": "Adaptive step-size controller bounds", "statement": "In BS5_adaptive the next dt is between 0.01 and 2 times the step taken; after a rejection the retried step is at most 0.8 times the rejected one and the step proposed after success following a rejection does not exceed the accepted one; a step is accepted iff the error estimate is <= 1, that is iff in every component the errors relative to TOL + TOL*max(|u|, |u_new|) have a mean square of at most one per mesh point; BS5_fixed never changes dt and never rejects.", "quantifier": "every error-estimate sequence and dt", "why_tests_cant": "all error histories", "anchors": ["spectralDNS/maths/integrators.py:adaptiveRK"]}
{"id": "C23", "title": "FSAL bookkeeping is equivalent to recomputing the first stage", "statement": "For a simulation started with tstep=0, every accepted BS5 step equals the textbook eight-stage step computed from scratch, for every number of previous steps and every number of rejected attempts in between, although the first stage is taken from a rotating buffer.", "quantifier": "every right hand side, every accept/reject history, every number of steps", "why_tests_cant": "the rotating offset must be right for every history; tests see only step counts of one run", "anchors": ["spectralDNS/maths/integrators.py:adaptiveRK,getintegrator"]}
{"id": "C24", "title": "The adaptive retry loop terminates", "statement": "If the error estimate is <= 1 for all sufficiently small steps, adaptiveRK returns after finitely many retries, with an explicit bound on the number of retries.", "quantifier": "every right hand side whose error estimate becomes <=1 below some step size", "why_tests_cant": "termination", "anchors": ["spectralDNS/maths/integrators.py:adaptiveRK"]}
{"id": "C25", "title": "All MPI ranks make the same step-size and stopping decisions", "statement": "Because the error estimate is reduced and broadcast, every rank obtains the same accept/reject decisions, the same dt sequence and leaves the time loop after the same number of steps, for any distribution of the data over any number of ranks; hence collective calls match.", "quantifier": "every number of ranks, every local data", "why_tests_cant": "schedules and rank counts cannot be enumerated", "anchors": ["spectralDNS/maths/integrators.py:adaptiveRK", "spectralDNS/__init__.py:solve", "spectralDNS/h5io/HDF5File.py:check_if_kill"]}
{"id": "C26", "title": "Explicit integrators preserve linear invariants", "statement": "If a linear functional vanishes on the initial state and on the right hand side of every state where it vanishes, it vanishes after any number of steps of RK4, ForwardEuler, AB2, BS5_fixed and BS5_adaptive.", "quantifier": "every linear functional, right hand side, step-size history", "why_tests_cant": "generic meta-property", "anchors": ["spectralDNS/maths/integrators.py"]}
{"id": "C27", "title": "Mesh parameters N, M, L, dx are consistent", "statement": "params.N returns the explicitly set N if there is one and otherwise 2**M componentwise; params.dx = L/N; M, N are stored as integer vectors with the values of the given strings or numbers; nu, dt, Ri, Pr and eta are rounded to single precision exactly when precision is 'single'; asking for an absent parameter raises KeyError. (Exception: params.N with neither N nor M set raises AssertionError.)", "quantifier": "every sequence of parameter assignments", "why_tests_cant": "depends on the history of assignments", "anchors": ["spectralDNS/config.py:Params"]}
{"id": "C28", "title": "Resolution set by get_solver is the resolution used", "statement": "After get_solver(parse_args with --M m) the mesh used by get_context is 2**m. (False when an explicit N was ever set in config.params: it silently survives later get_solver calls.)", "quantifier": "every history of config.params assignments and get_solver calls", "why_tests_cant": "history dependence through a module-global dictionary", "anchors": ["spectralDNS/config.py:Params", "spectralDNS/__init__.py:get_solver"]}
{"id": "C29", "title": "Defaults set with config.update are used unless overridden on the command line", "statement": "For any parameter, the value used by the solver is the command line value if given, else the latest config.update value for that mesh, else the parser default. (False for the parameters that a solver sub-parser declares, which are exactly eta for MHD, Ri and Pr for the Boussinesq solvers and the channel integrator: they take the value given after the solver name, else the parser default.)", "quantifier": "every parameter, every solver, every sequence of updates", "why_tests_cant": "needs all combinations of parser levels", "anchors": ["spectralDNS/config.py:update,parser definitions", "spectralDNS/__init__.py:get_solver"]}
{"id": "C30", "title": "get_solver resolves every advertised solver name", "statement": "For every solver name accepted by the command line parser of a mesh, get_solver returns the corresponding solver module; other names are rejected. (False for 'Bq', which is advertised but has no module, and for an omitted solver name.)", "quantifier": "every mesh and solver name string", "why_tests_cant": "all strings", "anchors": ["spectralDNS/config.py", "spectralDNS/__init__.py:get_solver", "spectralDNS/solvers/"]}
{"id": "C31", "title": "Callbacks registered with get_solver", "statement": "After get_solver(update=f, regression_test=g, additional_callback=h) solve() calls exactly f, g, h; callbacks not given keep the value registered by the latest earlier call for the same solver module in the same process, else the default no-op. (The default is lost when a module the solver star-imports had a callback at first import.)", "quantifier": "every sequence of get_solver calls", "why_tests_cant": "history property", "anchors": ["spectralDNS/__init__.py:get_solver", "spectralDNS/solvers/spectralinit.py"]}
{"id": "C32", "title": "Optimization dispatch never fails and never selects a missing kernel", "statement": "For every optimization setting, mesh dimension, solver and registry content, decorating a function yields the first registered kernel among (name_2D in two dimensions, name otherwise), name_solver, or the numpy function itself; it never raises, never yields a missing kernel, and in the shipped package the kernel accepts the arguments it is called with, except ForwardEuler under cython (6 parameters instead of 5). numexpr is never used.", "quantifier": "every configuration and every registry content", "why_tests_cant": "all combinations of names and registries", "anchors": ["spectralDNS/optimization/__init__.py:optimizer"]}
{"id": "C33", "title": "Optimised elementwise kernels agree with the reference implementation", "statement": "The numba/pythran/cython kernels for cross1, cross2 (dense and sparse wavenumbers), add_pressure_diffusion (NS, NS2D, Bq2D), mult_K1j, compute_vw and assembleAB never leave their arrays and produce, in exact arithmetic, the same arrays as the numpy versions for every input and every array shape. (False for cython _cross3_2D with sparse wavenumbers, which reads out of bounds for every mesh with at least two columns.)", "quantifier": "every array shape and content", "why_tests_cant": "all shapes and contents", "anchors": ["spectralDNS/optimization/numba_module.py", "spectralDNS/optimization/pythran_maths.py", "spectralDNS/optimization/cython_maths.in", "spectralDNS/optimization/cython_solvers.in"]}
{"id": "C34", "title": "Optimised integrator kernels agree with the reference integrators", "statement": "The optimised RK4, ForwardEuler and AB2 produce the same state as the numpy versions for every rhs and history. (False for cython AB2_2D, whose first-step test differs, and for the cython ForwardEuler signature.)", "quantifier": "every right hand side and number of steps", "why_tests_cant": "history property over all right hand sides", "anchors": ["spectralDNS/optimization/cython_integrators.in", "spectralDNS/optimization/numba_module.py"]}
{"id": "C35", "title": "Output schedule", "statement": "During solve(), results are written exactly at the steps whose tstep is a multiple of write_result and checkpoints exactly at multiples of checkpoint (or when a kill file is found), each labelled with the current tstep and t, with components transformed immediately before writing.", "quantifier": "every write_result, checkpoint >= 1, start tstep and number of steps", "why_tests_cant": "arithmetic over all schedules", "anchors": ["spectralDNS/h5io/HDF5File.py:update"]}
{"id": "C36", "title": "Checkpoint crash consistency", "statement": "At any crash point, the checkpoint file contains a consistent checkpoint: fields and (tstep, t) labels belong to the same step. (False: characterise the crash points where labels and data mismatch, and prove consistency at all other points.)", "quantifier": "every crash point in every run", "why_tests_cant": "crash points cannot be enumerated by tests", "anchors": ["spectralDNS/h5io/HDF5File.py:update"]}
{"id": "C37", "title": "Kill file stops all ranks cleanly", "statement": "When a killspectraldns file is visible to at least one rank at the end of a step, all ranks write a checkpoint of that step and exit with status 1 in the same step, and the file is removed by rank 0; otherwise no rank stops. (Exception: rank 0 raises when the file is visible only to another rank at the time of its removal.)", "quantifier": "every number of ranks, every visibility pattern, every step", "why_tests_cant": "distributed decision", "anchors": ["spectralDNS/h5io/HDF5File.py:check_if_kill,update"]}
{"id": "C38", "title": "Restart from a checkpoint continues the same trajectory", "statement": "A simulation restarted from a checkpoint continues exactly as the uninterrupted one ('no loss of accuracy'). True for the one-step integrators RK4 and ForwardEuler (and KMMRK3-type solvers); false for AB2 and BS5 because integrator memory is not stored.", "quantifier": "every right hand side, every interruption step", "why_tests_cant": "all interruption points", "anchors": ["spectralDNS/h5io/HDF5File.py", "spectralDNS/maths/integrators.py:getintegrator", "spectralDNS/solvers/NS.py:get_context"]}
{"id": "C39", "title": "Chebyshev derivative of a Dirichlet expansion", "statement": "Mult_CTD returns the Chebyshev coefficients of the derivative of sum_k v_k (T_k - T_{k+2}) for every coefficient vector and every N >= 4.", "quantifier": "every N and coefficient vector", "why_tests_cant": "all N and vectors", "anchors": ["spectralDNS/shen/LUsolve.pyx:Mult_CTD_1D_ptr"]}
{"id": "C40", "title": "Weak divergence operator", "statement": "Mult_Div_1D returns the weak divergence (inner product against the Neumann basis) of a vector field given by Dirichlet expansions, for every N, wavenumbers and coefficients.", "quantifier": "every N, wavenumbers and coefficients", "why_tests_cant": "all N", "anchors": ["spectralDNS/shen/LUsolve.pyx:Mult_Div_1D"]}
{"id": "C41", "title": "3D line operators act independently on each line", "statement": "The strided 3D versions of the Chebyshev kernels compute on every line along the chosen axis exactly the 1D kernel and touch no other element, for every shape and axis.", "quantifier": "every 3D shape and axis", "why_tests_cant": "all shapes", "anchors": ["spectralDNS/shen/LUsolve.pyx:Mult_CTD_3D_ptr,Mult_Div_3D"]}
{"id": "C42", "title": "Channel velocity reconstruction satisfies continuity", "statement": "In KMM-type solvers the wall-parallel velocities computed from wall-normal velocity and vorticity satisfy the discrete continuity equation and reproduce the wall-normal vorticity in every mode with (ky,kz) != 0; the (0,0) wall-normal velocity is zero.", "quantifier": "every field, mode, wavenumber pair", "why_tests_cant": "universal over modes and fields", "anchors": ["spectralDNS/solvers/KMM.py:compute_vw,solve_linear", "spectralDNS/optimization/numba_module.py:compute_vw"]}
{"id": "C43", "title": "Semi-implicit time stepping is consistent", "statement": "The KMM (Adams-Bashforth/Crank-Nicolson) and RK3 coefficients are consistent: explicit and implicit weights sum to one step, RK3 stage weights satisfy the third-order explicit conditions and second-order implicit ones, and the matrices on the two sides of each linear solve are those of Crank-Nicolson with the same coefficients.", "quantifier": "every nu, dt, wavenumber, matrix triple", "why_tests_cant": "algebraic identity over all parameters", "anchors": ["spectralDNS/solvers/KMM.py:get_context,add_linear,ComputeRHS", "spectralDNS/solvers/KMMRK3.py", "spectralDNS/solvers/CoupledRK3.py"]}
{"id": "C44", "title": "Steady states are fixed points of the channel time steppers", "statement": "If a mean profile satisfies the discrete steady momentum balance, one KMM step and one KMMRK3 step leave it unchanged, whatever dt and nu.", "quantifier": "every dt, nu, forcing, symmetric pair of discrete operators", "why_tests_cant": "universal over parameters", "anchors": ["spectralDNS/solvers/KMM.py:solve_linear", "spectralDNS/solvers/KMMRK3.py:solve_linear"]}
{"id": "C45", "title": "Chebyshev quadrature in dx()", "statement": "dx(u, FST) integrates exactly every wall-normal polynomial of degree < M on Chebyshev-Gauss points, and (periodic directions) the average of trigonometric polynomials; on Gauss-Lobatto points it is exact for every even M. (False for odd M.)", "quantifier": "every M and polynomial", "why_tests_cant": "all M and polynomials", "anchors": ["spectralDNS/utilities/__init__.py:dx"]}
{"id": "C46", "title": "dx() does not depend on the number of processes", "statement": "dx(u) equals the global weighted sum for every decomposition of the array over ranks, on the root rank.", "quantifier": "every number of ranks and partition", "why_tests_cant": "all decompositions", "anchors": ["spectralDNS/utilities/__init__.py:dx"]}
{"id": "C47", "title": "Dealiasing mask of the stand-alone solver: exact characterisation", "statement": "In spectralDNS3D_short.py (even N, any number of processes dividing N) no product of two retained modes reaches a third retained mode through aliasing if and only if N mod 3 = 1; hence for the shipped N = 2**6 and every even power of two, but not for N = 32, 128, 512. The velocity never leaves the retained modes.", "quantifier": "every N, every pair of wavenumbers", "why_tests_cant": "all N", "anchors": ["spectralDNS3D_short.py:dealias", "cpp/spectralDNS.cpp"]}
{"id": "C48", "title": "Slab transposes invert each other", "statement": "The global transposes in spectralDNS3D_short (fftn_mpi / ifftn_mpi) are inverse permutations for every N divisible by the number of processes: every element returns to its owner and index.", "quantifier": "every process count and N", "why_tests_cant": "all rank counts", "anchors": ["spectralDNS3D_short.py"]}
{"id": "C49", "title": "Timer statistics", "statement": "After every timed step fastest <= every step duration <= slowest; if the clock never runs backwards and no step exceeds 1e8 s, both are attained from the first step on. final() reports on rank 0 the minimum and maximum over ranks of both, so every step of every rank lies between the outer two numbers reported, and the total time is the sum of the step durations.", "quantifier": "every sequence of clock readings", "why_tests_cant": "all sequences", "anchors": ["spectralDNS/utilities/__init__.py:Timer"]}
{"id": "C50", "title": "Isotropic forcing keeps kinetic energy and incompressibility", "statement": "In the isotropic demo the forcing rescales the low-wavenumber velocity such that the total energy becomes exactly the target when the required scaling is real, and never creates divergence.", "quantifier": "every field with energy in the forced band", "why_tests_cant": "all fields", "anchors": ["demo/Isotropic.py:update"]}
{"id": "C51", "title": "Statistics accumulate to true averages and survive a save/load cycle", "statement": "The mean stored by the channel statistics is the arithmetic mean over samples and homogeneous planes of everything sampled since the last reset, also across get_stats to file and fromfile.", "quantifier": "every sample sequence", "why_tests_cant": "history property", "anchors": ["demo/MKM.py:Stats", "demo/RayleighBenard.py:Stats"]}
{"id": "C52", "title": "MHD Elsasser form equals the velocity/magnetic-field form", "statement": "The convection computed through z0=u+b, z1=u-b equals -div(uu - bb) in the momentum components and div(ub - bu) in the induction components.", "quantifier": "every u, b and linear transform pair", "why_tests_cant": "all fields", "anchors": ["spectralDNS/solvers/MHD.py:set_Elsasser,divergenceConvection"]}
{"id": "C53", "title": "History rotation in the semi-implicit solvers", "statement": "After n steps of KMM/KMM_RB the buffers used as 'previous' fields hold exactly the fields one (and for phi_hat1 two) steps back, so the Adams-Bashforth extrapolation uses the right levels.", "quantifier": "every number of steps and right hand side", "why_tests_cant": "history property", "anchors": ["spectralDNS/solvers/KMM.py:end_of_tstep", "spectralDNS/solvers/KMM_RB.py:end_of_tstep"]}
{"id": "C54", "title": "K_over_K2 is well defined", "statement": "K_over_K2 never divides by zero, equals K/|K|^2 for K != 0 and 0 for K = 0; hence K . K_over_K2 is 1 or 0.", "quantifier": "every mesh and wavenumber vector", "why_tests_cant": "all wavenumbers", "anchors": ["spectralDNS/solvers/NS.py:get_context", "spectralDNS/solvers/MHD.py:get_context", "spectralDNS/solvers/Bq2D.py:get_context"]}
{"id": "C55", "title": "AB2 with a changed step size", "statement": "When dt changes between two AB2 steps (solve() shortens the last step to end at T) the previous increment is still weighted as if taken with the old dt: after steps dt, dt' on u'=c the result is off by (dt'-dt)/2*c, so AB2 is not consistent across the change.", "quantifier": "every right hand side, dt, dt'; complete runs of solve()", "why_tests_cant": "tests use T an integer multiple of dt, so the last step is never shortened", "anchors": ["spectralDNS/maths/integrators.py:AB2", "spectralDNS/solvers/NS.py:end_of_tstep", "spectralDNS/__init__.py:solve"]}
{"id": "C56", "title": "Every accepted convection form is usable", "statement": "For every mesh, solver and --convection value accepted by the command line, the solver obtains a convection function; the triply periodic forms a solver lacks raise NotImplementedError, never an unbound name. (For KMMr the function obtained for Standard and Skew fails when called, C69. False for the default form with MHD, and for substrings of 'Vortex' on the doubly periodic mesh.)", "quantifier": "all meshes, advertised solvers and strings given as --convection", "why_tests_cant": "the accepted strings on the doubly periodic mesh are an infinite-looking substring test; tests only use the default form", "anchors": ["spectralDNS/config.py:triplyperiodic", "spectralDNS/config.py:doublyperiodic", "spectralDNS/config.py:channel", "spectralDNS/solvers/NS.py:getConvection", "spectralDNS/solvers/MHD.py:getConvection", "spectralDNS/solvers/VV.py:getConvection", "spectralDNS/solvers/NS2D.py:getConvection"]}
{"id": "C57", "title": "The stand-alone solver performs the package solver's steps", "statement": "Every pass through the time loop of spectralDNS3D_short.py is exactly one classical Runge-Kutta step of the right hand side computed by solvers/NS.py with the Vortex form, no source and the script's mask, independently of what the reused arrays contained; U remains the transform of U_hat and incompressibility is preserved.", "quantifier": "every state, time step, viscosity, mask, transform pair and number of steps", "why_tests_cant": "There is no test of the script at all, and a test compares one field at one time; buffer reuse bugs (stale U for rk=0) show only for particular stage sequences.", "anchors": ["spectralDNS3D_short.py:76-108", "spectralDNS/solvers/NS.py:219-261"]}
{"id": "C58", "title": "Kernel choice is made once per process", "statement": "After any sequence of get_solver calls in one process the cross products and integrators in use are those chosen under the first configuration; with optimization off all solvers run numpy; with optimization on a later solver of another dimension can be left with the wrong kernel.", "quantifier": "every sequence of configurations in one process", "why_tests_cant": "the test suite starts a fresh process or uses one configuration per run; the property ranges over all sequences", "anchors": ["spectralDNS/optimization/__init__.py:optimizer", "spectralDNS/__init__.py:get_solver", "spectralDNS/maths/cross.py", "spectralDNS/maths/integrators.py"]}
{"id": "C59", "title": "Argument order of the temperature solve", "statement": "KMM_RB calls HelmholtzSolverT(p_hat, rhs[2]) while every other solver object is called as solver(rhs, output). Whichever of the two conventions the Helmholtz class has, one of g_hat and phi_hat is left unchanged by solve_linear; with the convention of the other calls phi_hat keeps its initial value for ever.", "quantifier": "every state, right hand side, solver object and number of steps", "why_tests_cant": "tests run one installed version of shenfun; the property is about all states and both conventions", "anchors": ["spectralDNS/solvers/KMM_RB.py:solve_linear", "spectralDNS/solvers/KMMRK3_RB.py:solve_linear", "spectralDNS/solvers/KMM.py:solve_linear"]}
{"id": "C60", "title": "Time stepping of the Rayleigh-Benard solvers", "statement": "If the temperature solve receives its arguments in the intended order, one KMM_RB step is Crank-Nicolson for the diffusion of temperature with minus the masked convection as forcing, the wall normal velocity equation is that of KMM with the extrapolated buoyancy added, and each KMMRK3_RB stage is a Crank-Nicolson substep of length (a+b)dt with forcing -(a N + b N_prev)/(a+b). The buoyancy is -(ky^2+kz^2) times the product of the test functions with the whole temperature, wall values included. In KMMRK3_RB it enters a stage with the weight a+b and the temperature at the start of the stage, so over a step it is integrated to first order only (refuted: second order).", "quantifier": "every state, kappa, nu, dt, wavenumber, matrix pair", "why_tests_cant": "algebraic identity over all parameters and states", "anchors": ["spectralDNS/solvers/KMM_RB.py:ComputeRHS,solve_linear", "spectralDNS/solvers/KMMRK3_RB.py:ComputeRHS,solve_linear"]}
{"id": "C61", "title": "Inviscid helicity conservation of the Vortex form", "statement": "The helicity sum of u . curl u changes under the right hand side of the Vortex form only through viscosity: its rate is -2 nu times the sum of K2 u.curl u, for every spectral velocity; without viscosity it is exactly conserved.", "quantifier": "every velocity, mesh, padding, truncation, mask", "why_tests_cant": "universal over states; no test measures helicity", "anchors": ["spectralDNS/solvers/NS.py:ComputeRHS,Cross,compute_curl"]}
{"id": "C62", "title": "Energy budget of the velocity-vorticity solver", "statement": "The kinetic energy of the velocity that the VV solver reconstructs from its vorticity decays at the rate nu times the sum of K2 |u|^2; the convection term does no work.", "quantifier": "every vorticity field, mesh, mask, nu", "why_tests_cant": "universal over states", "anchors": ["spectralDNS/solvers/VV.py:ComputeRHS,getConvection,compute_velocity"]}
{"id": "C63", "title": "Energy budget of the Boussinesq solver", "statement": "The kinetic energy in Bq2D changes only by the buoyancy flux -Ri <u_1, rho> and by dissipation nu sum K2 |u|^2; convection and pressure do no work.", "quantifier": "every state, mesh, mask and parameters", "why_tests_cant": "universal over states", "anchors": ["spectralDNS/solvers/Bq2D.py:ComputeRHS,add_pressure_diffusion,getConvection"]}
{"id": "C64", "title": "Isotropic initial field: solenoidal, zero mean, prescribed energy", "statement": "initialize() of the isotropic demo, when it succeeds, leaves a divergence free velocity with zero mean whose kinetic energy is Re_lam*(nu*kd)**2/sqrt(20/3), target_energy is its Parseval energy, and for the VV solver W_hat is its curl. The random field before the projection is not divergence free, and with the VV solver starting from the zero vorticity of a new context initialize never succeeds.", "quantifier": "every choice of random numbers, transforms, wavenumbers and parameters", "why_tests_cant": "random phases and meshes cannot be enumerated", "anchors": ["demo/Isotropic.py:initialize"]}
{"id": "C65", "title": "Limits of the channel statistics", "statement": "The stored averages are wrong or missing in four situations: planes dealt out unevenly over the processes (a plane is never written), a file saved after reset_stats and loaded again (not a number from then on), samples without pressure (counted as zero pressure), and a mesh given by N instead of M (first write fails).", "quantifier": "one concrete history per situation", "why_tests_cant": "needs several processes, restarts or a non-default mesh", "anchors": ["demo/MKM.py:Stats", "demo/RayleighBenard.py:Stats"]}
{"id": "C66", "title": "The adaptive error estimate does not depend on the number of ranks (refuted)", "statement": "Distributing the same field and error evenly over n ranks should leave BS5's error estimate unchanged. It multiplies the estimate by sqrt(n), so accept/reject decisions change with the number of processes.", "quantifier": "every number of ranks, every field evenly distributed", "why_tests_cant": "tests run with one or few ranks and compare to a loose tolerance", "anchors": ["spectralDNS/maths/integrators.py:adaptiveRK"]}
{"id": "C67", "title": "create_profile terminates on every rank (refuted)", "statement": "create_profile makes four reduces per listed method found in the rank's own profile; if two ranks have called a different number of them the collective calls do not match and the run hangs.", "quantifier": "every set of per-rank profiles", "why_tests_cant": "which methods appear in a rank's profile depends on the run", "anchors": ["spectralDNS/utilities/create_profile.py:create_profile"]}
{"id": "C68", "title": "The channel solvers' get_curl is the curl of the velocity", "statement": "For KMM and KMMr, compute_curl evaluated from U_hat and g is exactly the curl of the velocity polynomial at every point, whatever was in the work arrays, provided g is the wall normal vorticity of U_hat; and g is that after every time step, the mean mode included, once its mean mode starts at zero.", "quantifier": "every state U_hat, g, every N >= 4, every mesh and wavenumbers, every number of steps, every stale work array", "why_tests_cant": "tests compare a single laminar profile whose curl has one nonzero component", "anchors": ["spectralDNS/solvers/KMM.py:compute_curl", "spectralDNS/solvers/KMMr.py:compute_curl"]}
{"id": "C69", "title": "The channel convection forms compute the nonlinear term they name", "statement": "Standard is minus the transform of (u.grad)u, Divergence minus the derivatives of the transformed products, Skew their mean, Vortex the transform of u x curl u, which is minus (u.grad)u plus the gradient of the kinetic energy. Nothing stale in the rhs array matters. Exceptions, refuted: the wall normal component of KMM's Divergence and Skew forms reads Dirichlet coefficients in the biharmonic basis, and KMM.compute_derivatives and KMMr's Standard and Skew forms call a function that does not exist.", "quantifier": "every velocity, every mesh, every stale rhs", "why_tests_cant": "the channel tests use laminar or nearly laminar flow, where the wall normal convection is negligible", "anchors": ["spectralDNS/solvers/KMM.py:getConvection", "spectralDNS/solvers/KMM.py:standardConvection", "spectralDNS/solvers/KMM.py:divergenceConvection", "spectralDNS/solvers/KMMr.py:standardConvection", "spectralDNS/solvers/Coupled.py:getConvection"]}
{"id": "C70", "title": "Restarting a channel simulation continues it", "statement": "A run with KMMRK3 (demo MKM) or KMMRK3_RB (demo RayleighBenard) that is stopped after any number of steps and restarted from its checkpoint goes through the same velocities (and temperatures) as the run that was not stopped, whatever is in the fresh context; g is the wall normal vorticity of U_hat at every checkpoint. For KMM the two fields in the file determine the continuation, but, refuted, init_from_file does not use them that way: U_hat0 keeps the older field, so the mean flow repeats the step already stored, and H_hat1 is computed with the vorticity that happened to be in the context. For KMM_RB, refuted: moreover the temperature starts one step back, the time is not restored and tstep becomes the time. A KMMRK3 file is rejected by KMM.", "quantifier": "every state, every number of steps before and after, every fresh context, every convection and update callback acting on the stored modes", "why_tests_cant": "no test restarts a channel run; the error is one step of the mean flow and invisible in a plot", "anchors": ["demo/MKM.py:init_from_file", "demo/RayleighBenard.py:init_from_file", "spectralDNS/solvers/KMM.py:end_of_tstep", "spectralDNS/solvers/KMMRK3.py:integrate"]}
{"id": "C71", "title": "The flux controller of MKM gives exactly the prescribed flux", "statement": "After the controller, dx() of the streamwise velocity on the mesh is flux[0] on Gauss (N[0] >= 3) and Gauss-Lobatto (N[0] >= 4) points, on any number of ranks, when L[0] = 2; the integral of the velocity changes by exactly flux - beta. No-slip, continuity, g and every other mode and component are unchanged, and the controller satisfies what C70 asks of a callback.", "quantifier": "every velocity field, every target flux, every decomposition into ranks, every mesh", "why_tests_cant": "a test checks one flux on one mesh and one rank; the factor 4/3 comes from an integral", "anchors": ["demo/MKM.py:update", "spectralDNS/utilities/__init__.py:dx"]}
{"id": "C72", "title": "The coupled channel solvers keep the velocity divergence free", "statement": "After every step of Coupled and every stage of CoupledRK3 the velocity polynomial has zero divergence at every point of the channel, not only at the mesh points, and vanishes at both walls; this includes the mean mode, where two continuity rows are replaced by constraints on the pressure. The assignment u_hat[0,:,0,0] = 0 after the solve changes nothing.", "quantifier": "every state, every convection, source and mask, every number of points and modes, every viscosity and step, both quadratures", "why_tests_cant": "a test looks at the divergence on one mesh to a tolerance, and the continuity equation is only imposed through inner products with two rows removed", "anchors": ["spectralDNS/solvers/Coupled.py:integrate", "spectralDNS/solvers/Coupled.py:get_context", "spectralDNS/solvers/CoupledRK3.py:integrate"]}
{"id": "C73", "title": "The coupled channel solvers advance the momentum equation with the stored pressure", "statement": "One step of Coupled is Crank-Nicolson for the viscous term, Adams-Bashforth for the convection of the last two velocities, and the gradient of the new pressure; in a steady state the stored pressure balances the forces. The velocities of CoupledRK3 are those of the additive third order Runge-Kutta method. Refuted: what CoupledRK3 stores is (a+b) times the pressure of the stage, so after a step from a steady state it is a third of the pressure. The viscosity and the step are those of get_context; if params.nu is changed later only the forces change, by the factor nu0/nu.", "quantifier": "every state, component, mode and row; every convection, source and mask; every viscosity and step", "why_tests_cant": "the tests compare velocities, which do not depend on the scaling of the pressure; a test takes one viscosity", "anchors": ["spectralDNS/solvers/Coupled.py:ComputeRHS", "spectralDNS/solvers/Coupled.py:get_context", "spectralDNS/solvers/CoupledRK3.py:ComputeRHS", "spectralDNS/solvers/CoupledRK3.py:get_context"]}
{"id": "C74", "title": "The two-dimensional Taylor-Green demo decays at the exact rate and passes its regression test", "statement": "initialize() of TG2D stores exactly the modes of the vortex; the nonlinear term of that field is a pressure gradient, so the computed right hand side is -2 nu u for every dealiasing that keeps the modes (1,1) and (-1,1); the solution stays a multiple of the vortex with every integrator; after solve() with RK4 the error printed by regression_test is at most ((T+eps)/dt+1)(2 nu (dt+eps))^5/30, and with the parameters of the demo it rounds to zero at ntol = 7.", "quantifier": "every number of modes >= 3 and dealiased points >= 5, every mask and truncation that keeps the two modes, every viscosity, end time and step with 2 nu dt <= 1/2", "why_tests_cant": "the regression test runs one mesh, viscosity, step and end time, and compares the energy at the end only", "anchors": ["demo/TG2D.py:initialize", "demo/TG2D.py:regression_test", "spectralDNS/solvers/NS2D.py", "spectralDNS/maths/integrators.py:RK4"]}
{"id": "C75", "title": "What the demos print, plot and sample belongs to the step they report it for", "statement": "For nonzero options the update callbacks of TG, TG2D, Vortices2D, KelvinHelmholtz, KelvinHelmoltzBoussinesq, Vortices, Isotropic, MKM, LaminarChannel, OrrSommerfeld and RayleighBenard return, make a diagnostic exactly in the steps their option names, and every array it is computed from was transformed from the solution of that step. Exceptions, each proved: RayleighBenard's statistics, which use the field of the step before (and with sample_stats = 1 the same field compute_energy times), MKM's contour of the first step, the first plot after a restart (no figure), an option that is 0 (ZeroDivisionError) and Vortices with a negative plot_step (UnboundLocalError).", "quantifier": "every step number, every value of the options, every state of the work arrays and figures, every rank, any schedule of output files", "why_tests_cant": "the options are read modulo the step number, so a stale array appears only for particular combinations of three or four options; the tests run the demos with all diagnostics switched off or due in the last step", "anchors": ["demo/TG.py:update", "demo/MKM.py:update", "demo/RayleighBenard.py:update", "demo/KelvinHelmholtz.py:update", "demo/Vortices.py:update", "demo/LaminarChannel.py:update", "demo/OrrSommerfeld.py:update"]}
{"id": "C76", "title": "A time step starts from the solution and parameters the update callback left behind", "statement": "With any update callback, a step of RK4 or ForwardEuler is the textbook step of the right hand side with the parameters (source, viscosity) left by the callback, from the solution left by the callback; so the forced isotropic demo has the target energy after every step. AB2 combines it with the increment kept from before the callback. BS5 takes for its first stage the right hand side with the old parameters at the solution handed to the callback (first same as last): it is a textbook step if the callback left that value unchanged, and otherwise the outdated stage enters with weight 587/8064, which is refuted to be a textbook step.", "quantifier": "every right hand side with parameters, every callback that may rescale the solution or change the parameters, every output schedule, every step size and rounding of the time, all four integrators, adaptive or not", "why_tests_cant": "no test runs the demos whose callbacks change the solution or the source (Isotropic, Vortices); the error of the outdated stage is first order in the change and a few percent of one step", "anchors": ["spectralDNS/maths/integrators.py:RK4,ForwardEuler,AB2,adaptiveRK", "spectralDNS/__init__.py:solve", "demo/Isotropic.py:update", "demo/Vortices.py:update"]}
{"id": "C77", "title": "The accessors of the periodic solvers return the true velocity, divergence, curl and pressure gradient", "statement": "If the backward transform evaluates the trigonometric sum with the stored coefficients at the mesh points (proved for the 3D transform on any box and the 2D one), then at every mesh point get_velocity returns that field, get_divergence the trace and get_curl the curl of its Jacobian (limits of difference quotients), for NS, NS2D, MHD and Bq2D, whatever is in the work arrays; the gradient of get_pressure is the term subtracted by ComputeRHS. With VV get_divergence is zero for every vorticity and overwrites U_hat, get_curl is the curl of the velocity for solenoidal vorticity without mean (refuted otherwise), and set_velocity has no effect on get_velocity. Which accessors can be called with which solver's context is listed exactly; the results file of the Taylor-Green demo raises TypeError with VV.", "quantifier": "all coefficients, all mesh points, boxes, mesh sizes, truncations and contents of work arrays; all five periodic solvers and seven accessors", "why_tests_cant": "the tests compare norms of one field; a wrong sign or a swapped index in an accessor leaves the time stepping and the norms unchanged, and a divergence that is identically zero passes every check", "anchors": ["spectralDNS/solvers/NS.py:get_curl,get_velocity,get_pressure,set_velocity,get_divergence", "spectralDNS/solvers/NS2D.py:get_curl,get_divergence", "spectralDNS/solvers/VV.py:get_context,compute_velocity,get_velocity,get_divergence,get_curl", "spectralDNS/solvers/MHD.py:get_divergence", "spectralDNS/solvers/Bq2D.py:get_Ur,get_rho,get_velocity", "demo/TG.py:update_components"]}
{"id": "C78", "title": "The periodic demos start from divergence-free fields", "statement": "On every box with sides 2 pi n_i and every mesh that resolves sin(x_i), the spectral coefficients TG.py and TGMHD.py start from are divergence free in every stored mode, without mean, and the printed energies start at 1/8; with VV the velocity recovered from the vorticity is the Taylor-Green velocity. The Kelvin-Helmholtz fields (projected and masked in the NS2D demo, not projected in the Boussinesq one), the vortex of Vortices.py and its source are divergence free on every mesh; the slices of the Kelvin-Helmholtz profiles cover every column once, stay between U1 and U2 and balance. Hence the runs of these demos stay divergence free. Vortices2D.py starts divergence free with the given vorticity in every mode outside the Nyquist column, and there its divergence is exactly -i k0 k1/|k|^2 times the vorticity. Refuted: the same for a mesh with two points in a direction, and for Vortices.py with its default init = 'random'.", "quantifier": "all boxes, mesh sizes, truncations, modes, options (U1, U2, A, delta, rho1, rho2), previous array contents and random numbers", "why_tests_cant": "the regression tests compare the energy after a few steps on one mesh; the solvers keep a divergence they are given, so a field that is not divergence free changes no checked number of a short run", "anchors": ["demo/TG.py:initialize1,initialize2", "demo/TGMHD.py:initialize", "demo/KelvinHelmholtz.py:initialize", "demo/KelvinHelmoltzBoussinesq.py:initialize", "demo/Vortices.py:initialize,set_source", "demo/Vortices2D.py:initialize"]}
{"id": "C79", "title": "The channel demos start from the fields they describe", "statement": "MKM.py: for any random numbers the field vanishes at the walls, has no wall normal velocity and, when a process owns all of both periodic directions, no divergence in any mode, Nyquist modes and mask included; with KMM the first step is then Crank-Nicolson for this velocity and its wall normal vorticity with Euler's method for the convection, whatever the context held; KMMRK3 starts from the same state. Refuted: with a pencil decomposition the field has a divergence; Coupled and CoupledRK3 raise AttributeError. OrrSommerfeld.py and OrrSommerfeldr.py: the first step is Crank-Nicolson from time dt with the Adams-Bashforth history of time 0, also for the mean velocity that OrrSommerfeld.py takes from time 0. LaminarChannel.py: from rest, after any number of steps the flow is unidirectional and its mean column is advanced by Crank-Nicolson for u_t = nu u_xx - Sk; the convection of KMM in the form of the demo has the property this needs.", "quantifier": "all meshes, truncations, masks, random numbers, parameters, previous array contents, numbers of steps, matrices and solvers that solve their systems", "why_tests_cant": "the demos are run on one process with one solver and only the energy after some steps is compared; a wrong history array changes the first step only by O(dt^2)", "anchors": ["demo/MKM.py:initialize", "demo/OrrSommerfeld.py:initialize", "demo/OrrSommerfeldr.py:initialize", "demo/LaminarChannel.py:initialize", "spectralDNS/solvers/KMM.py:integrate"]}
{"id": "C80", "title": "The reference solutions of the channel demos are solutions", "statement": "OrrSommerfeld.py: the perturbation that initOS builds from an eigenpair of the operators behind A and B has no divergence, vanishes at the walls when phi and phi' do, and its vorticity satisfies the Navier-Stokes equations linearised about 1 - x^2 with viscosity 1/Re at every point and time; for any other phi it leaves exactly the residual of the eigenvalue problem. Its energy by the quadrature of dx on any decomposition is exp(2 Im(lam) t) times the initial one, which is what the demo prints as exact. LaminarChannel.py: exact() satisfies u_t = nu u_xx + 2/Re, vanishes at the walls, and at t = 0 has no component along any of the modes of its series, whatever the number of terms; reference() with twice the terms is its value at the centre line.", "quantifier": "all eigenpairs, amplitudes, Reynolds numbers, viscosities, numbers of terms, times, points, meshes with at least three points, decompositions", "why_tests_cant": "the tests compare a run with these formulas, so an error common to the formula and the solver's forcing, or one that is small at the tested time, is not seen", "anchors": ["demo/OrrSommerfeld.py:initOS,update", "demo/OrrSommerfeld_shen.py:assemble", "demo/LaminarChannel.py:exact,reference"]}
{"id": "C81", "title": "Reading the fields of a channel solver", "statement": "For the seven channel solvers, get_velocity, set_velocity, get_convection and get_divergence can be called with the solver's context; get_curl cannot be called with any (TypeError for the KMM family, whose contexts have no curl; AttributeError for Coupled and CoupledRK3); get_pressure finds the names it needs for KMM, KMMr and KMM_RB only. get_convection returns the convection of the current velocity and vorticity without the mask. Called from an update callback of KMM or Coupled it leaves the fields of that step unchanged but overwrites H_hat, which end_of_tstep makes the history: the next step is forced by Euler's method instead of second order Adams-Bashforth, and the forcing agrees with that of the unobserved run only where the convection did not change. With KMMRK3 the call changes nothing.", "quantifier": "all solvers and accessors, states, matrices, solvers, masks, convection functions and parameters", "why_tests_cant": "no test calls these functions for a channel solver, and the change of order of one step is below the tolerance of the regression numbers", "anchors": ["spectralDNS/solvers/KMM.py:get_velocity,get_curl,get_convection,get_pressure,end_of_tstep", "spectralDNS/solvers/KMMr.py:get_pressure", "spectralDNS/solvers/KMMRK3.py:get_context", "spectralDNS/solvers/Coupled.py:get_convection", "spectralDNS/solvers/CoupledRK3.py:get_context"]}
{"id": "C82", "title": "KMM.get_pressure", "statement": "For N >= 3 wall normal points the system of every Fourier mode has exactly one solution; the derivative of the returned pressure is nu (m'' - k^2 m) + H - (u - u0)/dt minus an explicit multiple c of T_{N-1}, and its T_0 coefficient is c pi/2, where u, u0 and H are the functions with the stored numbers as Dirichlet coefficients and m the mean of u and u0. A pressure with exactly that derivative is returned without its T_0 coefficient. With the rotational form the kinetic energy of the velocity at the half step is subtracted. Refuted: that the pressure balances the wall normal momentum of the velocity, because the stored numbers are biharmonic coefficients; and that it balances the tangential momentum, because the T_0 coefficient of every mode is lost.", "quantifier": "all N, viscosities, time steps, wavenumbers, coefficient columns and points", "why_tests_cant": "no test and no demo calls the function for a channel solver", "anchors": ["spectralDNS/solvers/KMM.py:get_pressure"]}
{"id": "C83", "title": "The velocity of the KMM solvers is divergence free at every point and satisfies the equations in the weak sense", "statement": "With the matrices being the inner products of the Dirichlet and biharmonic functions and their derivatives, the wall normal derivative computed by TDMASolverD(CDB u) is the derivative of the polynomial with no projection error, get_divergence is the divergence of the velocity for every velocity, and after every call of integrate() and every stage of KMMRK3 the velocity has zero divergence at every point of the channel and vanishes at both walls. The residual of the Crank-Nicolson step of the fourth order equation for the wall normal velocity is orthogonal to every biharmonic function, those of the equations for the wall normal vorticity and the two mean velocities to every Dirichlet function; for Gauss quadrature in the weighted integral.", "quantifier": "all states, numbers of points and modes, norms of the Chebyshev polynomials (both quadratures), convections, masks, viscosities, steps, orders of the axes (KMM and KMMr)", "why_tests_cant": "the tests compare energies after some steps; a divergence between the mesh points or a residual in one test function is not computed anywhere", "anchors": ["spectralDNS/solvers/KMM.py:get_divergence", "spectralDNS/solvers/KMM.py:solve_linear", "spectralDNS/solvers/KMM.py:get_context", "spectralDNS/solvers/KMMRK3.py:solve_linear"]}
{"id": "C84", "title": "What cpp/spectralDNS.cpp computes, compared with classical Runge-Kutta and with spectralDNS3D_short.py", "statement": "The C++ program uses the wavenumbers, mask and Runge-Kutta coefficients of spectralDNS3D_short.py and its first step from a resolved velocity is a classical Runge-Kutta step of the same right hand side, apart from the mean mode. It preserves k.U_hat = 0 with its own factors k. Every later step takes its first slope with the velocity of the last stage of the step before, so it is not a Runge-Kutta step and does not keep the mean velocity of an inviscid flow; the printed energy belongs to that velocity too. The mean mode is damped with the rate nu. The factors belong to the other one of the first two directions in FFTW's transposed layout, so the program advances (V, U, W); for the Taylor-Green vortex that is the same vortex moved by a quarter period. All this holds when the inverse transform keeps its input; if it does not, not even the first step is right.", "quantifier": "all meshes, transforms, states, viscosities, steps and numbers of steps", "why_tests_cant": "the program is not run by the tests, and the only flow it can start from (Taylor-Green, zero mean, symmetric under the exchange) hides three of the four errors", "anchors": ["cpp/spectralDNS.cpp"]}
{"id": "C85", "title": "The Rayleigh-Benard solvers as a Galerkin scheme: velocity and temperature as functions of the point", "statement": "After every call of integrate() of KMM_RB, and every stage of KMMRK3_RB, the velocity has no divergence at any point and vanishes at the walls. If the temperature solver puts the wall values into the last two coefficients of the mean mode, the temperature takes these values at all points of the walls. One step makes the residual of the temperature equation, for the whole temperature with its walls, orthogonal to every Dirichlet function, and the residual of the wall normal velocity equation, with the temperature as force, orthogonal to every biharmonic function. The three arrays in StandardRBConvection are the partial derivatives of the temperature and what is transformed is (u . grad) T.", "quantifier": "all states, meshes, wavenumbers, masks, convection routines, wall values, diffusivities and steps; all norms of the quadrature; every point of the channel", "why_tests_cant": "a test sees a few runs of one Rayleigh number at mesh points; that the derivative of the wall values is added correctly, and that the boundary lift drops out of the weak form, are identities of polynomials for all coefficients", "anchors": ["spectralDNS/solvers/KMM_RB.py:71-98", "spectralDNS/solvers/KMM_RB.py:156-161", "spectralDNS/solvers/KMMRK3_RB.py:58-83", "spectralDNS/solvers/KMMRK3_RB.py:101-128"]}
{"id": "C86", "title": "demo/NS_shenfun.py solves the same equations as solvers/NS.py", "statement": "n passes of the loop of the short demo are n classical Runge-Kutta steps of ComputeRHS of solvers/NS.py in the Vortex form without padding, mask and source, and afterwards U is the inverse transform of U_hat. The loop ends after the first pass that reaches end_time - 1e-8; with the shipped values after ten passes at time 0.1. A divergence free start stays divergence free. For the real FFT on any mesh the right hand side changes the energy at the rate -nu |grad u|^2, although products are aliased. The number asserted at the end is the energy of the final coefficients.", "quantifier": "all transform pairs, wavenumbers, viscosities, steps, states, numbers of passes; all end times and positive steps; the energy budget for all meshes and divergence free fields", "why_tests_cant": "the demo asserts one number to seven digits for one start; this does not show that the scheme is the one of the solver, nor the energy balance, nor the number of passes for other steps", "anchors": ["demo/NS_shenfun.py:30-56", "demo/NS_shenfun.py:58-62", "demo/NS_shenfun.py:67-79"]}
{"id": "C87", "title": "A fluid at rest stays at rest: the conductive state of the Rayleigh-Benard solvers and the start of the demo", "statement": "If nothing moves and the temperature depends on the height only, then after any number of steps of KMM_RB, or of KMMRK3_RB with arbitrary contents of the arrays of older stages, nothing moves and the temperature depends on the height only; its mean mode obeys the Crank-Nicolson scheme of pure diffusion. The linear conductive profile is a fixed point for every viscosity, diffusivity and step. A non-mean mode with buoyancy sets the fluid in motion in the first step. initialize of demo/RayleighBenard.py gives temperature 0 at x = 1 and 1 at x = -1 whatever the random numbers, and a first extrapolation equal to the start. The walls of the start, the tuple bc=(1, 0) and the use of the coefficients -2 and -1 as values at x = 1 and x = -1 agree for one combination of conventions only: bc read from the lower wall, stored from the upper wall.", "quantifier": "all states at rest, numbers of steps, meshes, wavenumbers with a zero mean, masks, matrices and solvers that give zero for zero, convections that vanish without velocity; all random numbers; all four conventions", "why_tests_cant": "no test runs these solvers; that the conductive state is an exact fixed point for all parameters, and which convention the three places need, cannot be seen from a run that starts with noise", "anchors": ["spectralDNS/solvers/KMM_RB.py:18", "spectralDNS/solvers/KMM_RB.py:71-117", "spectralDNS/solvers/KMMRK3_RB.py:58-128", "demo/RayleighBenard.py:17-30"]}
{"id": "C88", "title": "What get_divergence of the coupled solvers returns, and what it cannot see", "statement": "get_divergence of Coupled and CoupledRK3 returns, mode by mode, the projection of the divergence on the Dirichlet functions: the difference is orthogonal to each of them, for Gauss and for Gauss-Lobatto points. With a mask every mode is weighted by the mask. It is zero for a velocity without divergence and after every step of Coupled and CoupledRK3, whatever the state before. The converse is false: with four Chebyshev points there is a velocity for which it returns zero at every point although the divergence at the wall is 2.", "quantifier": "all velocities, modes, points, masks, numbers of modes, wavenumbers, norms of the quadrature; all states before the step; for the counterexample all matrices that are inner products and all solvers of the mass matrix", "why_tests_cant": "tests/OrrSommerfeld.py only prints the norm of the result; that the returned number is a projection which vanishes for some velocities with divergence cannot be seen from runs in which the velocity has none", "anchors": ["spectralDNS/solvers/Coupled.py:157-163", "spectralDNS/solvers/CoupledRK3.py:163-169"]}
{"id": "C89", "title": "The implicit viscous terms of the KMM solvers are stable for every time step", "statement": "Every function of the Dirichlet space satisfies (u'', u) <= -(u, u)/2 in the Chebyshev-weighted inner product. Therefore the difference of two solutions with the same convection shrinks in the weighted norm in every step of KMM and KMMr and in every stage of KMMRK3, for the normal vorticity of every mode and for the mean velocities, however large the time step: |d'|^2 + dt nu (1/2 + k^2) |d + d'|^2 / 2 <= |d|^2. Over whole runs with a given convection the difference of two runs never grows; with zero convection and source this is the decay of the flow itself.", "quantifier": "all viscosities, time steps, wavenumbers, resolutions N >= 4, states, masks, forcings, numbers of steps", "why_tests_cant": "a run shows stability for one step size and one start; the norm in which the difference shrinks is not the plain one, and the matrix of the second derivative is not symmetric in it, so that eigenvalues of one example prove nothing", "anchors": ["spectralDNS/solvers/KMM.py:get_context,add_linear,ComputeRHS", "spectralDNS/solvers/KMMRK3.py", "spectralDNS/solvers/KMMr.py"]}
{"id": "C90", "title": "The planning effort of the FFTs belongs to the session, not to the run", "statement": "In every session of calls of config.update, parses with --planner_effort and constructed contexts, a solver gets the last effort that any run of the session asked for under its key ('fft' for NS, VV, NS2D, MHD, Bq2D; 'dct' for the channel solvers), and FFTW_MEASURE if none did. Building a context changes no effort and entries under other keys are without effect. A run that asks for nothing inherits from the runs before it, and a dictionary given to update a second time asks for nothing. The switches of the Orr-Sommerfeld demo are on for every non-empty text, 'False' and '0' included; the plain run needs all three left out or empty.", "quantifier": "all sequences of updates, options and contexts, all dictionaries, all solvers, all option texts", "why_tests_cant": "each test runs one configuration in a fresh process and the effort changes only the speed; the shared object shows up only in the order of several runs", "anchors": ["spectralDNS/config.py:fft_plans,PlanAction,update", "spectralDNS/solvers/NS.py:get_context", "spectralDNS/solvers/KMM.py:get_context", "demo/OrrSommerfeld.py"]}
