# Formal model of spectralDNS in Rocq (Coq 8.16.1)

The source under study is `/repo` (spectralDNS at a pinned commit). Nothing was executed: the model was written by reading the
Python/Cython text. Properties are in `properties.jsonl`; `MANIFEST.json` maps every property to theorem names.

## Layout

    rocq/theories/Base/     complex numbers over R, finite sums, arrays, small lemmas (no code of /repo)
    rocq/theories/Model/    executable/shallow model of the code, one file per source area; every definition cites file:lines
    rocq/theories/Spec/     small independent specifications (textbook definitions) used in theorem statements
    rocq/theories/Proofs/   lemmas and proofs
    rocq/theories/Props/    property theorems: statement, `exact lemma`, `Print Assumptions`, and non-vacuity Examples

## Modelling conventions

* Floating point values are modelled by exact reals `R` / complex pairs over `R` unless the property is about rounding
  (C18, which uses Flocq's binary64 rounding).  Rational tableaux are modelled over `Q`.
* A numpy array of spectral coefficients is a function from a mode index (an arbitrary type) to complex numbers; a vector
  field is additionally indexed by the component (a finite axis of `Base/Fin.v`).  Numpy elementwise statements become pointwise definitions; in-place
  statements (`x[i] -= ...`, `x[:] = ...`) become functional updates in the same order as in the source.
* FFTs (shenfun `forward`/`backward`) are parameters of the model.  Theorems either quantify over *every* pair of functions
  (no assumption at all), or are instantiated with an explicit discrete Fourier transform with weights and truncation mask.
* MPI collectives are modelled by their mathematical result on the list of per-rank values; in `Model/Parallel.v` (C25, C67) the
  ranks are processes with an asynchronous small-step semantics (`Spec/Mpi.v`) and every interleaving is covered.
* Exceptions are values (`option` / error constructors); out-of-bounds and missing-key branches are modelled explicitly.
* False claims are recorded as `..._refuted` theorems with a concrete witness and listed under Findings.

## Trusted base

1. Coq 8.16.1's kernel (`coqc`).  No plugin, no `vm`/`native` switches beyond `vm_compute` inside proofs (checked by the kernel's VM).
2. The axioms of Coq's standard library that `Print Assumptions` lists, see *Print Assumptions* at the end of this file.  They are
   `ClassicalDedekindReals.sig_forall_dec`, `ClassicalDedekindReals.sig_not_dec` (construction of the reals),
   `FunctionalExtensionality.functional_extensionality_dep` and `Classical_Prop.classic` (some lemmas of Reals, and Flocq for C18).
   There is no axiom, parameter, admitted proof or disabled check of our own.
3. The reading of `/repo`: the model is hand written.  Every definition in `Model/` cites file and lines.
4. What is assumed about software outside the repository.  Each assumption is a hypothesis or a parameter of the theorems that need
   it, never an axiom:
   * shenfun transforms: arbitrary functions unless the theorem says otherwise (C06, C07, C61-C63 require forward to be the scaled
     transpose of backward and are also proved for the concrete real DFT; C68 and C69 take backward as evaluation of the series).
   * shenfun matrices and linear solvers: linear maps, and exact solvers of the stated matrix (`Spec/Channel.v`: `linear`, `solves`).
     C72 and C83 take them as inner products of the basis functions (`Spec/Coupled.v`: `pressure_rows`, `Spec/Galerkin.v`: `rows`).
   * MPI: reductions return the reduction of all ranks' values, Alltoall permutes blocks, collectives match in program order.
   * FFTW's discrete cosine transforms (C45, C46) by their documented formulas.
   * argparse, importlib and Python dictionaries (C27-C32, C56, C58): as documented.
   * h5py/ShenfunFile (C35-C38, C51, C65): each write or attribute assignment is atomic, a crash falls between two of them.
5. Arithmetic is exact (real or rational) except in C18.  Rounding errors are outside every other theorem.

## What is modelled and what is not

| source | modelled | not modelled |
|--------|----------|--------------|
| `spectralDNS/__init__.py` | get_solver (Config), solve (Solve, Run, Parallel) | printing, the kernel profile's contents |
| `spectralDNS/config.py` | Params, update, both parser levels, PlanAction and planner_effort (Planner) | validation of option values except `choices` |
| `maths/cross.py`, `maths/maths.py` | all | - |
| `maths/integrators.py` | all of RK4, AB2, ForwardEuler, adaptiveRK, BS5, getintegrator | error norm "inf" (raises), NaN, additional_callback |
| `solvers/NS.py`, `NS2D.py`, `VV.py`, `MHD.py`, `Bq2D.py` | wavenumber arrays, Conv in all forms, add_pressure_diffusion/add_linear, ComputeRHS, get_pressure, get_divergence, with all reused buffers | construction of shenfun spaces, get_velocity/set_velocity (one transform each), the file classes' update_components |
| `solvers/spectralinit.py` | end_of_tstep, defaults of the callbacks | imports |
| `solvers/KMM.py`, `KMMr.py`, `KMMRK3.py` | right hand sides, linear solves, velocity reconstruction, history, get_divergence, curl, convection forms, compute_derivatives | construction of spaces and matrices |
| `solvers/KMM_RB.py`, `KMMRK3_RB.py` | temperature equation and coupling, history, DivRBConvection, StandardRBConvection (RBConv) | KMM_RB's DivABConvection and the DivRBConvection of KMMRK3_RB, which no branch calls |
| `solvers/Coupled.py`, `CoupledRK3.py` | convection forms, the action of the block matrix, the right hand side, the step and the stages, get_divergence | BlockMatrix.solve (assumed to solve the rows), the branch of CoupledRK3 for other families than Chebyshev (never taken) |
| `optimization/*` | dispatch, registries, all kernels of numba, pythran and cython as loops | machine integer and float types, parallel scheduling |
| `shen/LUsolve.pyx` | Mult_CTD_1D/3D, Mult_Div_1D/3D | - |
| `shen/Matrices.py` | the modified Helmholtz/biharmonic coefficient classes through their `matvec` | storage formats |
| `h5io/HDF5File.py` | all of update/checkpoint logic | file locking, file mode "r", `h5io/extract_2D.py` |
| `utilities/__init__.py`, `create_profile.py` | Timer, dx, the collectives of create_profile | formatting, reset_profile, memoryprofiler.py, inheritdocstrings |
| `spectralDNS3D_short.py` | all | pyfftw planning |
| `demo/Isotropic.py`, `demo/MKM.py`, `demo/RayleighBenard.py` | initialize and forcing (Isotropic), initialize of RayleighBenard (RBInit), Stats, init_from_file (MKM, RayleighBenard), the flux controller (MKM) | plotting, the other demos |
| `demo/TG2D.py` | initialize, regression_test | plotting |
| `solvers/{NS,NS2D,VV,MHD,Bq2D}.py`: accessors | values returned, arrays overwritten, required arguments against context keys (Accessors) | views: that U_hat is UB_hat[:3] or Ur_hat[:2] is built in |
| `demo/*.py`: the update callbacks | which arrays are refreshed and read in which step, figures, exceptions (Callbacks) | the values, what is drawn |
| `demo/{TG,TGMHD,KelvinHelmholtz,KelvinHelmoltzBoussinesq,Vortices,Vortices2D}.py`: initialize, set_source | the arrays assigned, slice by slice, and their transforms (InitFields) | one process; the random numbers are a parameter |
| `demo/{MKM,OrrSommerfeld,OrrSommerfeldr,LaminarChannel}.py`: initialize, reference solutions | the fields, the arrays and times set, exact(), reference(), the operators of OrrSommerfeld_shen.py (ChannelInit) | the Galerkin matrices and the interpolation of OrrSommerfeld_shen.py; the random numbers are a parameter |
| `solvers/{KMM,KMMr,KMMRK3,KMM_RB,KMMRK3_RB,Coupled,CoupledRK3}.py`: accessors | required arguments against context keys, what get_convection leaves in the context, KMM.get_pressure mode by mode (ChannelAccess) | KMMr.get_pressure, get_derivatives; get_pressure with other quadratures than GC |
| `cpp/spectralDNS.cpp` | tables, initial velocity, the time loop, the printed energy (Cpp) | timers, command line, padding and distribution of the arrays (global arrays); FFTW is a parameter, including what c2r leaves in its input |
| `demo/NS_shenfun.py` | Cross, Curl, ComputeRHS, the state before the loop, the loop, the energy at the end | construction of the spaces, the clock, the final assertion on one number |
| `sandbox/*`, `setup.py`, `tests/*` | nothing | all |

## Plan per property

| id | model | proof |
|----|-------|-------|
| C01 | NS/NS2D ComputeRHS on component-indexed fields, all convections as arbitrary functions; all integrators; solve loop | K.rhs is a linear function of K.u; linear invariants of integrators (C26), induction on steps |
| C02 | MHD set_Elsasser, add_pressure_diffusion | antisymmetry of the induction tensor; projection; induction on steps |
| C03 | VV compute_velocity, Conv, add_linear | vector identities mode by mode |
| C04 | Bq2D add_pressure_diffusion | projection identity with buoyancy |
| C05 | project | linear algebra per mode |
| C06,C07 | Conv Vortex/Skewed with explicit weighted DFT incl. truncation and padding | adjointness of forward/backward, cancellation in physical space |
| C08,C09 | ComputeRHS at K=0 and at masked modes | pointwise + induction on steps |
| C10 | NS and VV ComputeRHS side by side | curl commutes with projection; simulation relation over steps |
| C11 | four convection forms | pointwise algebra |
| C12 | buffer-passing versions (rhs, work arrays, P_hat, u_dealias explicit) | noninterference: result independent of initial buffers |
| C13,C14 | P_hat buffer threading through the integrators | algebra; refutation for multistage integrators |
| C15-C17 | solve loop as a transition system over R with arbitrary integrator oracle | well-founded measure, invariants |
| C18 | Flocq binary64 | Sterbenz; explicit witness for the stall |
| C19,C20 | RK4, FE, AB2 with buffers | unfolding with buffers; induction |
| C21 | tableau over Q, rooted trees | exhaustive enumeration of trees of order <= 5 proved complete |
| C22-C24 | adaptiveRK loop: buffers, offset, facmax | loop invariants; ring-buffer refinement; retry bound |
| C25 | list of per-rank states with reduce/bcast | lockstep invariant |
| C26 | integrators over any linear functional | induction |
| C27-C31 | config.Params, argparse levels, get_solver state machine | case analysis/induction on operation history |
| C32 | optimizer decorator on registries | case analysis |
| C33,C34 | loop nests over bounds-checked arrays | loop invariants for all shapes |
| C35-C37 | HDF5File.update as a list of effects, prefixes are crash points | induction over steps / prefixes |
| C38 | integrator state = (u, memory), checkpoint projection | equality of continuations; refutations |
| C39-C41 | LUsolve kernels as loops on arrays | Chebyshev polynomial identities by induction on N |
| C42-C44 | KMM algebra per mode, operators as arbitrary linear maps | algebra |
| C45,C46 | dx weights and per-rank sums | trigonometric sums; permutation of finite sums |
| C47 | integer wavenumber arithmetic | lia / mod arithmetic |
| C48 | index maps of Alltoall slab transposes | div/mod bijection |
| C49 | Timer state machine | induction |
| C50,C51 | Isotropic forcing; Stats accumulators | algebra, induction |
| C52 | set_Elsasser vs u/b tensor form | algebra with linear forward |
| C53 | buffer rotation in KMM/KMM_RB | induction on steps |
| C54 | get_context wavenumber arrays | algebra |
| C55 | AB2 with its stored increment, solve() shortening the last step | closed form of two steps; run of solve() as witness |
| C56 | getConvection of every solver as a function of the string | case analysis on strings |
| C57 | spectralDNS3D_short.py time loop next to NS + RK4 | simulation relation over steps |
| C58 | module-level decoration in a process-wide cache | induction on the get_solver history |
| C59,C60 | KMM_RB, KMMRK3_RB on top of the KMM model, solver call convention as parameter | algebra per mode, induction on steps |
| C61-C63 | C06's transform algebra with curl, VV and Bq2D right hand sides | adjointness and cancellation |
| C64 | demo/Isotropic.py initialize | projection algebra, energy scaling |
| C65 | Stats of C51 outside the hypotheses of C51 | evaluation of concrete histories |
| C66 | est of adaptiveRK on evenly split fields | algebra |
| C67 | create_profile as a list of collectives per rank | deadlock of a two-rank schedule |
| C68 | compute_curl of KMM and KMMr, fields as real functions of a point | partial derivatives of Chebyshev/Fourier sums; induction on steps for g |
| C69 | the convection forms of KMM, KMMr, Coupled | pointwise algebra; projections with Chebyshev weight for the refutation |
| C70 | init_from_file of MKM and RayleighBenard, the loop with an update callback | congruence: a step reads the stored modes only; b[0] = 0 drops the old stage arrays; induction on steps; concrete run for the refutation |
| C71 | update of MKM on coefficients, dx on the mesh | the change is a multiple of 2(1-x^2); exactness of the quadrature for degree 2 |
| C72 | Coupled and CoupledRK3: block rows, zeroing of the mean mode | all N Chebyshev coefficients of the divergence vanish; in the mean mode a Dirichlet function whose derivative is constant is zero |
| C73 | the same, with history and stored pressure | algebra on one row; telescoping the three stages; concrete state at rest for the refutation |
| C74 | initialize and regression_test of TG2D on top of NS2D, RK4 and solve | discrete orthogonality of the waves (aliases excluded by M >= 5); the convection of the vortex is a gradient; RK4 on u' = -2 nu u is a polynomial within z^5/30 of exp(-z); induction over the loop |
| C75 | the update callbacks over a state of stamps: the step each array was computed in | case distinction on the guards, computation; induction over the run for the statistics |
| C76 | a pass of the solve loop with a callback that may change the solution and the parameters; methods with a given first stage (`rk_step_from`) | the stage loop by induction; the stored stage read off the previous pass; a two-step counterexample |
| C77 | the accessors of NS, NS2D, VV, MHD, Bq2D; module namespaces and context keys; fields between the mesh points as trigonometric sums (Spec/Wave) | derivative of a sum of waves in one coordinate, linearity of the sum; the callable table by computation |
| C78 | the initial fields of TG, TGMHD, KelvinHelmholtz, KelvinHelmoltzBoussinesq, Vortices, Vortices2D; discrete transforms as sums over the mesh | separable fields: the transform is a product of 1D transforms; k sin^ = -i cos^ for resolved waves; fields of one coordinate; round trip of the 2D transform of an array of modes (Proofs/RoundTrip2) |
| C79 | initialize of MKM, OrrSommerfeld(r), LaminarChannel on the state of Model/KMM; the 2D transform of Spec/TaylorGreen times an arbitrary linear wall normal transform | fields of one coordinate have modes in one direction only; one step by the Crank-Nicolson theorem of C43 applied to the arrays that initialize leaves; induction over the steps for the laminar flow; the convection from C69's model |
| C80 | OS_point, OS_A, OS_B, Laminar_exact, Laminar_reference | derivatives by derivable_pt_lim of Re(a(x) exp(i(y - lam t))); the series rewritten as one sum; antiderivatives for the projections at t = 0; sums of cos^2 over the mesh and C46's dx for the energy |
| C81 | signatures and context keys of the channel solvers as lists; get_convection on the states of Model/KMM and Model/Coupled | the table by computation; the forcing of a step as a function of H_hat1 (C43), with the state after the callback; a two step example with numbers |
| C82 | KMM.get_pressure: Chebyshev coefficients, scalar products, the triangular matrix with the entry (N-1,0) set | back substitution two rows at a time; derivative of a Chebyshev series (C70's lemmas); uniqueness of Chebyshev coefficients by orthogonality; N = 8 for the two refutations |
| C83 | Model/KMM unchanged; the matrices are assumed to be inner products (Spec/Galerkin: rows) | the derivative of a biharmonic function vanishes at the walls, and a polynomial that does belongs to the Dirichlet space; so the weak derivative is the exact one whatever the norms; linear combinations of inner products for the residuals; N = 5 with explicit matrices and solvers for the example |
| C84 | the C++ program as state (U, U_hat, U_hat0, U_hat1) with rfftn and irfftn as parameters, the latter also returning what is left of its input | stage lemma (the projection with kk is the Leray projection), step as Runge-Kutta with a given first slope; exchange of components commutes with a stage because the curl changes sign; two-mode flows on four points with numbers |
| C85 | KMM_RB and KMMRK3_RB of C60, StandardRBConvection; temperature as a series of Dirichlet functions and two linear functions | continuity as in C42/C83; the linear functions drop out of the residual (no second derivative, same walls, zero wavenumber); derivative of the lifted series; weak form as in C83 |
| C86 | demo/NS_shenfun.py: Cross, Curl, ComputeRHS, one pass, the loop with fuel, the printed energy; arrays as in Model/Short.v | the pass is the pass of C57 with a mask that keeps everything; budget from C07 with forward and backward adjoint; number of passes by counting |
| C87 | steps of KMM_RB and KMMRK3_RB (C59, C60), initialize of demo/RayleighBenard.py (RBInit), order of the walls in bc and in the coefficients as parameters | zero is mapped to zero piece by piece, the mean mode has no buoyancy as its wavenumber is zero; induction on steps; cases on the orders |
| C88 | get_divergence of the coupled solvers: rhs of project, solve, mask, backward | rows as Chebyshev coefficients; residual from the solved rows; zero after a step from the pressure rows (C72); one mode with N = 4 whose divergence is orthogonal to both functions |
| C89 | Model/KMM unchanged | factor 1 - x^2 of the Dirichlet functions by the recurrence; integration by parts in the angle leaves ((1-x^2) q' - x q)^2 + q^2/2; the rows are tested with the sum of the old and the new difference; stages of KMMRK3 are Crank-Nicolson steps of length theta dt |
| C90 | Model/Planner: fft_plans as one table, dictionaries given to update as places, the key each get_context reads; the branches of demo/OrrSommerfeld.py on the three switches | last write per key; keys without repetition, so that updating the table by itself changes nothing |

## Findings

Places where the code does not do what its documentation, its name or the neighbouring code says.  Theorem in brackets.

1. AB2 restarted with `tstep > 0` starts from a zero increment, halving or losing part of the first step [C08_AB2_restart_refuted, C38_AB2_refuted].
2. After a step of a multistage integrator get_pressure belongs to the last stage, not to U_hat [C14_refuted, C14_which_field].
3. In binary64 solve() can stop advancing t and never return [C18_stall_refuted].
4. BS5 restarted with `tstep > 0` uses an uninitialised first stage [C23_restart_refuted, C38_BS5_refuted].
5. `params.N` without N and M raises AssertionError instead of KeyError [C27_missing_refuted].
6. An N assigned once silently wins over every later `--M` [C28_stale_N_refuted].
7. config.update of one mesh changes the other meshes' defaults; options declared by a solver's sub-parser ignore config.update [C29_cross_mesh_refuted, C29_solver_option_refuted].
8. Solver name `Bq` is advertised but has no module; omitting the solver name fails with a confusing error [C30_Bq_refuted, C30_omitted_refuted].
9. A callback registered for one solver leaks into solvers that star-import it later [C31_leak_refuted].
10. The cython ForwardEuler has six parameters and is called with five; numexpr kernels are never used [C32_cython_ForwardEuler_refuted, C32_numexpr_unused].
11. cython `_cross3_2D` reads out of bounds; cython AB2_2D tests `tstep == 1` and so starts wrongly [cython_cross3_2D_out_of_bounds, AB2_2D_first_step_refuted].
12. A crash between the writes of a checkpoint leaves labels and data of different steps [C36_crash_refuted, C36_append_refuted].
13. The kill file may raise on rank 0 when only another rank sees it [C37_refuted].
14. dx on Gauss-Lobatto points is not exact of degree M-1 for odd M [dx_GL_odd_refuted].
15. AB2 keeps the old weights when solve() shortens the last step [C55_AB2_last_step_refuted].
16. The default convection form is not available in MHD; substrings of "Vortex" pass the doubly periodic parser [C56_default_refuted, C56_substring_refuted].
17. The kernels used by a process are those of the first configuration [C58_own_choice_refuted].
18. KMM_RB solves for the temperature with the two arguments of the solver exchanged [rb_one_field_is_frozen, rb_temperature_frozen].
19. The random field of Isotropic.py is not solenoidal before its projection; with VV, initialize never succeeds from a fresh context [C64_rogallo_divergence, C64_VV_refuted].
20. The channel statistics lose planes, become NaN or count missing pressure as zero in four situations [C65_*].
21. BS5's error estimate grows with the square root of the number of ranks [C66_estimate_scales, C66_decision_refuted].
22. create_profile can deadlock [C67_profile_refuted].
23. The wall normal component of KMM's Divergence and Skew convection uses Dirichlet coefficients in the biharmonic basis [C69_kmm_divergence_refuted].
24. KMM.compute_derivatives, and KMMr's Standard and Skew convection, call `LUsolve.Mult_CTD_3D_n`, which does not exist [C69_compute_derivatives_refuted, C69_kmmr_standard_refuted].
25. `MKM.init_from_file` for KMM leaves U_hat0 at the older of the two stored fields, so the first step after a restart repeats the last step of the mean flow; H_hat1 is computed with the g of the fresh context [C70_kmm_restart_state, C70_kmm_restart_repeats_refuted].
26. `RayleighBenard.init_from_file` has the same defect for the mean flow and for the temperature, and l.209 stores the time of the file in params.tstep; params.t is not restored [C70_rb_restart_refuted].
27. Read: KMMRK3_RB.StandardRBConvection calls `mat.BDD.matvec(N_hat, rhs)` with both arguments the array c.N_hat; this is right only if shenfun's matvec allows it, which the model takes for granted.
28. CoupledRK3 divides grad p by (a+b) in the block matrix, so P_hat holds (a+b) times the pressure: a third of it after a step (Coupled stores the pressure itself). The velocity is not affected [C73_rk3_pressure, C73_rk3_pressure_refuted, C73_case].
29. RayleighBenard.py:40 tests `tstep % sample_stats` without `== 0`: the statistics use the velocity and temperature of the step before; with sample_stats = 1 each field is sampled compute_energy times [C75_RB_statistics_refuted, C75_RB_repeats_refuted].
30. The demos create their figures in step 1 only, so the first plot after a restart fails; an option 0 raises ZeroDivisionError; Vortices with a negative plot_step raises UnboundLocalError; MKM's first contour shows the U[0] of before the step [C75_restart_plot_refuted, C75_TG_zero, C75_Vortices_off_refuted, C75_MKM_first].
31. BS5_adaptive and BS5_fixed reuse the last stage of the previous step as the first of the next. After a callback that changes the solution (Isotropic rescales it in every step) or the source (Vortices sets it to 0 in step 3) that stage is outdated and enters with weight 587/8064; AB2 likewise keeps the old increment [C76_source, C76_forced_refuted].
32. VV: get_divergence computes div curl W, zero for every W, and overwrites U_hat with curl W; set_velocity (inherited from NS) sets U_hat, which get_velocity does not read; get_pressure raises TypeError because the context has no P, so TG.py cannot write its results file with VV [C77_VV, C77_VV_set_refuted, C77_TG_results_refuted].
33. Vortices.py by default (init = 'random') starts VV from random numbers as vorticity; it is not solenoidal and VV keeps its divergence [C78_Vortices_random_refuted]. Vortices2D.py goes through physical space, where the Nyquist column loses one component of the velocity, so it starts with a divergence there [C78_Vortices2D_nyquist]. KelvinHelmoltzBoussinesq.py uses rho1 and rho2 only as a shift: the density always jumps from 1 to 3, its mean is 2 - (rho1+rho2)/2 [C78_KHB_mean].
34. KMMRK3_RB adds the buoyancy with the weight a+b in every stage and does not keep the previous one: over a step the weights are 8/15, 2/15, 1/3 at the times 0, 8/15, 2/3, first moment 22/75 instead of 1/2, so the coupling is first order while convection and diffusion are third and second [rkrb_velocity_step, rkrb_buoyancy_order_refuted].
35. MKM.initialize calls solver.compute_pressure when the solver is not a KMM one; no solver defines it, so MKM.py cannot start with Coupled or CoupledRK3 [C79_MKM_coupled_refuted].
36. MKM.py multiplies the streaks by the noise of the first y row a process owns, to keep them divergence free. With a pencil decomposition the rows differ between processes and the velocity has a divergence [C79_MKM_pencil_refuted]; with slabs it has none [C79_MKM_divergence_free].
37. OrrSommerfeld.py stores U_hat0 before it advances U_hat to dt (l.54), OrrSommerfeldr.py after (l.60). KMM takes the mean velocity from U_hat0, so the former steps the mean flow from time 0; harmless because the mean of the perturbed field does not depend on time [C79_OS_field]. Both take the vorticity in the convection of time 0 from the context, which must be new.
38. get_curl of KMM, KMMr and the solvers built on KMM needs an argument curl that no context has: TypeError [C81_calls, C81_curl_refuted]. get_pressure fails for KMMRK3 and KMMRK3_RB, which delete U_hat0 [C81_pressure_calls].
39. get_convection of KMM, KMMr and Coupled writes into H_hat of the context. Called from update() (directly or through get_pressure) it makes the next step Euler instead of Adams-Bashforth for the convection, so observing a run changes it [C81_callback_euler, C81_callback_changes, C81_callback_coupled, C81_callback_example].
40. KMM.get_pressure copies the biharmonic coefficients of the wall normal velocity into functions of the Dirichlet space, so the viscous and time derivative terms belong to another velocity [C82_balance_refuted], and fixes the T_0 coefficient of every Fourier mode, not only of the mean mode, so the pressure is off by a function of y and z [C82_gauge_refuted]. KMM_RB inherits it without the buoyancy. KMMr.get_pressure (read, not modelled) solves along axis 0 for component 0, which is a periodic direction in KMMr.
41. cpp/spectralDNS.cpp does not transform U_hat back after a step, and skips the transform at rk = 0: from the second step on, the first slope uses the velocity of the last stage of the step before with the vorticity of the new U_hat, and the printed energy belongs to that velocity [C84_step, C84_stale_refuted, C84_energy_refuted]. spectralDNS3D_short.py does transform.
42. cpp/spectralDNS.cpp uses kk (1 for the mean mode) in the viscous term too, so a uniform flow decays with the rate nu [C84_uniform, C84_mean_refuted].
43. cpp/spectralDNS.cpp asks FFTW for the transposed output, whose first index is the second direction, but takes it as the first: it advances (V, U, W). Taylor-Green hides it [C84_layout, C84_swapped, C84_taylor_green, C84_swap_refuted].
44. cpp/spectralDNS.cpp relies on c2r transforms that keep their input, which FFTW does not promise in more than one dimension [C84_overwritten_refuted].
45. demo/RayleighBenard.py starts with temperature 1 at x = -1 and 0 at x = 1; KMM_RB and KMMRK3_RB ask for bc=(1, 0) and take the coefficients -2 and -1 for the values at x = 1 and x = -1. This fits only if shenfun reads bc from the lower wall upwards but stores it from the upper wall downwards. With one order for both, either the start has the wrong walls or the linear part of buoyancy and gradient has the wrong sign [C87_wall_order, C87_one_order_refuted].
46. get_divergence of Coupled and CoupledRK3 projects the divergence on functions that vanish at the walls. A velocity with divergence 2 at the wall can give zero everywhere [C88_blind_refuted]. After a step the velocity has no divergence [C88_step].
47. --planner_effort and the entry planner_effort of config.update change one table for the whole session. A later run that asks for nothing inherits it [C90_default_for_each_run_refuted], and update with a dictionary used before does not restore its efforts [C90_update_again_does_nothing]. The entries rfftn and irfftn in demo/TG.py are read by no solver [C90_other_keys_ignored].
48. The options --refinement_test, --eps_refinement_test and --spatial_refinement_test of demo/OrrSommerfeld.py have type=bool. "--refinement_test False" switches the test on [C90_False_is_false_refuted].

## Print Assumptions

Output of `Print Assumptions` for every theorem named in `MANIFEST.json`, grouped by the list it prints.

**Closed under the global context (no axiom)** (71 theorems)

C21_BS5_order, C21_BS5_shape, C31_default, C31_latest, C31_leak_refuted, C32_2D_ignores_generic, C32_arguments,
C32_cython_ForwardEuler_refuted, C32_dispatch, C32_fallback, C32_mesh_attribute_refuted, C32_never_missing, C32_numexpr_unused,
C32_shipped_callable, C37_decision, C37_refuted, C48_inverse, C48_ownership, C48_ownership_back, C48_rank_independent,
C48_roundtrip, C48_transform, C56_NS, C56_channel, C56_doubly, C56_substring_refuted, C56_triply, C58_first_wins,
C58_numpy_session, C58_own_choice_refuted, C69_compute_derivatives_refuted, C69_kmmr_standard_refuted, C70_rk3_file_in_kmm,
C75_Iso, C75_KH, C75_KHB, C75_Laminar, C75_MKM, C75_MKM_first, C75_OS, C75_RB, C75_RB_repeats_refuted,
C75_RB_statistics_refuted, C75_TG, C75_TG2D, C75_TG_zero, C75_Vortices, C75_Vortices2D, C75_Vortices_off_refuted,
C75_restart_plot_refuted, C77_TG_results_refuted, C77_callable, C77_results_file, C81_calls, C81_convection_rk_value,
C81_convection_value, C81_curl_refuted, C81_pressure_calls, C81_pressure_missing, C84_layout, C90_False_is_false_refuted,
C90_context_changes_no_effort, C90_default_for_each_run_refuted, C90_effort_inherited, C90_effort_is_last_asked, C90_eps_first,
C90_other_keys_ignored, C90_plain_run, C90_switch_is_on, C90_update_again_does_nothing, rb_one_field_is_frozen

**`ClassicalDedekindReals.sig_forall_dec`** (14 theorems)

C20_ForwardEuler, C27_N_explicit, C27_N_from_M, C27_missing_refuted, C37_continues, C70_kmm_restart_state,
C70_rb_restart_refuted, C79_laminar_start, cross1_agrees, cython_cross1_2D_agrees, cython_cross3_2D_out_of_bounds,
cython_mult_K1j_agrees, kmm_divergence_free, mult_K1j_agrees

**`FunctionalExtensionality.functional_extensionality_dep`** (3 theorems)

C57_start, C77_set_velocity, C86_start

**`ClassicalDedekindReals.sig_forall_dec`, `FunctionalExtensionality.functional_extensionality_dep`** (157 theorems)

AB2_2D_first_step_refuted, AB2_2D_kernel_agrees_later, AB2_2D_second_step_refuted, AB2_kernel_agrees, C03_VV_velocity,
C04_Bq2D_pressure, C05_project, C06_NS, C06_NS2D, C06_convection, C07_NS, C07_NS2D, C07_decay, C07_parseval, C08_mean_rhs,
C11_NS2D, C11_convection, C12_Bq2D, C12_MHD, C12_NS, C12_NS2D, C12_VV, C13_NS, C14_refuted, C14_which_field, C16_channel,
C16_channel_context, C17_bookkeeping, C17_no_step, C19_RK4_calls, C19_RK4_linear, C19_RK4_order, C19_RK4_step,
C20_AB2_recurrence, C25_kill, C27_M, C27_dx, C27_missing, C27_precision, C29_solver_options, C47_alias_free, C47_powers_of_two,
C47_support, C49_attained, C49_attained_needs_range, C49_bracket, C49_final, C49_report, C49_total, C51_MKM, C51_MKM_returned,
C51_RB, C52_elsasser, C54_K_over_K2, C57_divfree, C57_equals_NS, C61_helicity, C62_VV, C63_Bq, C65_mesh_from_N_refuted,
C65_missing_pressure_refuted, C65_save_after_reset_refuted, C65_uneven_planes_refuted, C67_profile_refuted, C68_g_is_vorticity,
C70_checkpoint_suffices, C70_kmm_restart_repeats_refuted, C70_rk3_g_is_vorticity, C70_rk3_restart, C70_rkrb_restart,
C71_controller_is_local, C73_rk3_momentum, C73_rk3_pressure, C73_rk3_pressure_refuted, C76_weight, C77_VV_set_refuted,
C79_OS_first_step, C79_OSr_first_step, C79_laminar_run, C81_callback_changes, C81_callback_coupled, C81_callback_euler,
C81_callback_fields, C81_callback_rk3, C82_static, C84_divergence, C84_divfree, C84_energy_refuted, C84_energy_value,
C84_first_step, C84_mean_refuted, C84_overwritten_refuted, C84_rhs, C84_stale_refuted, C84_step, C84_swap_refuted, C84_swapped,
C84_tables, C84_uniform, C86_budget, C86_divfree, C86_equals_NS, C86_loop, C86_passes, C86_printed, C87_conduction,
C87_conduction_rk3, C87_diffusion, C87_one_order_refuted, C87_onset, C87_rest, C87_rest_rk3, C87_start, C87_start_conductive,
C87_start_masked, C87_start_walls, C87_wall_order, ForwardEuler_kernel_agrees, RK4_kernel_agrees, ab2_exact_for_linear,
compute_vw_agrees, cross2a_agrees, cross2c_numba_agrees, cross2c_pythran_agrees, ctd_3d_is_derivative, ctd_3d_lines,
ctd_is_derivative, ctd_reads_only_its_line, cython_assembleAB_agrees, cython_cross2_2D_agrees, cython_cross2_agrees,
cython_cross3_agrees, cython_pressure_Bq2D_agrees, cython_pressure_NS2D_agrees, cython_pressure_NS_agrees, kernel_runs_agree,
kmm_continuity, kmm_crank_nicolson, kmm_history, kmm_run_ab2_cn, kmm_steady, kmmrk3_additive_rk, kmmrk3_continuity,
kmmrk3_stage_continuity, kmmrk3_steady, pressure_NS_agrees, rb_buoyancy, rb_extrapolation, rb_history,
rb_temperature_crank_nicolson, rb_temperature_frozen, rb_velocity_crank_nicolson, rk3_order_conditions,
rkrb_buoyancy_order_refuted, rkrb_temperature_stage, rkrb_velocity_stage, rkrb_velocity_step

**`ClassicalDedekindReals.sig_forall_dec`, `ClassicalDedekindReals.sig_not_dec`, `FunctionalExtensionality.functional_extensionality_dep`** (91 theorems)

C06_NS_rfft, C07_NS_rfft, C22_estimate, C25_estimate, C28_resolution, C28_stale_N_refuted, C29_common, C29_cross_mesh_refuted,
C29_solver_option_refuted, C29_solver_value, C29_value, C30_Bq_refuted, C30_advertised, C30_omitted_refuted, C30_rejects,
C50_divfree, C50_energy, C50_unreachable_target, C56_default_refuted, C61_helicity_rfft, C64_VV_refuted, C64_initialize,
C64_rogallo_divergence, C66_decision_refuted, C66_estimate_scales, C68_kmm_curl, C68_kmmr_curl, C69_channel_convection,
C69_coupled_divergence, C69_kmm_divergence_refuted, C69_kmm_vortex_is_advection, C71_flux_GC, C71_flux_GL, C71_flux_integral,
C71_flux_side_effects, C74_initial, C74_rhs, C74_velocity, C77_Bq2D, C77_MHD, C77_NS, C77_NS2D, C77_VV, C77_VV_curl_refuted,
C77_mesh_2d, C77_mesh_3d, C77_pressure, C78_KH, C78_KHB, C78_KHB_mean, C78_TG, C78_TGMHD, C78_TG_VV, C78_TG_coarse_refuted,
C78_Vortices, C78_Vortices2D, C78_Vortices2D_nyquist, C78_Vortices_random_refuted, C78_energy, C79_MKM_coupled_refuted,
C79_MKM_divergence_free, C79_MKM_first_step, C79_MKM_noslip, C79_MKM_pencil_refuted, C79_MKM_rk3, C79_OS_field, C79_OS_rk3,
C79_laminar_convection, C80_OS_energy, C80_OS_noslip, C80_OS_residual, C80_OS_solution, C80_laminar_reference, C80_laminar_rest,
C80_laminar_solution, C82_balance_refuted, C82_gradient, C82_solvable, C84_taylor_green, C85_wall_temperatures, C85_walls,
C85_walls_rk, C86_budget_rfft, C88_masked, div_3d_lines, div_is_weak_divergence, dx_GL_odd_refuted, dx_exact_GC, dx_exact_GL,
dx_rank_independent, dx_same_for_all_decompositions

**`ClassicalDedekindReals.sig_forall_dec`, `ClassicalDedekindReals.sig_not_dec`, `Classical_Prop.classic`, `FunctionalExtensionality.functional_extensionality_dep`** (98 theorems)

C01_NS, C01_NS2D, C02_MHD, C02_MHD_magnetic, C03_VV_vorticity, C04_Bq2D, C08_AB2_restart_refuted, C08_Bq2D_density, C08_MHD,
C08_NS_divergence, C09_Bq2D, C09_MHD, C09_NS, C09_NS2D, C09_VV, C10_NS_VV, C14_BS5, C15_adaptive, C15_fixed, C15_fixed_killed,
C15_never_beyond, C18_last_step, C18_stall_refuted, C20_AB2, C20_AB2_varying, C22_C23_BS5_call, C22_attempt, C22_tolerance,
C23_restart_refuted, C23_run, C24_terminates, C25_integrate, C25_solve, C26_linear_invariants, C35_no_step, C35_schedule,
C36_append_refuted, C36_between, C36_crash_points, C36_crash_refuted, C36_update_complete, C37_stops, C38_AB2_refuted,
C38_BS5_refuted, C38_one_step, C50_NS_run, C55_AB2_changed_dt, C55_AB2_last_step_refuted, C72_coupled_divergence_free,
C72_rk3_divergence_free, C73_coupled_momentum, C73_coupled_pressure, C73_coupled_two_steps, C74_demo, C74_regression, C74_shape,
C76_BS5_textbook_if, C76_first_step, C76_forced_refuted, C76_isotropic_NS, C76_next_step, C76_source, C78_KHB_run,
C78_KH_profile, C78_KH_run, C78_TGMHD_run, C78_TG_run, C82_exact, C82_gauge_refuted, C83_derivative_exact, C83_get_divergence,
C83_kmm_divergence_free, C83_mean_velocity, C83_normal_velocity, C83_normal_vorticity, C83_rk3_divergence_free, C85_convection,
C85_convection_rows, C85_gradient, C85_normal_velocity, C85_rb_divergence_free, C85_rkrb_divergence_free, C85_temperature,
C85_temperature_rk, C88_blind_refuted, C88_projection, C88_projection_exact, C88_step, C88_step_rk3, C88_zero,
C89_crank_nicolson, C89_mean, C89_rk3_stage, C89_rk3_step, C89_run, C89_second_derivative, C89_vorticity,
weighted_integral_unique
