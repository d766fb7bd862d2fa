{
 "claims": [
  {
   "property": "C01",
   "status": "proved",
   "theorems": [
    "C01_NS",
    "C01_NS2D"
   ],
   "note": ""
  },
  {
   "property": "C02",
   "status": "proved",
   "theorems": [
    "C02_MHD",
    "C02_MHD_magnetic"
   ],
   "note": ""
  },
  {
   "property": "C03",
   "status": "proved",
   "theorems": [
    "C03_VV_vorticity",
    "C03_VV_velocity"
   ],
   "note": ""
  },
  {
   "property": "C04",
   "status": "proved",
   "theorems": [
    "C04_Bq2D",
    "C04_Bq2D_pressure"
   ],
   "note": ""
  },
  {
   "property": "C05",
   "status": "proved",
   "theorems": [
    "C05_project"
   ],
   "note": ""
  },
  {
   "property": "C06",
   "status": "proved",
   "theorems": [
    "C06_convection",
    "C06_NS",
    "C06_NS2D",
    "C06_NS_rfft"
   ],
   "note": "For every transform pair whose forward is the scaled transpose of backward, and concretely for the real FFT on every mesh, padded mesh and truncation (C06_NS_rfft). The velocity must vanish on masked modes, which C09 proves invariant."
  },
  {
   "property": "C07",
   "status": "proved",
   "theorems": [
    "C07_NS",
    "C07_NS2D",
    "C07_decay",
    "C07_parseval",
    "C07_NS_rfft"
   ],
   "note": "Rate of the kinetic energy as a derivative along the computed right hand side; includes the work of a source term."
  },
  {
   "property": "C08",
   "status": "proved",
   "theorems": [
    "C08_NS_divergence",
    "C08_mean_rhs",
    "C08_MHD",
    "C08_Bq2D_density",
    "C08_AB2_restart_refuted"
   ],
   "note": "Mean conserved for runs started at tstep=0 or with a one-step integrator; AB2 restarted with tstep>0 halves the mean (C08_AB2_restart_refuted)."
  },
  {
   "property": "C09",
   "status": "proved",
   "theorems": [
    "C09_NS",
    "C09_NS2D",
    "C09_VV",
    "C09_MHD",
    "C09_Bq2D"
   ],
   "note": ""
  },
  {
   "property": "C10",
   "status": "proved",
   "theorems": [
    "C10_NS_VV"
   ],
   "note": ""
  },
  {
   "property": "C11",
   "status": "proved",
   "theorems": [
    "C11_convection",
    "C11_NS2D"
   ],
   "note": ""
  },
  {
   "property": "C12",
   "status": "proved",
   "theorems": [
    "C12_NS",
    "C12_NS2D",
    "C12_VV",
    "C12_MHD",
    "C12_Bq2D"
   ],
   "note": ""
  },
  {
   "property": "C13",
   "status": "proved",
   "theorems": [
    "C13_NS"
   ],
   "note": ""
  },
  {
   "property": "C14",
   "status": "proved",
   "theorems": [
    "C14_which_field",
    "C14_BS5",
    "C14_refuted"
   ],
   "note": "The claim as stated is false (C14_refuted); C14_which_field characterises the field the pressure belongs to; C14_BS5 proves it for BS5 runs from tstep=0."
  },
  {
   "property": "C15",
   "status": "proved",
   "theorems": [
    "C15_fixed",
    "C15_fixed_killed",
    "C15_never_beyond",
    "C15_adaptive"
   ],
   "note": ""
  },
  {
   "property": "C16",
   "status": "proved",
   "theorems": [
    "C16_channel",
    "C16_channel_context"
   ],
   "note": ""
  },
  {
   "property": "C17",
   "status": "proved",
   "theorems": [
    "C17_bookkeeping",
    "C17_no_step"
   ],
   "note": ""
  },
  {
   "property": "C18",
   "status": "proved",
   "theorems": [
    "C18_last_step",
    "C18_stall_refuted"
   ],
   "note": "Second half of the claim is an existence statement: C18_stall_refuted exhibits it."
  },
  {
   "property": "C19",
   "status": "proved",
   "theorems": [
    "C19_RK4_step",
    "C19_RK4_calls",
    "C19_RK4_order",
    "C19_RK4_linear"
   ],
   "note": ""
  },
  {
   "property": "C20",
   "status": "proved",
   "theorems": [
    "C20_ForwardEuler",
    "C20_AB2",
    "C20_AB2_recurrence",
    "C20_AB2_varying"
   ],
   "note": ""
  },
  {
   "property": "C21",
   "status": "proved",
   "theorems": [
    "C21_BS5_order",
    "C21_BS5_shape"
   ],
   "note": ""
  },
  {
   "property": "C22",
   "status": "proved",
   "theorems": [
    "C22_C23_BS5_call",
    "C22_attempt",
    "C22_estimate",
    "C22_tolerance"
   ],
   "note": ""
  },
  {
   "property": "C23",
   "status": "proved",
   "theorems": [
    "C22_C23_BS5_call",
    "C23_run",
    "C23_restart_refuted"
   ],
   "note": "Holds for runs started with tstep=0; for tstep>0 it fails (C23_restart_refuted)."
  },
  {
   "property": "C24",
   "status": "proved",
   "theorems": [
    "C24_terminates"
   ],
   "note": ""
  },
  {
   "property": "C25",
   "status": "proved",
   "theorems": [
    "C25_solve",
    "C25_integrate",
    "C25_estimate",
    "C25_kill"
   ],
   "note": "Every interleaving of n ranks running solve() (asynchronous collectives, arbitrary local computation) ends without deadlock or crash, with the same stop status, t, dt, tstep and per-step list of tried (dt, est) on all ranks. ComputeRHS, update and file writes are sequences of collective phases fixed by t and tstep. With make_profile the hypothesis that ranks called equally many profiled methods is needed (C67)."
  },
  {
   "property": "C26",
   "status": "proved",
   "theorems": [
    "C26_linear_invariants"
   ],
   "note": ""
  },
  {
   "property": "C27",
   "status": "proved",
   "theorems": [
    "C27_N_explicit",
    "C27_N_from_M",
    "C27_M",
    "C27_dx",
    "C27_missing",
    "C27_missing_refuted",
    "C27_precision"
   ],
   "note": "Holds for N, M, dx and every absent key except N: params.N without N and M raises AssertionError (C27_missing_refuted)."
  },
  {
   "property": "C28",
   "status": "proved",
   "theorems": [
    "C28_resolution",
    "C28_stale_N_refuted"
   ],
   "note": "Holds when N was never assigned; an N assigned earlier wins over any later --M (C28_stale_N_refuted)."
  },
  {
   "property": "C29",
   "status": "proved",
   "theorems": [
    "C29_value",
    "C29_common",
    "C29_cross_mesh_refuted",
    "C29_solver_option_refuted",
    "C29_solver_value",
    "C29_solver_options"
   ],
   "note": "Holds for options not declared by the solver's sub-parser and updated only through this mesh (C29_value) and, for the common options, with updates of all meshes (C29_common). Findings: updates leak to other meshes; sub-parser options ignore config.update."
  },
  {
   "property": "C30",
   "status": "proved",
   "theorems": [
    "C30_advertised",
    "C30_rejects",
    "C30_Bq_refuted",
    "C30_omitted_refuted"
   ],
   "note": "Holds for every advertised name except Bq; Bq and an omitted name fail (refuted theorems)."
  },
  {
   "property": "C31",
   "status": "proved",
   "theorems": [
    "C31_latest",
    "C31_default",
    "C31_leak_refuted"
   ],
   "note": "Latest registration always wins; the default is only guaranteed when no module the solver star-imports had a callback at first import (C31_leak_refuted)."
  },
  {
   "property": "C32",
   "status": "proved",
   "theorems": [
    "C32_dispatch",
    "C32_fallback",
    "C32_never_missing",
    "C32_mesh_attribute_refuted",
    "C32_2D_ignores_generic",
    "C32_numexpr_unused",
    "C32_shipped_callable",
    "C32_arguments",
    "C32_cython_ForwardEuler_refuted"
   ],
   "note": ""
  },
  {
   "property": "C33",
   "status": "proved",
   "theorems": [
    "cross1_agrees",
    "cross2a_agrees",
    "cross2c_numba_agrees",
    "cross2c_pythran_agrees",
    "cython_cross2_agrees",
    "cython_cross3_agrees",
    "pressure_NS_agrees",
    "cython_pressure_NS_agrees",
    "cython_cross1_2D_agrees",
    "cython_cross2_2D_agrees",
    "cython_cross3_2D_out_of_bounds",
    "cython_pressure_NS2D_agrees",
    "cython_pressure_Bq2D_agrees",
    "mult_K1j_agrees",
    "cython_mult_K1j_agrees",
    "compute_vw_agrees",
    "cython_assembleAB_agrees"
   ],
   "note": "Loop nests over bounds-checked arrays (None = access out of bounds). cython _cross3_2D is proved to leave its arrays. Machine types (float32/64 signatures) are not modelled."
  },
  {
   "property": "C34",
   "status": "proved",
   "theorems": [
    "RK4_kernel_agrees",
    "ForwardEuler_kernel_agrees",
    "AB2_kernel_agrees",
    "kernel_runs_agree",
    "AB2_2D_first_step_refuted",
    "AB2_2D_second_step_refuted",
    "AB2_2D_kernel_agrees_later"
   ],
   "note": "Arrays of any shape and number of axes, any right hand side, any number of steps. cython AB2_2D (tests tstep == 1) is refuted for the first two steps and agrees afterwards; the arity of cython ForwardEuler is in C32."
  },
  {
   "property": "C35",
   "status": "proved",
   "theorems": [
    "C35_schedule",
    "C35_no_step"
   ],
   "note": ""
  },
  {
   "property": "C36",
   "status": "proved",
   "theorems": [
    "C36_between",
    "C36_crash_points",
    "C36_crash_refuted",
    "C36_update_complete",
    "C36_append_refuted"
   ],
   "note": "False as stated: consistent between events and at the listed crash points (C36_between, C36_crash_points); C36_crash_refuted and C36_append_refuted are the counterexamples."
  },
  {
   "property": "C37",
   "status": "proved",
   "theorems": [
    "C37_stops",
    "C37_continues",
    "C37_decision",
    "C37_refuted"
   ],
   "note": "All ranks take the same decision and stop in the same step; C37_refuted: the exit can raise on rank 0 when the file is only visible elsewhere."
  },
  {
   "property": "C38",
   "status": "proved",
   "theorems": [
    "C38_one_step",
    "C38_AB2_refuted",
    "C38_BS5_refuted"
   ],
   "note": "Holds for the one-step integrators; false for AB2 and BS5 (refuted theorems)."
  },
  {
   "property": "C39",
   "status": "proved",
   "theorems": [
    "ctd_is_derivative",
    "ctd_reads_only_its_line"
   ],
   "note": "Mult_CTD_1D_ptr on any offset/stride: Coq derivative (derivable_pt_lim) of the Dirichlet expansion equals the Chebyshev expansion of the output, both arguments, any N>=4, frame and read-set included."
  },
  {
   "property": "C40",
   "status": "proved",
   "theorems": [
    "div_is_weak_divergence",
    "weighted_integral_unique"
   ],
   "note": "N>=7, rows 1..N-3: Chebyshev weighted inner product (integral over theta, x=cos theta) of u'+i m v+i n w with the Neumann functions; the remaining entries are unchanged."
  },
  {
   "property": "C41",
   "status": "proved",
   "theorems": [
    "ctd_3d_lines",
    "ctd_3d_is_derivative",
    "div_3d_lines"
   ],
   "note": "C-contiguous memory of shape (n0,n1,n2), all axes, N<=shape[axis]; addresses outside the first N entries of each line keep their contents."
  },
  {
   "property": "C42",
   "status": "proved",
   "theorems": [
    "kmm_continuity",
    "kmmrk3_stage_continuity",
    "kmmrk3_continuity",
    "kmm_divergence_free"
   ],
   "note": "KMM, KMMr (component order a parameter) and every stage of KMMRK3; shenfun's mass matrix solve assumed exact (Spec/Channel.v solves)."
  },
  {
   "property": "C43",
   "status": "proved",
   "theorems": [
    "kmm_crank_nicolson",
    "kmm_run_ab2_cn",
    "kmmrk3_additive_rk",
    "rk3_order_conditions",
    "ab2_exact_for_linear"
   ],
   "note": "The step is proved equal to the textbook scheme row by row; RK3 is proved to be an additive Runge-Kutta method whose explicit tableau satisfies the order 3 and the implicit tableau the order 2 conditions."
  },
  {
   "property": "C44",
   "status": "proved",
   "theorems": [
    "kmm_steady",
    "kmmrk3_steady"
   ],
   "note": "any number of steps, any dt, nu and forcing"
  },
  {
   "property": "C45",
   "status": "proved",
   "theorems": [
    "dx_exact_GC",
    "dx_exact_GL",
    "dx_GL_odd_refuted"
   ],
   "note": "Gauss points: exact for degree < M times resolved waves, for every decomposition over ranks. Gauss-Lobatto: degree < M for even M, degree < M-1 for odd M; the stronger claim for odd M is refuted for every odd M."
  },
  {
   "property": "C46",
   "status": "proved",
   "theorems": [
    "dx_rank_independent",
    "dx_same_for_all_decompositions"
   ],
   "note": "The root returns the weighted sum of the global array, all other ranks return 0."
  },
  {
   "property": "C47",
   "status": "proved",
   "theorems": [
    "C47_alias_free",
    "C47_powers_of_two",
    "C47_support"
   ],
   "note": ""
  },
  {
   "property": "C48",
   "status": "proved",
   "theorems": [
    "C48_ownership",
    "C48_ownership_back",
    "C48_inverse",
    "C48_transform",
    "C48_roundtrip",
    "C48_rank_independent"
   ],
   "note": ""
  },
  {
   "property": "C49",
   "status": "proved",
   "theorems": [
    "C49_bracket",
    "C49_attained",
    "C49_final",
    "C49_report",
    "C49_total",
    "C49_attained_needs_range"
   ],
   "note": ""
  },
  {
   "property": "C50",
   "status": "proved",
   "theorems": [
    "C50_energy",
    "C50_unreachable_target",
    "C50_divfree",
    "C50_NS_run"
   ],
   "note": "Model/Isotropic.v, Props/Isotropic.v. energy_fourier is the Parseval sum with arbitrary weights; a failing assertion or NaN is None. If the energy outside of the band exceeds the target, update() raises."
  },
  {
   "property": "C51",
   "status": "proved",
   "theorems": [
    "C51_MKM",
    "C51_RB",
    "C51_MKM_returned"
   ],
   "note": "Spec/Averages.v, Model/Stats.v, Proofs/StatsProofs.v, Props/Stats.v. Over any sequence of creating, sampling, saving, resetting and loading by any number of objects, runs and processes, with the planes dealt out evenly and 2**M[0] equal to the number of planes; the other cases are C65."
  },
  {
   "property": "C52",
   "status": "proved",
   "theorems": [
    "C52_elsasser"
   ],
   "note": ""
  },
  {
   "property": "C53",
   "status": "proved",
   "theorems": [
    "kmm_history",
    "rb_history",
    "rb_extrapolation"
   ],
   "note": "KMM/KMMr and KMM_RB. By-product: the average 0.5*(u_hat+U_hat0) of KMM_RB.py:106 is always the current level."
  },
  {
   "property": "C54",
   "status": "proved",
   "theorems": [
    "C54_K_over_K2"
   ],
   "note": ""
  },
  {
   "property": "C55",
   "status": "proved",
   "theorems": [
    "C55_AB2_changed_dt",
    "C55_AB2_last_step_refuted"
   ],
   "note": "Finding: AB2 keeps the old step's weights when solve() shortens the last step."
  },
  {
   "property": "C56",
   "status": "proved",
   "theorems": [
    "C56_channel",
    "C56_NS",
    "C56_triply",
    "C56_doubly",
    "C56_default_refuted",
    "C56_substring_refuted"
   ],
   "note": "Holds for channel, NS, doubly periodic with 'Vortex'; refuted for the default form with MHD and for substrings on the doubly periodic mesh."
  },
  {
   "property": "C57",
   "status": "proved",
   "theorems": [
    "C57_equals_NS",
    "C57_start",
    "C57_divfree"
   ],
   "note": ""
  },
  {
   "property": "C58",
   "status": "proved",
   "theorems": [
    "C58_first_wins",
    "C58_own_choice_refuted",
    "C58_numpy_session"
   ],
   "note": ""
  },
  {
   "property": "C59",
   "status": "proved",
   "theorems": [
    "rb_one_field_is_frozen",
    "rb_temperature_frozen"
   ],
   "note": "a defect, stated as what the code does"
  },
  {
   "property": "C60",
   "status": "proved",
   "theorems": [
    "rb_temperature_crank_nicolson",
    "rb_velocity_crank_nicolson",
    "rkrb_temperature_stage",
    "rb_buoyancy",
    "rkrb_velocity_stage",
    "rkrb_velocity_step",
    "rkrb_buoyancy_order_refuted"
   ],
   "note": "explicit and implicit temperature matrices assumed equal (AS = ADDT, BS = BDDT) That the buoyancy of KMMRK3_RB is integrated to the order of the method is refuted: its weights (8/15, 2/15, 1/3) are of first order."
  },
  {
   "property": "C61",
   "status": "proved",
   "theorems": [
    "C61_helicity",
    "C61_helicity_rfft"
   ],
   "note": "Same transform hypothesis as C06."
  },
  {
   "property": "C62",
   "status": "proved",
   "theorems": [
    "C62_VV"
   ],
   "note": "Same transform hypothesis as C06."
  },
  {
   "property": "C63",
   "status": "proved",
   "theorems": [
    "C63_Bq"
   ],
   "note": "Same transform hypothesis as C06."
  },
  {
   "property": "C64",
   "status": "proved",
   "theorems": [
    "C64_initialize",
    "C64_VV_refuted",
    "C64_rogallo_divergence"
   ],
   "note": "Model/Isotropic.v, Props/Isotropic.v. The positive part covers the NS solver (and VV from a nonzero W_hat); the VV finding is C64_VV_refuted."
  },
  {
   "property": "C65",
   "status": "proved",
   "theorems": [
    "C65_uneven_planes_refuted",
    "C65_save_after_reset_refuted",
    "C65_missing_pressure_refuted",
    "C65_mesh_from_N_refuted"
   ],
   "note": "Counterexamples on the MKM class; the uneven distribution is the block distribution of mpi4py-fft."
  },
  {
   "property": "C66",
   "status": "proved",
   "theorems": [
    "C66_estimate_scales",
    "C66_decision_refuted"
   ],
   "note": "Finding: est is divided by the root of T.shape(True) of rank 0 (local shape according to shenfun's documentation as remembered; shenfun is not in the sandbox). So BS5 accepts on one rank what it rejects on four."
  },
  {
   "property": "C67",
   "status": "proved",
   "theorems": [
    "C67_profile_refuted"
   ],
   "note": "Finding: two ranks whose profiles list a different number of the methods of interest wait for each other for ever."
  },
  {
   "property": "C68",
   "status": "proved",
   "theorems": [
    "C68_kmm_curl",
    "C68_kmmr_curl",
    "C68_g_is_vorticity"
   ],
   "note": "The transforms are modelled as evaluation of the polynomial; KMMr's wavenumber arrays Kx and K are taken equal (they differ at the Nyquist mode only)."
  },
  {
   "property": "C69",
   "status": "proved",
   "theorems": [
    "C69_channel_convection",
    "C69_kmm_vortex_is_advection",
    "C69_coupled_divergence",
    "C69_kmm_divergence_refuted",
    "C69_compute_derivatives_refuted",
    "C69_kmmr_standard_refuted"
   ],
   "note": "Findings: KMM's Divergence and Skew forms are wrong in the wall normal component; KMM.compute_derivatives and KMMr's Standard and Skew forms raise AttributeError."
  },
  {
   "property": "C70",
   "status": "proved",
   "theorems": [
    "C70_rk3_g_is_vorticity",
    "C70_rk3_restart",
    "C70_checkpoint_suffices",
    "C70_kmm_restart_state",
    "C70_kmm_restart_repeats_refuted",
    "C70_rk3_file_in_kmm",
    "C70_rb_restart_refuted",
    "C70_rkrb_restart"
   ],
   "note": "Findings: restarting MKM with KMM repeats a step of the mean flow and uses a stale vorticity; restarting RayleighBenard with KMM_RB also puts the time into tstep. For KMMRK3_RB the order of arguments of the temperature solver is the one its call needs (C54)."
  },
  {
   "property": "C71",
   "status": "proved",
   "theorems": [
    "C71_flux_integral",
    "C71_flux_GC",
    "C71_flux_GL",
    "C71_flux_side_effects",
    "C71_controller_is_local"
   ],
   "note": "The velocity is the Shen-Dirichlet/Fourier series evaluated at the mesh points; exact arithmetic."
  },
  {
   "property": "C72",
   "status": "proved",
   "theorems": [
    "C72_coupled_divergence_free",
    "C72_rk3_divergence_free"
   ],
   "note": "BlockMatrix.solve is assumed to return a solution of the rows when the pressure part of the right hand side is zero, with the constraints of get_context applied in the mode (0,0)."
  },
  {
   "property": "C73",
   "status": "proved",
   "theorems": [
    "C73_coupled_momentum",
    "C73_coupled_two_steps",
    "C73_rk3_momentum",
    "C73_coupled_pressure",
    "C73_rk3_pressure",
    "C73_rk3_pressure_refuted"
   ],
   "note": "Finding: CoupledRK3's P_hat is a third of the pressure that Coupled stores (C73_case computes both)."
  },
  {
   "property": "C74",
   "status": "proved",
   "theorems": [
    "C74_initial",
    "C74_velocity",
    "C74_rhs",
    "C74_shape",
    "C74_regression",
    "C74_demo"
   ],
   "note": "The transforms are the discrete Fourier sums on the 2 pi square, exact arithmetic; comm.reduce is the sum over all points; plotting is not modelled."
  },
  {
   "property": "C75",
   "status": "proved",
   "theorems": [
    "C75_TG",
    "C75_TG_zero",
    "C75_Vortices2D",
    "C75_TG2D",
    "C75_KH",
    "C75_KHB",
    "C75_restart_plot_refuted",
    "C75_Vortices",
    "C75_Vortices_off_refuted",
    "C75_Iso",
    "C75_MKM",
    "C75_MKM_first",
    "C75_Laminar",
    "C75_OS",
    "C75_RB",
    "C75_RB_statistics_refuted",
    "C75_RB_repeats_refuted"
   ],
   "note": "The statistics of RayleighBenard, plots after a restart and disabled options are refuted; the values of the fields are not modelled here, only which step they belong to."
  },
  {
   "property": "C76",
   "status": "proved",
   "theorems": [
    "C76_first_step",
    "C76_next_step",
    "C76_BS5_textbook_if",
    "C76_isotropic_NS",
    "C76_weight",
    "C76_source",
    "C76_forced_refuted"
   ],
   "note": "That BS5 takes textbook steps with a callback that changes the solution is refuted. The callback is a function of time, step, solution, work array, context and environment."
  },
  {
   "property": "C77",
   "status": "proved",
   "theorems": [
    "C77_NS",
    "C77_MHD",
    "C77_NS2D",
    "C77_Bq2D",
    "C77_pressure",
    "C77_set_velocity",
    "C77_VV",
    "C77_VV_set_refuted",
    "C77_VV_curl_refuted",
    "C77_mesh_3d",
    "C77_mesh_2d",
    "C77_callable",
    "C77_results_file",
    "C77_TG_results_refuted"
   ],
   "note": "The field between the mesh points is the trigonometric sum over the stored modes as they are, in particular e^(-iN/2 x) for the Nyquist mode. That VV's set_velocity sets the velocity, that its get_curl is always the curl of its velocity and that TG can write results with VV are refuted."
  },
  {
   "property": "C78",
   "status": "proved",
   "theorems": [
    "C78_TG",
    "C78_TG_VV",
    "C78_TGMHD",
    "C78_energy",
    "C78_TG_run",
    "C78_TGMHD_run",
    "C78_Vortices",
    "C78_KHB",
    "C78_KHB_mean",
    "C78_KHB_run",
    "C78_KH",
    "C78_KH_profile",
    "C78_KH_run",
    "C78_Vortices2D",
    "C78_Vortices2D_nyquist",
    "C78_TG_coarse_refuted",
    "C78_Vortices_random_refuted"
   ],
   "note": "Over the reals, with the discrete Fourier sums of Spec/Energy and Spec/TaylorGreen as the transforms. That the fields are divergence free on every mesh, and that Vortices.py starts from a solenoidal vorticity with init = 'random', are refuted."
  },
  {
   "property": "C79",
   "status": "proved",
   "theorems": [
    "C79_MKM_noslip",
    "C79_MKM_divergence_free",
    "C79_MKM_pencil_refuted",
    "C79_MKM_first_step",
    "C79_MKM_coupled_refuted",
    "C79_MKM_rk3",
    "C79_OS_first_step",
    "C79_OSr_first_step",
    "C79_OS_field",
    "C79_laminar_run",
    "C79_laminar_convection",
    "C79_OS_rk3",
    "C79_laminar_start"
   ],
   "note": "Over the reals. The wall normal transforms are arbitrary linear maps, the periodic ones the discrete sums of Spec/TaylorGreen. That MKM.py starts divergence free on pencils, and that it runs with Coupled, are refuted."
  },
  {
   "property": "C80",
   "status": "proved",
   "theorems": [
    "C80_OS_residual",
    "C80_OS_solution",
    "C80_OS_noslip",
    "C80_OS_energy",
    "C80_laminar_solution",
    "C80_laminar_rest",
    "C80_laminar_reference"
   ],
   "note": "Over the reals and in the continuum; the eigenvalue problem is that of the operators, not of their Galerkin matrices, and interpolation of the eigenfunction is exact."
  },
  {
   "property": "C81",
   "status": "proved",
   "theorems": [
    "C81_calls",
    "C81_curl_refuted",
    "C81_pressure_calls",
    "C81_convection_value",
    "C81_callback_euler",
    "C81_callback_fields",
    "C81_callback_changes",
    "C81_callback_rk3",
    "C81_callback_coupled",
    "C81_pressure_missing",
    "C81_convection_rk_value"
   ],
   "note": "The keys of the contexts are transcribed as lists; the convection is an arbitrary function, so its use of the work arrays is outside."
  },
  {
   "property": "C82",
   "status": "proved",
   "theorems": [
    "C82_solvable",
    "C82_gradient",
    "C82_exact",
    "C82_static",
    "C82_balance_refuted",
    "C82_gauge_refuted"
   ],
   "note": "Scalar products with Gauss-Chebyshev quadrature, the default, where they are exact for the products that occur. get_pressure of KMMr is not modelled."
  },
  {
   "property": "C83",
   "status": "proved",
   "theorems": [
    "C83_derivative_exact",
    "C83_get_divergence",
    "C83_kmm_divergence_free",
    "C83_rk3_divergence_free",
    "C83_normal_velocity",
    "C83_normal_vorticity",
    "C83_mean_velocity"
   ],
   "note": "All hypotheses, including those on shenfun's matrices and solvers, are met by an explicit system with five points (C83_solvers5, C83_example)."
  },
  {
   "property": "C84",
   "status": "proved",
   "theorems": [
    "C84_tables",
    "C84_layout",
    "C84_step",
    "C84_first_step",
    "C84_rhs",
    "C84_divfree",
    "C84_divergence",
    "C84_uniform",
    "C84_mean_refuted",
    "C84_energy_refuted",
    "C84_swapped",
    "C84_taylor_green",
    "C84_stale_refuted",
    "C84_swap_refuted",
    "C84_overwritten_refuted",
    "C84_energy_value"
   ],
   "note": "The transforms are parameters; what the c2r transform leaves in its input is one of them. The examples use the four point transform of fields of one coordinate."
  },
  {
   "property": "C85",
   "status": "proved",
   "theorems": [
    "C85_gradient",
    "C85_convection",
    "C85_convection_rows",
    "C85_wall_temperatures",
    "C85_rb_divergence_free",
    "C85_rkrb_divergence_free",
    "C85_walls",
    "C85_walls_rk",
    "C85_temperature",
    "C85_temperature_rk",
    "C85_normal_velocity"
   ],
   "note": "Temperature theorems for the argument order that the temperature solve needs (see C59). The matrices are inner products with any quadrature for which the Chebyshev polynomials are orthogonal; the solvers are arbitrary ones that solve the rows of their systems. Synthesis in C85_gradient is exact (field at a point), fST arbitrary; the matvec with aliased arguments is taken to read its input first. Example C85_example."
  },
  {
   "property": "C86",
   "status": "proved",
   "theorems": [
    "C86_equals_NS",
    "C86_start",
    "C86_divfree",
    "C86_loop",
    "C86_passes",
    "C86_budget",
    "C86_budget_rfft",
    "C86_printed"
   ],
   "note": "Real arithmetic, also for the time. K2 is summed with dtype=int in the script, exact for the integer wavenumbers of its domain. C86_printed needs forward(backward(U_hat)) = U_hat at the end. Example C86_example."
  },
  {
   "property": "C87",
   "status": "proved",
   "theorems": [
    "C87_rest",
    "C87_diffusion",
    "C87_conduction",
    "C87_onset",
    "C87_rest_rk3",
    "C87_conduction_rk3",
    "C87_start_walls",
    "C87_start",
    "C87_start_masked",
    "C87_start_conductive",
    "C87_wall_order",
    "C87_one_order_refuted"
   ],
   "note": "Argument order OutFirst of the temperature solve (see C59). The temperature solver is assumed to return the wall values in the mean mode for a zero right hand side. C87_one_order_refuted: no single order of the walls, used for bc and for the stored coefficients, satisfies all three places; which order the installed shenfun uses is not known here. Example C87_example."
  },
  {
   "property": "C88",
   "status": "proved",
   "theorems": [
    "C88_projection",
    "C88_zero",
    "C88_masked",
    "C88_projection_exact",
    "C88_step",
    "C88_step_rk3",
    "C88_blind_refuted"
   ],
   "note": "shenfun's project is taken as inner products with the Dirichlet functions followed by a solve of the mass matrix; the rows are assumed to be inner products, the solvers to solve. C88_blind_refuted shows that zero does not imply a velocity without divergence. Example C88_example."
  },
  {
   "property": "C89",
   "status": "proved",
   "theorems": [
    "C89_crank_nicolson",
    "C89_second_derivative",
    "C89_vorticity",
    "C89_mean",
    "C89_run",
    "C89_rk3_stage",
    "C89_rk3_step"
   ],
   "note": "The matrices are assumed to be the exact weighted inner products (Gauss points; norms cw). The biharmonic equation of the normal velocity is not covered: its mass matrix is the laplacian, which is not symmetric in the weighted inner product. Examples C89_growth, C89_example."
  },
  {
   "property": "C90",
   "status": "proved",
   "theorems": [
    "C90_effort_is_last_asked",
    "C90_context_changes_no_effort",
    "C90_other_keys_ignored",
    "C90_effort_inherited",
    "C90_default_for_each_run_refuted",
    "C90_update_again_does_nothing",
    "C90_switch_is_on",
    "C90_plain_run",
    "C90_False_is_false_refuted",
    "C90_eps_first"
   ],
   "note": "A value assigned to params.planner_effort directly is not covered; nor is what FFTW does with the effort. Example C90_example."
  }
 ]
}
