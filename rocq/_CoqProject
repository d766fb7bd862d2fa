-Q theories Verif
theories/Base/Cplx.v
theories/Base/Fin.v
theories/Base/Sums.v
theories/Model/Accessors.v
theories/Model/BS5.v
theories/Model/Bq2D.v
theories/Model/Callbacks.v
theories/Model/ChannelAccess.v
theories/Model/ChannelConv.v
theories/Model/ChannelDemo.v
theories/Model/ChannelInit.v
theories/Model/Config.v
theories/Model/Coupled.v
theories/Model/CoupledDiv.v
theories/Model/Cpp.v
theories/Model/DemoShenfun.v
theories/Model/Dx.v
theories/Model/HDF5.v
theories/Model/InitFields.v
theories/Model/Integrate.v
theories/Model/Integrators.v
theories/Model/Isotropic.v
theories/Model/KMM.v
theories/Model/KMMRB.v
theories/Model/Kernels.v
theories/Model/LU.v
theories/Model/MHD.v
theories/Model/Maths.v
theories/Model/NS.v
theories/Model/NS2D.v
theories/Model/Optimizer.v
theories/Model/Parallel.v
theories/Model/Planner.v
theories/Model/RBConv.v
theories/Model/RBInit.v
theories/Model/Run.v
theories/Model/Short.v
theories/Model/Solve.v
theories/Model/Stats.v
theories/Model/TG2D.v
theories/Model/Timer.v
theories/Model/VV.v
theories/Proofs/AffineProofs.v
theories/Proofs/BqProofs.v
theories/Proofs/CallbackProofs.v
theories/Proofs/ChannelConvProofs.v
theories/Proofs/ChannelDemoProofs.v
theories/Proofs/ChebyshevProofs.v
theories/Proofs/Common.v
theories/Proofs/ConfigProofs.v
theories/Proofs/CoupledProofs.v
theories/Proofs/CppProofs.v
theories/Proofs/EnergyProofs.v
theories/Proofs/FeedbackProofs.v
theories/Proofs/FileProofs.v
theories/Proofs/FileRunProofs.v
theories/Proofs/FloatTime.v
theories/Proofs/FsalProofs.v
theories/Proofs/GalerkinProofs.v
theories/Proofs/InitFieldsProofs.v
theories/Proofs/IntegratorProofs.v
theories/Proofs/KMMProofs.v
theories/Proofs/KernelProofs.v
theories/Proofs/LUProofs.v
theories/Proofs/LoopProofs.v
theories/Proofs/MHDProofs.v
theories/Proofs/MeanProofs.v
theories/Proofs/MpiProofs.v
theories/Proofs/NSProofs.v
theories/Proofs/ParallelProofs.v
theories/Proofs/PeriodicProofs.v
theories/Proofs/PressureProofs.v
theories/Proofs/QuadratureProofs.v
theories/Proofs/RBProofs.v
theories/Proofs/RestartProofs.v
theories/Proofs/RoundTrip2.v
theories/Proofs/RunProofs.v
theories/Proofs/ShortProofs.v
theories/Proofs/SolveProofs.v
theories/Proofs/StabilityProofs.v
theories/Proofs/StatsProofs.v
theories/Proofs/TaylorGreenProofs.v
theories/Proofs/TaylorGreenRun.v
theories/Proofs/TimeIntProofs.v
theories/Proofs/TimerProofs.v
theories/Proofs/TreeProofs.v
theories/Proofs/VVProofs.v
theories/Proofs/WaveProofs.v
theories/Props/Accessors.v
theories/Props/Callbacks.v
theories/Props/Channel.v
theories/Props/ChannelAccess.v
theories/Props/ChannelConv.v
theories/Props/ChannelDemo.v
theories/Props/ChannelEx.v
theories/Props/ChannelFlux.v
theories/Props/ChannelInit.v
theories/Props/ChannelRB.v
theories/Props/ChannelRef.v
theories/Props/ChannelSteady.v
theories/Props/Chebyshev.v
theories/Props/Config.v
theories/Props/Coupled.v
theories/Props/CoupledDiv.v
theories/Props/CoupledEx.v
theories/Props/Cpp.v
theories/Props/Demo.v
theories/Props/DemoShenfun.v
theories/Props/Energy.v
theories/Props/Feedback.v
theories/Props/Files.v
theories/Props/Galerkin.v
theories/Props/InitFields.v
theories/Props/Isotropic.v
theories/Props/KernelInt.v
theories/Props/Kernels.v
theories/Props/Loop.v
theories/Props/Optimizer.v
theories/Props/Parallel.v
theories/Props/Periodic.v
theories/Props/Planner.v
theories/Props/Quadrature.v
theories/Props/RBRest.v
theories/Props/Short.v
theories/Props/Stability.v
theories/Props/Stats.v
theories/Props/TaylorGreen.v
theories/Props/Temperature.v
theories/Props/TimeInt.v
theories/Props/Timer.v
theories/Spec/Averages.v
theories/Spec/Calls.v
theories/Spec/Channel.v
theories/Spec/ChannelField.v
theories/Spec/Chebyshev.v
theories/Spec/Coupled.v
theories/Spec/CppRK.v
theories/Spec/Dispatch.v
theories/Spec/Energy.v
theories/Spec/Env.v
theories/Spec/Feedback.v
theories/Spec/Files.v
theories/Spec/Fourier.v
theories/Spec/Galerkin.v
theories/Spec/History.v
theories/Spec/Lift.v
theories/Spec/Mpi.v
theories/Spec/Quadrature.v
theories/Spec/RungeKutta.v
theories/Spec/Stats.v
theories/Spec/TaylorGreen.v
theories/Spec/Temperature.v
theories/Spec/Trees.v
theories/Spec/Wave.v
