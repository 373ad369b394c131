-Q theories Verif
theories/Base.v
theories/M_Vec.v
theories/M_Drivers.v
theories/M_LayerState.v
theories/M_Layer.v
theories/M_Junction.v
theories/S_Vec.v
theories/P_Vec.v
theories/P_VecMore.v
theories/T_Vec.v
theories/S_Drivers.v
theories/P_Drivers.v
theories/T_Drivers.v
theories/S_Layer.v
theories/P_Monad.v
theories/P_Layer.v
theories/P_LayerProps.v
theories/P_LayerEx.v
theories/T_Layer.v
theories/S_Step.v
theories/P_Step.v
theories/P_Step2.v
theories/P_Step3.v
theories/P_Step4.v
theories/S_Run.v
theories/P_Run.v
theories/P_Keys.v
theories/S_Api.v
theories/P_Api.v
theories/P_Log.v
theories/P_RunProps.v
theories/P_Quiet.v
theories/P_RunEx.v
theories/T_Step.v
theories/T_Run.v
theories/T_Api.v
theories/S_Cache.v
theories/P_Cache.v
theories/T_Cache.v
theories/S_Ctor.v
theories/P_Ctor.v
theories/T_Ctor.v
theories/M_Stack.v
theories/S_Stack.v
theories/P_Stack.v
theories/P_StackRun.v
theories/P_StackLog.v
theories/P_StackProps.v
theories/T_Stack.v
theories/M_Reservoir.v
theories/S_Reservoir.v
theories/P_Dipole.v
theories/P_Group.v
theories/P_GroupStep.v
theories/P_GroupRun.v
theories/P_Reservoir.v
theories/P_ReservoirRun.v
theories/T_Reservoir.v
theories/M_Noise.v
theories/S_Noise.v
theories/P_Noise.v
theories/P_NoiseBuf.v
theories/P_NoiseVec.v
theories/T_Noise.v
theories/M_Llgb.v
theories/S_Llgb.v
theories/P_Llgb.v
theories/P_LlgbRun.v
theories/P_LlgbHist.v
theories/P_LlgbPhys.v
theories/P_Mfa.v
theories/P_LlgbEx.v
theories/T_Llgb.v
theories/M_Math.v
theories/S_Math.v
theories/P_Math.v
theories/M_Compute.v
theories/S_Compute.v
theories/P_Compute.v
theories/P_Spectrum.v
theories/T_Compute.v
theories/M_Geom.v
theories/S_Geom.v
theories/P_Geom.v
theories/T_Geom.v
theories/M_PyUtils.v
theories/S_PyUtils.v
theories/P_PyUtils.v
theories/T_PyUtils.v
theories/M_Sym.v
theories/S_Sym.v
theories/P_Sym.v
theories/M_Resist.v
theories/S_Resist.v
theories/P_Resist.v
theories/T_Resist.v
theories/M_SB.v
theories/S_SB.v
theories/P_SB.v
theories/P_SBDescent.v
theories/P_SBMotion.v
theories/P_SBResponse.v
theories/P_SBTheorems.v
theories/T_SB.v
theories/M_DW.v
theories/S_DW.v
theories/P_DW.v
theories/T_DW.v
theories/M_Oersted.v
theories/S_Oersted.v
theories/P_Oersted.v
theories/T_Oersted.v
theories/S_Rot.v
theories/P_Rot.v
theories/T_Rot.v
theories/P_DriversMore.v
theories/M_Procedures.v
theories/S_Procedures.v
theories/P_Procedures.v
theories/P_Pimm.v
theories/P_PimmProps.v
theories/P_Vsd.v
theories/P_VsdProps.v
theories/P_ProcMore.v
theories/T_Procedures.v
theories/M_Energy.v
theories/S_Energy.v
theories/P_Energy.v
theories/P_EnergyRun.v
theories/P_EnergyMore.v
theories/T_Energy.v
theories/M_Shapes.v
theories/S_Shapes.v
theories/P_Shapes.v
theories/P_Detrend.v
theories/T_Shapes.v
theories/M_NoiseModel.v
theories/S_NoiseModel.v
theories/P_NoiseModel.v
theories/P_NoiseModelMore.v
theories/P_Auto.v
theories/T_NoiseModel.v
theories/M_Grid.v
theories/S_Grid.v
theories/P_Grid.v
theories/P_GridRun.v
theories/P_GridClock.v
theories/T_Grid.v
theories/M_FloatDriver.v
theories/S_FloatDriver.v
theories/P_FloatDriver.v
theories/T_FloatDriver.v
theories/M_FloatCount.v
theories/S_FloatCount.v
theories/P_FloatCount.v
theories/T_FloatCount.v
theories/M_Fit.v
theories/S_Fit.v
theories/P_Fit.v
theories/T_Fit.v
theories/M_Memo.v
theories/S_Memo.v
theories/P_Memo.v
theories/T_Memo.v
theories/M_Modes.v
theories/S_Modes.v
theories/P_Modes.v
theories/P_ModesMotion.v
theories/T_Modes.v
theories/M_Plot.v
theories/S_Plot.v
theories/P_Plot.v
theories/T_Plot.v
theories/S_Alone.v
theories/P_Alone.v
theories/T_Alone.v
theories/M_Domains.v
theories/S_Domains.v
theories/P_Domains.v
theories/T_Domains.v
theories/M_Prepare.v
theories/S_Prepare.v
theories/P_Prepare.v
theories/P_PrepareRun.v
theories/P_PrepareVsd.v
theories/T_Prepare.v
theories/S_Converge.v
theories/P_Metric.v
theories/P_Converge.v
theories/P_Regular.v
theories/P_Tame.v
theories/P_ConvergeRun.v
theories/T_Converge.v
theories/S_Precess.v
theories/P_Precess.v
theories/P_PrecessRun.v
theories/T_Precess.v
theories/S_Exchange.v
theories/P_Exchange.v
theories/T_Exchange.v
theories/M_Bind.v
theories/S_Bind.v
theories/P_Bind.v
theories/P_BindDoc.v
theories/P_BindTable.v
theories/P_BindOdd.v
theories/T_Bind.v
theories/S_Relax.v
theories/P_Relax.v
theories/P_RelaxStep.v
theories/P_RelaxRun.v
theories/T_Relax.v
theories/S_StackEnergy.v
theories/P_StackEnergy.v
theories/P_StackEnergyRun.v
theories/T_StackEnergy.v
theories/S_Exists.v
theories/P_Picard.v
theories/P_Exists.v
theories/T_Exists.v
theories/P_Global.v
theories/P_Settle.v
theories/T_Settle.v
theories/S_TwoSolvers.v
theories/P_TwoSolvers.v
theories/T_TwoSolvers.v
theories/M_Analytic.v
theories/S_Analytic.v
theories/P_Analytic.v
theories/P_AnalyticMore.v
theories/T_Analytic.v
theories/S_Reach.v
theories/P_Reach.v
theories/P_ReachEx.v
theories/T_Reach.v
theories/S_Continue.v
theories/P_Continue.v
theories/P_ContinueRun.v
theories/P_ContinueEx.v
theories/T_Continue.v
theories/S_Mirror.v
theories/P_Mirror.v
theories/P_MirrorRun.v
theories/P_MirrorApi.v
theories/T_Mirror.v
theories/M_Autofit.v
theories/S_Autofit.v
theories/P_Autofit.v
theories/T_Autofit.v
theories/S_Turn.v
theories/P_Turn.v
theories/P_TurnRun.v
theories/T_Turn.v
theories/S_Faster.v
theories/P_Faster.v
theories/P_FasterRun.v
theories/P_BarEx.v
theories/T_Faster.v
theories/S_Same.v
theories/P_Same.v
theories/P_SameRun.v
theories/T_Same.v
