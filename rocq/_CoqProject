-Q theories Verif
theories/Outcome.v
theories/Ints.v
theories/Loop.v
theories/Date.v
theories/DateFacts.v
theories/Calendar.v
theories/CalendarSpec.v
theories/CalendarFacts.v
theories/AdjustFacts.v
theories/AdvanceFacts.v
theories/PeriodFacts.v
theories/JointFacts.v
theories/P_Advance.v
theories/P_Period.v
theories/P_Adjust.v
theories/Cal_easter.v
theories/Cal_base.v
theories/Cal_argentina.v
theories/Cal_australia.v
theories/Cal_austria.v
theories/Cal_botswana.v
theories/Cal_brazil.v
theories/Cal_canada.v
theories/Cal_chile.v
theories/Cal_china.v
theories/Cal_czechrepublic.v
theories/Cal_denmark.v
theories/Cal_finland.v
theories/Cal_france.v
theories/Cal_germany.v
theories/Cal_hongkong.v
theories/Cal_hungary.v
theories/Cal_iceland.v
theories/Cal_india.v
theories/Cal_indonesia.v
theories/Cal_israel.v
theories/Cal_italy.v
theories/Cal_japan.v
theories/Cal_mexico.v
theories/Cal_newzealand.v
theories/Cal_norway.v
theories/Cal_poland.v
theories/Cal_romania.v
theories/Cal_russia.v
theories/Cal_singapore.v
theories/Cal_slovakia.v
theories/Cal_southafrica.v
theories/Cal_southkorea.v
theories/Cal_sweden.v
theories/Cal_switzerland.v
theories/Cal_taiwan.v
theories/Cal_target.v
theories/Cal_thailand.v
theories/Cal_turkey.v
theories/Cal_ukraine.v
theories/Cal_unitedkingdom.v
theories/Cal_unitedstates.v
theories/Shipped.v
theories/ShippedFacts.v
theories/EasterSpec.v
theories/EasterFacts.v
theories/Closure.v
theories/ClosureView.v
theories/Closure1.v
theories/Closure2.v
theories/Closure3.v
theories/Closure4.v
theories/ClosureIsrael.v
theories/ShippedAdjust.v
theories/P_Calendars.v
theories/Names.v
theories/P_Names.v
theories/F64.v
theories/DayCount.v
theories/DayCountSpec.v
theories/DayCountFacts.v
theories/B252Facts.v
theories/P_DayCount.v
theories/Imm.v
theories/ImmSpec.v
theories/ImmFacts.v
theories/P_Imm.v
theories/Fx.v
theories/FxFacts.v
theories/P_Fx.v
theories/Sorting.v
theories/ForwardPoints.v
theories/ForwardPointsFacts.v
theories/P_ForwardPoints.v
theories/YieldCurve.v
theories/YieldCurveSpec.v
theories/YieldCurveFacts.v
theories/P_YieldCurve.v
theories/FxForward.v
theories/FxForwardFacts.v
theories/P_FxForward.v
theories/Swap.v
theories/SwapSpec.v
theories/SwapFacts.v
theories/SwapValueFacts.v
theories/P_Swap.v
theories/Bootstrap.v
theories/BootstrapSpec.v
theories/BootstrapFacts.v
theories/P_Bootstrap.v
theories/Normal.v
theories/NormalFacts.v
theories/BlackScholes.v
theories/BlackFacts.v
theories/P_BlackScholes.v
theories/FxOption.v
theories/P_FxOption.v
theories/VolSurface.v
theories/VolFacts.v
theories/P_VolSurface.v
theories/CapSurface.v
theories/CapFacts.v
theories/P_CapSurface.v
theories/P_Cap.v
theories/NelderMead.v
theories/NelderMeadFacts.v
theories/P_NelderMead.v
theories/Simulation.v
theories/SimulationFacts.v
theories/P_Simulation.v
theories/Cholesky.v
theories/CholeskyFacts.v
theories/P_Cholesky.v
theories/Processes.v
theories/ProcessFacts.v
theories/P_Processes.v
theories/MomentFacts.v
theories/P_Moments.v
theories/HullWhite.v
theories/P_HullWhite.v
theories/P_Cir.v
theories/SabrEffective.v
theories/SabrEffectiveFacts.v
theories/P_SabrEffective.v
theories/P_SabrTime.v
theories/SabrSmile.v
theories/P_SabrSmile.v
theories/CosPricer.v
theories/P_CosPricer.v
theories/Fmm.v
theories/FmmFacts.v
theories/P_Fmm.v
theories/P_FmmStep.v
theories/Observers.v
theories/P_Observers.v
theories/Dupire.v
theories/DupireFacts.v
theories/P_Dupire.v
theories/Slv.v
theories/P_Slv.v
theories/SmileFit.v
theories/SmileFitFacts.v
theories/SabrCalibrator.v
theories/P_SabrCalibrator.v
theories/TdCalibrator.v
theories/TdCalibratorFacts.v
theories/P_TdCalibrator.v
theories/Complexes.v
theories/Hhw1Chf.v
theories/HestonFacts.v
theories/Simpson.v
theories/Hhw1Facts.v
theories/P_Hhw1Chf.v
theories/Hlmm.v
theories/HlmmFacts.v
theories/P_Hlmm.v
theories/CLog.v
theories/SegChf.v
theories/Hlmm1Chf.v
theories/HestonLog.v
theories/Riccati.v
theories/SegFacts.v
theories/SegTheory.v
theories/Hlmm1Facts.v
theories/P_Hlmm1Chf.v
theories/FxFmm.v
theories/FxFmmFacts.v
theories/P_FxFmm.v
theories/SegConverge.v
theories/Fmm1Chf.v
theories/Fmm1Facts.v
theories/P_Fmm1Chf.v
theories/FxFmmSim.v
theories/FxFmmSimFacts.v
theories/P_FxFmmSim.v
theories/FxCalibrators.v
theories/FxCalibratorsFacts.v
theories/P_FxCalibrators.v
theories/IrContext.v
theories/P_IrContext.v
theories/FxContext.v
theories/P_FxContext.v
theories/HolidayRules.v
theories/HolidayTables.v
theories/HolidayCheck.v
theories/HolidayCheck1.v
theories/HolidayCheck2.v
theories/P_Holidays.v
theories/HebrewSpec.v
theories/P_Hebrew.v
theories/FestivalSpec.v
theories/FestivalLaws.v
theories/P_Festivals.v
theories/HijriSpec.v
theories/P_Hijri.v
theories/ThaiSpec.v
theories/P_ThaiRussia.v
theories/P_ListedDays.v
theories/Clock64.v
theories/Clock64Facts.v
theories/P_Clock64.v
theories/Chol64.v
theories/Chol64Facts.v
theories/P_Chol64.v
theories/Bisect64.v
theories/Bisect64Facts.v
theories/P_Bisect64.v
theories/Lerp64.v
theories/Lerp64Facts.v
theories/P_Lerp64.v
theories/Floor64.v
theories/P_Floor64.v
theories/Validate64.v
theories/P_Validate64.v
theories/P_Differences64.v
theories/Segments64.v
theories/P_Segments64.v
theories/Substeps64.v
theories/P_Substeps64.v
theories/Forward64.v
theories/P_Forward64.v
theories/Zero64.v
theories/P_Zero64.v
theories/SwapNpv64.v
theories/P_SwapNpv64.v
theories/P_NelderMove.v
theories/Simple64.v
theories/P_Simple64.v
