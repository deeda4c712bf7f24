-Q theories Verif
theories/Base.v
theories/C_Activity.v
theories/C_Algorithms.v
theories/C_Aqueous.v
theories/C_AqueousProps.v
theories/C_Attribs.v
theories/C_CO2.v
theories/C_Chain.v
theories/C_Chem.v
theories/C_Copies.v
theories/C_CubicEOS.v
theories/C_CubicModel.v
theories/C_DatabaseOut.v
theories/C_DatabaseYaml.v
theories/C_Electro.v
theories/C_Elements.v
theories/C_Exception.v
theories/C_Formation.v
theories/C_Formula.v
theories/C_Gases.v
theories/C_HKF.v
theories/C_Helmholtz.v
theories/C_HkfTables.v
theories/C_Interpolate.v
theories/C_LU.v
theories/C_Math.v
theories/C_Matrix.v
theories/C_Mechanism.v
theories/C_Memo.v
theories/C_Mineral.v
theories/C_Naming.v
theories/C_Outputter.v
theories/C_PhaseEnergy.v
theories/C_PhaseId.v
theories/C_Phreeqc.v
theories/C_PhreeqcInitial.v
theories/C_PhreeqcObject.v
theories/C_PhreeqcState.v
theories/C_PhreeqcWater.v
theories/C_Pitzer.v
theories/C_Pitzer2.v
theories/C_Pitzer3.v
theories/C_Pitzer4.v
theories/C_PitzerTables.v
theories/C_PorousRock.v
theories/C_Registry.v
theories/C_Roots.v
theories/C_Setup.v
theories/C_Shared.v
theories/C_Solve.v
theories/C_SpeciesMemo.v
theories/C_Specs.v
theories/C_State.v
theories/C_Strings.v
theories/C_Supcrt.v
theories/C_SupcrtLocale.v
theories/C_SupcrtModels.v
theories/C_Supcrtbl.v
theories/C_System.v
theories/C_Thermo.v
theories/C_ThermoFun.v
theories/C_ThermoProps.v
theories/C_ThermoRef.v
theories/C_Units.v
theories/C_Water.v
theories/C_WaterSaturation.v
theories/C_Yaml.v
theories/M_Algorithms.v
theories/M_Aqueous.v
theories/M_AqueousProps.v
theories/M_Attribs.v
theories/M_Chem.v
theories/M_Copies.v
theories/M_CubicEOS.v
theories/M_CubicModel.v
theories/M_DatabaseOut.v
theories/M_DatabaseYaml.v
theories/M_Elements.v
theories/M_Exception.v
theories/M_Formation.v
theories/M_Formula.v
theories/M_Gases.v
theories/M_HKF.v
theories/M_Helmholtz.v
theories/M_HkfTables.v
theories/M_Interpolate.v
theories/M_LU.v
theories/M_Math.v
theories/M_Matrix.v
theories/M_Mechanism.v
theories/M_Memo.v
theories/M_Naming.v
theories/M_Outputter.v
theories/M_PhaseEnergy.v
theories/M_PhaseId.v
theories/M_Phreeqc.v
theories/M_PhreeqcInitial.v
theories/M_PhreeqcObject.v
theories/M_PhreeqcState.v
theories/M_PhreeqcWater.v
theories/M_Pitzer.v
theories/M_PitzerTables.v
theories/M_PorousRock.v
theories/M_Registry.v
theories/M_Roots.v
theories/M_Setup.v
theories/M_Shared.v
theories/M_Solve.v
theories/M_SpeciesMemo.v
theories/M_Specs.v
theories/M_State.v
theories/M_Strings.v
theories/M_Supcrt.v
theories/M_SupcrtLocale.v
theories/M_SupcrtModels.v
theories/M_Supcrtbl.v
theories/M_System.v
theories/M_Thermo.v
theories/M_ThermoFun.v
theories/M_ThermoProps.v
theories/M_Units.v
theories/M_Water.v
theories/M_WaterSaturation.v
theories/M_Yaml.v
theories/P_Activity.v
theories/P_Algorithms.v
theories/P_Aqueous.v
theories/P_AqueousProps.v
theories/P_Chem.v
theories/P_Conditions.v
theories/P_CubicEOS.v
theories/P_DatabaseOut.v
theories/P_DatabaseYaml.v
theories/P_DebyeHuckel.v
theories/P_Farey.v
theories/P_Formula.v
theories/P_Gases.v
theories/P_HKF.v
theories/P_HKFActivity.v
theories/P_Helmholtz.v
theories/P_Helmholtz2.v
theories/P_HkfTables.v
theories/P_Interp.v
theories/P_Lagrange.v
theories/P_Linear.v
theories/P_Memo.v
theories/P_Ostream.v
theories/P_Phases.v
theories/P_Phreeqc.v
theories/P_Pitzer.v
theories/P_PitzerDilute.v
theories/P_PitzerDuhem.v
theories/P_PitzerEval.v
theories/P_PitzerFn.v
theories/P_PitzerJ.v
theories/P_PitzerJump.v
theories/P_PitzerMix.v
theories/P_PitzerSum.v
theories/P_Predict.v
theories/P_Printing.v
theories/P_Props.v
theories/P_Restrictions.v
theories/P_Setup.v
theories/P_Setup2.v
theories/P_Setup3.v
theories/P_Specs.v
theories/P_Specs2.v
theories/P_State.v
theories/P_State2.v
theories/P_State3.v
theories/P_Strings.v
theories/P_System.v
theories/P_Units.v
theories/P_Wagner.v
theories/P_Water.v
theories/S_Activity.v
theories/S_Chem.v
theories/S_DatabaseOut.v
theories/S_DatabaseYaml.v
theories/S_Equilibrium.v
theories/S_Formula.v
theories/S_Math.v
theories/S_Memo.v
theories/S_Mineral.v
theories/S_Naming.v
theories/S_Phreeqc.v
theories/S_PhreeqcWater.v
theories/S_Props.v
theories/S_State.v
theories/S_Strings.v
theories/S_Supcrt.v
theories/S_System.v
theories/S_Thermo.v
theories/S_ThermoProps.v
theories/S_Units.v
theories/S_Water.v
