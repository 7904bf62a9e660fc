-Q theories Verif
theories/M_CPS.v
theories/M_CTL.v
theories/M_Campaign.v
theories/M_Count.v
theories/M_Cpp.v
theories/M_CppIO.v
theories/M_CppLR.v
theories/M_CppSim.v
theories/M_Direct.v
theories/M_Enum.v
theories/M_Enumerate.v
theories/M_ExpInt.v
theories/M_Expr.v
theories/M_Filters.v
theories/M_IO.v
theories/M_LinRecur.v
theories/M_Linear.v
theories/M_Load.v
theories/M_MPI.v
theories/M_Math.v
theories/M_Morphett.v
theories/M_NoSteps.v
theories/M_Pipeline.v
theories/M_Prover.v
theories/M_ProverLim.v
theories/M_ProverRec.v
theories/M_ProverRun.v
theories/M_Quick.v
theories/M_ReSim.v
theories/M_Resume.v
theories/M_Rust.v
theories/M_RustExpr.v
theories/M_Sample.v
theories/M_Settings.v
theories/M_Simulator.v
theories/M_Tape.v
theories/M_Tools.v
theories/M_Turing_Machine.v
theories/P_Answers.v
theories/P_Apply.v
theories/P_CPS.v
theories/P_CTL.v
theories/P_CTLTerm.v
theories/P_Campaign.v
theories/P_Complete.v
theories/P_Complete2.v
theories/P_Compute.v
theories/P_Count.v
theories/P_CountSem.v
theories/P_Cpp.v
theories/P_CppCont.v
theories/P_CppIO.v
theories/P_CppLR.v
theories/P_Direct.v
theories/P_EnumTree.v
theories/P_Enumerate.v
theories/P_ExpInt.v
theories/P_ExpInt2.v
theories/P_ExpInt3.v
theories/P_Expr.v
theories/P_Files.v
theories/P_Filters.v
theories/P_Form.v
theories/P_Formats.v
theories/P_GenLoop.v
theories/P_GenSim.v
theories/P_IO.v
theories/P_LNF.v
theories/P_LNF2.v
theories/P_LimApply.v
theories/P_LimLoop.v
theories/P_LimMark.v
theories/P_LimRule.v
theories/P_LimRun.v
theories/P_Lin.v
theories/P_LinRecur.v
theories/P_Linear.v
theories/P_Load.v
theories/P_MPI.v
theories/P_Macro.v
theories/P_MacroSpec.v
theories/P_MakeRule.v
theories/P_Math.v
theories/P_Morphett.v
theories/P_NoSteps.v
theories/P_Nums.v
theories/P_Permute.v
theories/P_Pipeline.v
theories/P_ProverLim.v
theories/P_ProverRun.v
theories/P_Pump.v
theories/P_Queue.v
theories/P_Quick.v
theories/P_Quint.v
theories/P_RecApply.v
theories/P_RecRun.v
theories/P_RecSim.v
theories/P_RecVal.v
theories/P_Rename.v
theories/P_Repeat.v
theories/P_Resume.v
theories/P_Rule.v
theories/P_Rust.v
theories/P_Sample.v
theories/P_Series.v
theories/P_Settings.v
theories/P_Shift.v
theories/P_SimLimited.v
theories/P_Simulator.v
theories/P_Stream.v
theories/P_TNF.v
theories/P_TNF2.v
theories/P_Tape.v
theories/P_Tools.v
theories/P_Tree.v
theories/P_Unique.v
theories/P_Window.v
theories/Prop_CPS.v
theories/Prop_CTL.v
theories/Prop_Campaign.v
theories/Prop_Count.v
theories/Prop_Cpp.v
theories/Prop_CppCont.v
theories/Prop_CppIO.v
theories/Prop_CppLR.v
theories/Prop_CppSim.v
theories/Prop_Direct.v
theories/Prop_Enum.v
theories/Prop_Enumerate.v
theories/Prop_ExpInt.v
theories/Prop_Expr.v
theories/Prop_Filters.v
theories/Prop_IO.v
theories/Prop_LinRecur.v
theories/Prop_Linear.v
theories/Prop_Load.v
theories/Prop_MPI.v
theories/Prop_Macro.v
theories/Prop_Math.v
theories/Prop_Morphett.v
theories/Prop_NoSteps.v
theories/Prop_Pipeline.v
theories/Prop_Prover.v
theories/Prop_ProverLim.v
theories/Prop_ProverRec.v
theories/Prop_Quick.v
theories/Prop_ReSim.v
theories/Prop_Rename.v
theories/Prop_Resume.v
theories/Prop_Rust.v
theories/Prop_RustEq.v
theories/Prop_RustExpr.v
theories/Prop_Sample.v
theories/Prop_Simulator.v
theories/Prop_Tools.v
theories/Spec_ExpInt.v
theories/Spec_Linear.v
theories/Spec_Prob.v
theories/Spec_Rename.v
theories/Spec_TM.v
