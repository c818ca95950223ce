-Q theories Verif
theories/Base.v
theories/Decomp_Model.v
theories/Decomp_Spec.v
theories/Decomp_Proofs.v
theories/Decomp_Props.v
theories/Guard_Model.v
theories/Guard_Spec.v
theories/Guard_Proofs.v
theories/Guard_Props.v
theories/Mpi_Model.v
theories/Mpi_Proofs.v
theories/Mpi_Props.v
theories/PExch_Model.v
theories/PExch_Spec.v
theories/PExch_Proofs.v
theories/PExch_Props.v
theories/Step_Model.v
theories/Step_Spec.v
theories/Step_Proofs.v
theories/Period_Model.v
theories/Period_Spec.v
theories/Period_Proofs.v
theories/Period_Main.v
theories/Period_Witness.v
theories/Period_Props.v
theories/Step_Props.v
theories/Wrap_Model.v
theories/Wrap_Proofs.v
theories/Wrap_Props.v
theories/Track_Model.v
theories/Track_Spec.v
theories/Track_Proofs.v
theories/Track_Props.v
theories/Fourier_Lib.v
theories/Window_Model.v
theories/Window_Proofs.v
theories/Window_Props.v
theories/Inject_Model.v
theories/Inject_Spec.v
theories/Inject_Proofs.v
theories/Inject_Props.v
theories/Load_Model.v
theories/Load_Spec.v
theories/Load_Proofs.v
theories/Load_Props.v
theories/Chunk_Model.v
theories/Chunk_Proofs.v
theories/Chunk_Props.v
theories/Sort_Model.v
theories/Sort_Spec.v
theories/Sort_Proofs.v
theories/Sort_Props.v
theories/Shape_Model.v
theories/Shape_Spec.v
theories/Shape_Proofs.v
theories/Shape_Props.v
theories/Deposit_Model.v
theories/Deposit_Spec.v
theories/Deposit_Proofs.v
theories/Deposit_Props.v
theories/Ruyten_Model.v
theories/Ruyten_Spec.v
theories/Ruyten_Proofs.v
theories/Ruyten_Props.v
theories/Push_Model.v
theories/Push_Spec.v
theories/Push_Proofs.v
theories/Push_Props.v
theories/Ionize_Model.v
theories/Ionize_Spec.v
theories/Ionize_Proofs.v
theories/Ionize_Props.v
theories/Compton_Model.v
theories/Compton_Spec.v
theories/Compton_Proofs.v
theories/Compton_Count.v
theories/Compton_Loops.v
theories/Compton_Events.v
theories/Compton_Props.v
theories/Hankel_Model.v
theories/Hankel_Spec.v
theories/Hankel_Proofs.v
theories/Hankel_Props.v
theories/Cross_Model.v
theories/Psatd_Model.v
theories/Psatd_Spec.v
theories/Psatd_Proofs.v
theories/Psatd_Vacuum.v
theories/Psatd_Sources.v
theories/Psatd_Extra.v
theories/Psatd_Props.v
theories/ModK_Model.v
theories/ModK_Spec.v
theories/ModK_Proofs.v
theories/ModK_Props.v
theories/Smooth_Model.v
theories/Smooth_Spec.v
theories/Smooth_Proofs.v
theories/Smooth_Props.v
theories/Boost_Model.v
theories/Boost_Spec.v
theories/Boost_Proofs.v
theories/Boost_Props.v
theories/ExtField_Model.v
theories/ExtField_Spec.v
theories/ExtField_Proofs.v
theories/ExtField_Props.v
theories/SpaceCharge_Model.v
theories/SpaceCharge_Proofs.v
theories/SpaceCharge_Props.v
theories/Bunch_Model.v
theories/Bunch_Spec.v
theories/Bunch_Proofs.v
theories/Bunch_Charge.v
theories/Bunch_Props.v
theories/Antenna_Model.v
theories/Antenna_Spec.v
theories/Antenna_Proofs.v
theories/Antenna_Props.v
theories/Mirror_Model.v
theories/Mirror_Spec.v
theories/Mirror_Proofs.v
theories/Mirror_Props.v
theories/Damp_Model.v
theories/Damp_Spec.v
theories/Damp_Proofs.v
theories/Damp_Props.v
theories/Gather_Model.v
theories/Gather_Spec.v
theories/Gather_Proofs.v
theories/Gather_Props.v
theories/Store_Model.v
theories/Store_Spec.v
theories/Store_Proofs.v
theories/Store_Props.v
theories/Restart_Model.v
theories/Restart_Spec.v
theories/Restart_Proofs.v
theories/Restart_Props.v
theories/BPart_Model.v
theories/BPart_Spec.v
theories/BPart_Proofs.v
theories/BPart_Props.v
theories/BField_Model.v
theories/BField_Spec.v
theories/BField_Proofs.v
theories/BField_Props.v
theories/GDeposit_Model.v
theories/GDeposit_Spec.v
theories/GDeposit_Proofs.v
theories/GDeposit_Props.v
theories/DepForm_Spec.v
theories/DepForm_Proofs.v
theories/DepForm_Props.v
theories/GatForm_Spec.v
theories/GatForm_Proofs.v
theories/GatForm_Props.v
theories/Step_Window.v
theories/Emit_Spec.v
theories/Emit_Proofs.v
theories/Emit_Props.v
theories/Cross_Spec.v
theories/Cross_Props.v
theories/Smooth_Passes.v
theories/Maxwell_Spec.v
theories/Maxwell_Proofs.v
theories/Maxwell_Flow.v
theories/Maxwell_Push.v
theories/Maxwell_Props.v
theories/Laser_Model.v
theories/Laser_Spec.v
theories/Laser_Calc.v
theories/Laser_Laguerre.v
theories/Laser_Paraxial.v
theories/Laser_Proofs.v
theories/Laser_Wave.v
theories/Laser_FewCycle.v
theories/Laser_Flat.v
theories/Laser_Final.v
theories/Laser_Props.v
theories/Direct_Model.v
theories/Direct_Spec.v
theories/Direct_Proofs.v
theories/Direct_Lasers.v
theories/Direct_Wave.v
theories/Direct_Grid.v
theories/Direct_Props.v
theories/KN_Spec.v
theories/KN_Proofs.v
theories/KN_Props.v
theories/Gauss_Lib.v
theories/Beam_Model.v
theories/Beam_Spec.v
theories/Beam_Proofs.v
theories/Beam_Props.v
theories/KNRound_Model.v
theories/KNRound_Spec.v
theories/KNRound_Proofs.v
theories/KNRound_Bound.v
theories/KNRound_Props.v
theories/LagNorm_Lib.v
theories/LaserEn_Spec.v
theories/LaserEn_Proofs.v
theories/LaserEn_Props.v
theories/Picmi_Model.v
theories/Picmi_Spec.v
theories/Picmi_Proofs.v
theories/Picmi_Props.v
theories/Cycle_Model.v
theories/Cycle_Spec.v
theories/Cycle_Proofs.v
theories/Cycle_Props.v
theories/Adk_Model.v
theories/Adk_Spec.v
theories/Adk_Proofs.v
theories/Adk_Props.v
theories/Pdiag_Model.v
theories/Pdiag_Spec.v
theories/Pdiag_Proofs.v
theories/Pdiag_Props.v
theories/GAntenna_Model.v
theories/GAntenna_Spec.v
theories/GAntenna_Proofs.v
theories/GAntenna_Props.v
theories/Plane_Model.v
theories/Plane_Spec.v
theories/Plane_Proofs.v
theories/Plane_Props.v
theories/Select_Model.v
theories/Select_Spec.v
theories/Select_Proofs.v
theories/Select_Props.v
theories/Pml_Model.v
theories/Pml_Spec.v
theories/Pml_Proofs.v
theories/Pml_Props.v
theories/Cuda_Model.v
theories/Cuda_Proofs.v
theories/GGuard_Model.v
theories/GGuard_Proofs.v
theories/GDamp_Model.v
theories/GDamp_Proofs.v
theories/Gpu_Props.v
theories/GSpect_Model.v
theories/GSpect_Spec.v
theories/GSpect_Proofs.v
theories/GSpect_Props.v
theories/GTrans_Model.v
theories/GTrans_Spec.v
theories/GTrans_Proofs.v
theories/GTrans_Props.v
theories/GData_Model.v
theories/GData_Spec.v
theories/GData_Proofs.v
theories/GData_Props.v
theories/Spectrum_Model.v
theories/Spectrum_Spec.v
theories/Spectrum_Proofs.v
theories/Spectrum_Props.v
theories/BFile_Model.v
theories/BFile_Spec.v
theories/BFile_Proofs.v
theories/BFile_Props.v
theories/Lasy_Model.v
theories/Lasy_Spec.v
theories/Lasy_Proofs.v
theories/Lasy_Props.v
theories/GExch_Model.v
theories/GExch_Spec.v
theories/GExch_Proofs.v
theories/GExch_Props.v
theories/EBound_Model.v
theories/EBound_Spec.v
theories/EBound_Proofs.v
theories/EBound_Props.v
theories/StReach_Model.v
theories/StReach_Spec.v
theories/StReach_Proofs.v
theories/StReach_Props.v
theories/GGrid_Model.v
theories/GGrid_Spec.v
theories/GGrid_Proofs.v
theories/GGrid_Props.v
theories/Cupy_Model.v
theories/Cupy_Spec.v
theories/Cupy_Proofs.v
theories/Cupy_Props.v
theories/GOrder_Model.v
theories/GOrder_Spec.v
theories/GOrder_Proofs.v
theories/GOrder_Props.v
theories/GBack_Model.v
theories/GBack_Spec.v
theories/GBack_Proofs.v
theories/GBack_Props.v
theories/GSlice_Model.v
theories/GSlice_Spec.v
theories/GSlice_Proofs.v
theories/GSlice_Props.v
theories/GPart_Model.v
theories/GPart_Spec.v
theories/GPart_Proofs.v
theories/GPart_Props.v
theories/GUnroll_Model.v
theories/GUnroll_Spec.v
theories/GUnroll_Proofs.v
theories/GUnroll_Props.v
theories/Ring_Model.v
theories/Ring_Spec.v
theories/Ring_Proofs.v
theories/Ring_Props.v
theories/Pmd_Model.v
theories/Pmd_Spec.v
theories/Pmd_Proofs.v
theories/Pmd_Props.v
theories/Pfile_Model.v
theories/Pfile_Spec.v
theories/Pfile_Proofs.v
theories/Pfile_Props.v
theories/Timed_Spec.v
theories/Timed_Proofs.v
theories/Timed_Props.v
theories/Show_Model.v
theories/Show_Spec.v
theories/Show_Proofs.v
theories/Show_Props.v
theories/Seed_Model.v
theories/Seed_Spec.v
theories/Seed_Proofs.v
theories/Seed_Props.v
theories/Script_Model.v
theories/Script_Spec.v
theories/Script_Proofs.v
theories/Script_Props.v
theories/Trip_Spec.v
theories/Trip_Proofs.v
theories/Trip_Props.v
theories/Draw_Model.v
theories/Draw_Spec.v
theories/Draw_Proofs.v
theories/Draw_Props.v
