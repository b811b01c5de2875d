-Q theories Verif
theories/Config_Model.v
theories/Config_Spec.v
theories/Config_Proofs.v
theories/Props_Config.v
theories/Ring.v
theories/Ring_Proofs.v
theories/Mpi_Model.v
theories/Mpi_Spec.v
theories/Mpi_Proofs.v
theories/Mpi_Ref.v
theories/Mpi_Sched.v
theories/Props_Mpi.v
theories/Mpi_Run.v
theories/MpiBeam_Model.v
theories/MpiBeam_Proofs.v
theories/MpiBeam_Ex.v
theories/Props_MpiBeam.v
theories/Beam2D_Model.v
theories/Beam2D_Spec.v
theories/Beam2D_Proofs.v
theories/Beam2D_Push.v
theories/Beam2D_Free.v
theories/Beam2D_Dep.v
theories/Beam2D_Total.v
theories/Beam2D_Ex.v
theories/Props_Beam2D.v
theories/Shape_Model.v
theories/Shape_Spec.v
theories/Shape_Proofs.v
theories/Beam3D_Model.v
theories/Beam3D_Spec.v
theories/Beam3D_Proofs.v
theories/Beam3D_Run.v
theories/Beam3D_Upd.v
theories/Beam3D_Ex.v
theories/Props_Beam3D.v
theories/Plasma2D_Model.v
theories/Plasma2D_Spec.v
theories/Plasma2D_Ode.v
theories/Plasma2D_Dep.v
theories/Plasma2D_Move.v
theories/Plasma2D_Init.v
theories/Plasma2D_Dens.v
theories/Plasma2D_Ex.v
theories/Props_Plasma2D.v
theories/Plasma3D_Model.v
theories/Plasma3D_Spec.v
theories/Plasma3D_Move.v
theories/Plasma3D_Push.v
theories/Spectral.v
theories/Fields3D_Proofs.v
theories/Fields3D_Unique.v
theories/Fields3D_Top.v
theories/Plasma3D_Quiet.v
theories/Filter3D_Proofs.v
theories/Props_Plasma3D.v
theories/Props_Plasma3D_Init.v
theories/Diag_Model.v
theories/Diag_Spec.v
theories/Diag_Proofs.v
theories/Diag_Slices.v
theories/Props_Diag.v
theories/Props_Diag2.v
theories/Props_Diag4.v
theories/BeamGen_Model.v
theories/BeamGen_Spec.v
theories/BeamGen_Proofs.v
theories/BeamGen_Beam.v
theories/BeamGen_Dict.v
theories/BeamGen_Ex.v
theories/Props_BeamGen.v
theories/Profile_Model.v
theories/Profile_Spec.v
theories/Profile_Proofs.v
theories/Props_Profile.v
theories/Dtype_Model.v
theories/Dtype_Spec.v
theories/Dtype_Proofs.v
theories/Props_Dtype.v
theories/Plasma2D_Push_Spec.v
theories/Plasma2D_Push.v
theories/Props_Plasma2D_Push.v
theories/BeamPush_Spec.v
theories/BeamPush_Proofs.v
theories/Props_BeamPush.v
theories/Causal_Proofs.v
theories/Props_Causal.v
theories/Sym3D_Spec.v
theories/Sym3D_Plasma.v
theories/Sym3D_Beam.v
theories/Props_Sym3D.v
theories/Coupling_Spec.v
theories/Coupling_Proofs.v
theories/Props_Coupling.v
theories/Layer3D_Spec.v
theories/Layer3D_Proofs.v
theories/Props_Layer3D.v
theories/Rigid_Model.v
theories/Rigid_Spec.v
theories/Props_Rigid.v
theories/State_Model.v
theories/State_Spec.v
theories/Props_State.v
theories/Layer2D_Spec.v
theories/Layer2D_Proofs.v
theories/Layer2D_Unique.v
theories/Props_Layer2D.v
theories/Gpu_Model.v
theories/Gpu_Spec.v
theories/Gpu_Fft.v
theories/Gpu_Proofs.v
theories/Gpu_Run.v
theories/Props_Gpu.v
theories/Mirror3D_Spec.v
theories/Mirror3D_Proofs.v
theories/Mirror3D_Pair.v
theories/Props_Mirror3D.v
theories/Float_Model.v
theories/Float_Proofs.v
theories/Props_Float.v
theories/Rounded3D_Model.v
theories/Rounded3D_Proofs.v
theories/Rounded3D_Exact.v
theories/Props_Rounded3D.v
theories/Rounded2D_Model.v
theories/Rounded2D_Exact.v
theories/Rounded2D_Proofs.v
theories/Props_Rounded2D.v
theories/CylProfile_Model.v
theories/CylProfile_Spec.v
theories/Props_CylProfile.v
theories/LegacyBeam_Model.v
theories/LegacyBeam_Spec.v
theories/LegacyBeam_Proofs.v
theories/Props_LegacyBeam.v
theories/RoundedBeam_Model.v
theories/RoundedBeam_Spec.v
theories/Props_RoundedBeam.v
theories/RoundedSum_Proofs.v
theories/RoundedWeight_Proofs.v
theories/RoundedDep_Model.v
theories/RoundedDep_Spec.v
theories/RoundedDep_Proofs.v
theories/Props_RoundedDep.v
theories/Props_RoundedDep2.v
theories/RoundedPlasma_Proofs.v
theories/Props_RoundedPlasma.v
theories/Props_RoundedPlasma2.v
theories/RoundedCell_Proofs.v
theories/Props_RoundedCell.v
theories/Props_RoundedCell2.v
theories/Props_RoundedCell3.v
theories/Props_RoundedCell4.v
theories/RoundedField_Proofs.v
theories/RoundedField_Model.v
theories/Props_RoundedField.v
theories/Props_RoundedField2.v
theories/Props_RoundedField3.v
theories/Props_RoundedField4.v
theories/RoundedPush_Model.v
theories/RoundedPush_Spec.v
theories/RoundedPush_Proofs.v
theories/Props_RoundedPush.v
theories/RoundedLight_Proofs.v
theories/Props_RoundedLight.v
theories/Props_RoundedLight2.v
theories/Props_RoundedPush2.v
theories/Props_RoundedPush_Cases.v
theories/RoundedPush2D_Proofs.v
theories/Props_RoundedPush2D.v
theories/Props_RoundedPush2D_Cases.v
theories/Props_RoundedPush2DFull.v
theories/Props_RoundedPush2DFull_Case.v
theories/Dump_Model.v
theories/Dump_Spec.v
theories/Dump_Proofs.v
theories/Props_Dump.v
theories/Props_Shapes.v
theories/Diag3D_Model.v
theories/Diag3D_Spec.v
theories/Diag3D_Proofs.v
theories/Props_Diag3D.v
theories/PyBeam_Model.v
theories/PyBeam_Spec.v
theories/Props_PyBeam.v
theories/Props_PyBeam2.v
theories/Targets_Model.v
theories/Targets_Spec.v
theories/Props_Targets.v
theories/Props_TargetsFloat.v
theories/Distr_Model.v
theories/Props_Distr.v
theories/ProfileText_Model.v
theories/Props_ProfileText.v
theories/SliceXY_Model.v
theories/Props_SliceXY.v
