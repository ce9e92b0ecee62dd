-Q theories Verif
theories/ARNN_Model.v
theories/ARNN_Proofs.v
theories/ARNN_Props.v
theories/ARNN_Spec.v
theories/ARSamp_Model.v
theories/ARSamp_Proofs.v
theories/ARSamp_Props.v
theories/ARSamp_Spec.v
theories/Ansatz_Model.v
theories/Ansatz_Proofs.v
theories/Ansatz_Props.v
theories/Ansatz_Spec.v
theories/Arith_Model.v
theories/Arith_Proofs.v
theories/Arith_Props.v
theories/Arith_Spec.v
theories/Axial_Alg.v
theories/Axial_Cubic.v
theories/Axial_Diamond.v
theories/Axial_Fam.v
theories/Axial_Grp.v
theories/Axial_Model.v
theories/Axial_Planar.v
theories/Axial_Proofs.v
theories/Axial_Props.v
theories/Axial_Rot.v
theories/Axial_Spec.v
theories/Balance_Model.v
theories/Balance_Proofs.v
theories/Balance_Props.v
theories/Balance_Spec.v
theories/Base.v
theories/BaseFacts.v
theories/Callbacks_Model.v
theories/Callbacks_Proofs.v
theories/Callbacks_Props.v
theories/Callbacks_Spec.v
theories/Compat_Cases.v
theories/Compat_Model.v
theories/Compat_Proofs.v
theories/Compat_Props.v
theories/Compat_Spec.v
theories/Custom_Ex.v
theories/Custom_Model.v
theories/Custom_Proofs.v
theories/Custom_Props.v
theories/Custom_Spec.v
theories/Dense_Cases.v
theories/Dense_Layer.v
theories/Dense_Model.v
theories/Dense_Proofs.v
theories/Dense_Props.v
theories/Dense_Spec.v
theories/Driver_Model.v
theories/Driver_Proofs.v
theories/Driver_Props.v
theories/Driver_Spec.v
theories/Equiv_Model.v
theories/Equiv_Proofs.v
theories/Equiv_Props.v
theories/Equiv_Spec.v
theories/Ergo_Exch.v
theories/Ergo_Final.v
theories/Ergo_LLN.v
theories/Ergo_Metro.v
theories/Ergo_Proofs.v
theories/Ergo_Props.v
theories/Ergo_Rules.v
theories/Ergo_Spec.v
theories/EstimRand_Proofs.v
theories/EstimRand_Props.v
theories/EstimRand_Spec.v
theories/Estim_Model.v
theories/Estim_Proofs.v
theories/Estim_Props.v
theories/Estim_Spec.v
theories/Evolve_Model.v
theories/Evolve_Proofs.v
theories/Evolve_Props.v
theories/Evolve_Spec.v
theories/ExTac.v
theories/ExactSamp_Model.v
theories/ExactSamp_Proofs.v
theories/ExactSamp_Props.v
theories/ExactSamp_Spec.v
theories/Expect_Model.v
theories/Expect_Proofs.v
theories/Expect_Props.v
theories/Expect_Spec.v
theories/Flags_Model.v
theories/Flags_Proofs.v
theories/Flags_Props.v
theories/Flags_Spec.v
theories/FloatCmp_Model.v
theories/FloatCmp_Proofs.v
theories/FloatCmp_Props.v
theories/FloatCmp_Spec.v
theories/Frame_Model.v
theories/Frame_Proofs.v
theories/Frame_Props.v
theories/Frame_Spec.v
theories/GraphCls_Model.v
theories/GraphCls_Proofs.v
theories/GraphCls_Props.v
theories/GraphCls_Spec.v
theories/GraphOp_Model.v
theories/GraphOp_Proofs.v
theories/GraphOp_Props.v
theories/GraphOp_Spec.v
theories/Grid_Ex.v
theories/Grid_Final.v
theories/Grid_Group.v
theories/Grid_Lattice.v
theories/Grid_Model.v
theories/Grid_Proofs.v
theories/Grid_Props.v
theories/Grid_Sites.v
theories/Grid_Space.v
theories/Grid_Spec.v
theories/Group_Final.v
theories/Group_Model.v
theories/Group_Proofs.v
theories/Group_Props.v
theories/Group_Spec.v
theories/HashArray_Model.v
theories/HashArray_Proofs.v
theories/HashArray_Props.v
theories/Heis_Proofs.v
theories/HilbertOps_Model.v
theories/HilbertOps_Proofs.v
theories/HilbertOps_Props.v
theories/HilbertOps_Spec.v
theories/Hilbert_Model.v
theories/Hilbert_Proofs.v
theories/Hilbert_Props.v
theories/Hilbert_Spec.v
theories/History_Model.v
theories/History_Proofs.v
theories/History_Props.v
theories/History_Spec.v
theories/JaxUtils_Model.v
theories/JaxUtils_Proofs.v
theories/JaxUtils_Props.v
theories/JaxUtils_Spec.v
theories/JsonLog_Model.v
theories/JsonLog_Proofs.v
theories/JsonLog_Props.v
theories/JsonLog_Spec.v
theories/Keys_Model.v
theories/Keys_Proofs.v
theories/Keys_Props.v
theories/Keys_Spec.v
theories/LatGen_Ex.v
theories/LatGen_Look.v
theories/LatGen_Model.v
theories/LatGen_Proofs.v
theories/LatGen_Props.v
theories/LatGen_Spec.v
theories/Lattice_Model.v
theories/Lattice_Proofs.v
theories/Lattice_Props.v
theories/Lattice_Spec.v
theories/Lattice_Trans.v
theories/Lazy_Model.v
theories/Lazy_Proofs.v
theories/Lazy_Props.v
theories/Lazy_Spec.v
theories/LegDm_Examples.v
theories/LegDm_Final.v
theories/LegDm_Model.v
theories/LegDm_Net.v
theories/LegDm_Proofs.v
theories/LegDm_Props.v
theories/LegDm_Spec.v
theories/LegJas_Final.v
theories/LegJas_Model.v
theories/LegJas_Proofs.v
theories/LegJas_Props.v
theories/LegJas_Spec.v
theories/LegJas_Table.v
theories/LegJsamp_Cases.v
theories/LegJsamp_Keys.v
theories/LegJsamp_Model.v
theories/LegJsamp_Proofs.v
theories/LegJsamp_Props.v
theories/LegJsamp_Spec.v
theories/LegJsr_Cases.v
theories/LegJsr_Final.v
theories/LegJsr_Model.v
theories/LegJsr_Proofs.v
theories/LegJsr_Props.v
theories/LegJsr_Spec.v
theories/LegJsr_Update.v
theories/LegOpt_Bugs.v
theories/LegOpt_Final.v
theories/LegOpt_Hist.v
theories/LegOpt_Model.v
theories/LegOpt_Proofs.v
theories/LegOpt_Props.v
theories/LegOpt_Reset.v
theories/LegOpt_Spec.v
theories/LegQsr_Final.v
theories/LegQsr_Model.v
theories/LegQsr_Nll.v
theories/LegQsr_Proofs.v
theories/LegQsr_Props.v
theories/LegQsr_Spec.v
theories/LegQsr_Step.v
theories/LegRand_Model.v
theories/LegRand_Proofs.v
theories/LegRand_Props.v
theories/LegRbm_Final.v
theories/LegRbm_Grad.v
theories/LegRbm_Model.v
theories/LegRbm_Phase.v
theories/LegRbm_Proofs.v
theories/LegRbm_Props.v
theories/LegRbm_Spec.v
theories/LegRbm_Sym.v
theories/LegRun_Final.v
theories/LegRun_Model.v
theories/LegRun_Proofs.v
theories/LegRun_Props.v
theories/LegRun_Spec.v
theories/LegSamp_Examples.v
theories/LegSamp_Exch.v
theories/LegSamp_Gen.v
theories/LegSamp_Model.v
theories/LegSamp_Proofs.v
theories/LegSamp_Props.v
theories/LegSamp_Pt.v
theories/LegSamp_Run.v
theories/LegSamp_Spec.v
theories/LegSamp_Witness.v
theories/LegSr_Final.v
theories/LegSr_Model.v
theories/LegSr_Proofs.v
theories/LegSr_Props.v
theories/LegSr_Spec.v
theories/LegVmc_Examples.v
theories/LegVmc_Final.v
theories/LegVmc_Mean.v
theories/LegVmc_Model.v
theories/LegVmc_Proofs.v
theories/LegVmc_Props.v
theories/LegVmc_Random.v
theories/LegVmc_Spec.v
theories/Liouv_Final.v
theories/Liouv_Model.v
theories/Liouv_Proofs.v
theories/Liouv_Props.v
theories/Liouv_Spec.v
theories/Little_Char.v
theories/Little_Ex.v
theories/Little_Model.v
theories/Little_Phase.v
theories/Little_Proofs.v
theories/Little_Props.v
theories/Little_Spec.v
theories/LocCtor_Model.v
theories/LocCtor_Proofs.v
theories/LocCtor_Props.v
theories/LocCtor_Spec.v
theories/LocVal_Model.v
theories/LocVal_Proofs.v
theories/LocVal_Props.v
theories/LocVal_Spec.v
theories/LocalOp_Build.v
theories/LocalOp_Facts.v
theories/LocalOp_Final.v
theories/LocalOp_Kernel.v
theories/LocalOp_Laws.v
theories/LocalOp_Matmul.v
theories/LocalOp_Model.v
theories/LocalOp_Proofs.v
theories/LocalOp_Props.v
theories/LocalOp_Reorder.v
theories/LocalOp_Spec.v
theories/Lrho2_Model.v
theories/Lrho2_Proofs.v
theories/Lrho2_Props.v
theories/Lrho2_Spec.v
theories/MCState_Model.v
theories/MCState_Proofs.v
theories/MCState_Props.v
theories/MCState_Spec.v
theories/MPS_Model.v
theories/MPS_Proofs.v
theories/MPS_Props.v
theories/MPS_Spec.v
theories/Masked_Model.v
theories/Masked_Proofs.v
theories/Masked_Props.v
theories/Masked_Spec.v
theories/McErr_Proofs.v
theories/McErr_Props.v
theories/McErr_Spec.v
theories/McStats_Model.v
theories/McStats_Proofs.v
theories/McStats_Props.v
theories/McStats_Spec.v
theories/Metro_Model.v
theories/Metro_Proofs.v
theories/Metro_Props.v
theories/Metro_Spec.v
theories/Mixed_Model.v
theories/Mixed_Proofs.v
theories/Mixed_Props.v
theories/Mixed_Spec.v
theories/MpiPrim_Final.v
theories/MpiPrim_Model.v
theories/MpiPrim_Proofs.v
theories/MpiPrim_Props.v
theories/MpiPrim_Red.v
theories/MpiPrim_Spec.v
theories/MpiStats_Model.v
theories/MpiStats_Proofs.v
theories/MpiStats_Props.v
theories/MpiStats_Spec.v
theories/OpHeap_Model.v
theories/OpHeap_Proofs.v
theories/OpHeap_Props.v
theories/OpHeap_Spec.v
theories/PTBal_Model.v
theories/PTBal_Proofs.v
theories/PTBal_Props.v
theories/PTBal_Spec.v
theories/PT_Model.v
theories/PT_Proofs.v
theories/PT_Props.v
theories/PT_Spec.v
theories/Partial_Model.v
theories/Partial_Proofs.v
theories/Partial_Props.v
theories/Partial_Spec.v
theories/Pauli_Model.v
theories/Pauli_Proofs.v
theories/Pauli_Props.v
theories/Pauli_Spec.v
theories/Pmap_Model.v
theories/Pmap_Proofs.v
theories/Pmap_Props.v
theories/Pmap_Spec.v
theories/PointGp_Ex.v
theories/PointGp_Group.v
theories/PointGp_Lin.v
theories/PointGp_Model.v
theories/PointGp_Proofs.v
theories/PointGp_Props.v
theories/PointGp_Spec.v
theories/PointGp_Tables.v
theories/QGT_Model.v
theories/QGT_Proofs.v
theories/QGT_Props.v
theories/QGT_Spec.v
theories/Rings.v
theories/Rules_Model.v
theories/Rules_Proofs.v
theories/Rules_Props.v
theories/Rules_Run.v
theories/Rules_Spec.v
theories/RunLog_Model.v
theories/RunLog_Proofs.v
theories/RunLog_Props.v
theories/RunLog_Spec.v
theories/SROpts_Model.v
theories/SROpts_Proofs.v
theories/SROpts_Props.v
theories/SROpts_Spec.v
theories/Scalar.v
theories/Solve_Model.v
theories/Solve_Proofs.v
theories/Solve_Props.v
theories/Solve_Spec.v
theories/SpaceGp_Ex.v
theories/SpaceGp_Group.v
theories/SpaceGp_Model.v
theories/SpaceGp_Proofs.v
theories/SpaceGp_Props.v
theories/SpaceGp_Space.v
theories/SpaceGp_Spec.v
theories/Sparse_Model.v
theories/Sparse_Proofs.v
theories/Special_Bose.v
theories/Special_Final.v
theories/Special_Model.v
theories/Special_Proofs.v
theories/Special_Props.v
theories/Special_Spec.v
theories/Special_Sums.v
theories/SpinAlg_Proofs.v
theories/SpinOps_Model.v
theories/SpinOps_Proofs.v
theories/SpinOps_Props.v
theories/SpinOps_Spec.v
theories/SpinRows_Proofs.v
theories/StateLog_Model.v
theories/StateLog_Proofs.v
theories/StateLog_Props.v
theories/StateLog_Spec.v
theories/Steady_Model.v
theories/Steady_Proofs.v
theories/Steady_Props.v
theories/Steady_Spec.v
theories/Struct_Model.v
theories/Struct_Proofs.v
theories/Struct_Props.v
theories/Struct_Spec.v
theories/Symm_Model.v
theories/Symm_Proofs.v
theories/Symm_Props.v
theories/Symm_Spec.v
theories/TBLog_Model.v
theories/TBLog_Proofs.v
theories/TBLog_Props.v
theories/TBLog_Spec.v
theories/ToArray_Model.v
theories/ToArray_Proofs.v
theories/ToArray_Props.v
theories/ToArray_Spec.v
theories/TorchM_Model.v
theories/TorchM_Proofs.v
theories/TorchM_Props.v
theories/TorchM_Spec.v
theories/Unif_Cases.v
theories/Unif_Fill.v
theories/Unif_Main.v
theories/Unif_Model.v
theories/Unif_Multi.v
theories/Unif_Proofs.v
theories/Unif_Props.v
theories/Unif_Spec.v
theories/VarFile_Model.v
theories/VarFile_Proofs.v
theories/VarFile_Props.v
theories/VarFile_Spec.v
theories/Vmc_Ctor.v
theories/Vmc_Examples.v
theories/Vmc_Model.v
theories/Vmc_Proofs.v
theories/Vmc_Props.v
theories/Vmc_Spec.v
