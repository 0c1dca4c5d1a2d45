-Q theories Verif
theories/Common.v
theories/Csr_Model.v
theories/Csr_Spec.v
theories/Csr_Proofs.v
theories/Csr_Props.v
theories/Assembly_Model.v
theories/Assembly_Spec.v
theories/Assembly_Proofs.v
theories/Assembly_Props.v
theories/Partition_Model.v
theories/Partition_Spec.v
theories/Partition_Proofs.v
theories/Partition_Props.v
theories/Time_Model.v
theories/Time_Proofs.v
theories/TimeIeee_Proofs.v
theories/Time_Props.v
theories/Probe_Model.v
theories/Probe_Spec.v
theories/Probe_Proofs.v
theories/ProbeRun_Proofs.v
theories/ProbeMor_Proofs.v
theories/ProbeFinal_Proofs.v
theories/Probe_Props.v
theories/Evol_Model.v
theories/Evol_Spec.v
theories/Evol_Proofs.v
theories/EvolHist_Proofs.v
theories/EvolSolve_Proofs.v
theories/EvolRhs_Proofs.v
theories/EvolStage_Proofs.v
theories/EvolReach_Proofs.v
theories/EvolEx_Proofs.v
theories/Evol_Props.v
theories/EvolLayer_Spec.v
theories/EvolLayer_Proofs.v
theories/EvolLayerEx_Proofs.v
theories/EvolLayer_Props.v
theories/Sched_Model.v
theories/Sched_Proofs.v
theories/SchedEx_Proofs.v
theories/Sched_Props.v
theories/Gpu_Model.v
theories/Gpu_Proofs.v
theories/Gpu_Props.v
theories/MeshFix_Model.v
theories/MeshFix_Spec.v
theories/MeshFix_Proofs.v
theories/MeshFixEx_Proofs.v
theories/MeshFix_Props.v
theories/Codec_Model.v
theories/Codec_Spec.v
theories/Codec_Proofs.v
theories/CodecEx_Proofs.v
theories/Codec_Props.v
theories/Rcs_Model.v
theories/Rcs_Spec.v
theories/Rcs_Proofs.v
theories/RcsEx_Proofs.v
theories/Rcs_Props.v
theories/Dft_Model.v
theories/Dft_Proofs.v
theories/DftRcs_Proofs.v
theories/Dft_Props.v
theories/Merge_Model.v
theories/Merge_Spec.v
theories/Merge_Proofs.v
theories/MergeEx_Proofs.v
theories/Merge_Props.v
theories/Geo_Model.v
theories/Geo_Spec.v
theories/Geo_Proofs.v
theories/GeoWall_Proofs.v
theories/GeoEx_Proofs.v
theories/Geo_Props.v
theories/Layout_Model.v
theories/Layout_Spec.v
theories/Layout_Proofs.v
theories/LayoutEx_Proofs.v
theories/Layout_Props.v
theories/Nodal_Model.v
theories/Nodal_Spec.v
theories/Nodal_Proofs.v
theories/NodalMult_Proofs.v
theories/NodalEnergy_Spec.v
theories/NodalEnergy_Proofs.v
theories/NodalEx_Proofs.v
theories/Nodal_Props.v
theories/Face_Model.v
theories/Face_Spec.v
theories/Face_Proofs.v
theories/FaceLoad_Proofs.v
theories/FaceEx_Proofs.v
theories/Face_Props.v
theories/Setup_Model.v
theories/Setup_Spec.v
theories/Setup_Proofs.v
theories/SetupBdr_Proofs.v
theories/SetupEx_Proofs.v
theories/Setup_Props.v
theories/Form_Model.v
theories/Form_Spec.v
theories/Form_Proofs.v
theories/FormEx_Proofs.v
theories/Form_Props.v
theories/Global_Spec.v
theories/Global_Proofs.v
theories/GlobalEnergy_Proofs.v
theories/GlobalBalance_Proofs.v
theories/GlobalEx_Proofs.v
theories/Global_Props.v
theories/Tfsf_Spec.v
theories/TfsfLil_Proofs.v
theories/Tfsf_Proofs.v
theories/TfsfRun_Proofs.v
theories/TfsfEx_Proofs.v
theories/Tfsf_Props.v
theories/Source_Model.v
theories/Source_Spec.v
theories/SourceMgr_Proofs.v
theories/SourceWave_Proofs.v
theories/SourceBuild_Proofs.v
theories/SourceDelay_Proofs.v
theories/SourceEx_Proofs.v
theories/SourceNodal_Proofs.v
theories/Source_Props.v
theories/Coll_Model.v
theories/Coll_Spec.v
theories/Coll_Proofs.v
theories/Coll_Props.v
theories/Conn_Model.v
theories/Conn_Spec.v
theories/ConnFlux_Proofs.v
theories/Conn_Proofs.v
theories/ConnPos_Proofs.v
theories/ConnBdr_Proofs.v
theories/ConnInt_Proofs.v
theories/ConnWf_Proofs.v
theories/ConnEx_Proofs.v
theories/Conn_Props.v
theories/Store_Model.v
theories/Store_Spec.v
theories/Store_Proofs.v
theories/Store_Props.v
theories/Fit_Model.v
theories/Fit_Spec.v
theories/Fit_Proofs.v
theories/FitPoly_Proofs.v
theories/FitExact_Proofs.v
theories/FitFreq_Proofs.v
theories/FitEx_Proofs.v
theories/Fit_Props.v
theories/Sub_Model.v
theories/Sub_Spec.v
theories/Sub_Proofs.v
theories/SubGeo_Proofs.v
theories/SubSide_Proofs.v
theories/SubSpace_Proofs.v
theories/SubChild_Proofs.v
theories/SubLine_Proofs.v
theories/SubEx_Proofs.v
theories/Sub_Props.v
theories/Case_Model.v
theories/Case_Spec.v
theories/Case_Proofs.v
theories/CaseLoad_Proofs.v
theories/CaseArgs_Proofs.v
theories/Case_Props.v
theories/Step_Model.v
theories/Step_Spec.v
theories/Step_Proofs.v
theories/StepGeo_Proofs.v
theories/StepMain_Proofs.v
theories/StepLine_Proofs.v
theories/StepEx_Proofs.v
theories/Step_Props.v
theories/Spectral_Model.v
theories/Spectral_Spec.v
theories/Spectral_Proofs.v
theories/SpectralMain_Proofs.v
theories/SpectralStab_Proofs.v
theories/SpectralEx_Proofs.v
theories/Spectral_Props.v
theories/Input_Model.v
theories/Input_Spec.v
theories/Input_Proofs.v
theories/InputLayer_Proofs.v
theories/InputWall_Proofs.v
theories/InputMark_Proofs.v
theories/InputEx_Proofs.v
theories/Input_Props.v
theories/Wall_Model.v
theories/Wall_Spec.v
theories/Wall_Proofs.v
theories/WallBuild_Proofs.v
theories/WallEx_Proofs.v
theories/Wall_Props.v
theories/Attach_Model.v
theories/Attach_Spec.v
theories/Attach_Proofs.v
theories/AttachSite_Proofs.v
theories/AttachAll_Proofs.v
theories/AttachTotal_Proofs.v
theories/AttachEx_Proofs.v
theories/Attach_Props.v
theories/Matrix_Model.v
theories/Matrix_Spec.v
theories/Matrix_Proofs.v
theories/MatrixForm_Proofs.v
theories/Matrix_Props.v
theories/Output_Model.v
theories/Output_Spec.v
theories/Output_Proofs.v
theories/OutputRun_Proofs.v
theories/OutputPoint_Proofs.v
theories/OutputField_Proofs.v
theories/OutputSnap_Proofs.v
theories/OutputDomain_Proofs.v
theories/OutputMore_Proofs.v
theories/OutputEx_Proofs.v
theories/OutputCase_Proofs.v
theories/OutputCaseB_Proofs.v
theories/Output_Props.v
theories/Far_Model.v
theories/FarRound_Model.v
theories/Far_Spec.v
theories/Far_Proofs.v
theories/FarTool_Proofs.v
theories/FarMore_Proofs.v
theories/FarEx_Proofs.v
theories/Far_Props.v
theories/Hest_Model.v
theories/Hest_Spec.v
theories/Hest_Proofs.v
theories/HestElem_Proofs.v
theories/HestWeak_Proofs.v
theories/HestBuild_Proofs.v
theories/HestMesh_Proofs.v
theories/HestEnergy_Proofs.v
theories/HestKind_Proofs.v
theories/HestRun_Proofs.v
theories/HestFail_Proofs.v
theories/HestEx_Proofs.v
theories/Hest_Props.v
theories/InputBad_Proofs.v
theories/Twin_Spec.v
theories/TwinWeak_Proofs.v
theories/TwinNodal_Proofs.v
theories/TwinSame_Proofs.v
theories/TwinKind_Proofs.v
theories/TwinRun_Proofs.v
theories/TwinEx_Proofs.v
theories/Consist_Spec.v
theories/Consist_Proofs.v
theories/ConsistEx_Proofs.v
theories/Twin_Props.v
theories/Ode_Model.v
theories/Ode_Spec.v
theories/Ode_Proofs.v
theories/OdeRk_Proofs.v
theories/OdeGram_Proofs.v
theories/OdeStep_Proofs.v
theories/OdeLin_Proofs.v
theories/OdeRun_Proofs.v
theories/OdeFin_Proofs.v
theories/OdeEx_Proofs.v
theories/Ode_Props.v
theories/OdeNorm_Proofs.v
theories/OdeExact_Proofs.v
theories/OdeLocal_Proofs.v
theories/OdeConv_Proofs.v
theories/OdeSol_Proofs.v
theories/Conv_Spec.v
theories/ConvFin_Proofs.v
theories/Conv_Props.v
theories/OdeDrive_Proofs.v
theories/OdeForced_Proofs.v
theories/OdeDuh_Proofs.v
theories/Drive_Spec.v
theories/DriveFin_Proofs.v
theories/DriveRun_Proofs.v
theories/DriveEx_Proofs.v
theories/Drive_Props.v
theories/OutputTag_Proofs.v
theories/Cfl_Spec.v
theories/CflBound_Proofs.v
theories/CflLine_Proofs.v
theories/CflFin_Proofs.v
theories/CflBlow_Proofs.v
theories/CflEx_Proofs.v
theories/Cfl_Props.v
theories/Mode_Model.v
theories/Mode_Spec.v
theories/Mode_Proofs.v
theories/ModeEx_Proofs.v
theories/Mode_Props.v
theories/Elem_Spec.v
theories/Elem_Proofs.v
theories/ElemStep_Proofs.v
theories/ElemLine_Proofs.v
theories/ElemGeo_Proofs.v
theories/ElemEx_Proofs.v
theories/Elem_Props.v
theories/ElemSpace_Proofs.v
theories/Stats_Model.v
theories/Stats_Spec.v
theories/Stats_Proofs.v
theories/StatsEx_Proofs.v
theories/Stats_Props.v
theories/Par_Model.v
theories/Par_Spec.v
theories/Par_Proofs.v
theories/ParRows_Proofs.v
theories/ParMult_Proofs.v
theories/ParEx_Proofs.v
theories/Par_Props.v
theories/Msg_Model.v
theories/Msg_Proofs.v
theories/MsgRun_Proofs.v
theories/MsgEx_Proofs.v
theories/Msg_Props.v
theories/Simplex_Spec.v
theories/Simplex_Proofs.v
theories/SimplexEx_Proofs.v
theories/Simplex_Props.v
theories/ParSrc_Model.v
theories/ParSrc_Spec.v
theories/ParSrc_Proofs.v
theories/ParSrcRun_Proofs.v
theories/ParSrcEx_Proofs.v
theories/ParSrc_Props.v
theories/MsgSrc_Model.v
theories/MsgSrc_Proofs.v
theories/MsgSrc_Props.v
theories/Acc_Spec.v
theories/Acc_Proofs.v
theories/AccEx_Proofs.v
theories/Acc_Props.v
theories/ParLay_Model.v
theories/ParLay_Spec.v
theories/ParLay_Proofs.v
theories/ParLayRun_Proofs.v
theories/ParLayOk_Proofs.v
theories/ParLayAll_Proofs.v
theories/ParLayFin_Proofs.v
theories/ParLayEx_Proofs.v
theories/ParLay_Props.v
theories/MsgLay_Model.v
theories/MsgLay_Proofs.v
theories/MsgLay_Props.v
theories/Timer_Model.v
theories/Timer_Spec.v
theories/Timer_Proofs.v
theories/TimerEx_Proofs.v
theories/Timer_Props.v
theories/Tool_Model.v
theories/Tool_Spec.v
theories/Tool_Proofs.v
theories/ToolEx_Proofs.v
theories/Tool_Props.v
theories/ElNum_Model.v
theories/ElNum_Spec.v
theories/ElNum_Proofs.v
theories/ElNumEx_Proofs.v
theories/ElNum_Props.v
theories/FarRound_Proofs.v
theories/Print_Model.v
theories/Print_Spec.v
theories/Print_Proofs.v
theories/PrintEx_Proofs.v
theories/Print_Props.v
theories/Export_Model.v
theories/Export_Spec.v
theories/Export_Proofs.v
theories/ExportEx_Proofs.v
theories/Export_Props.v
theories/Slab_Model.v
theories/Slab_Spec.v
theories/Slab_Proofs.v
theories/SlabEx_Proofs.v
theories/Slab_Props.v
theories/SurfGeo_Model.v
theories/SurfGeo_Spec.v
theories/SurfGeo_Proofs.v
theories/SurfGeoEx_Proofs.v
theories/SurfGeo_Props.v
theories/SurfTag_Model.v
theories/SurfTag_Spec.v
theories/SurfTag_Proofs.v
theories/SurfTagEx_Proofs.v
theories/SurfTag_Props.v
theories/Side_Model.v
theories/Side_Spec.v
theories/Side_Proofs.v
theories/SideEx_Proofs.v
theories/Side_Props.v
