-Q theories Verif
theories/Adjust2_Proofs.v
theories/Adjust_Model.v
theories/Adjust_Proofs.v
theories/Adjust_Spec.v
theories/Alloc_Model.v
theories/Alloc_Proofs.v
theories/Alloc_Spec.v
theories/Base.v
theories/Bbox2_Proofs.v
theories/Bbox_Model.v
theories/Bbox_Proofs.v
theories/Bbox_Spec.v
theories/Bind_Model.v
theories/Bind_Proofs.v
theories/Buf_Examples.v
theories/Buf_Model.v
theories/Buf_Proofs.v
theories/Buf_Spec.v
theories/CmdVal_Proofs.v
theories/Cmd_Model.v
theories/Cmd_Proofs.v
theories/Cmd_Spec.v
theories/Coherency_Model.v
theories/Coherency_Proofs.v
theories/Coherency_Spec.v
theories/Coll2_Proofs.v
theories/Coll2_Spec.v
theories/Coll_Model.v
theories/Coll_Proofs.v
theories/Coll_Spec.v
theories/Combo_Model.v
theories/Combo_Proofs.v
theories/Combo_Spec.v
theories/Compare_Examples.v
theories/Compare_Model.v
theories/Compare_Proofs.v
theories/Compare_Spec.v
theories/CondConst_Proofs.v
theories/CondEval_Proofs.v
theories/Cond_Examples.v
theories/Cond_Model.v
theories/Cond_Proofs.v
theories/Cond_Spec.v
theories/Cover_Proofs.v
theories/Cover_Spec.v
theories/Dec_Proofs.v
theories/Deps_Model.v
theories/Deps_Proofs.v
theories/Deps_Spec.v
theories/Dirty_Model.v
theories/Dirty_Proofs.v
theories/Dirty_Spec.v
theories/Double_Proofs.v
theories/Eqs_Model.v
theories/Eqs_Proofs.v
theories/Eqs_Spec.v
theories/Exchange_Model.v
theories/Exchange_Proofs.v
theories/Exchange_Spec.v
theories/ExprOpt_Proofs.v
theories/Expr_Model.v
theories/Expr_Proofs.v
theories/Expr_Spec.v
theories/FDSim_Proofs.v
theories/FD_Model.v
theories/FD_Proofs.v
theories/FD_Spec.v
theories/Factors_Model.v
theories/Factors_Proofs.v
theories/Factors_Spec.v
theories/FuseUpd_Proofs.v
theories/Fuse_Examples.v
theories/Fuse_Model.v
theories/Fuse_Proofs.v
theories/Fuse_Spec.v
theories/Halo_Model.v
theories/Halo_Proofs.v
theories/Halo_Spec.v
theories/Idiv_Model.v
theories/Idiv_Proofs.v
theories/Job2_Proofs.v
theories/Job3_Proofs.v
theories/Job4_Proofs.v
theories/JobFlags_Examples.v
theories/JobFlags_Model.v
theories/JobFlags_Proofs.v
theories/JobFlags_Spec.v
theories/JobSetup2_Proofs.v
theories/JobSetup_Examples.v
theories/JobSetup_Proofs.v
theories/JobSetup_Spec.v
theories/Job_Examples.v
theories/Job_Model.v
theories/Job_Proofs.v
theories/Job_Spec.v
theories/Layout_Model.v
theories/Layout_Proofs.v
theories/Lifespan_Model.v
theories/Lifespan_Proofs.v
theories/Lifespan_Spec.v
theories/Link2_Proofs.v
theories/Link3_Proofs.v
theories/LinkRoom_Proofs.v
theories/LinkRoom_Spec.v
theories/LinkRun_Spec.v
theories/Link_Examples.v
theories/Link_Model.v
theories/Link_Proofs.v
theories/Link_Spec.v
theories/Lock_Model.v
theories/Lock_Proofs.v
theories/LoopsRun_Proofs.v
theories/LoopsTop_Proofs.v
theories/Loops_Model.v
theories/Loops_Proofs.v
theories/Loops_Spec.v
theories/Micro2_Proofs.v
theories/Micro_Model.v
theories/Micro_Proofs.v
theories/Micro_Spec.v
theories/MixedRadix.v
theories/Nano2_Proofs.v
theories/Nano3_Proofs.v
theories/Nano_Model.v
theories/Nano_Proofs.v
theories/Nano_Spec.v
theories/NewVar_Model.v
theories/NewVar_Proofs.v
theories/NewVar_Spec.v
theories/Pair_Examples.v
theories/Pair_Model.v
theories/Pair_Proofs.v
theories/ParFor_Model.v
theories/ParFor_Proofs.v
theories/Parse_Proofs.v
theories/Parts_Model.v
theories/Parts_Proofs.v
theories/Parts_Spec.v
theories/PrintConst_Proofs.v
theories/PrintEval_Proofs.v
theories/PrintRun_Proofs.v
theories/Print_Examples.v
theories/Print_Model.v
theories/Print_Proofs.v
theories/Print_Spec.v
theories/Prop_C01.v
theories/Prop_C02.v
theories/Prop_C03.v
theories/Prop_C04.v
theories/Prop_C05.v
theories/Prop_C06.v
theories/Prop_C07.v
theories/Prop_C08.v
theories/Prop_C09.v
theories/Prop_C10.v
theories/Prop_C11.v
theories/Prop_C12.v
theories/Prop_C13.v
theories/Prop_C14.v
theories/Prop_C15.v
theories/Prop_C16.v
theories/Prop_C17.v
theories/Prop_C18.v
theories/Prop_C19.v
theories/Prop_C20.v
theories/Prop_C21.v
theories/Prop_C22.v
theories/Prop_C23.v
theories/Prop_C24.v
theories/Prop_C25.v
theories/Prop_C26.v
theories/Prop_C27.v
theories/Prop_C28.v
theories/Prop_C29.v
theories/Prop_C30.v
theories/Prop_C31.v
theories/Prop_C32.v
theories/Prop_C33.v
theories/Prop_C34.v
theories/Prop_C35.v
theories/Prop_C36.v
theories/Prop_C37.v
theories/Prop_C38.v
theories/Prop_C39.v
theories/Prop_C40.v
theories/Prop_C41.v
theories/Prop_C42.v
theories/Prop_C43.v
theories/Prop_C44.v
theories/Prop_C45.v
theories/Prop_C46.v
theories/Prop_C47.v
theories/Prop_C48.v
theories/Prop_C49.v
theories/Prop_C50.v
theories/Prop_C51.v
theories/Prop_C52.v
theories/Prop_C53.v
theories/Prop_C54.v
theories/Prop_C55.v
theories/Prop_C56.v
theories/Prop_C57.v
theories/Prop_C58.v
theories/Prop_C59.v
theories/Prop_C60.v
theories/Prop_C61.v
theories/Prop_C62.v
theories/Prop_C63.v
theories/Prop_C64.v
theories/Prop_C65.v
theories/Prop_C66.v
theories/Prop_C67.v
theories/Prop_C68.v
theories/Prop_C69.v
theories/Prop_C70.v
theories/Prop_C71.v
theories/Prop_C72.v
theories/Prop_C73.v
theories/Ptr_Examples.v
theories/Ptr_Model.v
theories/Ptr_Proofs.v
theories/Ptr_Spec.v
theories/Rank_Model.v
theories/Rank_Proofs.v
theories/Rank_Spec.v
theories/RefRun_Proofs.v
theories/RefStage_Proofs.v
theories/RefWhole_Proofs.v
theories/Ref_Examples.v
theories/Ref_Model.v
theories/Ref_Proofs.v
theories/Ref_Spec.v
theories/Resize_Model.v
theories/Resize_Proofs.v
theories/Resize_Spec.v
theories/Retune_Model.v
theories/Retune_Proofs.v
theories/Retune_Spec.v
theories/Scan_Model.v
theories/Scan_Proofs.v
theories/Sched2_Proofs.v
theories/Sched_Proofs.v
theories/Sched_Spec.v
theories/Scratch_Proofs.v
theories/SetDims2_Proofs.v
theories/SetDims3_Proofs.v
theories/SetDims_Examples.v
theories/SetDims_Model.v
theories/SetDims_Proofs.v
theories/SetDims_Spec.v
theories/Share_Model.v
theories/Share_Proofs.v
theories/Share_Spec.v
theories/SliceRed_Proofs.v
theories/Slice_Model.v
theories/Slice_Proofs.v
theories/Slice_Spec.v
theories/Span2_Proofs.v
theories/Span_Model.v
theories/Span_Proofs.v
theories/Span_Spec.v
theories/Stats_Examples.v
theories/Stats_Model.v
theories/Stats_Proofs.v
theories/Stats_Spec.v
theories/Step_Proofs.v
theories/Step_Spec.v
theories/Threads_Model.v
theories/Threads_Proofs.v
theories/Tile2_Proofs.v
theories/Tile3_Proofs.v
theories/Tile4_Proofs.v
theories/Tile5_Proofs.v
theories/TileCfg_Spec.v
theories/TileGeo_Proofs.v
theories/TileLoops_Proofs.v
theories/TileSteps_Proofs.v
theories/Tile_Examples.v
theories/Tile_Model.v
theories/Tile_Proofs.v
theories/Tile_Spec.v
theories/Timer_Model.v
theories/Timer_Proofs.v
theories/Timer_Spec.v
theories/Trial2_Proofs.v
theories/Trial_Model.v
theories/Trial_Proofs.v
theories/Trial_Spec.v
theories/Tuner2_Proofs.v
theories/Tuner3_Proofs.v
theories/Tuner_Model.v
theories/Tuner_Proofs.v
theories/Tuner_Spec.v
theories/Tuple_Model.v
theories/Tuple_Proofs.v
theories/Var_Model.v
theories/Var_Proofs.v
theories/Var_Spec.v
theories/VecCtor_Proofs.v
theories/VecSet_Model.v
theories/VecSet_Proofs.v
theories/VecSet_Spec.v
theories/Vec_Model.v
theories/Vec_Proofs.v
theories/Vec_Spec.v
theories/Visit_Spec.v
