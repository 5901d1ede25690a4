-Q theories Verif
theories/Lru_Model.v
theories/Lru_Spec.v
theories/Lru_Proofs.v
theories/Lru_Props.v
theories/Index_Model.v
theories/Index_Props.v
theories/XCorrCache_Model.v
theories/XCorrCache_Props.v
theories/Cluster_Model.v
theories/Cluster_Spec.v
theories/Cluster_Proofs.v
theories/Cluster_Props.v
theories/SelectCatalog_Model.v
theories/SelectCatalog_Props.v
theories/TimeWindow_Model.v
theories/TimeWindow_Props.v
theories/Time_Model.v
theories/Time_Proofs.v
theories/Time_Props.v
theories/Select_Model.v
theories/Select_Proofs.v
theories/Select_Props.v
theories/Csv_Model.v
theories/Csv_Props.v
theories/Catalog_Model.v
theories/Catalog_Props.v
theories/PickWeight_Model.v
theories/PickWeight_Props.v
theories/Table_Model.v
theories/Table_Proofs.v
theories/Neighbours_Model.v
theories/Neighbours_Props.v
theories/CatalogFile_Model.v
theories/CatalogFile_Props.v
theories/Scheduler_Model.v
theories/Scheduler_Props.v
theories/Region_Model.v
theories/Region_Props.v
theories/Logger_Model.v
theories/Logger_Props.v
theories/KdTree_Model.v
theories/KdTree_Proofs.v
theories/KdTree_Props.v
theories/Geo_Model.v
theories/Geo_Proofs.v
theories/Geo_Props.v
theories/Interp_Model.v
theories/Interp_Props.v
theories/Coord_Props.v
theories/Homogeneous_Model.v
theories/Homogeneous_Props.v
theories/Ellipsoid_Model.v
theories/Ellipsoid_Props.v
theories/KdGeo_Model.v
theories/KdGeo_Props.v
theories/OrderStats_Model.v
theories/OrderStats_Props.v
theories/XCorr_Model.v
theories/XCorr_Props.v
theories/Trace_Model.v
theories/Trace_Props.v
theories/XcorrWindow_Model.v
theories/XcorrWindow_Props.v
theories/Rotate_Model.v
theories/Rotate_Props.v
theories/WaveCache_Model.v
theories/WaveCache_Props.v
theories/LoadTraces_Model.v
theories/LoadTraces_Props.v
theories/DDSystem_Model.v
theories/DDSystem_Props.v
theories/ResWeights_Model.v
theories/ResWeights_Props.v
theories/Solver_Model.v
theories/Solver_Hist.v
theories/Solver_Prep.v
theories/Solver_Sys.v
theories/Solver_Props.v
theories/Solver_Entry.v
theories/Reloc_Model.v
theories/Reloc_Props.v
theories/AddObs_Model.v
theories/AddObs_Props.v
theories/LinAlg.v
theories/Lsq_Model.v
theories/Lsq_Norms.v
theories/Lsqr_Math.v
theories/Lsqr_Proofs.v
theories/Lsmr_Math.v
theories/Lsmr_Proofs.v
theories/Lsq_Props.v
theories/SolveSys_Model.v
theories/SolveSys_Props.v
theories/SolveSys_Entry.v
theories/GridFile_Model.v
theories/GridFile_Props.v
theories/GridCell_Model.v
theories/GridCell_Props.v
theories/Transform_Model.v
theories/Transform_Props.v
theories/GridAngle_Model.v
theories/GridAngle_Props.v
theories/NllTtt_Model.v
theories/NllTtt_Props.v
theories/Origin_Model.v
theories/Origin_Props.v
theories/Move_Model.v
theories/Move_Props.v
theories/Residual_Model.v
theories/Residual_Props.v
theories/Resample_Model.v
theories/Resample_Props.v
theories/Import_Model.v
theories/Import_Props.v
theories/XcorrBuild_Model.v
theories/XcorrBuild_Props.v
theories/XcorrMeasure_Props.v
theories/XcorrRecover_Props.v
theories/XcorrOrder_Props.v
theories/SingleEvent_Model.v
theories/SingleEvent_Props.v
theories/WaveProc_Model.v
theories/WaveProc_Props.v
theories/RealTime_Model.v
theories/RealTime_Props.v
theories/GridHeader_Model.v
theories/GridHeader_Props.v
theories/MultiEvent_Model.v
theories/MultiEvent_Props.v
theories/Preload_Model.v
theories/Preload_Props.v
theories/Projection_Model.v
theories/Projection_Proofs.v
theories/Projection_Props.v
theories/Plugin_Model.v
theories/Plugin_Props.v
theories/Config_Model.v
theories/Config_Spec.v
theories/Config_Proofs.v
theories/Config_Keys.v
theories/Config_Props.v
theories/Commands_Model.v
theories/Commands_Proofs.v
theories/Commands_Props.v
theories/Proxy_Model.v
theories/Proxy_Props.v
theories/Double_Model.v
theories/Double_Props.v
theories/Once_Model.v
theories/Once_Props.v
theories/XCorrD_Model.v
theories/XCorrD_Props.v
theories/XCorrD_Error.v
theories/XcorrLog_Model.v
theories/XcorrLog_Props.v
theories/Profile_Model.v
theories/Profile_Props.v
theories/Dump_Model.v
theories/Dump_Props.v
theories/DataSource_Model.v
theories/DataSource_Props.v
theories/GridD_Model.v
theories/GridD_Props.v
theories/XcorrLagD_Model.v
theories/XcorrLagD_Props.v
theories/Decimal_Model.v
theories/Decimal_Proofs.v
theories/Decimal_Props.v
theories/XCorrFile_Model.v
theories/XCorrFile_Props.v
theories/Saved_Model.v
theories/Saved_Props.v
theories/ListOrg_Model.v
theories/ListOrg_Props.v
theories/Script_Model.v
theories/Script_Props.v
theories/DemeanD_Model.v
theories/DemeanD_Props.v
theories/WeightsD_Model.v
theories/WeightsD_Props.v
theories/NormD_Model.v
theories/NormD_Props.v
