-Q theories Verif
theories/Base.v
theories/Box_Model.v
theories/Box_Spec.v
theories/Box_Proofs.v
theories/Box_Props.v
theories/RTree_Model.v
theories/RTree_Spec.v
theories/RTree_Proofs.v
theories/RTree_Heuristics.v
theories/RTree_Hull.v
theories/RTree_Props.v
theories/SortU.v
theories/Index_Model.v
theories/Index_Spec.v
theories/Index_Proofs.v
theories/Index_Props.v
theories/ListX.v
theories/Traj_Model.v
theories/Traj_Spec.v
theories/Traj_Proofs.v
theories/TrajMap_Proofs.v
theories/Dec.v
theories/TrajFile_Model.v
theories/TrajFile_Proofs.v
theories/Traj_Props.v
theories/MTraj_Model.v
theories/MTraj_Spec.v
theories/MTraj_Proofs.v
theories/MTraj_Props.v
theories/Center_Model.v
theories/Center_Spec.v
theories/Center_Proofs.v
theories/Center_Props.v
theories/Reconstructor_Model.v
theories/Reconstructor_Proofs.v
theories/Reconstructor_Props.v
theories/Particles_Model.v
theories/Particles_Spec.v
theories/Particles_Proofs.v
theories/Particles_Props.v
theories/Race_Model.v
theories/Race_Props.v
theories/Ngb_Model.v
theories/Ngb_Spec.v
theories/Ngb_Proofs.v
theories/Ngb_Props.v
theories/Periodic_Model.v
theories/Periodic_Spec.v
theories/Periodic_Proofs.v
theories/Periodic_Props.v
theories/Cluster_Model.v
theories/Cluster_Spec.v
theories/Cluster_Proofs.v
theories/Cluster2_Proofs.v
theories/Cluster_Props.v
theories/Field_Model.v
theories/Field_Spec.v
theories/Field_Proofs.v
theories/Field_Props.v
theories/Dyn_Model.v
theories/Dyn_Spec.v
theories/Dyn_Proofs.v
theories/Drift_Proofs.v
theories/Cages_Proofs.v
theories/Dyn_Props.v
theories/Corr_Model.v
theories/Corr_Spec.v
theories/Corr_Proofs.v
theories/Corr_Props.v
theories/Files_Model.v
theories/Files_Spec.v
theories/Files_Proofs.v
theories/Files_Props.v
theories/Boo_Model.v
theories/Boo_Spec.v
theories/Boo_Proofs.v
theories/Boo2_Proofs.v
theories/Boo_Props.v
theories/Wigner_Model.v
theories/Wigner_Spec.v
theories/Wigner_Proofs.v
theories/Wigner_Props.v
theories/Minima_Model.v
theories/Minima_Spec.v
theories/Minima_Proofs.v
theories/Minima3_Proofs.v
theories/Minima_Props.v
theories/Pyramid_Model.v
theories/Pyramid_Spec.v
theories/Pyramid_Proofs.v
theories/Pyramid3_Proofs.v
theories/Pyramid_Props.v
theories/Lif_Model.v
theories/Lif_Spec.v
theories/Lif_Proofs.v
theories/Lif2_Proofs.v
theories/Lif_Props.v
theories/Tracker_Model.v
theories/Tracker_Spec.v
theories/Tracker_Proofs.v
theories/Tracker_Props.v
theories/Peaks_Model.v
theories/Peaks_Spec.v
theories/Peaks_Proofs.v
theories/Peaks_Props.v
theories/Threshold_Spec.v
theories/Threshold_Proofs.v
theories/Threshold_Props.v
theories/Deconv_Model.v
theories/Deconv_Spec.v
theories/Deconv_Proofs.v
theories/Deconv_Props.v
theories/PBoo_Model.v
theories/PBoo_Spec.v
theories/PBoo_Proofs.v
theories/PBoo_Props.v
theories/Export_Model.v
theories/Export_Spec.v
theories/Export_Proofs.v
theories/Export_Props.v
theories/Link_Model.v
theories/Link_Spec.v
theories/Link_Proofs.v
theories/Link_Props.v
theories/Isf_Model.v
theories/Isf_Props.v
theories/DynFile_Model.v
theories/DynFile_Proofs.v
theories/DynFile_Props.v
theories/Density_Model.v
theories/Density_Proofs.v
theories/Density_Props.v
theories/Serie_Model.v
theories/Serie_Proofs.v
theories/Serie_Props.v
theories/Radii_Model.v
theories/Radii_Proofs.v
theories/Radii_Props.v
theories/Extent_Model.v
theories/Extent_Spec.v
theories/Extent_Proofs.v
theories/Extent_Props.v
theories/Resp_Model.v
theories/Resp_Spec.v
theories/Resp_Proofs.v
theories/Resp_Props.v
theories/Subpix_Model.v
theories/Subpix_Spec.v
theories/Subpix_Proofs.v
theories/Subpix_Props.v
theories/Seam_Model.v
theories/Seam_Spec.v
theories/Seam_Proofs.v
theories/Seam_Props.v
theories/Multi_Model.v
theories/Multi_Spec.v
theories/Multi_Props.v
theories/Vol_Model.v
theories/Vol_Spec.v
theories/Vol_Props.v
theories/Lost_Model.v
theories/Lost_Spec.v
theories/Lost_Proofs.v
theories/Lost_Props.v
theories/Spindle_Model.v
theories/Spindle_Spec.v
theories/Spindle_Proofs.v
theories/Spindle_Props.v
theories/Mean_Model.v
theories/Mean_Spec.v
theories/Mean_Proofs.v
theories/Mean_Props.v
theories/G6_Model.v
theories/G6_Spec.v
theories/G6_Proofs.v
theories/G6_Props.v
theories/Bins_Model.v
theories/Bins_Proofs.v
theories/Bins_Props.v
theories/Par_Model.v
theories/Par_Spec.v
theories/Par_Proofs.v
theories/Par_Props.v
theories/Format_Model.v
theories/Format_Props.v
theories/Zblur_Model.v
theories/Zblur_Spec.v
theories/Zblur_Props.v
theories/Fill_Model.v
theories/Fill_Spec.v
theories/Fill_Proofs.v
theories/Fill_Props.v
theories/Light_Model.v
theories/Light_Props.v
theories/Settings_Model.v
theories/Settings_Props.v
theories/Blobs_Model.v
theories/Blobs_Props.v
theories/Relax_Model.v
theories/Relax_Props.v
theories/Jump_Model.v
theories/Jump_Props.v
theories/Resume_Model.v
theories/Resume_Props.v
theories/Average_Model.v
theories/Average_Props.v
theories/Gain_Model.v
theories/Gain_Props.v
theories/Rerun_Model.v
theories/Rerun_Props.v
theories/Perco_Model.v
theories/Perco_Spec.v
theories/Perco_Props.v
theories/Sub_Model.v
theories/Sub_Props.v
theories/Sim_Model.v
theories/Sim_Props.v
theories/Cloud_Model.v
theories/Cloud_Props.v
theories/Cut_Model.v
theories/Cut_Props.v
theories/Seam3_Model.v
theories/Seam3_Props.v
theories/Linker_Model.v
theories/Linker_Props.v
theories/Drive_Model.v
theories/Drive_Props.v
theories/Scale_Model.v
theories/Scale_Props.v
theories/Avpos_Model.v
theories/Avpos_Props.v
theories/Euler_Model.v
theories/Euler_Cplx.v
theories/Euler_Spec.v
theories/Euler_Geom.v
theories/Euler_Proofs.v
theories/Euler_Turn.v
theories/Euler_Harm.v
theories/Euler_Props.v
theories/Voro_Model.v
theories/Voro_Spec.v
theories/Voro_Proofs.v
theories/Voro_Chance.v
theories/Voro_Props.v
theories/Newton_Spec.v
theories/Newton_Model.v
theories/Newton_Proofs.v
theories/Newton_Props.v
theories/Film_Model.v
theories/Film_Props.v
theories/Order_Spec.v
theories/Order_Model.v
theories/Order_Props.v
theories/Flip_Spec.v
theories/Flip_Model.v
theories/Flip_Props.v
theories/Rdf_Spec.v
theories/Rdf_Model.v
theories/Rdf_Props.v
theories/Scale1_Model.v
theories/Scale1_Spec.v
theories/Scale1_Props.v
theories/Track_Model.v
theories/Track_Spec.v
theories/Track_Props.v
theories/Lboo_Model.v
theories/Lboo_Spec.v
theories/Lboo_Props.v
theories/Stidx_Model.v
theories/Stidx_Spec.v
theories/Stidx_Props.v
theories/Allb_Model.v
theories/Allb_Spec.v
theories/Allb_Props.v
theories/Pg6_Model.v
theories/Pg6_Spec.v
theories/Pg6_Props.v
theories/Xml_Model.v
theories/Xml_Spec.v
theories/Xml_Props.v
theories/Ask_Model.v
theories/Ask_Spec.v
theories/Ask_Props.v
theories/Fft_Model.v
theories/Fft_Spec.v
theories/Fft_Props.v
theories/Band_Model.v
theories/Band_Spec.v
theories/Band_Props.v
theories/Extract_Model.v
theories/Extract_Spec.v
theories/Extract_Props.v
theories/Scan_Model.v
theories/Scan_Spec.v
theories/Scan_Props.v
theories/Heter_Model.v
theories/Heter_Spec.v
theories/Heter_Props.v
theories/Crun_Model.v
theories/Crun_Spec.v
theories/Crun_Props.v
theories/Xyz_Model.v
theories/Xyz_Spec.v
theories/Xyz_Props.v
theories/Angle_Model.v
theories/Angle_Spec.v
theories/Angle_Proofs.v
theories/Angle_Props.v
theories/Bend_Model.v
theories/Bend_Spec.v
theories/Bend_Props.v
theories/Cubic_Model.v
theories/Cubic_Spec.v
theories/Cubic_Proofs.v
theories/Cubic_Link.v
theories/Cubic_Bonds.v
theories/Cubic_Props.v
theories/Wave_Model.v
theories/Wave_Spec.v
theories/Wave_Proofs.v
theories/Wave_Props.v
theories/Cubic_Bound.v
theories/Cubic2_Props.v
theories/Ngp_Model.v
theories/Ngp_Spec.v
theories/Ngp_Props.v
theories/Rest_Model.v
theories/Rest_Spec.v
theories/Rest_Props.v
theories/Alike_Spec.v
theories/Alike_Props.v
theories/Relabel_Spec.v
theories/Relabel_Props.v
theories/Rewind_Spec.v
theories/Rewind_Props.v
theories/Follow_Spec.v
theories/Follow_Props.v
theories/Portion_Spec.v
theories/Portion_Props.v
theories/Ties_Proofs.v
theories/Ties_Props.v
theories/Failures_Props.v
