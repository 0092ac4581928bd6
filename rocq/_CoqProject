-Q theories Verif
theories/Np.v
theories/P_Np.v
theories/M_fs.v
theories/M_io_save.v
theories/S_io.v
theories/P_fs.v
theories/P_io_save.v
theories/P_io_save2.v
theories/T_io_save.v
theories/M_io_load.v
theories/S_io_load.v
theories/P_io_load.v
theories/P_io_load2.v
theories/T_io_load.v
theories/M_utility.v
theories/M_conversion.v
theories/S_utility.v
theories/P_utility.v
theories/P_grid.v
theories/T_utility.v
theories/S_conversion.v
theories/P_conversion.v
theories/P_conversion2.v
theories/P_conversion3.v
theories/P_conversion4.v
theories/P_conversion5.v
theories/T_conversion.v
theories/M_correction.v
theories/S_correction.v
theories/P_correction.v
theories/P_correction2.v
theories/P_correction3.v
theories/M_beam.v
theories/P_beam.v
theories/T_correction.v
theories/M_calculation.v
theories/S_calculation.v
theories/P_calculation.v
theories/P_calculation2.v
theories/P_calculation3.v
theories/P_calculation4.v
theories/T_calculation.v
theories/M_removal.v
theories/S_removal.v
theories/P_removal.v
theories/P_removal2.v
theories/P_removal3.v
theories/P_removal4.v
theories/M_regularization.v
theories/P_regularization.v
theories/T_removal.v
theories/M_phase.v
theories/P_phase.v
theories/M_phase_R.v
theories/P_phase_R.v
theories/T_phase.v
theories/M_post.v
theories/S_post.v
theories/P_post.v
theories/P_post2.v
theories/T_post.v
theories/M_par.v
theories/P_par.v
theories/M_backproj.v
theories/S_backproj.v
theories/P_backproj.v
theories/P_backproj2.v
theories/T_backproj.v
theories/M_recon.v
theories/S_recon.v
theories/P_recon.v
theories/T_recon.v
theories/M_vertrec.v
theories/S_vertrec.v
theories/P_vertrec.v
theories/T_vertrec.v
theories/M_vertline.v
theories/T_vertline.v
theories/M_metric.v
theories/S_metric.v
theories/P_metric.v
theories/T_metric.v
theories/M_corr.v
theories/S_corr.v
theories/P_corr.v
theories/P_corr2.v
theories/P_corr3.v
theories/P_corr4.v
theories/T_corr.v
theories/M_local.v
theories/S_local.v
theories/P_peakext.v
theories/P_local.v
theories/P_local2.v
theories/P_local3.v
theories/P_local4.v
theories/P_local5.v
theories/P_local6.v
theories/P_local7.v
theories/P_local8.v
theories/P_local9.v
theories/P_local10.v
theories/P_local11.v
theories/P_local12.v
theories/T_local.v
theories/M_global.v
theories/S_global.v
theories/P_global.v
theories/P_global2.v
theories/P_global3.v
theories/T_global.v
theories/P_argsort.v
theories/M_sim.v
theories/S_sim.v
theories/P_sim.v
theories/T_sim.v
theories/M_simR.v
theories/S_simR.v
theories/P_simR.v
theories/P_simR2.v
theories/P_simR3.v
theories/P_simR4.v
theories/T_simR.v
theories/M_dfi.v
theories/S_dfi.v
theories/P_dfi.v
theories/P_dfi2.v
theories/P_dfi3.v
theories/P_dfi4.v
theories/T_dfi.v
theories/M_calib.v
theories/S_calib.v
theories/P_calib.v
theories/P_calib2.v
theories/P_calib3.v
theories/P_calib4.v
theories/P_calib5.v
theories/P_calib6.v
theories/P_calib7.v
theories/P_calib8.v
theories/P_calib9.v
theories/T_calib.v
theories/M_threshold.v
theories/S_threshold.v
theories/P_threshold.v
theories/T_threshold.v
theories/T_helical.v
theories/M_hdf.v
theories/S_hdf.v
theories/P_hdf.v
theories/P_hdf2.v
theories/T_hdf.v
theories/M_stack.v
theories/S_stack.v
theories/P_stack.v
theories/P_stack2.v
theories/T_stack.v
theories/M_polar.v
theories/S_polar.v
theories/P_polar.v
theories/P_polar2.v
theories/T_polar.v
theories/M_fourier.v
theories/P_fourier.v
theories/M_phasecorr.v
theories/S_phasecorr.v
theories/P_phasecorr.v
theories/P_phasecorr2.v
theories/T_phasecorr.v
theories/P_kernel.v
theories/M_fresnel.v
theories/S_fresnel.v
theories/P_fresnel.v
theories/P_fresnel2.v
theories/T_fresnel.v
theories/M_gauss.v
theories/S_gauss.v
theories/P_gauss.v
theories/P_gauss2.v
theories/T_gauss.v
theories/M_umpa.v
theories/S_umpa.v
theories/P_umpa.v
theories/P_umpa2.v
theories/P_umpa3.v
theories/P_umpa4.v
theories/T_umpa.v
theories/M_surface.v
theories/S_surface.v
theories/P_surface.v
theories/P_surface2.v
theories/P_surface3.v
theories/P_surface4.v
theories/P_surface5.v
theories/P_surface6.v
theories/P_surface7.v
theories/T_surface.v
theories/M_unwrap.v
theories/S_unwrap.v
theories/P_unwrap.v
theories/P_unwrap2.v
theories/P_unwrap3.v
theories/P_unwrap4.v
theories/P_unwrap5.v
theories/P_unwrap6.v
theories/P_unwrap7.v
theories/T_unwrap.v
theories/M_quality.v
theories/S_quality.v
theories/P_quality.v
theories/P_quality2.v
theories/T_quality.v
theories/M_speckle.v
theories/S_speckle.v
theories/P_speckle.v
theories/P_speckle2.v
theories/P_speckle3.v
theories/T_speckle.v
theories/M_stackshift.v
theories/S_stackshift.v
theories/P_stackshift.v
theories/P_stackshift2.v
theories/T_stackshift.v
theories/M_visual.v
theories/S_visual.v
theories/P_visual.v
theories/P_visual2.v
theories/T_visual.v
theories/M_regfilter.v
theories/S_regfilter.v
theories/P_regfilter.v
theories/T_regfilter.v
theories/M_blob.v
theories/S_blob.v
theories/P_blob.v
theories/T_blob.v
theories/M_extrec.v
theories/S_extrec.v
theories/P_extrec.v
theories/T_extrec.v
theories/M_wedge.v
theories/S_wedge.v
theories/P_wedge.v
theories/P_wedge2.v
theories/T_wedge.v
theories/M_overlap.v
theories/S_overlap.v
theories/P_overlap.v
theories/P_overlap2.v
theories/T_overlap.v
theories/M_stripefft.v
theories/S_stripefft.v
theories/P_stripefft.v
theories/P_stripefft2.v
theories/P_stripefft3.v
theories/P_stripefft4.v
theories/T_stripefft.v
theories/M_face.v
theories/S_face.v
theories/P_face.v
theories/P_face2.v
theories/M_simnoise.v
theories/T_face.v
theories/M_linetarget.v
theories/S_linetarget.v
theories/P_linetarget.v
theories/P_linetarget2.v
theories/T_linetarget.v
theories/M_detect.v
theories/S_detect.v
theories/P_detect.v
theories/P_detect2.v
theories/P_detect3.v
theories/P_detect4.v
theories/T_detect.v
theories/M_allstripe.v
theories/S_allstripe.v
theories/P_allstripe.v
theories/P_allstripe2.v
theories/P_allstripe3.v
theories/P_allstripe4.v
theories/P_allstripe5.v
theories/P_allstripe6.v
theories/P_allstripe7.v
theories/T_allstripe.v
theories/M_mtf.v
theories/S_mtf.v
theories/P_mtf.v
theories/T_mtf.v
theories/S_peak.v
theories/P_corr5.v
theories/T_peak.v
theories/M_crash.v
theories/S_crash.v
theories/P_crash.v
theories/T_crash.v
theories/M_find.v
theories/S_find.v
theories/P_find.v
theories/T_find.v
theories/M_score.v
theories/S_score.v
theories/P_score.v
theories/T_score.v
