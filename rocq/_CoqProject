-Q theories Verif
theories/Py.v
theories/B_list.v
theories/M_aux.v
theories/M_prbs.v
theories/P_gf2.v
theories/S_prbs.v
theories/P_prbs.v
theories/P_prbs_cert.v
theories/P_prbs_gen.v
theories/Prop_prbs.v
theories/S_aux.v
theories/P_aux.v
theories/P_buffer.v
theories/Prop_aux.v
theories/M_symbol.v
theories/M_levels.v
theories/S_symbol.v
theories/P_symbol.v
theories/P_map.v
theories/P_levels.v
theories/Prop_symbol.v
theories/M_coding.v
theories/S_coding.v
theories/P_coding.v
theories/P_bipolar.v
theories/Prop_coding.v
theories/M_linear.v
theories/S_linear.v
theories/P_linear.v
theories/Prop_linear.v
theories/M_conv.v
theories/M_convdec.v
theories/M_convfloat.v
theories/S_conv.v
theories/P_conv.v
theories/P_trellis.v
theories/P_convdec.v
theories/P_viterbi.v
theories/Prop_conv.v
theories/PyQ.v
theories/B_qc.v
theories/M_slicer.v
theories/S_rx.v
theories/P_slicer.v
theories/Prop_slicer.v
theories/M_lock.v
theories/S_lock.v
theories/P_lock.v
theories/P_checker.v
theories/Prop_lock.v
theories/M_filter.v
theories/S_filter.v
theories/P_filter.v
theories/P_eq.v
theories/Prop_filter.v
theories/M_lms.v
theories/S_lms.v
theories/P_lms.v
theories/Prop_lms.v
theories/M_soft.v
theories/S_soft.v
theories/P_soft.v
theories/Prop_soft.v
theories/M_delay.v
theories/S_delay.v
theories/P_delay.v
theories/Prop_delay.v
theories/M_channel.v
theories/S_channel.v
theories/P_channel.v
theories/P_pulse.v
theories/P_limits.v
theories/Prop_channel.v
theories/M_ctle.v
theories/S_ctle.v
theories/P_ctle.v
theories/Prop_ctle.v
theories/M_estim.v
theories/S_estim.v
theories/P_linalg.v
theories/P_estim.v
theories/Prop_estim.v
theories/S_chanest.v
theories/P_chanest.v
theories/P_chanref.v
theories/Prop_chanest.v
theories/M_eye.v
theories/S_eye.v
theories/P_eye.v
theories/Prop_eye.v
theories/M_sim.v
theories/S_sim.v
theories/P_sim.v
theories/P_simcode.v
theories/M_simcheck.v
theories/S_simcheck.v
theories/P_simcheck.v
theories/Prop_sim.v
theories/Prop_simcheck.v
theories/M_rxloop.v
theories/S_rxloop.v
theories/P_rxloop.v
theories/Prop_rxloop.v
theories/S_rxparts.v
theories/P_rxparts.v
theories/P_rxlink.v
theories/Prop_rxparts.v
theories/M_psa.v
theories/S_psa.v
theories/P_psa.v
theories/P_dft.v
theories/P_tone.v
theories/P_psaspec.v
theories/P_psatone.v
theories/Prop_psa.v
theories/M_link.v
theories/S_link.v
theories/P_link.v
theories/Prop_link.v
theories/P_fulldig.v
theories/S_full.v
theories/P_full.v
theories/Prop_full.v
theories/M_lasso.v
theories/S_lasso.v
theories/P_lasso.v
theories/Prop_lasso.v
theories/M_jitter.v
theories/S_jitter.v
theories/P_jitter.v
theories/Prop_jitter.v
theories/M_f64.v
theories/S_f64.v
theories/P_f64.v
theories/Prop_f64.v
theories/S_coded.v
theories/P_coded.v
theories/Prop_coded.v
theories/M_eq64.v
theories/S_eq64.v
theories/P_eq64.v
theories/Prop_eq64.v
theories/M_chanjit.v
theories/S_chanjit.v
theories/P_chanjit.v
theories/Prop_chanjit.v
theories/S_peak.v
theories/P_peak.v
theories/P_peakdig.v
theories/P_peaklink.v
theories/P_peakbits.v
theories/Prop_peak.v
theories/M_share.v
theories/S_share.v
theories/P_share.v
theories/Prop_share.v
theories/M_linkst.v
theories/S_linkst.v
theories/P_linkst.v
theories/Prop_linkst.v
theories/S_viterbitot.v
theories/P_viterbitot.v
theories/Prop_viterbitot.v
theories/S_works.v
theories/P_works.v
theories/P_hears.v
theories/P_shipped.v
theories/Prop_works.v
theories/S_viterbierr.v
theories/P_viterbierr.v
theories/Prop_viterbierr.v
theories/S_reach.v
theories/P_reach.v
theories/Prop_reach.v
theories/M_genie.v
theories/S_genie.v
theories/P_genie.v
theories/P_genienrz.v
theories/Prop_genie.v
theories/M_estimfs.v
theories/S_estimfs.v
theories/P_linalgR.v
theories/P_estimfs.v
theories/P_estimsc.v
theories/Prop_estimfs.v
theories/M_rxsearch.v
theories/S_rxsearch.v
theories/P_estimls.v
theories/P_rxsearch.v
theories/Prop_rxsearch.v
theories/S_demap.v
theories/P_demap.v
theories/Prop_demap.v
theories/S_mmprbs.v
theories/P_mmprbs.v
theories/M_cdr.v
theories/P_mmlock.v
theories/Prop_mmprbs.v
theories/M_lmsloop.v
theories/S_lmsloop.v
theories/P_lmsalg.v
theories/P_lmsloop.v
theories/Prop_lmsloop.v
theories/S_lmstaps.v
theories/P_lmstaps.v
theories/Prop_lmstaps.v
