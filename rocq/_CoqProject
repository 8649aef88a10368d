-Q theories Verif
theories/Cx.v
theories/Kf.v
theories/Kpoly.v
theories/L_ana.v
theories/L_argsort.v
theories/L_atom.v
theories/L_atom2.v
theories/L_atom3.v
theories/L_atom4.v
theories/L_atom5.v
theories/L_bands.v
theories/L_bands2.v
theories/L_base.v
theories/L_bloch.v
theories/L_bloch2.v
theories/L_build.v
theories/L_build2.v
theories/L_csr.v
theories/L_csr2.v
theories/L_cur.v
theories/L_dbl.v
theories/L_dbl2.v
theories/L_dbl3.v
theories/L_dbl4.v
theories/L_dbl5.v
theories/L_dbl6.v
theories/L_dft.v
theories/L_dict.v
theories/L_fft.v
theories/L_fold.v
theories/L_gersh.v
theories/L_hay.v
theories/L_hay2.v
theories/L_hop.v
theories/L_index.v
theories/L_inter.v
theories/L_kpm.v
theories/L_kpm2.v
theories/L_kpm3.v
theories/L_lat.v
theories/L_lat2.v
theories/L_lat3.v
theories/L_lind.v
theories/L_lind2.v
theories/L_lind3.v
theories/L_lind4.v
theories/L_lind5.v
theories/L_lind6.v
theories/L_lind7.v
theories/L_mag.v
theories/L_mat.v
theories/L_merge.v
theories/L_obtain.v
theories/L_over.v
theories/L_par.v
theories/L_par2.v
theories/L_pc.v
theories/L_pc2.v
theories/L_prop.v
theories/L_prop2.v
theories/L_psi.v
theories/L_resc.v
theories/L_reshape.v
theories/L_reshape2.v
theories/L_samp2.v
theories/L_samp3.v
theories/L_samp4.v
theories/L_sample.v
theories/L_save.v
theories/L_skcell.v
theories/L_skcell2.v
theories/L_skcell3.v
theories/L_skcell4.v
theories/L_skcell5.v
theories/L_smat.v
theories/L_super.v
theories/L_super2.v
theories/L_super3.v
theories/L_super4.v
theories/L_super5.v
theories/L_super6.v
theories/L_sym.v
theories/L_sync.v
theories/L_tbpm.v
theories/L_tbpm2.v
theories/L_tbpm3.v
theories/L_tbpm4.v
theories/L_wan.v
theories/M_ana.v
theories/M_anti.v
theories/M_atom.v
theories/M_bloch.v
theories/M_build.v
theories/M_dbl.v
theories/M_fft.v
theories/M_graphene.v
theories/M_hay.v
theories/M_hop.v
theories/M_hopdict.v
theories/M_index.v
theories/M_inter.v
theories/M_kane.v
theories/M_lat.v
theories/M_lind.v
theories/M_neigh.v
theories/M_over.v
theories/M_par.v
theories/M_pc.v
theories/M_phos.v
theories/M_prop.v
theories/M_reshape.v
theories/M_sample.v
theories/M_sk.v
theories/M_skcell.v
theories/M_soc.v
theories/M_spin.v
theories/M_super.v
theories/M_sync.v
theories/M_tbpm.v
theories/M_tmdc.v
theories/M_util.v
theories/M_wan.v
theories/M_z2.v
theories/P_ana.v
theories/P_anti.v
theories/P_atom.v
theories/P_bands.v
theories/P_bloch.v
theories/P_build.v
theories/P_dbl.v
theories/P_fft.v
theories/P_fold.v
theories/P_graphene.v
theories/P_hay.v
theories/P_hopdict.v
theories/P_index.v
theories/P_kane.v
theories/P_kpm.v
theories/P_lad.v
theories/P_lat.v
theories/P_lind.v
theories/P_mag.v
theories/P_neigh.v
theories/P_over.v
theories/P_par.v
theories/P_pc.v
theories/P_phos.v
theories/P_prop.v
theories/P_psi.v
theories/P_reshape.v
theories/P_reshape2.v
theories/P_sample.v
theories/P_save.v
theories/P_sk.v
theories/P_skcell.v
theories/P_soc.v
theories/P_soc2.v
theories/P_soc3.v
theories/P_spin.v
theories/P_super.v
theories/P_sync.v
theories/P_tbpm.v
theories/P_tmdc.v
theories/P_util.v
theories/P_wan.v
theories/P_z2.v
theories/Prelude.v
theories/Qs.v
theories/S_ana.v
theories/S_anti.v
theories/S_atom.v
theories/S_bands.v
theories/S_bloch.v
theories/S_build.v
theories/S_comp.v
theories/S_dbl.v
theories/S_dos.v
theories/S_fft.v
theories/S_fold.v
theories/S_hay.v
theories/S_hopdict.v
theories/S_index.v
theories/S_inter.v
theories/S_kane.v
theories/S_lat.v
theories/S_lind.v
theories/S_mag.v
theories/S_mat.v
theories/S_neigh.v
theories/S_over.v
theories/S_par.v
theories/S_pc.v
theories/S_phos.v
theories/S_prop.v
theories/S_reach.v
theories/S_reshape.v
theories/S_sample.v
theories/S_sk.v
theories/S_skcell.v
theories/S_soc.v
theories/S_spin.v
theories/S_super.v
theories/S_sync.v
theories/S_tbpm.v
theories/S_tmdc.v
theories/S_util.v
theories/S_wan.v
theories/S_z2.v
theories/Vec.v
theories/M_dc.v
theories/S_dc.v
theories/L_dc.v
theories/L_dc2.v
theories/L_dc3.v
theories/P_dc.v
theories/M_resp.v
theories/S_resp.v
theories/L_eig.v
theories/L_resp.v
theories/P_resp.v
theories/M_print.v
theories/S_print.v
theories/L_print.v
theories/P_print.v
theories/P_win.v
theories/M_view.v
theories/S_view.v
theories/L_view.v
theories/P_view.v
theories/P_viewinter.v
theories/M_fit.v
theories/S_fit.v
theories/P_fit.v
theories/M_twist.v
theories/S_twist.v
theories/P_twist.v
theories/L_gauss.v
theories/M_broad.v
theories/S_broad.v
theories/P_broad.v
theories/M_cube.v
theories/S_cube.v
theories/P_cube.v
theories/M_field.v
theories/S_field.v
theories/P_field.v
theories/M_w90.v
theories/S_w90.v
theories/L_w90.v
theories/P_w90.v
theories/M_random.v
theories/S_random.v
theories/P_random.v
theories/M_out.v
theories/S_out.v
theories/P_out.v
theories/M_mem.v
theories/S_mem.v
theories/P_mem.v
theories/M_cart.v
theories/S_cart.v
theories/P_cart.v
theories/M_omp.v
theories/L_omp.v
theories/M_loops.v
theories/S_loops.v
theories/L_loops.v
theories/P_loops.v
theories/P_loopfft.v
theories/P_looplind.v
theories/M_dump.v
theories/S_dump.v
theories/P_dump.v
theories/P_extend.v
