-Q theories Verif
theories/Py.v
theories/S_flat.v
theories/M_sparse.v
theories/S_sparse.v
theories/P_sparse.v
theories/M_memory.v
theories/P_memory.v
theories/T_memory.v
theories/M_buddy.v
theories/S_buddy.v
theories/P_buddy.v
theories/T_buddy.v
theories/M_hexdump.v
theories/S_hexdump.v
theories/P_hexdump.v
theories/T_hexdump.v
theories/M_axi.v
theories/S_axi.v
theories/P_axi.v
theories/P_axislave.v
theories/P_axiop.v
theories/P_axiram.v
theories/P_axicomp.v
theories/M_axiargs.v
theories/S_axiargs.v
theories/P_axiargs.v
theories/T_axi.v
theories/M_reset.v
theories/T_reset.v
theories/M_stream.v
theories/S_stream.v
theories/P_stream.v
theories/P_streamlive.v
theories/T_stream.v
theories/M_axisframe.v
theories/M_axis.v
theories/S_axis.v
theories/P_axisframe.v
theories/T_axisframe.v
theories/S_axisrun.v
theories/P_axis.v
theories/P_axischan.v
theories/T_axis.v
theories/P_axislive.v
theories/T_streamext.v
theories/M_aspace.v
theories/S_aspace.v
theories/P_aspace.v
theories/P_aspacew.v
theories/P_aspacec.v
theories/P_aspaceh.v
theories/P_aspacep.v
theories/P_aspacer.v
theories/T_aspace.v
theories/M_axil.v
theories/S_axil.v
theories/P_axil.v
theories/T_axil.v
theories/M_liteeng.v
theories/S_liteeng.v
theories/P_liteeng.v
theories/T_liteeng.v
theories/M_axieng.v
theories/S_axieng.v
theories/P_axitag.v
theories/P_axieng.v
theories/P_axiattr.v
theories/T_axieng.v
theories/M_sys.v
theories/S_sys.v
theories/P_sys.v
theories/P_syswr.v
theories/T_sys.v
theories/P_axiread.v
theories/P_sysrd.v
theories/T_sysrd.v
theories/M_axisys.v
theories/S_axisys.v
theories/P_sysram.v
theories/T_sysram.v
theories/M_apb.v
theories/S_apb.v
theories/P_apb.v
theories/P_apbsys.v
theories/P_apbmem.v
theories/P_apblife.v
theories/T_apb.v
theories/M_define.v
theories/T_define.v
theories/M_litesys.v
theories/S_litesys.v
theories/P_litesys.v
theories/P_litewr.v
theories/P_literd.v
theories/T_litesys.v
theories/M_literw.v
theories/S_literw.v
theories/P_literw.v
theories/T_literw.v
theories/S_live.v
theories/P_fair.v
theories/P_ulive.v
theories/T_litelive.v
theories/P_ylive.v
theories/T_axilive.v
theories/T_literwlive.v
theories/T_axirwlive.v
theories/M_cchan.v
theories/M_clk.v
theories/S_clk.v
theories/P_cchan.v
theories/P_cchanlive.v
theories/P_clk.v
theories/P_clku.v
theories/P_clkrw.v
theories/P_clkurw.v
theories/P_flat.v
theories/P_clklive.v
theories/P_clkulive.v
theories/P_clkfair.v
theories/P_clkufair.v
theories/T_clk.v
theories/T_clklite.v
theories/M_rst.v
theories/S_rst.v
theories/P_rst.v
theories/P_rstans.v
theories/P_rsttgt.v
theories/T_rstlite.v
theories/P_ren.v
theories/P_renx.v
theories/P_renrw.v
theories/P_rstx.v
theories/T_rstaxi.v
theories/M_axislink.v
theories/S_axislink.v
theories/P_axislink.v
theories/T_axislink.v
theories/M_rxwait.v
theories/T_rxwait.v
theories/M_send.v
theories/S_send.v
theories/P_send.v
theories/T_send.v
theories/M_rstapb.v
theories/S_rstapb.v
theories/P_rstapb.v
theories/T_rstapb.v
theories/M_mwait.v
theories/S_mwait.v
theories/P_mwait.v
theories/T_mwait.v
theories/M_astgt.v
theories/S_astgt.v
theories/P_astgt.v
theories/P_astsys.v
theories/T_astgt.v
theories/M_busreg.v
theories/S_busreg.v
theories/P_twin.v
theories/P_busreg.v
theories/P_busreg2.v
theories/P_busreg3.v
theories/T_busreg.v
theories/M_recv.v
theories/S_recv.v
theories/P_recv.v
theories/T_recv.v
theories/M_pgen.v
theories/S_pgen.v
theories/P_pgen.v
theories/T_pgen.v
theories/S_rate.v
theories/P_rate.v
theories/T_rate.v
theories/M_mport.v
theories/S_mport.v
theories/P_mport.v
theories/P_mpaxi.v
theories/P_mplite.v
theories/P_mpall.v
theories/P_mpcell.v
theories/T_mport.v
theories/M_frmheap.v
theories/S_frmheap.v
theories/P_frmheap.v
theories/T_frmheap.v
theories/M_axistime.v
theories/S_axistime.v
theories/P_axistime.v
theories/T_axistime.v
theories/M_geom.v
theories/T_geom.v
theories/S_nostrb.v
theories/P_nostrb.v
theories/T_nostrb.v
theories/M_initev.v
theories/S_initev.v
theories/P_initev.v
theories/P_initev2.v
theories/T_initev.v
theories/M_asconc.v
theories/S_asconc.v
theories/P_asconc.v
theories/T_asconc.v
theories/M_memview.v
theories/S_memview.v
theories/P_memview.v
theories/T_memview.v
theories/M_apbenv.v
theories/S_apbenv.v
theories/P_apbenv.v
theories/P_apblog.v
theories/P_apbport.v
theories/T_apbenv.v
theories/M_rxtime.v
theories/T_rxtime.v
theories/M_apbblk.v
theories/S_apbblk.v
theories/P_apbblk.v
theories/T_apbblk.v
theories/M_slowslv.v
theories/S_slowslv.v
theories/P_slowlw.v
theories/T_slowslv.v
theories/M_slowaxi.v
theories/S_slowaxi.v
theories/P_slowaw.v
theories/T_slowaxi.v
theories/T_sinkwake.v
theories/T_resp.v
theories/P_fixed.v
theories/T_fixed.v
theories/P_readany.v
theories/T_readany.v
theories/T_readlite.v
theories/T_wrap.v
theories/T_burstrd.v
