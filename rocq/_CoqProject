-Q theories Verif
theories/Prelude.v
theories/Idx_Model.v
theories/Idx_Spec.v
theories/Idx_Proofs.v
theories/Arr_Model.v
theories/Arr_Spec.v
theories/Arr_Proofs.v
theories/Arr_Proofs2.v
theories/Idx_Props.v
theories/Arr_Props.v
theories/Deriv_Model.v
theories/Deriv_Spec.v
theories/Deriv_Proofs.v
theories/Deriv_Proofs2.v
theories/Deriv_Proofs3.v
theories/Deriv_Props.v
theories/Cplx.v
theories/Vec_Model.v
theories/Vec_Spec.v
theories/Vec_Proofs.v
theories/Vec_Props.v
theories/Keld_Model.v
theories/Keld_Spec.v
theories/Keld_Proofs.v
theories/Keld_Proofs2.v
theories/Keld_Proofs3.v
theories/Keld_Props.v
theories/Util_Model.v
theories/Util_Spec.v
theories/Util_Proofs.v
theories/Util_Props.v
theories/Sym_Model.v
theories/Sym_Spec.v
theories/Sym_Proofs.v
theories/Sym_Proofs2.v
theories/Sym_Props.v
theories/Tab_Model.v
theories/Tab_Spec.v
theories/Tab_Proofs.v
theories/Tab_Proofs2.v
theories/Tab_Props.v
theories/Dec_Model.v
theories/Dec_Props.v
theories/Mpi_Model.v
theories/Mpi_Proofs.v
theories/Mpi_Props.v
theories/Grid_Model.v
theories/Grid_Spec.v
theories/Grid_Proofs.v
theories/Grid_Proofs2.v
theories/Grid_Proofs3.v
theories/Grid_Props.v
theories/Flow_Model.v
theories/Flow_Spec.v
theories/Flow_Proofs.v
theories/Flow_Props.v
theories/Rk_Model.v
theories/Rk_Spec.v
theories/Rk_Proofs.v
theories/Rk_Props.v
theories/Ode_Model.v
theories/Ode_Spec.v
theories/Ode_Proofs.v
theories/Ode_Proofs2.v
theories/Ode_Props.v
theories/Interp_Model.v
theories/Interp_Spec.v
theories/Interp_Proofs.v
theories/Interp_Proofs2.v
theories/Interp_Proofs3.v
theories/Interp_Props.v
theories/Interp_Props2.v
theories/Spline_Model.v
theories/Spline_Spec.v
theories/Spline_Proofs.v
theories/Spline_Props.v
theories/State_Model.v
theories/State_Spec.v
theories/State_Proofs.v
theories/State_Props.v
theories/State_Props2.v
theories/Mix_Model.v
theories/Mix_Spec.v
theories/Mix_Proofs.v
theories/Mix_Props.v
theories/Bracket_Model.v
theories/Bracket_Spec.v
theories/Bracket_Props.v
theories/Parq_Model.v
theories/Parq_Spec.v
theories/Parq_Props.v
theories/Hart_Model.v
theories/Hart_Spec.v
theories/Hart_Props.v
theories/Quad_Model.v
theories/Quad_Spec.v
theories/Quad_Proofs.v
theories/Quad_Props.v
theories/Dom_Model.v
theories/Dom_Spec.v
theories/Dom_Proofs.v
theories/Dom_Props.v
theories/Gf_Model.v
theories/Gf_Spec.v
theories/Gf_Proofs.v
theories/Gf_Proofs2.v
theories/Gf_Props.v
theories/Gf_Props2.v
theories/Hdf_Model.v
theories/Hdf_Spec.v
theories/Hdf_Proofs.v
theories/Hdf_Proofs2.v
theories/Hdf_Proofs3.v
theories/Hdf_Proofs4.v
theories/Hdf_Props.v
theories/Mlp_Model.v
theories/Mlp_Spec.v
theories/Mlp_Proofs.v
theories/Mlp_Props.v
theories/Lop_Model.v
theories/Lop_Spec.v
theories/Lop_Proofs.v
theories/Lop_Proofs2.v
theories/Lop_Props.v
theories/Nam_Model.v
theories/Nam_Spec.v
theories/Nam_Proofs.v
theories/Nam_Props.v
theories/Fdt_Model.v
theories/Fdt_Spec.v
theories/Fdt_Alg.v
theories/Fdt_Proofs.v
theories/Fdt_Proofs2.v
theories/Fdt_Proofs3.v
theories/Fdt_Props.v
theories/Post_Model.v
theories/Post_Spec.v
theories/Post_Proofs.v
theories/Post_Proofs2.v
theories/Post_Props.v
theories/Ugr_Model.v
theories/Ugr_Proofs.v
theories/Ugr_Props.v
theories/Tail_Model.v
theories/Tail_Spec.v
theories/Tail_Proofs.v
theories/Tail_Proofs2.v
theories/Tail_Proofs3.v
theories/Tail_Props.v
theories/Tail_Props2.v
theories/Tail_Props3.v
theories/Tail_Props4.v
theories/Bse_Model.v
theories/Bse_Spec.v
theories/Bse_Proofs.v
theories/Bse_Proofs2.v
theories/Bse_Props.v
theories/Rd_Model.v
theories/Rd_Spec.v
theories/Rd_Proofs.v
theories/Rd_Proofs2.v
theories/Rd_Props.v
theories/Rd_Proofs3.v
theories/Rd_Props2.v
theories/Bub_Model.v
theories/Bub_Spec.v
theories/Bub_Proofs.v
theories/Bub_Proofs2.v
theories/Bub_Proofs3.v
theories/Bub_Props.v
theories/Sf_Model.v
theories/Sf_Spec.v
theories/Sf_Proofs.v
theories/Sf_Proofs2.v
theories/Sf_Props.v
theories/Fl_Model.v
theories/Fl_Spec.v
theories/Fl_Proofs.v
theories/Fl_Proofs2.v
theories/Fl_Props.v
theories/Skp_Model.v
theories/Skp_Spec.v
theories/Skp_Props.v
theories/Sde_Model.v
theories/Sde_Spec.v
theories/Sde_Proofs.v
theories/Sde_Proofs2.v
theories/Sde_Proofs3.v
theories/Sde_Proofs4.v
theories/Sde_Props.v
theories/Sde_Proofs5.v
theories/Pit_Model.v
theories/Pit_Props.v
theories/Sde3_Model.v
theories/Sde3_Spec.v
theories/Sde3_Proofs.v
theories/Sde3_Proofs2.v
theories/Sde3_Props.v
theories/Osi_Model.v
theories/Osi_Spec.v
theories/Osi_Proofs.v
theories/Osi_Proofs2.v
theories/Osi_Proofs3.v
theories/Osi_Props.v
theories/Csy_Model.v
theories/Csy_Proofs.v
theories/Csy_Props.v
theories/Csy_Props2.v
theories/Crv_Model.v
theories/Crv_Spec.v
theories/Crv_Proofs.v
theories/Crv_Proofs2.v
theories/Crv_Proofs3.v
theories/Crv_Props.v
theories/Crv_Props2.v
theories/Mbe_Model.v
theories/Mbe_Spec.v
theories/Mbe_Proofs.v
theories/Mbe_Props.v
theories/Sbe_Model.v
theories/Sbe_Spec.v
theories/Sbe_Proofs.v
theories/Sbe_Proofs2.v
theories/Sbe_Proofs3.v
theories/Sbe_Keld.v
theories/Sbe_Props.v
theories/Mbu_Model.v
theories/Mbu_Spec.v
theories/Mbu_Proofs.v
theories/Mbu_Proofs2.v
theories/Mbu_Props.v
theories/Mbt_Model.v
theories/Mbt_Spec.v
theories/Mbt_Proofs.v
theories/Mbt_Proofs2.v
theories/Mbt_Proofs3.v
theories/Mbt_Props.v
theories/Rk4_Model.v
theories/Rk4_Props.v
theories/Sck_Model.v
theories/Sck_Props.v
theories/Msf_Model.v
theories/Msf_Spec.v
theories/Msf_Proofs.v
theories/Msf_Proofs2.v
theories/Msf_Props.v
theories/Mtf_Model.v
theories/Mtf_Spec.v
theories/Mtf_Proofs.v
theories/Mtf_Proofs2.v
theories/Mtf_Props.v
theories/Mfl_Model.v
theories/Mfl_Spec.v
theories/Mfl_Proofs.v
theories/Mfl_Proofs2.v
theories/Mfl_Props.v
theories/Wdf_Model.v
theories/Wdf_Spec.v
theories/Wdf_Proofs.v
theories/Wdf_Props.v
theories/Mpq_Model.v
theories/Mpq_Proofs.v
theories/Mpq_Props.v
theories/Mpa_Model.v
theories/Mpa_Props.v
theories/Mpq_Props2.v
theories/Sde_Props2.v
