-Q theories Verif
theories/Cpp.v
theories/Model_bits.v
theories/Spec_bits.v
theories/Proof_bits.v
theories/Prop_bits.v
theories/Model_crc.v
theories/Spec_crc.v
theories/Proof_crc.v
theories/Prop_crc.v
theories/Lib_orbit.v
theories/Lib_fermat.v
theories/Lib_prime.v
theories/Lib_gf2lin.v
theories/Lib_gf2poly.v
theories/Model_xorshift.v
theories/Spec_xorshift.v
theories/Proof_xorshift.v
theories/Prop_xorshift.v
theories/Lib_list.v
theories/Model_perm.v
theories/Spec_perm.v
theories/Proof_perm1.v
theories/Proof_perm2.v
theories/Proof_perm3.v
theories/Prop_perm.v
theories/Model_sort.v
theories/Spec_sort.v
theories/Proof_sort.v
theories/Prop_sort.v
theories/Spec_gf.v
theories/Lib_gf.v
theories/Model_mls.v
theories/Proof_mls.v
theories/Prop_mls.v
theories/Model_gf.v
theories/Lib_field.v
theories/Proof_gf.v
theories/Proof_gfref.v
theories/Proof_gffield.v
theories/Prop_gf.v
theories/Lib_poly.v
theories/Model_pf.v
theories/Proof_pf.v
theories/Prop_pf.v
theories/Model_crs.v
theories/Proof_crs1.v
theories/Proof_crs2.v
theories/Prop_crs.v
theories/Model_cpf.v
theories/Proof_pffield.v
theories/Proof_cpf.v
theories/Prop_cpf.v
theories/Model_wht.v
theories/Spec_wht.v
theories/Lib_wht.v
theories/Proof_wht.v
theories/Proof_wht2.v
theories/Prop_wht.v
theories/Model_sbch.v
theories/Spec_sbch.v
theories/Proof_sbch.v
theories/Proof_sbch2.v
theories/Prop_sbch.v
theories/Model_rs.v
theories/Lib_rs.v
theories/Spec_rs.v
theories/Proof_rs1.v
theories/Proof_rs2.v
theories/Proof_rs3.v
theories/Proof_rs4.v
theories/Proof_rs5.v
theories/Proof_rs6.v
theories/Proof_rs7.v
theories/Proof_rs8.v
theories/Prop_rs.v
theories/Model_bch.v
theories/Spec_bch.v
theories/Proof_bch1.v
theories/Proof_bch2.v
theories/Proof_bch3.v
theories/Proof_bch4.v
theories/Proof_bch5.v
theories/Prop_bch.v
theories/Model_simd.v
theories/Model_ldpc.v
theories/Spec_ldpc.v
theories/Proof_simd.v
theories/Proof_ldpc1.v
theories/Proof_ldpc2.v
theories/Proof_ldpc3.v
theories/Proof_ldpc4.v
theories/Proof_ldpc5.v
theories/Proof_ldpc6.v
theories/Proof_ldpc7.v
theories/Proof_ldpc8.v
theories/Proof_ldpc9.v
theories/Proof_ldpc10.v
theories/Proof_ldpc11.v
theories/Prop_ldpc.v
theories/Model_polar.v
theories/Spec_polar.v
theories/Proof_polar1.v
theories/Proof_polar2.v
theories/Proof_polar3.v
theories/Proof_polar4.v
theories/Proof_polar5.v
theories/Proof_polar6.v
theories/Proof_polar7.v
theories/Prop_polar.v
theories/Model_polar_list.v
theories/Spec_polar_list.v
theories/Proof_plist1.v
theories/Proof_plist2.v
theories/Proof_plist3.v
theories/Proof_plist4.v
theories/Proof_plist5.v
theories/Proof_plist6.v
theories/Proof_plist7.v
theories/Prop_polar_list.v
theories/Model_polar_const.v
theories/Spec_polar_const.v
theories/Proof_pconst1.v
theories/Proof_pconst2.v
theories/Prop_polar_const.v
theories/Model_osd.v
theories/Spec_osd.v
theories/Proof_osd1.v
theories/Proof_osd2.v
theories/Proof_osd3.v
theories/Proof_osd4.v
theories/Proof_osd5.v
theories/Proof_osd6.v
theories/Proof_osd7.v
theories/Proof_osd8.v
theories/Prop_osd.v
theories/Model_simd2.v
theories/Model_intrin.v
theories/Model_backend.v
theories/Spec_simd.v
theories/Proof_simd2.v
theories/Proof_intrin.v
theories/Proof_backend.v
theories/Proof_shuf.v
theories/Prop_simd.v
theories/Prop_backend.v
theories/Prop_backend_shuf.v
theories/Prop_distance.v
theories/Prop_mls2.v
theories/Spec_polar_float.v
theories/Lib_float.v
theories/Lib_sim.v
theories/Model_polar_float.v
theories/Proof_polarf0.v
theories/Proof_polarf1.v
theories/Proof_polarf2.v
theories/Prop_polar_float.v
theories/Prop_quant.v
theories/Prop_wht2.v
theories/Prop_crc2.v
theories/Spec_chase.v
theories/Proof_sbch3.v
theories/Prop_sbch2.v
theories/Spec_osd2.v
theories/Proof_osd9.v
theories/Prop_osd2.v
theories/Spec_ieee.v
theories/Model_fsimd.v
theories/Proof_ieee.v
theories/Lib_float2.v
theories/Proof_fsimd1.v
theories/Prop_fsimd.v
theories/Proof_fsimd2.v
theories/Prop_fsimd2.v
theories/Model_polar_listf.v
theories/Spec_polar_listf.v
theories/Lib_float3.v
theories/Proof_plf0.v
theories/Proof_plf1.v
theories/Proof_plf2.v
theories/Proof_plf3.v
theories/Proof_plf4.v
theories/Proof_plf5.v
theories/Proof_plf6.v
theories/Proof_plf7.v
theories/Proof_plf8.v
theories/Proof_plf9.v
theories/Prop_polar_listf.v
theories/Prop_xorshift2.v
theories/Model_crs_bytes.v
theories/Proof_crs_bytes.v
theories/Prop_crs_bytes.v
theories/Model_dvb.v
theories/Proof_dvb.v
theories/Prop_dvb.v
theories/Proof_polar_sym.v
theories/Prop_polar_sym.v
theories/Proof_osd_sym.v
theories/Prop_osd_sym.v
theories/Proof_translate.v
theories/Prop_translate.v
theories/Proof_turn.v
theories/Prop_turn.v
theories/Model_gflife.v
theories/Prop_gflife.v
theories/Prop_polar_distance.v
theories/Prop_burst.v
theories/Spec_polar_erasure.v
theories/Proof_polar_erasure.v
theories/Proof_polar_erasure2.v
theories/Prop_polar_erasure.v
theories/Prop_polar_nested.v
theories/Prop_polar_listcap.v
theories/Model_polar_listg.v
theories/Proof_plg1.v
theories/Proof_plg2.v
theories/Prop_polar_listg.v
theories/Model_polar_table.v
theories/Proof_ptable.v
theories/Prop_polar_table.v
theories/Model_polar_crc.v
theories/Prop_polar_crc.v
theories/Spec_polar_one.v
theories/Proof_pone.v
theories/Prop_polar_one.v
theories/Model_polar_chain.v
theories/Prop_polar_chain.v
theories/Model_polar_lchain.v
theories/Prop_polar_lchain.v
theories/Proof_ldpc12.v
theories/Spec_ldpc_turn.v
theories/Proof_ldpc13.v
theories/Prop_ldpc_turn.v
