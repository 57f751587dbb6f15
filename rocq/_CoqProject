-Q theories Verif
theories/Spec.v
theories/Model_Config.v
theories/Model_Limb.v
theories/Base.v
theories/Limb_proofs.v
theories/Kara_proofs.v
theories/Model_Dec.v
theories/Spec_Dec.v
theories/Uwrap_proofs.v
theories/Add_proofs.v
theories/Value_proofs.v
theories/Sum_proofs.v
theories/Addlaws_proofs.v
theories/Mul_proofs.v
theories/Cmp_proofs.v
theories/Int_proofs.v
theories/Int2_proofs.v
theories/Model_Misc.v
theories/Misc_proofs.v
theories/Laws_proofs.v
theories/Witness.v
theories/Refute_arith.v
theories/Properties_Arith.v
theories/Model_Util.v
theories/Spec_Util.v
theories/Util_proofs.v
theories/Properties_Util.v
theories/Spec_Round.v
theories/Model_Round.v
theories/Round_proofs.v
theories/Floor_proofs.v
theories/ToInt_proofs.v
theories/Refute_round.v
theories/Properties_Round.v
theories/Model_Str.v
theories/Spec_Str.v
theories/Parse_proofs.v
theories/Parse2_proofs.v
theories/Print_proofs.v
theories/Print2_proofs.v
theories/Print3_proofs.v
theories/Print4_proofs.v
theories/Refute_str.v
theories/Properties_Str.v
theories/Model_Float.v
theories/Float_proofs.v
theories/Model_Inv.v
theories/Model_Sqrt.v
theories/Top_proofs.v
theories/Prec_proofs.v
theories/Newton_proofs.v
theories/Newton2_proofs.v
theories/Newton3_proofs.v
theories/Addp_proofs.v
theories/Sqrtnum_proofs.v
theories/Sqrtop_proofs.v
theories/Estimate_proofs.v
theories/Estimate2_proofs.v
theories/Estimate3_proofs.v
theories/Sqrt_proofs.v
theories/Sqrt2_proofs.v
theories/Sqrt3_proofs.v
theories/Topr_proofs.v
theories/Div_proofs.v
theories/Exact_proofs.v
theories/Pow_proofs.v
theories/Div2_proofs.v
theories/Refute_func.v
theories/Func_proofs.v
theories/Spec_Hist.v
theories/Hist_proofs.v
theories/Properties_Func.v
theories/Sqrt4_proofs.v
theories/Properties_Sqrt.v
theories/Model_Fft.v
theories/Spec_Fft.v
theories/Fft_proofs.v
theories/Refute_fft.v
theories/Properties_Fft.v
theories/Model_Log.v
theories/Log_proofs.v
theories/Properties_Log.v
theories/Model_Conv.v
theories/Conv_proofs.v
theories/Conv2_proofs.v
theories/Spec_Conv.v
theories/Conv3_proofs.v
theories/Conv4_proofs.v
theories/Conv5_proofs.v
theories/Conv6_proofs.v
theories/Conv7_proofs.v
theories/Conv8_proofs.v
theories/Properties_Conv.v
theories/Model_Rem.v
theories/Fmod_proofs.v
theories/Fmod2_proofs.v
theories/Frexp_proofs.v
theories/Frexp2_proofs.v
theories/Frexp3_proofs.v
theories/Properties_Rem.v
theories/Model_Exp.v
theories/Real_proofs.v
theories/Const_proofs.v
theories/Spec_Real.v
theories/Const2_proofs.v
theories/Exp_proofs.v
theories/Exp2_proofs.v
theories/Exp3_proofs.v
theories/Exp4_proofs.v
theories/Exp5_proofs.v
theories/Refute_exp.v
theories/Log2_proofs.v
theories/Log3_proofs.v
theories/Log4_proofs.v
theories/Refute_log.v
theories/Hyp_proofs.v
theories/Powr_proofs.v
theories/Properties_Exp.v
theories/Model_Transform.v
theories/Spec_Transform.v
theories/Transform_proofs.v
theories/Transform2_proofs.v
theories/Transform3_proofs.v
theories/Transform4_proofs.v
theories/Transform5_proofs.v
theories/Sine_proofs.v
theories/Properties_Transform.v
theories/Model_Root.v
theories/Spec_Root.v
theories/Rootnum_proofs.v
theories/Rootop_proofs.v
theories/Rootop2_proofs.v
theories/Rootpow_proofs.v
theories/Rootstep_proofs.v
theories/Rootloop_proofs.v
theories/Rootstart_proofs.v
theories/Rootn_proofs.v
theories/Rootn2_proofs.v
theories/Rootn3_proofs.v
theories/Rootinv_proofs.v
theories/Properties_Root.v
theories/Spec_Mem.v
theories/Indep_proofs.v
theories/Indep2_proofs.v
theories/Ftlocal_proofs.v
theories/Ftlocal2_proofs.v
theories/Properties_Indep.v
theories/Mono_proofs.v
theories/Mono2_proofs.v
theories/Mono3_proofs.v
theories/Properties_Mono.v
theories/Zero_proofs.v
theories/Inverse_proofs.v
theories/Fmod3_proofs.v
theories/Properties_Inverse.v
