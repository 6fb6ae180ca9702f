-Q theories Verif
theories/Scalar.v
theories/Tensor.v
theories/TensorLemmas.v
theories/TensorOps.v
theories/TensorAlg.v
theories/TensorTac.v
theories/TensorList.v
theories/Spec.v
theories/Shapes.v
theories/Algebra.v
theories/M_Mat.v
theories/P_Mat.v
theories/Properties_Mat.v
theories/M_LtiRecur.v
theories/P_LtiRecur.v
theories/Properties_LtiRecur.v
theories/M_Kernels.v
theories/P_Kernels.v
theories/P_KernelOps.v
theories/P_Scan.v
theories/P_Helion.v
theories/M_Int32.v
theories/Properties_Kernels.v
theories/M_LtiSsm.v
theories/P_SsSpec.v
theories/P_LtiSsm.v
theories/Properties_LtiSsm.v
theories/M_LpvRecur.v
theories/P_LpvRecur.v
theories/Properties_LpvRecur.v
theories/M_Ext.v
theories/M_LpvSsm.v
theories/P_LpvSsm.v
theories/P_LpvSs.v
theories/Properties_LpvSsm.v
theories/P_Cumdot.v
theories/P_LpvBlk.v
theories/P_Unroll.v
theories/Properties_Unroll.v
theories/M_LtiFilter.v
theories/SpecFilter.v
theories/P_Filter.v
theories/P_LtiFilter.v
theories/P_LtiFilter2.v
theories/P_LtiFilter3.v
theories/P_LtiFilter4.v
theories/Properties_LtiFilter.v
theories/Properties_LtiFilter2.v
theories/M_LpvFilter.v
theories/SpecLpv.v
theories/P_LpvAlg.v
theories/P_LpvFilter.v
theories/P_LpvFilter2.v
theories/Properties_LpvFilter.v
theories/Properties_LpvFilter2.v
theories/M_Poly.v
theories/SpecPoly.v
theories/P_Poly.v
theories/Properties_Poly.v
theories/M_ProtoPoly.v
theories/P_ProtoPoly.v
theories/P_ProtoPoly2.v
theories/Properties_ProtoPoly.v
theories/M_Newton.v
theories/P_Newton.v
theories/Properties_Newton.v
theories/Ordered.v
theories/SpecInterp.v
theories/M_Interp.v
theories/P_Interp.v
theories/P_Interp2.v
theories/P_Interp3.v
theories/Qsqrt3.v
theories/Properties_Interp.v
theories/M_Diag.v
theories/SpecDiag.v
theories/P_Diag.v
theories/P_Diag2.v
theories/P_Diag3.v
theories/LinalgEx.v
theories/Properties_Diag.v
theories/P_Diag4.v
theories/P_Diag5.v
theories/Properties_Diag2.v
theories/M_Autograd.v
theories/SpecAutograd.v
theories/P_Autograd.v
theories/P_Autograd2.v
theories/P_Autograd3.v
theories/Properties_Autograd.v
theories/M_Signal.v
theories/SpecPfe.v
theories/P_Formal.v
theories/P_Signal.v
theories/P_Signal2.v
theories/P_Series.v
theories/P_Taylor.v
theories/P_Signal3.v
theories/P_Signal4.v
theories/P_Signal5.v
theories/Properties_Signal.v
theories/Properties_Signal2.v
theories/P_Kernels2.v
theories/Properties_Kernels2.v
theories/P_LpvSs2.v
theories/Properties_Rel.v
theories/Properties_Rel2.v
theories/P_LpvFilter5.v
theories/Properties_Rel3.v
theories/M_Autograd2.v
theories/P_Autograd4.v
theories/Properties_Autograd2.v
theories/P_System.v
theories/P_Adjoint.v
theories/SpecSystem.v
theories/Properties_System.v
theories/Properties_Adjoint.v
theories/P_Bank.v
theories/Properties_Bank.v
theories/Properties_Args.v
theories/SpecDeriv.v
theories/P_Deriv.v
theories/P_Deriv2.v
theories/Properties_Deriv.v
theories/Properties_Deriv2.v
theories/M_Dtype.v
theories/SpecDtype.v
theories/Properties_Dtype.v
theories/M_Dtype2.v
theories/Properties_Dtype2.v
theories/SpecRound.v
theories/P_Round.v
theories/P_Round2.v
theories/P_Round3.v
theories/P_Round4.v
theories/P_Round5.v
theories/FloatQ.v
theories/Properties_Round.v
theories/Properties_Round2.v
theories/SpecStable.v
theories/P_Stable.v
theories/Properties_Stable.v
theories/P_Exact.v
theories/Properties_Exact.v
theories/SpecResponse.v
theories/P_Response.v
theories/Properties_Response.v
theories/P_Round6.v
theories/P_Round7.v
theories/Properties_Round3.v
theories/P_Deriv3.v
theories/Properties_Deriv3.v
theories/M_Dtype3.v
theories/Properties_Dtype3.v
theories/P_Round8.v
theories/P_Round9.v
theories/Properties_Round4.v
theories/P_Round10.v
theories/P_Round11.v
theories/Properties_Round5.v
theories/SpecBits.v
theories/P_Bits.v
theories/P_Bits2.v
theories/Properties_Bits.v
theories/P_Bits3.v
theories/Properties_Bits2.v
theories/SpecBits2.v
theories/P_Bits4.v
theories/P_Bits5.v
theories/P_Bits6.v
theories/Properties_Bits3.v
theories/Properties_Kernels3.v
theories/Properties_Bits4.v
theories/SpecBits3.v
theories/P_Bits7.v
theories/Properties_Bits5.v
theories/SpecScale.v
theories/P_Scale.v
theories/Properties_Scale.v
theories/Properties_Bits6.v
theories/Properties_Bits7.v
theories/SpecZero.v
theories/P_Zero.v
theories/Properties_Zero.v
theories/Properties_Filtfilt.v
