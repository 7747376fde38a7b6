-Q theories Verif
theories/AddProofs.v
theories/Basic.v
theories/BasicProofs.v
theories/BigInt.v
theories/BigIntBitwise.v
theories/BigIntConv.v
theories/BigIntDiv.v
theories/BigIntFree.v
theories/BigIntHolds.v
theories/BigIntMore.v
theories/BigIntMul.v
theories/BigIntProofs.v
theories/BigIntShift.v
theories/BigIntSpec.v
theories/Bits.v
theories/BitsProofs.v
theories/BitsSpec.v
theories/CbrtProofs.v
theories/Compare.v
theories/CompareProofs.v
theories/DdProofs.v
theories/Dyadic.v
theories/DyadicArith.v
theories/DyadicFast.v
theories/DyadicMA.v
theories/DyadicProofs.v
theories/DyadicQuick.v
theories/DyadicSpec.v
theories/Eft.v
theories/EftProofs.v
theories/ErrLib.v
theories/ExactOps.v
theories/Exp2fProofs.v
theories/ExpD.v
theories/ExpDFin.v
theories/ExpDNum.v
theories/ExpDProofs.v
theories/ExpDWrap.v
theories/ExpM1.v
theories/ExpfProofs.v
theories/Expm1Proofs.v
theories/Expm1Wrap.v
theories/ExpoData.v
theories/ExpoDataD.v
theories/ExpoF.v
theories/ExpoFWrap.v
theories/Ext.v
theories/ExtAcc.v
theories/ExtCubic.v
theories/ExtFloat.v
theories/ExtFloatProofs.v
theories/ExtFloatSpec.v
theories/ExtFract.v
theories/ExtInterp.v
theories/ExtProofs.v
theories/FOps.v
theories/FOpsProofs.v
theories/FPBits.v
theories/FPBitsProofs.v
theories/FPBuild.v
theories/FloatSpec.v
theories/Fma.v
theories/FmaProofs.v
theories/FmaSpec.v
theories/Fmanip.v
theories/FmanipProofs.v
theories/FmanipWide.v
theories/Fmt.v
theories/FmtProofs.v
theories/GenOps.v
theories/GenOpsProofs.v
theories/HypotProofs.v
theories/InvAcc.v
theories/InvAtan.v
theories/InvAtan2.v
theories/InvNum.v
theories/InvPoly.v
theories/InvSpecial.v
theories/InvTrig.v
theories/LdexpProofs.v
theories/Lerp.v
theories/LerpProofs.v
theories/Log1p.v
theories/Log1pDD.v
theories/Log1pF.v
theories/Log1pNum.v
theories/Log1pProofs.v
theories/Log1pWrap.v
theories/Log2DFar.v
theories/Log2DNear.v
theories/Log2fNum.v
theories/Log2fProofs.v
theories/LogD.v
theories/LogDCore.v
theories/LogDFar.v
theories/LogDNear.v
theories/LogDNum.v
theories/LogDRed.v
theories/LogDRem.v
theories/LogDTab.v
theories/LogDWrap.v
theories/LogDataD.v
theories/LogRed.v
theories/LogfNum.v
theories/LogfProofs.v
theories/LogfWrap.v
theories/MachInt.v
theories/Nearest.v
theories/NearestInt.v
theories/NearestProofs.v
theories/NextProofs.v
theories/NormFloat.v
theories/PhFin.v
theories/PhInt.v
theories/PhReal.v
theories/PopcountProofs.v
theories/Power.v
theories/Powf.v
theories/PowfAcc.v
theories/PowfBase.v
theories/PowfDD.v
theories/PowfData.v
theories/PowfExp.v
theories/PowfFast.v
theories/PowfKer.v
theories/PowfNeg1.v
theories/PowfNum.v
theories/PowfPat.v
theories/PowfRed.v
theories/PowfScale.v
theories/PowfSlow.v
theories/PowfSmall.v
theories/PowfSpecial.v
theories/PowfTab.v
theories/Props_Basic.v
theories/Props_BigInt.v
theories/Props_Bits.v
theories/Props_Dyadic.v
theories/Props_DyadicMA.v
theories/Props_Eft.v
theories/Props_Expm1.v
theories/Props_Expo.v
theories/Props_ExpoD.v
theories/Props_Ext.v
theories/Props_ExtAcc.v
theories/Props_ExtCubic.v
theories/Props_ExtFloat.v
theories/Props_Float.v
theories/Props_Fma.v
theories/Props_Fmanip.v
theories/Props_GenOps.v
theories/Props_InvTrig.v
theories/Props_Lerp.v
theories/Props_Log.v
theories/Props_Log1p.v
theories/Props_LogD.v
theories/Props_Nearest.v
theories/Props_Power.v
theories/Props_Powf.v
theories/Props_PowfAcc.v
theories/Props_Simd.v
theories/Props_Sqrt.v
theories/Props_Trig.v
theories/Props_Types.v
theories/RelErr.v
theories/RemProofs.v
theories/RemquoProofs.v
theories/RoundMore.v
theories/RoundProofs.v
theories/ScalbnProofs.v
theories/Simd.v
theories/SimdFloat.v
theories/SimdFloatSpec.v
theories/SimdProofs.v
theories/SimdReduce.v
theories/SimdSpec.v
theories/SinD.v
theories/SinDref.v
theories/SinF.v
theories/SinNum.v
theories/SinPoly.v
theories/SinRec.v
theories/SinRed.v
theories/SinRedF.v
theories/Sqrt.v
theories/SqrtProofs.v
theories/SqrtSpec.v
theories/TanAcc.v
theories/TaylorExp.v
theories/Trig.v
