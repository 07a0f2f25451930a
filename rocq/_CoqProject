-Q theories Verif
theories/Base.v
theories/BaseFacts.v
theories/ZQ.v
theories/ZQFacts.v
theories/ZQFacts2.v
theories/ZQStr.v
theories/SpecZQ.v
theories/SpecZQFacts.v
theories/ZQFacts3.v
theories/Properties_ZQ.v
theories/Util.v
theories/Mod.v
theories/NTT.v
theories/ModFacts.v
theories/NumFermat.v
theories/NumZ.v
theories/UtilFacts.v
theories/Properties_Mod.v
theories/Sums.v
theories/SpecPoly.v
theories/NTTFacts.v
theories/Properties_NTT.v
theories/RQ.v
theories/CRT.v
theories/Conv.v
theories/CRTFacts.v
theories/RQFacts.v
theories/SpecPolyFacts.v
theories/PrimeTable.v
theories/ConvFacts.v
theories/Properties_Conv.v
theories/Par.v
theories/Properties_Par.v
theories/PolyRing.v
theories/PolyCong.v
theories/Core.v
theories/Rot.v
theories/CoreFacts.v
theories/SpecScheme.v
theories/Noise.v
theories/KeygenFacts.v
theories/Properties_Core.v
theories/RotFacts.v
theories/Properties_Rot.v
theories/GSum.v
theories/Matrix.v
theories/MatrixFacts.v
theories/MatMulFacts.v
theories/SpecMat.v
theories/Properties_Mat.v
theories/Properties_Msg.v
theories/DFT.v
theories/DFTTheory.v
theories/DFTFacts.v
theories/FFTFacts.v
theories/SpecDFT.v
theories/Properties_DFT.v
theories/Encode.v
theories/EncodeFacts.v
theories/SpecEnc.v
theories/SlotFacts.v
theories/Properties_Enc.v
theories/Plain.v
theories/PlainFacts.v
theories/Properties_Plain.v
theories/LinTrans.v
theories/LinTransFacts.v
theories/SpecLin.v
theories/LinSlots.v
theories/Properties_Lin.v
theories/GroupFacts.v
theories/GroupSlots.v
theories/Bootstrap.v
theories/BootFacts.v
theories/SpecBoot.v
theories/BootSlots.v
theories/Properties_Boot.v
theories/SpecStatic.v
theories/Properties_Static.v
theories/Poly.v
theories/SpecCheb.v
theories/ChebFacts.v
theories/SpecEval.v
theories/EvalFacts.v
theories/EvalPoly.v
theories/Properties_Poly.v
theories/PiBound.v
theories/CosTaylor.v
theories/PolyZ.v
theories/CosApprox.v
theories/SpecMod.v
theories/ModApprox.v
theories/EvalMod.v
theories/EvalModFacts.v
theories/EvalModBound.v
theories/Properties_EvalMod.v
theories/Pipeline.v
theories/SpecPipe.v
theories/PipeFacts.v
theories/Properties_Pipe.v
theories/Properties_Draws.v
theories/Float.v
theories/SpecFloat.v
theories/FloatFacts.v
theories/FloatError.v
theories/FloatStage.v
theories/FloatMain.v
theories/FloatEnc.v
theories/FloatDec.v
theories/FloatSlots.v
theories/Binary64.v
theories/FloatNum.v
theories/Properties_Float.v
theories/Section3.v
theories/SpecStat.v
theories/StatFacts.v
theories/Properties_Stat.v
theories/Properties_MatErr.v
theories/Properties_Serial.v
theories/StatExamples.v
theories/WideCos.v
theories/WideMod.v
theories/Section4.v
theories/SupFacts.v
theories/Messages.v
theories/MeasFacts.v
theories/Measure.v
theories/EmTest.v
theories/Constants.v
theories/SupRatio.v
theories/Design.v
theories/CtsMeasure.v
theories/CtsProps.v
theories/CtsProg.v
theories/CtsNum.v
theories/TestProg.v
theories/TestArith.v
theories/TestLayers.v
theories/TestLin.v
theories/TestMat.v
theories/TestLinT.v
theories/TestCts.v
theories/TestBoot.v
theories/TestBootP.v
theories/TestE2E.v
theories/SpecFloatLin.v
theories/FloatLin.v
theories/FloatMM.v
theories/FloatGroup.v
theories/FloatSerial.v
theories/FloatGrouped.v
theories/SpecFloatBoot.v
theories/FloatBoot.v
theories/FloatBootSlots.v
theories/FloatBootNum.v
theories/Properties_FloatLin.v
theories/FloatMod.v
theories/SpecFloatMod.v
theories/FloatModFacts.v
theories/FloatModBound.v
theories/Properties_FloatMod.v
theories/SpecFloatPipe.v
theories/FloatPipeFacts.v
theories/FloatPipe.v
theories/Properties_FloatPipe.v
theories/SpecTail.v
theories/Tail.v
theories/TailFacts.v
theories/TailNum.v
theories/Properties_Tail.v
theories/Properties_Exact.v
theories/FloatMsg.v
theories/FloatDot.v
theories/SpecFloatMsg.v
theories/FloatMsgFacts.v
theories/FloatDirect.v
theories/Properties_FloatMsg.v
theories/Properties_FloatDFT.v
theories/Properties_FloatDFT2.v
theories/Properties_FloatMsg2.v
theories/Properties_FloatTail.v
theories/FloatCheb.v
theories/SpecFloatCheb.v
theories/Properties_FloatCheb.v
theories/FloatSetup.v
theories/Properties_FloatSetup.v
theories/FloatTestBoot.v
theories/Properties_FloatTestBoot.v
theories/FloatSimple.v
theories/Properties_FloatSimple.v
theories/FloatEnc2.v
theories/FloatTests.v
theories/Properties_FloatTests.v
theories/Properties_FloatTests2.v
theories/Properties_FloatTests3.v
theories/FloatTestMat.v
theories/Properties_FloatTests4.v
theories/Alias.v
theories/Properties_Alias.v
theories/FloatTestE2E.v
theories/FloatE2EFacts.v
theories/Properties_FloatE2E.v
theories/Properties_ConvWord.v
theories/FloatWide.v
theories/FloatMeasure.v
theories/Properties_FloatMeasure.v
theories/FloatStat.v
theories/Properties_FloatStat.v
theories/Properties_FloatStat2.v
theories/FloatPlain.v
theories/Properties_FloatPlain.v
theories/Properties_FloatPlain2.v
theories/Properties_MatAssert.v
theories/Properties_MatAssert2.v
theories/Properties_ExpAssert.v
theories/Properties_MatAssert3.v
