-Q theories Verif
theories/Num.v
theories/NumPy.v
theories/Base.v
theories/M_CH.v
theories/M_D.v
theories/M_PS.v
theories/GetCvi.v
theories/BaseCls.v
theories/Lists.v
theories/Step.v
theories/Step2.v
theories/StepB.v
theories/Det.v
theories/XR.v
theories/Spec.v
theories/Hoare.v
theories/Eval.v
theories/Stream.v
theories/Shapes.v
theories/Generic.v
theories/Refuse.v
theories/Mismatch.v
theories/WrongLen.v
theories/Alias.v
theories/AliasL.v
theories/F64.v
theories/P_Calls.v
theories/P_Base.v
theories/RGeom.v
theories/SpecX.v
theories/XLift.v
theories/XEval.v
theories/XInc.v
theories/XCov.v
theories/XRun.v
theories/XPerm.v
theories/XBatch.v
theories/Obs.v
theories/XCont.v
theories/XSil.v
theories/XSilEx.v
theories/P_Inc.v
theories/XForm.v
theories/XBounds.v
theories/XGap.v
theories/XMis.v
theories/XSim.v
theories/XMove.v
theories/SpecT.v
theories/DetMul.v
theories/XRot.v
theories/XRep.v
theories/P_Formula.v
theories/P_Bounds.v
theories/P_Move.v
theories/P_Degenerate.v
theories/P_Batch.v
theories/P_Wrong.v
theories/P_Alias.v
theories/Nan.v
theories/P_Nan.v
theories/Compat.v
theories/CompatL.v
theories/CompatL2.v
theories/CompatL3.v
theories/CompatL4.v
theories/CompatX.v
theories/CompatH.v
theories/P_Compat.v
theories/P_Compat2.v
theories/Sign.v
theories/P_Sign.v
theories/F64o.v
theories/Rnd.v
theories/RndErr.v
theories/RndMean.v
theories/RndSum.v
theories/RunForm.v
theories/BatchForm.v
theories/RndCl.v
theories/P_Round.v
theories/P_F32.v
theories/P_F32b.v
theories/RndCP.v
theories/RndCP2.v
theories/RndCP3.v
theories/RndCP4.v
theories/P_RoundCP.v
theories/ValForm.v
theories/RndOps.v
theories/RndVal.v
theories/RndCH.v
theories/F32d.v
theories/Rnd32.v
theories/RndMean32.v
theories/RndCl32.v
theories/RndRun.v
theories/P_RoundV.v
theories/RndSel.v
theories/RndVal2.v
theories/RndRun2.v
theories/P_RoundV2.v
theories/PSForm.v
theories/Bnd.v
theories/BndVal.v
theories/P_Bounds64.v
theories/RCForm.v
theories/P_Cov64.v
theories/RndPS.v
theories/RndRunPS.v
theories/P_RoundPS.v
theories/M_Int.v
theories/IntL.v
theories/IntR.v
theories/IntF.v
theories/P_Int.v
theories/RndSil.v
theories/P_RoundSil.v
theories/Mem.v
theories/P_Memory.v
theories/P_Repro.v
theories/CompatC.v
theories/P_Compat3.v
theories/XApart.v
theories/P_Apart.v
theories/P_Tight.v
theories/Inf.v
theories/InfB.v
theories/InfA.v
theories/P_Inf.v
theories/CompSpec.v
theories/Comp.v
theories/CompX.v
theories/P_Comp.v
theories/RndCP32.v
theories/RndValE.v
theories/RndRun32.v
theories/P_F32v.v
theories/RndVal2E.v
theories/RndRun32b.v
theories/P_F32w.v
theories/XOne.v
theories/P_One.v
theories/P_Merge.v
theories/M_Lab.v
theories/P_Lab.v
theories/P_Two.v
theories/XPert.v
theories/P_Pert.v
theories/M_LabB.v
theories/P_LabB.v
theories/XIso.v
theories/P_Iso.v
theories/XPair.v
theories/P_Pair.v
theories/Par.v
theories/ParL.v
theories/ParC.v
theories/Mir.v
theories/P_Par.v
theories/Scal.v
theories/ScalA.v
theories/P_Scal.v
theories/P_Shape.v
theories/Exa.v
theories/P_Exa.v
theories/P_Count.v
theories/Ball.v
theories/P_Ball.v
theories/P_Sil.v
theories/ParK.v
theories/P_ParK.v
theories/P_Neg.v
theories/Alone.v
theories/P_Alone.v
theories/AloneB.v
theories/P_AloneB.v
theories/P_AloneS.v
theories/P_AloneX.v
theories/P_AloneP.v
theories/P_Even.v
theories/P_EvenX.v
theories/P_Centre.v
theories/P_Same.v
theories/P_SameS.v
theories/P_SameX.v
