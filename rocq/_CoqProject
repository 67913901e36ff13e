-Q theories Verif
theories/Base.v
theories/Arith.v
theories/M_Variogram.v
theories/M_Padding.v
theories/M_FftSize.v
theories/M_Grid.v
theories/M_CovGrid.v
theories/M_Fft.v
theories/M_Dsfmt.v
theories/M_Random.v
theories/M_Field.v
theories/M_Api.v
theories/RealArith.v
theories/FloatArith.v
theories/ExampleLib.v
theories/S_Api.v
theories/S_CovGrid.v
theories/S_Sizes.v
theories/S_Room.v
theories/P_Base.v
theories/P_Grid.v
theories/P_Api.v
theories/P_ApiMain.v
theories/P_Field.v
theories/P_Field2.v
theories/P_Field3.v
theories/P_Bounds.v
theories/P_FftSize.v
theories/P_RBounds.v
theories/P_Logs.v
theories/P_Logs2.v
theories/P_Sim.v
theories/P_Sim2.v
theories/P_Overrun.v
theories/P_Padding.v
theories/P_Refute.v
theories/P_Cov.v
theories/Properties_Api.v
theories/Properties_Grid.v
theories/P_QBounds.v
theories/S_Vario.v
theories/P_Vario.v
theories/P_VarioNames.v
theories/P_VarioMore.v
theories/P_VarioKernel.v
theories/P_VarioTables.v
theories/P_VarioF.v
theories/Properties_Vario.v
theories/P_Dft.v
theories/P_DftList.v
theories/S_Spectrum.v
theories/P_DftField.v
theories/P_DftCov.v
theories/P_DftMain.v
theories/P_DftRound.v
theories/P_Convex.v
theories/P_Images.v
theories/P_Images2.v
theories/P_DftProps.v
theories/Properties_Dft.v
theories/M_DsfmtBulk.v
theories/S_Random.v
theories/P_Words.v
theories/P_Rng.v
theories/P_RngInit.v
theories/P_RngBulk.v
theories/P_RngFloat.v
theories/P_RngKer.v
theories/P_RngSame.v
theories/P_RngMain.v
theories/P_RngMore.v
theories/Properties_Random.v
theories/P_NormEnv.v
theories/P_Norm.v
theories/S_Normal.v
theories/P_NormDens.v
theories/P_NormMix.v
theories/P_NormMass.v
theories/P_NormLaw.v
theories/P_NormF.v
theories/S_NormTail.v
theories/P_NormTail.v
theories/S_NormPlane.v
theories/P_NormPlane.v
theories/P_NormPlane2.v
theories/P_NormPlane3.v
theories/P_NormPlane4.v
theories/Properties_Normal.v
theories/M_Race.v
theories/P_Race.v
theories/M_Race3.v
theories/P_Race3.v
theories/Properties_Threads.v
theories/M_Package.v
theories/Properties_Package.v
theories/S_Special.v
theories/P_Special.v
theories/P_Special2.v
theories/P_Units.v
theories/P_SpecialEx.v
theories/P_Room.v
theories/Properties_Special.v
theories/M_Bind.v
theories/S_Bind.v
theories/P_Bind.v
theories/P_Bind2.v
theories/P_Bind3.v
theories/P_Bind4.v
theories/P_Bind5.v
theories/P_Bind6.v
theories/P_Bind7.v
theories/Properties_Bind.v
theories/M_Multi.v
theories/S_Multi.v
theories/P_Multi.v
theories/P_Multi2.v
theories/P_Multi3.v
theories/Properties_Multi.v
theories/M_Util.v
theories/S_Util.v
theories/P_Util.v
theories/P_Util2.v
theories/P_Util3.v
theories/P_Util4.v
theories/P_Util5.v
theories/P_Util6.v
theories/P_Util7.v
theories/P_Util8.v
theories/P_Util9.v
theories/Properties_Util.v
theories/M_Points.v
theories/S_Points.v
theories/P_Points.v
theories/Properties_Points.v
theories/M_SeedFile.v
theories/S_SeedFile.v
theories/P_SeedFile.v
theories/Properties_SeedFile.v
theories/M_Sources.v
theories/S_Sources.v
theories/P_Sources.v
theories/Properties_Sources.v
theories/Properties_Grid2.v
theories/S_CorrF.v
theories/P_CorrF.v
theories/P_CorrF2.v
theories/P_CorrF3.v
theories/P_CorrF4.v
theories/P_CorrF5.v
theories/P_CorrF6.v
theories/P_CorrF7.v
theories/P_CorrF8.v
theories/Properties_CorrF.v
theories/S_Accur.v
theories/P_Accur.v
theories/P_Accur2.v
theories/P_Accur3.v
theories/P_Accur4.v
theories/P_Accur5.v
theories/P_Accur6.v
theories/P_Accur7.v
theories/P_Accur8.v
theories/P_Accur9.v
theories/P_Accur10.v
theories/P_Accur11.v
theories/P_Accur12.v
theories/Properties_Accur.v
theories/P_Seeds.v
theories/Properties_Seeds.v
theories/P_UnitVar.v
theories/Properties_UnitVar.v
theories/M_Resource.v
theories/S_Resource.v
theories/P_Resource.v
theories/Properties_Resource.v
theories/M_Alloc.v
theories/S_Alloc.v
theories/P_Alloc.v
theories/Properties_Alloc.v
theories/M_Fork.v
theories/S_Fork.v
theories/P_Fork.v
theories/Properties_Fork.v
theories/P_Euclid.v
theories/P_FieldE.v
theories/S_FieldF.v
theories/P_FieldF.v
theories/P_FieldG.v
theories/P_FieldH.v
theories/P_FieldI.v
theories/S_FieldH.v
theories/P_NormSize.v
theories/P_FieldJ.v
theories/P_FieldK.v
theories/Properties_FieldF.v
theories/M_Armpl.v
theories/S_Armpl.v
theories/P_Armpl.v
theories/P_Armpl2.v
theories/P_Armpl3.v
theories/P_Armpl4.v
theories/Properties_Armpl.v
theories/P_Args.v
theories/S_Grow.v
theories/P_Grow.v
theories/Properties_Args.v
theories/S_Reach.v
theories/P_Reach.v
theories/S_Mirror.v
theories/P_Mirror.v
theories/P_Args2.v
theories/Properties_Args2.v
theories/M_Large.v
theories/S_Large.v
theories/P_Large.v
theories/Properties_Large.v
theories/S_Damp.v
theories/P_Damp.v
theories/P_Damp2.v
theories/P_Damp3.v
theories/P_Damp4.v
theories/P_Damp5.v
theories/P_Damp6.v
theories/Properties_Damp.v
theories/P_Calls.v
theories/Properties_Calls.v
theories/S_UnitF.v
theories/P_UnitF.v
theories/P_UnitF2.v
theories/P_UnitF3.v
theories/P_UnitF4.v
theories/Properties_UnitF.v
theories/P_FieldL.v
theories/S_SizeF.v
theories/P_SizeF.v
theories/P_SizeF2.v
theories/P_SizeF3.v
theories/Properties_SizeF.v
theories/S_Answer.v
theories/P_Answer.v
theories/P_Answer2.v
theories/P_Answer3.v
theories/Properties_Answer.v
theories/S_NotNum.v
theories/P_NotNum.v
theories/P_NotNum2.v
theories/P_NotNum3.v
theories/P_ZeroRange.v
theories/Properties_NotNum.v
