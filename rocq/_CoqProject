-Q theories Verif
theories/Base.v
theories/Model_Grid.v
theories/Model_Float.v
theories/Spec_Grid.v
theories/Proofs_Base.v
theories/Proofs_Grid.v
theories/Props_Grid.v
theories/Model_Region.v
theories/Spec_Region.v
theories/Proofs_Region.v
theories/Props_Region.v
theories/Model_Quad.v
theories/Spec_Quad.v
theories/Spec_Interp.v
theories/Proofs_Quad.v
theories/Proofs_Zonalize.v
theories/Proofs_Interp.v
theories/Proofs_Box.v
theories/Props_Quad.v
theories/Model_Deriv.v
theories/Spec_Deriv.v
theories/Proofs_Deriv.v
theories/Props_Deriv.v
theories/Model_Spectral.v
theories/Spec_Spectral.v
theories/Proofs_Spectral.v
theories/Spec_Instance.v
theories/Proofs_Instance.v
theories/Props_Spectral.v
theories/Model_Time.v
theories/Model_State.v
theories/Model_Lazy.v
theories/Spec_State.v
theories/Proofs_Lazy.v
theories/Proofs_State.v
theories/Props_State.v
theories/Model_Run.v
theories/Spec_Run.v
theories/Proofs_Run.v
theories/Proofs_Times.v
theories/Proofs_Save.v
theories/Model_Init.v
theories/Proofs_Step.v
theories/Props_Run.v
theories/Model_RHS.v
theories/Spec_RHS.v
theories/Proofs_RHS.v
theories/Proofs_Orog.v
theories/Props_RHS.v
theories/Model_StateList.v
theories/Spec_StateList.v
theories/Proofs_StateList.v
theories/Props_StateList.v
theories/Props_Init.v
theories/Model_Format.v
theories/Props_Format.v
theories/Model_Plot.v
theories/Proofs_Plot.v
theories/Props_Plot.v
theories/Model_Filter.v
theories/Spec_Filter.v
theories/Proofs_Trig.v
theories/Proofs_Filter.v
theories/Props_Filter.v
theories/Model_Fourier.v
theories/Spec_Fourier.v
theories/Proofs_Fourier.v
theories/Props_Fourier.v
theories/Model_Falwa.v
theories/Spec_Falwa.v
theories/Proofs_Falwa.v
theories/Props_Falwa.v
theories/Model_Ks.v
theories/Spec_Ks.v
theories/Proofs_Ks.v
theories/Props_Ks.v
theories/Model_IO.v
theories/Spec_IO.v
theories/Proofs_IO.v
theories/Proofs_From.v
theories/Proofs_As.v
theories/Proofs_Plain.v
theories/Proofs_Round.v
theories/Props_IO.v
theories/Spec_Calculus.v
theories/Proofs_Calculus.v
theories/Props_Calculus.v
theories/Model_Wavelet.v
theories/Spec_Wavelet.v
theories/Proofs_Wavelet.v
theories/Props_Wavelet.v
theories/Proofs_Profile.v
theories/Props_Profile.v
theories/Model_Figure.v
theories/Spec_Figure.v
theories/Proofs_Figure.v
theories/Props_Figure.v
theories/Model_Repr.v
theories/Spec_Repr.v
theories/Proofs_Repr.v
theories/Props_Repr.v
theories/Model_Shortcuts.v
theories/Props_Shortcuts.v
theories/Spec_Float.v
theories/Proofs_Float.v
theories/Props_Float.v
theories/Spec_FloatRun.v
theories/Proofs_FloatRun.v
theories/Props_FloatRun.v
theories/Spec_Sym.v
theories/Proofs_Sym.v
theories/Spec_Units.v
theories/Proofs_Units.v
theories/Props_Sym.v
theories/Spec_Symmetry.v
theories/Proofs_Symmetry.v
theories/Proofs_SymInst.v
theories/Props_Symmetry.v
theories/Spec_SymForcing.v
theories/Proofs_SymForcing.v
theories/Props_SymForcing.v
theories/Spec_Mirror.v
theories/Proofs_Mirror.v
theories/Props_Mirror.v
theories/Spec_Levels.v
theories/Props_Levels.v
theories/Spec_Relax.v
theories/Proofs_Recur.v
theories/Proofs_Relax.v
theories/Props_Relax.v
theories/Spec_KsSym.v
theories/Proofs_KsSym.v
theories/Props_KsSym.v
theories/Props_RegionMean.v
theories/Model_Dispatch.v
theories/Props_Dispatch.v
theories/Spec_FourierSym.v
theories/Proofs_FourierSym.v
theories/Props_FourierSym.v
theories/Props_KsAccuracy.v
theories/Model_Ranges.v
theories/Spec_Ranges.v
theories/Props_Ranges.v
theories/Props_FourierOdd.v
theories/Props_DerivFactor.v
theories/Model_FloatGrid.v
theories/Spec_FloatGrid.v
theories/Proofs_FloatGrid.v
theories/Props_FloatGrid.v
theories/Spec_Parseval.v
theories/Props_Parseval.v
theories/Model_Single.v
theories/Spec_Single.v
theories/Proofs_Single.v
theories/Props_Single.v
theories/Model_FloatPick.v
theories/Spec_FloatPick.v
theories/Proofs_FloatPick.v
theories/Props_FloatPick.v
theories/Spec_Waves.v
theories/Spec_Simpson.v
theories/Proofs_WaveRec.v
theories/Proofs_Waves.v
theories/Proofs_Simpson.v
theories/Props_Waves.v
theories/Proofs_Poly.v
theories/Spec_Harmonics.v
theories/Proofs_Legendre.v
theories/Proofs_HarmQuad.v
theories/Proofs_HarmSum.v
theories/Proofs_Harmonics.v
theories/Proofs_HarmSym.v
theories/Proofs_HarmProd.v
theories/Proofs_HarmField.v
theories/Props_Harmonics.v
theories/Spec_Conserve.v
theories/Proofs_HarmCons.v
theories/Proofs_Conserve.v
theories/Props_Conserve.v
theories/Model_Dtype.v
theories/Spec_Dtype.v
theories/Proofs_Dtype.v
theories/Props_Dtype.v
theories/Model_FloatIO.v
theories/Proofs_FloatIO.v
theories/Props_FloatIO.v
theories/Proofs_Diffusion.v
theories/Props_Diffusion.v
theories/Model_Memory.v
theories/Spec_Memory.v
theories/Proofs_Memory.v
theories/Props_Memory.v
theories/Model_Machine.v
theories/Spec_Machine.v
theories/Proofs_Machine.v
theories/Props_Machine.v
theories/Model_Inplace.v
theories/Spec_Inplace.v
theories/Proofs_Inplace.v
theories/Props_Inplace.v
theories/Model_Mountain.v
theories/Spec_Mountain.v
theories/Proofs_Mountain.v
theories/Props_Mountain.v
theories/Spec_PVSource.v
theories/Proofs_PVSource.v
theories/Props_PVSource.v
theories/Spec_Torque.v
theories/Proofs_Torque.v
theories/Props_Torque.v
theories/Spec_Elapsed.v
theories/Proofs_Elapsed.v
theories/Props_Elapsed.v
theories/Props_TorqueRelax.v
theories/Spec_Switch.v
theories/Props_Switch.v
