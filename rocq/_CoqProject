-Q theories Verif
theories/Base.v
theories/FinSum.v
theories/Fourier.v
theories/Matrix.v
theories/Model_Prop.v
theories/Spec_Prop.v
theories/Proofs_Prop.v
theories/Proofs_AS.v
theories/Properties_Prop.v
theories/Model_Image.v
theories/Spec_Image.v
theories/Proofs_Image.v
theories/Properties_Image.v
theories/Model_Geom.v
theories/Spec_Geom.v
theories/Proofs_Geom.v
theories/Properties_Geom.v
theories/Model_Interact.v
theories/Spec_Interact.v
theories/Proofs_Interact.v
theories/Properties_Interact.v
theories/Model_Meas.v
theories/Spec_Meas.v
theories/Proofs_Meas.v
theories/Properties_Meas.v
theories/Model_Recon.v
theories/Spec_Recon.v
theories/Proofs_Recon.v
theories/Proofs_ReconGen.v
theories/Model_Optim.v
theories/Spec_Optim.v
theories/Proofs_Optim.v
theories/Proofs_ReconTight.v
theories/Properties_Recon.v
theories/Properties_Optim.v
theories/Model_Loss.v
theories/Spec_Loss.v
theories/Proofs_Loss.v
theories/Proofs_LossEpoch.v
theories/Properties_Loss.v
theories/Model_Ckpt.v
theories/Spec_Ckpt.v
theories/Proofs_Ckpt.v
theories/Properties_Ckpt.v
theories/Model_Dataset.v
theories/Spec_Dataset.v
theories/Proofs_Dataset.v
theories/Properties_Dataset.v
theories/Model_H5.v
theories/Spec_H5.v
theories/Proofs_H5.v
theories/Properties_H5.v
theories/Model_Cxi.v
theories/Spec_Cxi.v
theories/Proofs_Cxi.v
theories/Proofs_CxiDataset.v
theories/Properties_Cxi.v
theories/Properties_CxiTight.v
theories/Model_Reload.v
theories/Spec_Reload.v
theories/Proofs_Reload.v
theories/Properties_Reload.v
theories/Properties_ReloadLimits.v
theories/Model_Analysis.v
theories/Spec_Analysis.v
theories/Proofs_SVD.v
theories/Proofs_Ortho.v
theories/Proofs_SVDExists.v
theories/Properties_Ortho.v
theories/Proofs_Standard.v
theories/Properties_Standard.v
theories/Proofs_Metrics.v
theories/Proofs_FRC.v
theories/Properties_Metrics.v
theories/Properties_Entropy.v
theories/Model_Inspect.v
theories/Spec_Inspect.v
theories/Proofs_Inspect.v
theories/Properties_Inspect.v
theories/Model_Models.v
theories/Spec_Models.v
theories/Proofs_Models.v
theories/Properties_Models.v
theories/Model_Forward.v
theories/Spec_Forward.v
theories/Proofs_Forward.v
theories/Properties_Forward.v
theories/Proofs_ForwardSym.v
theories/Properties_ForwardSym.v
theories/Properties_ForwardPower.v
theories/Properties_ForwardShift.v
theories/Properties_Multislice.v
theories/Properties_RPI.v
theories/Properties_Bragg.v
theories/Properties_Sinc.v
theories/Properties_Tidy.v
theories/Model_Center.v
theories/Properties_Center.v
theories/Model_Shift.v
theories/Properties_Shift.v
theories/Properties_Construct.v
theories/Model_Init.v
theories/Spec_Init.v
theories/Properties_Init.v
theories/Properties_FromData.v
theories/Model_InitSlices.v
theories/Spec_InitSlices.v
theories/Properties_FromSlices.v
theories/Model_HighNA.v
theories/Spec_HighNA.v
theories/Properties_HighNA.v
theories/Model_InitBragg.v
theories/Spec_InitBragg.v
theories/Properties_FromBragg.v
theories/Model_InitRPI.v
theories/Spec_InitRPI.v
theories/Properties_FromRPI.v
theories/Properties_FromRPI2.v
theories/Properties_FromGrid.v
theories/Model_Sets.v
theories/Spec_Sets.v
theories/Proofs_Sets.v
theories/Properties_Sets.v
theories/Properties_Pairs.v
theories/Model_Synth.v
theories/Spec_Synth.v
theories/Properties_Synth.v
theories/Properties_PRTF.v
theories/Model_Spectral.v
theories/Properties_Spectral.v
theories/Model_Multi2D.v
theories/Spec_Multi2D.v
theories/Proofs_Multi2D.v
theories/Properties_Multi2D.v
theories/Model_Browse.v
theories/Spec_Browse.v
theories/Proofs_Browse.v
theories/Properties_Browse.v
theories/Model_Frame.v
theories/Spec_Frame.v
theories/Proofs_Frame.v
theories/Properties_Frame.v
theories/Model_Color.v
theories/Spec_Color.v
theories/Proofs_Color.v
theories/Properties_Color.v
theories/Model_Finite.v
theories/Spec_Finite.v
theories/Proofs_Finite.v
theories/Properties_Finite.v
theories/Model_Deconv.v
theories/Spec_Deconv.v
theories/Properties_Deconv.v
theories/Model_Compare.v
theories/Spec_Compare.v
theories/Properties_Compare.v
theories/Model_Peruse.v
theories/Properties_Peruse.v
theories/Model_Wavefront.v
theories/Properties_Wavefront.v
theories/Properties_Rhos.v
theories/Properties_TidySlices.v
theories/Model_ForwardFinite.v
theories/Properties_ForwardFinite.v
