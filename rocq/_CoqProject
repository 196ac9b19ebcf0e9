-Q theories Verif
theories/M_Prelude.v
theories/Spec_Calendar.v
theories/M_Time.v
theories/P_Time.v
theories/P_Calendar.v
theories/P_Time2.v
theories/W_Time.v
theories/Props_Time.v
theories/Spec_Legendre.v
theories/M_Legendre.v
theories/P_Legendre.v
theories/P_Legendre2.v
theories/P_LegendreTab.v
theories/Spec_Field.v
theories/M_Synth.v
theories/P_Synth.v
theories/P_LegendreProps.v
theories/Props_Legendre.v
theories/M_ND.v
theories/M_SynthArr.v
theories/P_ND.v
theories/P_SynthArr.v
theories/P_SynthClosed.v
theories/P_Layout.v
theories/P_Design.v
theories/P_SynthProps.v
theories/P_SynthProps2.v
theories/P_SynthProps3.v
theories/P_Laplace.v
theories/P_SynthWit.v
theories/Props_Synth.v
theories/Spec_Config.v
theories/M_Config.v
theories/P_Config.v
theories/P_Config2.v
theories/Props_Config.v
theories/M_Spectrum.v
theories/P_Spectrum.v
theories/P_Spectrum2.v
theories/P_Spectrum3.v
theories/M_Spline.v
theories/P_Spline.v
theories/P_DesignMatrix.v
theories/Props_Spectrum.v
theories/P_ModelSpec.v
theories/Spec_PP.v
theories/M_PP.v
theories/P_PP.v
theories/P_PP2.v
theories/Props_PP.v
theories/M_Text.v
theories/M_SHC.v
theories/P_Text.v
theories/Spec_SHC.v
theories/P_SHC.v
theories/P_SHC2.v
theories/P_SHC3.v
theories/P_SHC4.v
theories/Props_SHC.v
theories/M_Model.v
theories/P_Model.v
theories/P_Model2.v
theories/M_SHCModel.v
theories/P_SHCModel.v
theories/Spec_Spline.v
theories/P_Spline2.v
theories/M_FromSpline.v
theories/P_Spline3.v
theories/P_Spline4.v
theories/P_SHCModel2.v
theories/W_SHCModel.v
theories/Props_Model.v
theories/Spec_Coord.v
theories/M_Coord.v
theories/Spec_CoordApi.v
theories/P_Coord.v
theories/P_Coord2.v
theories/P_Coord3.v
theories/P_Coord4.v
theories/P_Coord5.v
theories/P_Coord6.v
theories/P_Coord7.v
theories/P_Coord8.v
theories/P_Coord9.v
theories/W_Coord.v
theories/Props_Coord.v
theories/Spec_Rotate.v
theories/M_Rotate.v
theories/P_Rotate.v
theories/P_Dft.v
theories/P_Rotate2.v
theories/P_Rotate3.v
theories/P_Response.v
theories/P_Response2.v
theories/P_Rotate4.v
theories/W_Rotate.v
theories/Props_Rotate.v
theories/Spec_Induction.v
theories/P_Induction.v
theories/M_Chaos.v
theories/Spec_Chaos.v
theories/P_Bcast.v
theories/P_Chaos.v
theories/P_Chaos2.v
theories/P_Chaos3.v
theories/Spec_ChaosApi.v
theories/P_Chaos4.v
theories/P_Chaos5.v
theories/P_Chaos6.v
theories/W_Chaos.v
theories/Props_Chaos.v
theories/M_Matfile.v
theories/Spec_Matfile.v
theories/P_Matfile.v
theories/P_Matfile2.v
theories/P_Matfile3.v
theories/P_Matfile4.v
theories/P_Matfile5.v
theories/P_Matfile6.v
theories/P_Matfile7.v
theories/P_Matfile8.v
theories/W_Matfile.v
theories/P_Matfile9.v
theories/Props_Matfile.v
theories/M_Loaders.v
theories/Spec_Loaders.v
theories/P_Loaders.v
theories/P_Loaders2.v
theories/P_Loaders3.v
theories/W_Loaders.v
theories/Props_Loaders.v
theories/P_Spline5.v
theories/Spec_Lsq.v
theories/P_Lsq.v
theories/Spec_Smooth.v
theories/P_SHCImport.v
theories/P_Smooth.v
theories/P_SHCImport2.v
theories/P_SHCImport3.v
theories/W_SHCImport.v
theories/Props_SHCImport.v
theories/M_ChaosSHC.v
theories/P_ChaosSHC.v
theories/Props_ChaosSHC.v
theories/M_Plot.v
theories/Spec_Plot.v
theories/P_Plot.v
theories/P_Plot2.v
theories/P_Plot3.v
theories/P_Plot4.v
theories/Props_Plot.v
theories/Spec_Analysis.v
theories/M_Analysis.v
theories/P_Ortho.v
theories/P_Quad.v
theories/P_Analysis.v
theories/P_RotSH.v
theories/P_RotGauss.v
theories/P_Gauss.v
theories/P_Gauss2.v
theories/P_Addition.v
theories/P_RotOrtho.v
theories/P_Analysis2.v
theories/P_RotProps.v
theories/W_Analysis.v
theories/Props_Analysis.v
theories/Spec_Float.v
theories/P_Float.v
theories/M_TimeF.v
theories/P_TimeF.v
theories/P_TimeF2.v
theories/P_TimeF3.v
theories/M_Degree.v
theories/P_Degree.v
theories/W_Float.v
theories/Props_Float.v
theories/Spec_Power.v
theories/P_Power.v
theories/P_Power2.v
theories/P_Power3.v
theories/Props_Power.v
theories/Spec_RC.v
theories/M_RC.v
theories/P_RC.v
theories/P_RC2.v
theories/W_RC.v
theories/P_RC3.v
theories/Props_RC.v
theories/P_RotFFT.v
theories/M_QConst.v
theories/Spec_InductionC.v
theories/P_QConst1.v
theories/P_QConst2.v
theories/P_QConst3.v
theories/P_QConst4.v
theories/P_QConst5.v
theories/P_QConst6.v
theories/P_QConst7.v
theories/P_QConst8.v
theories/P_QConst9.v
theories/P_QConst10.v
theories/P_QConst11.v
theories/Props_QConst.v
theories/M_CoordArr.v
theories/Spec_CoordArr.v
theories/P_CoordArr.v
theories/P_CoordArr2.v
theories/P_CoordArr3.v
theories/P_CoordArr4.v
theories/P_CoordArr5.v
theories/W_CoordArr.v
theories/Props_CoordArr.v
theories/P_QConst12.v
theories/P_QConst13.v
theories/P_QConst14.v
theories/P_SHCImport4.v
theories/P_SHCImport5.v
theories/M_AzimuthF.v
theories/P_AzimuthF.v
theories/Props_AzimuthF.v
theories/M_GgArr.v
theories/P_GgArr.v
theories/Props_GgArr.v
theories/Spec_Rounding.v
theories/P_Rounding.v
theories/M_SpectrumF.v
theories/P_SpectrumF.v
theories/M_PPF.v
theories/P_PPF.v
theories/Spec_SynthF.v
theories/M_SynthF.v
theories/P_SynthF.v
theories/P_SynthF2.v
theories/W_SynthF.v
theories/Props_Rounding.v
theories/P_SynthErr.v
theories/P_ChaosErr.v
theories/Spec_ConfigIn.v
theories/P_Config3.v
theories/P_Config4.v
theories/M_QCall.v
theories/P_QCall.v
theories/Props_QCall.v
theories/Spec_Text.v
theories/P_TextSpec.v
theories/Props_Text.v
theories/Props_ModelSpec.v
theories/Spec_SHCRead.v
theories/P_SHCRead.v
theories/Props_SHCRead.v
theories/Spec_LoadErr.v
theories/P_LoadErr.v
theories/Props_LoadErr.v
theories/Spec_MatContent.v
theories/P_MatContent.v
theories/P_MatContent2.v
theories/Props_MatContent.v
theories/Spec_Invalid.v
theories/P_Invalid.v
theories/Props_Invalid.v
theories/P_Pointwise.v
theories/Props_Pointwise.v
theories/M_LoadMat.v
theories/Spec_LoadMat.v
theories/P_LoadMat.v
theories/Props_LoadMat.v
theories/M_Label.v
theories/Spec_Label.v
theories/P_Label.v
theories/P_Label2.v
theories/Props_Label.v
theories/Spec_LoadCut.v
theories/P_LoadCut.v
theories/P_LoadCut2.v
theories/P_LoadCut3.v
theories/Props_LoadCut.v
theories/P_LoadFew.v
theories/Spec_RotField.v
theories/P_RotField.v
theories/P_RotField2.v
theories/Props_RotField.v
theories/M_RotFile.v
theories/P_RotFile.v
theories/P_RotFile2.v
theories/P_RotFile3.v
theories/W_RotFile.v
theories/Props_RotFile.v
theories/P_Unique.v
theories/P_Unique2.v
theories/P_Unique3.v
theories/Props_Unique.v
theories/M_Names.v
theories/Spec_Names.v
theories/P_Names.v
theories/P_Names2.v
theories/Props_Names.v
theories/P_SplineC.v
theories/P_SplineC2.v
theories/Props_SplineC.v
theories/Spec_Grid.v
theories/P_BestFit.v
theories/Props_BestFit.v
theories/Spec_CoordF.v
theories/M_CoordF.v
theories/P_CoordF.v
theories/W_CoordF.v
theories/Props_CoordF.v
theories/M_ZenithF.v
theories/P_ZenithF.v
theories/W_ZenithF.v
theories/Props_ZenithF.v
theories/M_DipoleF.v
theories/P_DipoleF.v
theories/Props_DipoleF.v
