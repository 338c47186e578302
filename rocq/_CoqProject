-Q theories Verif
theories/Base.v
theories/L_Aberr.v
theories/L_Aberr2.v
theories/L_Aberr3.v
theories/L_Array.v
theories/L_Auto3.v
theories/L_Axes.v
theories/L_Axial.v
theories/L_AxialBand.v
theories/L_Band.v
theories/L_Bin.v
theories/L_Center.v
theories/L_Command.v
theories/L_Converge.v
theories/L_Converge2.v
theories/L_Converge3.v
theories/L_Ctor.v
theories/L_Diff.v
theories/L_FFT.v
theories/L_FFT2.v
theories/L_Fit.v
theories/L_Fit2.v
theories/L_Float.v
theories/L_Float2.v
theories/L_Float3.v
theories/L_Float4.v
theories/L_Float5.v
theories/L_Hanser.v
theories/L_Hanser2.v
theories/L_Hanser3.v
theories/L_Hanser4.v
theories/L_Heap.v
theories/L_Interrupt.v
theories/L_Kwargs.v
theories/L_Lateral.v
theories/L_Lstsq.v
theories/L_Micro.v
theories/L_Micro2.v
theories/L_MicroHeap.v
theories/L_MicroHeap2.v
theories/L_MicroHeap3.v
theories/L_MicroHeap4.v
theories/L_MicroSteps.v
theories/L_MicroSteps2.v
theories/L_MicroSteps3.v
theories/L_MicroThreads.v
theories/L_Near.v
theories/L_Noll.v
theories/L_OnePlane.v
theories/L_OnePlane2.v
theories/L_OnePlane3.v
theories/L_Ortho.v
theories/L_PSF.v
theories/L_Pad.v
theories/L_Phase.v
theories/L_Phase2.v
theories/L_Phase3.v
theories/L_Phase4.v
theories/L_Phase5.v
theories/L_Phase6.v
theories/L_Phase7.v
theories/L_Phase8.v
theories/L_Pixel.v
theories/L_Polar.v
theories/L_Radial.v
theories/L_Repr.v
theories/L_Rint.v
theories/L_Shell.v
theories/L_ShellCap.v
theories/L_Sheppard.v
theories/L_Sheppard2.v
theories/L_Sheppard3.v
theories/L_Sheppard4.v
theories/L_Slice.v
theories/L_Smooth.v
theories/L_Steps.v
theories/L_Steps2.v
theories/L_Sum.v
theories/L_Threads.v
theories/L_Unit.v
theories/L_Unit2.v
theories/L_Version.v
theories/L_View.v
theories/L_Write.v
theories/L_Zern.v
theories/L_Zern2.v
theories/M_Aberr.v
theories/M_Array.v
theories/M_Axes.v
theories/M_Bcast.v
theories/M_Bin.v
theories/M_Command.v
theories/M_Display.v
theories/M_Engine.v
theories/M_FFT.v
theories/M_Float.v
theories/M_Float2.v
theories/M_Float3.v
theories/M_Hanser.v
theories/M_Heap.v
theories/M_Kwargs.v
theories/M_Labview.v
theories/M_Micro.v
theories/M_MicroHeap.v
theories/M_MicroSteps.v
theories/M_Num.v
theories/M_PSF.v
theories/M_Phase.v
theories/M_PhasePlot.v
theories/M_Plot.v
theories/M_Polar.v
theories/M_PsfPlot.v
theories/M_Radial.v
theories/M_Repr.v
theories/M_Result.v
theories/M_Sheppard.v
theories/M_Steps.v
theories/M_Threads.v
theories/M_Utils.v
theories/M_Val.v
theories/M_Version.v
theories/M_Write.v
theories/M_Zernike.v
theories/S_Aberr.v
theories/S_Apotome.v
theories/S_Auto.v
theories/S_Axes.v
theories/S_AxialBand.v
theories/S_Bin.v
theories/S_Command.v
theories/S_Confocal.v
theories/S_Converge.v
theories/S_Display.v
theories/S_FFT.v
theories/S_FFT2.v
theories/S_Fit.v
theories/S_Float.v
theories/S_Float2.v
theories/S_Float3.v
theories/S_Hanser.v
theories/S_Heap.v
theories/S_Kwargs.v
theories/S_Micro.v
theories/S_MicroHeap.v
theories/S_MicroSteps.v
theories/S_Object.v
theories/S_OnePlane.v
theories/S_PSF.v
theories/S_Phase.v
theories/S_Pixel.v
theories/S_Plot.v
theories/S_PsfPlot.v
theories/S_Radial.v
theories/S_Repr.v
theories/S_Result.v
theories/S_SIM.v
theories/S_Shell.v
theories/S_Sheppard.v
theories/S_Steps.v
theories/S_Unit.v
theories/S_Utils.v
theories/S_Version.v
theories/S_View.v
theories/S_Wiener.v
theories/S_Write.v
theories/S_Zernike.v
theories/T_Aberr.v
theories/T_Aberr2.v
theories/T_Apotome.v
theories/T_Apotome2.v
theories/T_Auto.v
theories/T_Axes.v
theories/T_AxialBand.v
theories/T_AxialBand2.v
theories/T_Bin.v
theories/T_Command.v
theories/T_Confocal.v
theories/T_Confocal2.v
theories/T_Converge.v
theories/T_Ctor.v
theories/T_Ctor2.v
theories/T_Display.v
theories/T_Display2.v
theories/T_Display3.v
theories/T_Exposure.v
theories/T_FFT.v
theories/T_FFT2.v
theories/T_Fit.v
theories/T_Fit2.v
theories/T_Float.v
theories/T_Float2.v
theories/T_Float3.v
theories/T_Hanser.v
theories/T_Heap.v
theories/T_Interrupt.v
theories/T_Kwargs.v
theories/T_Labview.v
theories/T_Lateral.v
theories/T_Lateral2.v
theories/T_Micro.v
theories/T_Micro2.v
theories/T_Micro3.v
theories/T_Micro4.v
theories/T_Micro5.v
theories/T_MicroHeap.v
theories/T_MicroSteps.v
theories/T_MissingCone.v
theories/T_Named.v
theories/T_Object.v
theories/T_Object2.v
theories/T_OnePlane.v
theories/T_PSF.v
theories/T_PSF2.v
theories/T_Phase.v
theories/T_Phase2.v
theories/T_PhasePlot.v
theories/T_Pixel.v
theories/T_Plot.v
theories/T_Polar.v
theories/T_PsfPlot.v
theories/T_Radial.v
theories/T_Repr.v
theories/T_Repr2.v
theories/T_Result.v
theories/T_SIM.v
theories/T_SIM2.v
theories/T_SIM3.v
theories/T_SIM4.v
theories/T_Scale.v
theories/T_Sheppard.v
theories/T_Symmetry.v
theories/T_Threads.v
theories/T_Unit.v
theories/T_Utils.v
theories/T_Version.v
theories/T_Version2.v
theories/T_View.v
theories/T_Wiener.v
theories/T_Write.v
theories/T_Zernike.v
