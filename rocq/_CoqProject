-Q theories Verif
theories/Scalar.v
theories/Prog.v
theories/Model.v
theories/Wp.v
theories/Func.v
theories/Step.v
theories/TrigProof.v
theories/InitProof.v
theories/SurfProof.v
theories/RunProof.v
theories/Par.v
theories/FuncExt.v
theories/Spec.v
theories/RunThms.v
theories/Properties_Run.v
theories/RSum.v
theories/RSpec.v
theories/RPoint.v
theories/RQuad.v
theories/RThms.v
theories/RThms2.v
theories/RThms3.v
theories/RExamples.v
theories/Properties_Real.v
theories/Vmec.v
theories/VmecSpec.v
theories/VmecProof.v
theories/VmecRun.v
theories/VmecThms.v
theories/Properties_Vmec.v
theories/Nc.v
theories/NcModel.v
theories/NcSpec.v
theories/NcTri.v
theories/NcRead.v
theories/NcBoozmn.v
theories/NcWout.v
theories/NcWrite.v
theories/NcWriteB.v
theories/NcVoc.v
theories/NcThms.v
theories/NcThms2.v
theories/NcEdit.v
theories/NcThms3.v
theories/NcThms4.v
theories/Properties_Nc.v
theories/Driver.v
theories/DriverSpec.v
theories/DriverParse.v
theories/DriverQuiet.v
theories/DriverProof.v
theories/BadSurf.v
theories/DriverThms.v
theories/DriverBad.v
theories/Properties_Driver.v
theories/Plots.v
theories/PlotSpec.v
theories/PlotProof.v
theories/PlotWire.v
theories/PlotThms.v
theories/PlotReal.v
theories/PlotReal2.v
theories/PlotReal3.v
theories/PlotEx.v
theories/Properties_Plots.v
theories/Conv.v
theories/ConvThms.v
theories/ConvMain.v
theories/ConvEx.v
theories/Properties_Conv.v
theories/Py.v
theories/PySpec.v
theories/PyProof.v
theories/PyKeep.v
theories/PyInv.v
theories/NcCopy.v
theories/PyThms.v
theories/Properties_Py.v
theories/PyView.v
theories/PyViewProof.v
theories/PyViewThms.v
theories/PyMem.v
theories/PyMemProof.v
theories/PyMemThms.v
theories/Properties_View.v
theories/Needed.v
theories/REquiv.v
theories/REquivEx.v
theories/Properties_More.v
theories/RoundSpec.v
theories/Round.v
theories/RoundThm.v
theories/RoundEx.v
theories/Properties_Round.v
theories/RSymm.v
theories/RSymmEx.v
theories/Properties_Symm.v
theories/Total.v
theories/Properties_Total.v
theories/Frame.v
theories/FrameThms.v
theories/Properties_Frame.v
theories/ReadAll.v
theories/Properties_Read.v
theories/Stable.v
theories/Properties_Stable.v
theories/Short.v
theories/Stored.v
theories/Properties_Stored.v
theories/Ieee.v
theories/IeeeProof.v
theories/IeeeThm.v
theories/Properties_Ieee.v
theories/Sim.v
theories/Cert.v
theories/CertProof.v
theories/CertThm.v
theories/CertEx.v
theories/Properties_Cert.v
theories/Fma.v
theories/LooseProof.v
theories/FmaProof.v
theories/FmaThm.v
theories/LooseCert.v
theories/FmaEx.v
theories/Properties_Fma.v
theories/Sound.v
theories/SoundThms.v
theories/SoundEx.v
theories/Properties_Sound.v
theories/Written.v
theories/WrittenThm.v
theories/WrittenBack.v
theories/WrittenEx.v
theories/Properties_Written.v
theories/Overflow.v
theories/OverflowEx.v
theories/Properties_Overflow.v
theories/Ran.v
theories/VmecNeeds.v
theories/RunInit.v
theories/RunNeeds.v
theories/RunExact.v
theories/Properties_Exact.v
theories/Leak.v
theories/LeakThms.v
theories/Properties_Ends.v
theories/NoSurf.v
theories/ReadNeeds.v
theories/Properties_NoSurf.v
theories/WriteExact.v
theories/WriteExactThm.v
theories/WriteExactEx.v
theories/Properties_WriteExact.v
theories/ReadWrite.v
theories/Properties_ReadWrite.v
theories/Accepted.v
theories/Properties_Accepted.v
