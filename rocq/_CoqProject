-Q theories Verif
theories/Base.v
theories/S_Math.v
theories/M_MathInt.v
theories/M_Pairs.v
theories/L_MathInt.v
theories/P_MathInt.v
theories/M_Text.v
theories/M_Rational.v
theories/S_Rational.v
theories/S_RationalObj.v
theories/L_Text.v
theories/L_Rational.v
theories/P_Rational.v
theories/F64.v
theories/Num.v
theories/M_MathF.v
theories/S_MathF.v
theories/L_MathF.v
theories/P_MathF.v
theories/S_Grid.v
theories/M_Grid.v
theories/L_Grid.v
theories/P_Grid.v
theories/M_Archive.v
theories/M_Accum.v
theories/S_Accum.v
theories/L_Sum.v
theories/L_Accum.v
theories/P_Accum.v
theories/M_Hist.v
theories/S_Hist.v
theories/L_Hist.v
theories/P_Hist.v
theories/M_Move.v
theories/S_Move.v
theories/L_Move.v
theories/P_Move.v
theories/M_Approx.v
theories/L_Approx.v
theories/P_Approx.v
theories/M_Space.v
theories/S_Space.v
theories/L_Space.v
theories/P_Space.v
theories/M_Util.v
theories/S_Util.v
theories/L_Util.v
theories/P_Util.v
theories/M_Obs.v
theories/S_Obs.v
theories/L_Obs.v
theories/P_Obs.v
theories/M_Bravais.v
theories/S_Bravais.v
theories/L_Bravais.v
theories/P_Bravais.v
theories/M_Lattice.v
theories/S_Lattice.v
theories/L_Lattice.v
theories/L_LatticeD.v
theories/L_LatticeK.v
theories/S_LatticeF.v
theories/L_LatticeF.v
theories/P_Lattice.v
theories/M_Conv.v
theories/S_Conv.v
theories/L_Conv.v
theories/P_Conv.v
theories/M_Norm.v
theories/S_Norm.v
theories/L_Norm.v
theories/P_Norm.v
theories/M_Dump.v
theories/S_Dump.v
theories/L_Dump.v
theories/P_Dump.v
theories/S_RatAlg.v
theories/L_RatAlg.v
theories/P_RatAlg.v
theories/S_Stats.v
theories/L_Stats.v
theories/P_Stats.v
theories/S_LatticeN.v
theories/L_LatticeN.v
theories/P_LatticeN.v
theories/L_LatticeV.v
theories/S_Geom.v
theories/L_Geom.v
theories/P_Geom.v
theories/S_Fourier.v
theories/L_Fourier.v
theories/P_Fourier.v
theories/S_TriD.v
theories/L_TriD.v
theories/P_TriD.v
theories/M_Fmt.v
theories/S_Fmt.v
theories/L_Fmt.v
theories/P_Fmt.v
theories/M_Short.v
theories/S_Short.v
theories/L_Short.v
theories/P_Short.v
theories/L_Welford.v
theories/L_West.v
theories/L_West2.v
theories/P_Welford.v
theories/P_West.v
theories/S_Random.v
theories/M_Random.v
theories/L_Share.v
theories/P_Share.v
theories/L_Pi.v
theories/L_Mom.v
theories/P_Mom.v
theories/S_Sk.v
theories/L_Sk.v
theories/P_Sk.v
theories/S_Pfile.v
theories/L_Pfile.v
theories/P_Pfile.v
theories/M_SpaceZ.v
theories/S_SpaceZ.v
theories/L_SpaceZ.v
theories/P_SpaceZ.v
theories/S_ObsFile.v
theories/L_ObsFile.v
theories/P_ObsFile.v
theories/S_RatRead.v
theories/L_RatRead.v
theories/P_RatRead.v
theories/L_Lerp.v
theories/P_Lerp.v
theories/L_StatAcc.v
theories/P_StatAcc.v
theories/S_Restart.v
theories/M_Restart.v
theories/L_Restart.v
theories/P_Restart.v
theories/S_BravaisAcc.v
theories/L_BravaisAcc.v
theories/P_BravaisAcc.v
theories/S_Twister.v
theories/M_Twister.v
theories/L_Twister.v
theories/P_Twister.v
theories/S_Jump.v
theories/L_Jump.v
theories/P_Jump.v
theories/S_LogAcc.v
theories/L_LogAcc.v
theories/P_LogAcc.v
theories/S_Corr.v
theories/L_Corr.v
theories/P_Corr.v
theories/S_Bonds.v
theories/L_Bonds.v
theories/P_Bonds.v
theories/S_Agree.v
theories/L_Agree.v
theories/P_Agree.v
theories/S_Mirror.v
theories/L_Mirror.v
theories/P_Mirror.v
theories/S_Opp.v
theories/L_Opp.v
theories/P_Opp.v
theories/L_Markov.v
theories/M_Hop.v
theories/S_Hop.v
theories/L_Hop.v
theories/P_Hop.v
theories/S_SkTri.v
theories/L_SkTri.v
theories/P_SkTri.v
theories/M_Metro.v
theories/S_Metro.v
theories/L_Metro.v
theories/P_Metro.v
theories/S_RatSign.v
theories/L_RatSign.v
theories/P_RatSign.v
theories/M_MathT.v
theories/S_MathT.v
theories/L_MathT.v
theories/P_MathT.v
theories/M_CorrHist.v
theories/S_CorrHist.v
theories/L_CorrHist.v
theories/L_CorrHistR.v
theories/P_CorrHist.v
theories/L_Compare.v
theories/P_Compare.v
theories/L_Streams.v
theories/P_Streams.v
theories/S_Colour.v
theories/L_Colour.v
theories/P_Colour.v
theories/S_ObsCmp.v
theories/P_ObsCmp.v
theories/L_Batch.v
theories/P_Batch.v
theories/S_Route.v
theories/L_Route.v
theories/P_Route.v
theories/S_Waves.v
theories/L_Waves.v
theories/P_Waves.v
theories/S_Energy.v
theories/L_Energy.v
theories/P_Energy.v
theories/S_Diffuse.v
theories/L_Diffuse.v
theories/P_Diffuse.v
theories/S_Count.v
theories/L_Count.v
theories/P_Count.v
theories/L_Mix.v
theories/P_Mix.v
theories/L_BondSk.v
theories/P_BondSk.v
theories/L_Frust.v
theories/P_Frust.v
theories/S_Gauge.v
theories/P_Gauge.v
theories/L_Ising.v
theories/P_Ising.v
theories/P_Decay.v
