-Q theories Verif
theories/Base.v
theories/F32.v
theories/F32Lemmas.v
theories/F32Exact.v
theories/Num.v
theories/M_Memory.v
theories/M_Delay.v
theories/S_Memory.v
theories/P_Memory.v
theories/F32Ints.v
theories/F32Range.v
theories/P_Lerp.v
theories/S_Delay.v
theories/P_Delay.v
theories/S_SliceHistory.v
theories/P_SliceHistory.v
theories/Examples.v
theories/T_Memory.v
theories/P_DelayNum.v
theories/T_Delay.v
theories/P_Interp.v
theories/S_Poly.v
theories/P_Lagrange.v
theories/T_Interp.v
theories/M_FloatMath.v
theories/M_Biquad.v
theories/S_Biquad.v
theories/P_Biquad.v
theories/P_Butterworth.v
theories/P_BiquadMore.v
theories/T_Biquad.v
theories/M_Sine.v
theories/S_Sine.v
theories/P_Sine.v
theories/P_SineAcc.v
theories/P_SineFloat.v
theories/T_Sine.v
theories/F32Over.v
theories/M_Oscillator.v
theories/S_Oscillator.v
theories/P_Oscillator.v
theories/T_Oscillator.v
theories/M_Bits.v
theories/P_Bits.v
theories/T_Bits.v
theories/M_Levels.v
theories/M_Integral.v
theories/M_BlRect.v
theories/P_Levels.v
theories/T_Levels.v
theories/S_Integral.v
theories/P_Integral.v
theories/T_Integral.v
theories/P_Math.v
theories/T_Math.v
theories/P_Tan.v
theories/T_Tan.v
theories/P_BlRect.v
theories/T_BlRect.v
theories/M_Envelope.v
theories/S_Envelope.v
theories/P_Envelope.v
theories/T_Envelope.v
theories/S_EnvelopeParams.v
theories/T_EnvelopeShape.v
theories/M_RawSlice.v
theories/T_RawSlice.v
theories/T_Taps.v
theories/T_Panning.v
theories/S_OscHistory.v
theories/T_OscHistory.v
theories/T_Hyperbolic.v
theories/S_SineIntegral.v
theories/P_SincReal.v
theories/T_SineIntegral.v
theories/T_LookupSin.v
theories/M_BlRectTable.v
theories/P_SiQuad.v
theories/P_BlRectTable.v
theories/T_BlRectTable.v
theories/S_Response.v
theories/T_Response.v
theories/S_Comb.v
theories/P_Comb.v
theories/T_Comb.v
theories/S_BiquadF32.v
theories/P_BiquadF32.v
theories/T_BiquadF32.v
theories/S_DesignF32.v
theories/P_DesignF32.v
theories/T_DesignF32.v
theories/S_TanF32.v
theories/P_TanF32.v
theories/T_TanF32.v
theories/S_CombResponse.v
theories/T_CombResponse.v
theories/S_LagrangeF32.v
theories/P_LagrangeF32.v
theories/T_LagrangeF32.v
theories/S_DecibelsF32.v
theories/T_DecibelsF32.v
theories/S_GainF32.v
theories/P_GainF32.v
theories/T_GainF32.v
theories/S_Rack.v
theories/M_Threads.v
theories/S_Threads.v
theories/P_Rack.v
theories/T_Rack.v
theories/T_Threads.v
theories/S_Lifetime.v
theories/T_Lifetime.v
theories/M_OscGeneric.v
theories/S_OscGeneric.v
theories/P_OscGeneric.v
theories/T_OscGeneric.v
theories/S_EndToEnd.v
theories/P_EndToEnd.v
theories/T_EndToEnd.v
theories/S_Copies.v
theories/T_Copies.v
theories/S_Runaway.v
theories/P_Runaway.v
theories/T_Runaway.v
theories/T_GainRun.v
theories/T_LagrangeTap.v
theories/S_Sweep.v
theories/P_Sweep.v
theories/P_SlowSweep.v
theories/T_Sweep.v
theories/T_SlowSweep.v
theories/S_SweepF32.v
theories/P_SweepF32.v
theories/T_SweepF32.v
theories/T_SweepTrack.v
theories/S_Network.v
theories/S_NetworkF32.v
theories/S_NetworkLin.v
theories/P_Network.v
theories/P_NetworkLin.v
theories/T_Network.v
theories/T_NetworkLin.v
theories/S_Voice.v
theories/T_Voice.v
theories/S_NetworkAcc.v
theories/P_NetworkAcc.v
theories/T_NetworkAcc.v
theories/S_Tail.v
theories/P_Tail.v
theories/P_TailBiquad.v
theories/T_Tail.v
theories/P_TailComb.v
theories/T_TailComb.v
theories/S_NetworkTail.v
theories/P_NetworkTail.v
theories/T_NetworkTail.v
theories/P_HeldF32.v
theories/T_HeldF32.v
theories/S_Live.v
theories/P_Live.v
theories/T_Live.v
theories/S_Decay.v
theories/P_Decay.v
theories/T_Decay.v
theories/S_RingDown.v
theories/P_RingDown.v
theories/T_RingDown.v
theories/S_Reverb.v
theories/P_Reverb.v
theories/T_Reverb.v
theories/S_LiveAcc.v
theories/P_LiveAcc.v
theories/T_LiveAcc.v
theories/S_LiveReverb.v
theories/P_LiveReverb.v
theories/T_LiveReverb.v
theories/S_LiveLaws.v
theories/T_LiveLaws.v
theories/S_Play.v
theories/T_Play.v
