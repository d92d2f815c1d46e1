-Q theories Verif
theories/Base/Arith.v
theories/Base/Dbl.v
theories/Base/Double.v
theories/Base/Ieee.v
theories/Base/Images.v
theories/Base/Imp.v
theories/Base/Loops.v
theories/Base/Matrix.v
theories/Base/RealOps.v
theories/Base/Sums.v
theories/Base/Tables.v
theories/Base/Xreal.v
theories/Chroma/ChromaCase.v
theories/Chroma/ChromaModel.v
theories/Chroma/ChromaProofs.v
theories/Chroma/ChromaResults.v
theories/Chroma/ChromaSpec.v
theories/Chroma/CqCase.v
theories/Chroma/CqLoops.v
theories/Chroma/CqModel.v
theories/Chroma/CqProofs.v
theories/Chroma/CqResults.v
theories/Chroma/CqSpec.v
theories/Chroma/CqTime.v
theories/Fft/Cplx.v
theories/Fft/DctDouble.v
theories/Fft/DctDoubleCases.v
theories/Fft/DctDoubleHistory.v
theories/Fft/DctDoubleProofs.v
theories/Fft/DctDoubleRuns.v
theories/Fft/DctDoubleSpec.v
theories/Fft/DctDoubleTheorems.v
theories/Fft/DctMath.v
theories/Fft/DctProofs.v
theories/Fft/DctScale.v
theories/Fft/FftBfly.v
theories/Fft/FftDouble.v
theories/Fft/FftDoubleCases.v
theories/Fft/FftDoubleProofs.v
theories/Fft/FftDoubleSpec.v
theories/Fft/FftDoubleWork.v
theories/Fft/FftGen.v
theories/Fft/FftGenProofs.v
theories/Fft/FftGenReal.v
theories/Fft/FftGenRuns.v
theories/Fft/FftLarge.v
theories/Fft/FftModel.v
theories/Fft/FftProofs.v
theories/Fft/FftRadix.v
theories/Fft/FftReal.v
theories/Fft/FftResults.v
theories/Fft/FftRound.v
theories/Fft/FftSpec.v
theories/Fft/FftTwiddle.v
theories/Fft/FftWork.v
theories/Fft/FftrDouble.v
theories/Fft/FftrDoubleCases.v
theories/Fft/FftrDoubleInverse.v
theories/Fft/FftrDoubleProofs.v
theories/Fft/FftrDoubleResults.v
theories/Fft/FftrDoubleRuns.v
theories/Fft/FftrDoubleSpec.v
theories/Fft/FftrDoubleTheorems.v
theories/Fft/FftrModel.v
theories/Fft/FftrProofs.v
theories/Fft/FftrTwiddle.v
theories/Hmm/HmmBaum.v
theories/Hmm/HmmEm.v
theories/Hmm/HmmFb.v
theories/Hmm/HmmFixed.v
theories/Hmm/HmmForward.v
theories/Hmm/HmmGauss.v
theories/Hmm/HmmInit.v
theories/Hmm/HmmLikSpec.v
theories/Hmm/HmmModel.v
theories/Hmm/HmmPosdef.v
theories/Hmm/HmmResults.v
theories/Hmm/HmmSingular.v
theories/Hmm/HmmSpec.v
theories/Hmm/HmmTrain.v
theories/Hmm/HmmTrainProofs.v
theories/Hmm/HmmViterbi.v
theories/Key/KeyModel.v
theories/Key/KeyProofs.v
theories/Key/KeyReal.v
theories/Key/KeySpec.v
theories/Lapack/DetFacts.v
theories/Lapack/LapackBlas.v
theories/Lapack/LapackInv.v
theories/Lapack/LapackLu.v
theories/Lapack/LapackModel.v
theories/Lapack/LapackProofs.v
theories/Lapack/LapackResults.v
theories/Lapack/LapackSpec.v
theories/Lapack/LogDet.v
theories/Maths/DotDouble.v
theories/Maths/DoubleCases.v
theories/Maths/DoubleModel.v
theories/Maths/DoublePi.v
theories/Maths/DoubleProofs.v
theories/Maths/DoubleSpec.v
theories/Maths/IntModel.v
theories/Maths/IntProofs.v
theories/Maths/IntSpec.v
theories/Maths/MedDouble.v
theories/Maths/MedDoubleProofs.v
theories/Maths/MedDoubleSpec.v
theories/Maths/MedianModel.v
theories/Maths/MedianProofs.v
theories/Maths/MedianSpec.v
theories/Maths/NormModel.v
theories/Maths/NormProofs.v
theories/Maths/NormSpec.v
theories/Maths/RealModel.v
theories/Maths/RealProofs.v
theories/Maths/RealSpec.v
theories/Maths/StatDouble.v
theories/Maths/StatDoubleCases.v
theories/Maths/StatDoubleProofs.v
theories/Maths/StatDoubleSpec.v
theories/Maths/StatNormDouble.v
theories/Maths/StatRoundDouble.v
theories/Maths/StatThresholdDouble.v
theories/Measures/AutoDouble.v
theories/Measures/AutoDoubleProofs.v
theories/Measures/AutoDoubleSpec.v
theories/Measures/CosDouble.v
theories/Measures/CosDoubleProofs.v
theories/Measures/CosDoubleSpec.v
theories/Measures/MeasModel.v
theories/Measures/MeasProofs.v
theories/Measures/MeasSpec.v
theories/Mfcc/MfccModel.v
theories/Mfcc/MfccProofs.v
theories/Mfcc/MfccResults.v
theories/Mfcc/MfccSpec.v
theories/Onset/DetFacts.v
theories/Onset/DetModel.v
theories/Onset/DetProofs.v
theories/Onset/DetResults.v
theories/Onset/DetSpec.v
theories/Onset/DfEdges.v
theories/Onset/DfResults.v
theories/Onset/DfxModel.v
theories/Onset/DfxProofs.v
theories/Onset/DfxResults.v
theories/Onset/PeakModel.v
theories/Onset/PeakProofs.v
theories/Onset/PeakSpec.v
theories/Onset/PickProofs.v
theories/Onset/PickResults.v
theories/Pca/PcaCase.v
theories/Pca/PcaHouse.v
theories/Pca/PcaMath.v
theories/Pca/PcaModel.v
theories/Pca/PcaProofs.v
theories/Pca/PcaQl.v
theories/Pca/PcaResults.v
theories/Pca/PcaSpec.v
theories/Pca/PcaTqli.v
theories/Pca/PcaTred2.v
theories/Pitch/PitchModel.v
theories/Pitch/PitchProofs.v
theories/Pitch/PitchSpec.v
theories/Polyfit/FitProofs.v
theories/Polyfit/FitResults.v
theories/Polyfit/GaussProofs.v
theories/Polyfit/PolyMath.v
theories/Polyfit/PolyModel.v
theories/Polyfit/PolyProofs.v
theories/Polyfit/PolySpec.v
theories/Properties/C01_C04_Filter.v
theories/Properties/C05_C06_Median.v
theories/Properties/C07_C08_Framer.v
theories/Properties/C09_C10_Decimator.v
theories/Properties/C101_Invert.v
theories/Properties/C104_Constant.v
theories/Properties/C105_Likelihood.v
theories/Properties/C107_Rounding.v
theories/Properties/C108_Princarg.v
theories/Properties/C110_FftDouble.v
theories/Properties/C111_FftRealDouble.v
theories/Properties/C112_DctDouble.v
theories/Properties/C113_SumDouble.v
theories/Properties/C114_NormaliseDouble.v
theories/Properties/C115_RoundDouble.v
theories/Properties/C116_ThresholdDouble.v
theories/Properties/C117_FactorialDouble.v
theories/Properties/C118_FilterDouble.v
theories/Properties/C119_ResamplerDouble.v
theories/Properties/C11_C13_Resampler.v
theories/Properties/C120_VocoderDouble.v
theories/Properties/C121_CosineDouble.v
theories/Properties/C122_AutoDouble.v
theories/Properties/C123_MedianDouble.v
theories/Properties/C14_C17_Maths.v
theories/Properties/C15_C16_Integers.v
theories/Properties/C18_Allocator.v
theories/Properties/C19_C20_AsyncTask.v
theories/Properties/C21_Key.v
theories/Properties/C22_C23_Beats.v
theories/Properties/C24_Periods.v
theories/Properties/C25_C26_DownBeat.v
theories/Properties/C27_C29_Hmm.v
theories/Properties/C30_C33_Fft.v
theories/Properties/C34_PhaseVocoder.v
theories/Properties/C35_PeakPicking.v
theories/Properties/C36_C38_Measures.v
theories/Properties/C39_Segmentation.v
theories/Properties/C40_ConstantQ.v
theories/Properties/C41_Windows.v
theories/Properties/C42_Polyfit.v
theories/Properties/C43_C44_Decimators.v
theories/Properties/C66_Pca.v
theories/Properties/C69_Detection.v
theories/Properties/C72_Tonal.v
theories/Properties/C78_Mfcc.v
theories/Properties/C82_Tones.v
theories/Properties/C84_BeatSpectrum.v
theories/Properties/C85_Pitch.v
theories/Properties/C86_TempoTrack.v
theories/Properties/C91_Silence.v
theories/Properties/C92_Extraction.v
theories/Properties/C97_Wavelets.v
theories/Rate/DecimatorBModel.v
theories/Rate/DecimatorBProofs.v
theories/Rate/DecimatorBSpec.v
theories/Rate/DecimatorModel.v
theories/Rate/DecimatorProofs.v
theories/Rate/DecimatorSpec.v
theories/Rate/Df2tProofs.v
theories/Rate/Df2tSpec.v
theories/Rate/ResamplerDouble.v
theories/Rate/ResamplerModel.v
theories/Rate/ResamplerProofs.v
theories/Rate/ResamplerSpec.v
theories/Rate/RoundClass.v
theories/Rate/RoundProofs.v
theories/Rate/RoundSpec.v
theories/Rate/StableClass.v
theories/Rate/StableProofs.v
theories/Rate/StableSpec.v
theories/Rate/ToneClass.v
theories/Rate/TonePoly.v
theories/Rate/ToneProofs.v
theories/Rate/ToneSpec.v
theories/Rhythm/BeatSpecAny.v
theories/Rhythm/BeatSpecModel.v
theories/Rhythm/BeatSpecProofs.v
theories/Rhythm/BeatSpecSpec.v
theories/Seg/ExtractCase.v
theories/Seg/ExtractClient.v
theories/Seg/ExtractFacts.v
theories/Seg/ExtractModel.v
theories/Seg/ExtractPca.v
theories/Seg/ExtractProofs.v
theories/Seg/ExtractReinit.v
theories/Seg/ExtractResults.v
theories/Seg/ExtractSpec.v
theories/Seg/MeltConstant.v
theories/Seg/MeltLoops.v
theories/Seg/MeltModel.v
theories/Seg/MeltProofs.v
theories/Seg/MeltSpec.v
theories/Seg/SegCase.v
theories/Seg/SegConstant.v
theories/Seg/SegFeatures.v
theories/Seg/SegModel.v
theories/Seg/SegPca.v
theories/Seg/SegProofs.v
theories/Seg/SegResults.v
theories/Seg/SegSpec.v
theories/Seg/SegWhole.v
theories/Signal/FiltFiltModel.v
theories/Signal/FiltFiltProofs.v
theories/Signal/FiltFiltSpec.v
theories/Signal/FilterDoubleCases.v
theories/Signal/FilterDoubleProofs.v
theories/Signal/FilterDoubleSpec.v
theories/Signal/FilterDoubleStable.v
theories/Signal/FilterImage.v
theories/Signal/FilterModel.v
theories/Signal/FilterProofs.v
theories/Signal/FilterSpec.v
theories/Signal/FramerModel.v
theories/Signal/FramerProofs.v
theories/Signal/FramerSpec.v
theories/Tempo/BeatModel.v
theories/Tempo/BeatProofs.v
theories/Tempo/BeatReal.v
theories/Tempo/BeatSpec.v
theories/Tempo/DownBeatFind.v
theories/Tempo/DownBeatModel.v
theories/Tempo/DownBeatProofs.v
theories/Tempo/DownBeatSpec.v
theories/Tempo/FilterDf.v
theories/Tempo/PeriodModel.v
theories/Tempo/PeriodProofs.v
theories/Tempo/PeriodSpec.v
theories/Tempo/RcfProofs.v
theories/Tempo/TrackModel.v
theories/Tempo/TrackNumb.v
theories/Tempo/TrackParts.v
theories/Tempo/TrackProofs.v
theories/Tempo/TrackReal.v
theories/Tempo/TrackRefuted.v
theories/Tempo/TrackResults.v
theories/Tempo/TrackRuns.v
theories/Tempo/TrackScale.v
theories/Tempo/TrackSpec.v
theories/Thread/AllocModel.v
theories/Thread/AllocProofs.v
theories/Thread/AllocSpec.v
theories/Thread/TaskModel.v
theories/Thread/TaskProofs.v
theories/Thread/TaskSpec.v
theories/Tonal/TonalModel.v
theories/Tonal/TonalProofs.v
theories/Tonal/TonalResults.v
theories/Tonal/TonalSpec.v
theories/Vocoder/PvDouble.v
theories/Vocoder/PvDoubleProofs.v
theories/Vocoder/PvDoubleSpec.v
theories/Vocoder/PvModel.v
theories/Vocoder/PvProofs.v
theories/Vocoder/PvResults.v
theories/Vocoder/PvSpec.v
theories/Vocoder/PvWholeCases.v
theories/Vocoder/PvWholeDouble.v
theories/Vocoder/PvWholeProofs.v
theories/Vocoder/PvWholeSpec.v
theories/Wavelet/WaveletCase.v
theories/Wavelet/WaveletChecks.v
theories/Wavelet/WaveletModel.v
theories/Wavelet/WaveletProofs.v
theories/Wavelet/WaveletResults.v
theories/Wavelet/WaveletSpec.v
theories/Wavelet/WaveletTables.v
theories/Windows/ResamplerFilter.v
theories/Windows/WindowModel.v
theories/Windows/WindowProofs.v
theories/Windows/WindowSpec.v
