-Q theories Verif
theories/Base.v
theories/Spec.v
theories/L_Lin.v
theories/M_Tensor.v
theories/L_Tensor.v
theories/P_Tensor.v
theories/M_Range.v
theories/S_Range.v
theories/L_Range.v
theories/L_Slice.v
theories/L_Slice2.v
theories/P_Range.v
theories/M_Permute.v
theories/S_Permute.v
theories/L_Permute.v
theories/P_Permute.v
theories/M_RefCount.v
theories/S_RefCount.v
theories/L_RefCount.v
theories/P_RefCount.v
theories/M_Fold.v
theories/S_Fold.v
theories/L_Fold.v
theories/P_Fold.v
theories/M_Arith.v
theories/M_Linspace.v
theories/M_Kron.v
theories/L_Arith.v
theories/L_Linspace.v
theories/L_Kron.v
theories/P_Arith.v
theories/P_Kron.v
theories/S_Trace.v
theories/M_Scale.v
theories/L_Scale.v
theories/L_Trace.v
theories/P_Scale.v
theories/S_Compare.v
theories/M_Compare.v
theories/L_Compare.v
theories/P_Compare.v
theories/S_Reduce.v
theories/M_Reduce.v
theories/L_Reduce.v
theories/P_Reduce.v
theories/S_Sparse.v
theories/M_Sparse.v
theories/L_Sparse.v
theories/L_Sparse2.v
theories/L_Sparse3.v
theories/L_Sparse4.v
theories/L_Sparse5.v
theories/L_Sparse6.v
theories/L_Sparse7.v
theories/P_Sparse.v
theories/S_Sdf.v
theories/M_Sdf.v
theories/L_Sdf.v
theories/L_Sdf2.v
theories/P_Sdf.v
theories/P_SdfSizes.v
theories/M_Lock.v
theories/L_Lock.v
theories/P_Lock.v
theories/M_Jobs.v
theories/S_Jobs.v
theories/L_Jobs.v
theories/P_Jobs.v
theories/M_Rand.v
theories/S_Rand.v
theories/L_Rand.v
theories/P_Rand.v
theories/M_Fft.v
theories/S_Fft.v
theories/L_Fft.v
theories/P_Fft.v
theories/M_Blocks.v
theories/S_Blocks.v
theories/L_Blocks.v
theories/P_Blocks.v
theories/S_Expm.v
theories/M_Expm.v
theories/L_Expm.v
theories/P_Expm.v
theories/M_BlockSvd.v
theories/S_BlockSvd.v
theories/L_BlockSvd.v
theories/P_BlockSvd.v
theories/S_Fftw.v
theories/M_Fftw.v
theories/L_Fftw.v
theories/P_Fftw.v
theories/M_Solve.v
theories/S_Solve.v
theories/L_Solve.v
theories/P_Solve.v
theories/M_Eig.v
theories/S_Eig.v
theories/L_Eig.v
theories/P_Eig.v
theories/M_Cgs.v
theories/S_Cgs.v
theories/L_CgsAlg.v
theories/L_Cgs.v
theories/L_Gauss.v
theories/P_Cgs.v
theories/P_CgsSparse.v
theories/S_Print.v
theories/M_Print.v
theories/L_Print.v
theories/P_Print.v
theories/M_Complex.v
theories/P_Complex.v
theories/M_Svd.v
theories/S_Svd.v
theories/L_Svd.v
theories/P_Svd.v
theories/S_Arpack.v
theories/M_Arpack.v
theories/L_Arpack.v
theories/P_Arpack.v
theories/M_Dataset.v
theories/L_Dataset.v
theories/P_Dataset.v
theories/S_Pysdf.v
theories/M_Pysdf.v
theories/L_Pysdf.v
theories/L_Pysdf2.v
theories/P_Pysdf.v
theories/M_Threads.v
theories/S_Threads.v
theories/L_Threads.v
theories/P_Threads.v
theories/M_ThreadsLock.v
theories/L_ThreadsLock.v
theories/P_ThreadsLock.v
theories/M_JobsSave.v
theories/P_JobsSave.v
theories/M_Double.v
theories/S_Double.v
theories/L_Double.v
theories/P_Double.v
theories/M_RandDouble.v
theories/P_RandDouble.v
theories/P_RandFloat.v
theories/S_DoubleReduce.v
theories/M_DoubleReduce.v
theories/L_DoubleReduce.v
theories/P_DoubleReduce.v
theories/M_Iter.v
theories/S_Iter.v
theories/L_Iter.v
theories/P_Iter.v
theories/M_SdfErr.v
theories/P_SdfErr.v
theories/M_Alloc.v
theories/S_Alloc.v
theories/P_Alloc.v
theories/M_GetLock.v
theories/P_GetLock.v
theories/S_Matsdf.v
theories/M_Matsdf.v
theories/L_Matsdf.v
theories/P_Matsdf.v
theories/P_MatsdfShapes.v
theories/L_RandInj.v
theories/L_RandArray.v
theories/S_Reseed.v
theories/M_Reseed.v
theories/L_Reseed.v
theories/P_RandSeed.v
theories/S_RandTensor.v
theories/M_RandTensor.v
theories/L_RandTensor.v
theories/P_RandTensor.v
theories/S_FoldDouble.v
theories/M_FoldDouble.v
theories/L_FoldDouble.v
theories/L_FoldDouble2.v
theories/L_FoldDouble3.v
theories/P_FoldDouble.v
theories/M_TensorHeap.v
theories/S_TensorHeap.v
theories/L_TensorHeap.v
theories/L_TensorHeap2.v
theories/L_TensorHeap3.v
theories/L_TensorHeap4.v
theories/L_TensorHeap5.v
theories/P_TensorHeap.v
theories/S_Fair.v
theories/L_Fair.v
theories/P_Fair.v
theories/S_Matset.v
theories/M_Matset.v
theories/L_Matset.v
theories/P_Matset.v
theories/P_AnyFile.v
theories/S_Files.v
theories/M_Files.v
theories/P_Files.v
theories/S_Power.v
theories/L_Power.v
theories/P_Power.v
theories/M_BlockSvdOut.v
theories/P_BlockSvdOut.v
theories/P_BlockSvdEmpty.v
theories/L_RangeEnds.v
theories/P_RangeEnds.v
theories/S_ArpackSort.v
theories/M_ArpackSort.v
theories/L_ArpackSort.v
theories/L_ArpackOrder.v
theories/P_ArpackSort.v
theories/S_ArpackSelect.v
theories/M_ArpackSelect.v
theories/L_ArpackSelect.v
theories/L_ArpackSelect2.v
theories/L_ArpackSelect3.v
theories/L_ArpackSelect4.v
theories/L_ArpackSelect5.v
theories/L_ArpackSelect6.v
theories/P_ArpackSelect.v
theories/S_ArpackParams.v
theories/M_ArpackParams.v
theories/L_ArpackParams.v
theories/P_ArpackParams.v
theories/S_RefInt.v
theories/M_RefInt.v
theories/L_RefInt.v
theories/P_RefInt.v
theories/M_RandSparse.v
theories/P_RandSparse.v
theories/S_Lanczos.v
theories/M_Lanczos.v
theories/M_Sapps.v
theories/L_Lanczos.v
theories/L_Sapps.v
theories/L_Sapps2.v
theories/L_Sapps3.v
theories/L_Sapps4.v
theories/L_LanczosShift.v
theories/L_Spectral.v
theories/L_PowerSym.v
theories/P_Lanczos.v
theories/P_PowerSym.v
theories/S_Arnoldi.v
theories/M_Arnoldi.v
theories/M_Napps.v
theories/L_Arnoldi.v
theories/L_SpectralC.v
theories/L_Napps.v
theories/L_Napps2.v
theories/L_Napps3.v
theories/L_Napps4.v
theories/L_Naup2.v
theories/L_NappsOne.v
theories/L_NappsSplit.v
theories/P_Arnoldi.v
theories/S_ArpackCSelect.v
theories/M_ArpackCSelect.v
theories/L_ArpackCSelect.v
theories/L_ArpackCSelect2.v
theories/P_ArpackCSelect.v
theories/M_MapLife.v
theories/S_MapLife.v
theories/L_MapLife.v
theories/L_MapLife2.v
theories/P_MapLife.v
theories/M_MapThrow.v
theories/P_MapThrow.v
theories/M_BlasInt.v
theories/S_BlasInt.v
theories/L_BlasInt.v
theories/P_BlasInt.v
theories/S_Matsort.v
theories/M_Matsort.v
theories/L_Matsort.v
theories/P_Matsort.v
theories/L_Matgrid.v
theories/P_Matgrid.v
theories/M_SdfAix.v
theories/L_SdfAix.v
theories/P_SdfAix.v
theories/S_Time.v
theories/M_Time.v
theories/L_Time.v
theories/P_Time.v
theories/M_EigInt.v
theories/P_EigInt.v
