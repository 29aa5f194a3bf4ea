-Q theories Verif
theories/M_Base.v
theories/M_Params.v
theories/M_Padding.v
theories/M_Wavelet.v
theories/M_Buffer.v
theories/M_View.v
theories/M_Cache.v
theories/S_Cache.v
theories/P_Base.v
theories/S_Params.v
theories/P_Params.v
theories/S_Padding.v
theories/P_Padding.v
theories/P_Wavelet.v
theories/P_Buffer.v
theories/S_Buffer.v
theories/P_Impl.v
theories/P_Api.v
theories/P_Api2.v
theories/T_Params.v
theories/T_Padding.v
theories/T_Buffer.v
theories/T_View.v
theories/M_Real.v
theories/P_Sum.v
theories/P_Lin.v
theories/P_PR.v
theories/P_L2.v
theories/S_Exact.v
theories/P_Rec.v
theories/P_Exact.v
theories/P_Paths.v
theories/P_More.v
theories/P_More2.v
theories/T_Exact.v
theories/T_Wavelet.v
theories/M_Denoise.v
theories/S_Denoise.v
theories/P_Denoise.v
theories/T_Denoise.v
theories/M_Metrics.v
theories/S_Metrics.v
theories/P_Metrics.v
theories/P_Range.v
theories/T_Metrics.v
theories/P_Cache.v
theories/P_Threads.v
theories/T_Cache.v
theories/M_Archive.v
theories/M_Serializer.v
theories/S_Serializer.v
theories/P_Archive.v
theories/P_Csr.v
theories/P_Serializer.v
theories/P_Blob.v
theories/T_Serializer.v
theories/M_Equal.v
theories/S_Equal.v
theories/P_Equal.v
theories/T_Equal.v
theories/M_Image.v
theories/S_Image.v
theories/P_Image.v
theories/T_Image.v
theories/M_Color.v
theories/P_Color.v
theories/T_Color.v
theories/M_Float.v
theories/P_Float.v
theories/T_Pixel.v
theories/M_Sf.v
theories/S_Sf.v
theories/P_Sf.v
theories/T_Sf.v
theories/M_SfCodec.v
theories/P_SfTable.v
theories/P_SfMerge.v
theories/S_SfCodec.v
theories/P_SfCodec.v
theories/P_SfRound.v
theories/P_SfFloat.v
theories/P_SfLens.v
theories/P_SfFirst.v
theories/P_SfSmall.v
theories/P_SfValue.v
theories/P_SfCases.v
theories/S_SfWide.v
theories/P_SfWide.v
theories/T_SfCodec.v
theories/M_Legacy.v
theories/S_Legacy.v
theories/P_Legacy.v
theories/T_Legacy.v
theories/M_SfEqual.v
theories/P_SfEqual.v
theories/T_SfEqual.v
theories/M_Log2.v
theories/S_Log2.v
theories/P_Log2.v
theories/T_Log2.v
theories/M_Python.v
theories/S_Python.v
theories/P_Python.v
theories/P_Python3.v
theories/T_Python.v
theories/M_Binary32.v
theories/S_Round.v
theories/P_Rel.v
theories/P_Round.v
theories/P_Round2.v
theories/P_Round3.v
theories/P_Binary32.v
theories/P_Bin2.v
theories/P_Bin3.v
theories/T_Round.v
theories/M_ZeroDer.v
theories/S_ZeroDer.v
theories/P_ZeroDer.v
theories/T_ZeroDer.v
theories/M_Python2.v
theories/P_Python2.v
theories/T_Python2.v
theories/M_ColorF.v
theories/S_ColorF.v
theories/P_ColorF.v
theories/P_ColorF2.v
theories/P_ColorF3.v
theories/P_ColorF4.v
theories/T_ColorF.v
theories/S_Stable.v
theories/P_Stable.v
theories/P_Stable2.v
theories/P_Dual.v
theories/P_Dual2.v
theories/P_Dual3.v
theories/T_Stable.v
theories/M_Mag32.v
theories/P_Acc.v
theories/P_BinMove.v
theories/P_BinMove2.v
theories/P_DenoiseF.v
theories/P_Acc2.v
theories/T_StableF.v
theories/T_DenoiseF.v
theories/S_Local.v
theories/P_Loc.v
theories/P_Loc2.v
theories/P_Loc3.v
theories/P_Loc4.v
theories/P_Loc5.v
theories/P_Loc6.v
theories/P_Loc7.v
theories/T_Local.v
theories/S_Lossy.v
theories/P_Lossy.v
theories/P_Lossy2.v
theories/T_Lossy.v
theories/P_Peak.v
theories/P_Peak2.v
theories/P_Peak3.v
theories/T_Peak.v
theories/S_Preview.v
theories/P_Preview.v
theories/P_Preview2.v
theories/P_Preview3.v
theories/T_Preview.v
theories/S_Damage.v
theories/P_Damage.v
theories/T_Damage.v
theories/P_Literal.v
theories/M_Print.v
theories/S_Print.v
theories/P_Print.v
theories/T_Print.v
theories/M_MetricsF.v
theories/S_MetricsF.v
theories/P_MetricsF.v
theories/P_MetricsF2.v
theories/P_MetricsF3.v
theories/P_MetricsF4.v
theories/P_MetricsF5.v
theories/P_MetricsF6.v
theories/T_MetricsF.v
theories/P_Pipe.v
theories/P_Pipe2.v
theories/T_Pipe.v
theories/S_HslWave.v
theories/P_HslWave.v
theories/P_HslWave2.v
theories/P_HslWave3.v
theories/T_HslWave.v
theories/M_View2.v
theories/P_View2.v
theories/T_View2.v
theories/S_Daub.v
theories/P_Kant.v
theories/P_DaubC.v
theories/P_Daub.v
theories/P_Daub2.v
theories/P_Poly.v
theories/P_Smooth.v
theories/P_Near.v
theories/P_Near2.v
theories/T_Daub.v
theories/P_Fresh.v
theories/T_Fresh.v
theories/P_Photo.v
theories/T_Photo.v
theories/S_LocPrev.v
theories/P_LocPrev.v
theories/P_LocPrev2.v
theories/P_LocPrev3.v
theories/T_LocPrev.v
theories/M_Object.v
theories/S_Object.v
theories/P_Object.v
theories/P_Object2.v
theories/T_Object.v
theories/S_Object2.v
theories/P_Object3.v
theories/T_Object2.v
theories/S_Gen.v
theories/P_Gen.v
theories/T_Gen.v
theories/M_Store.v
theories/S_Store.v
theories/P_Store.v
theories/T_Store.v
theories/M_Share.v
theories/S_Share.v
theories/P_Share.v
theories/P_Share2.v
theories/P_Share3.v
theories/P_Share4.v
theories/T_Share.v
theories/S_Size.v
theories/P_Size.v
theories/P_Size2.v
theories/T_Size.v
theories/M_Python3.v
theories/S_Pyflow.v
theories/P_Pyflow.v
theories/T_Pyflow.v
theories/S_Trans.v
theories/P_Trans.v
theories/T_Trans.v
theories/S_Ring.v
theories/P_Ring.v
theories/P_Ring2.v
theories/P_Ring3.v
theories/T_Ring.v
theories/S_Canon.v
theories/P_Canon.v
theories/T_Canon.v
theories/S_Mse.v
theories/P_Mse.v
theories/P_Mse2.v
theories/T_Mse.v
theories/S_Best.v
theories/P_Best.v
theories/T_Best.v
theories/S_Cover.v
theories/P_Cover.v
theories/P_Cover2.v
theories/T_Cover.v
theories/S_Cycle.v
theories/P_Cycle.v
theories/T_Cycle.v
theories/M_Throw.v
theories/S_Throw.v
theories/P_Throw.v
theories/P_Throw2.v
theories/T_Throw.v
theories/M_CacheFail.v
theories/S_CacheFail.v
theories/P_CacheFail.v
theories/T_CacheFail.v
theories/M_ThrowImport.v
theories/P_ThrowImport.v
theories/T_ThrowImport.v
theories/P_Throw3.v
theories/S_Access.v
theories/P_Access.v
theories/T_Access.v
