-Q theories Verif
theories/Base.v
theories/Spec.v
theories/P_Index.v
theories/P_List.v
theories/M_Layout.v
theories/P_Layout.v
theories/P_Bounds.v
theories/P_Contig.v
theories/Q_Layout.v
theories/Properties_Layout.v
theories/M_Indexer.v
theories/P_Strides.v
theories/P_Indexer.v
theories/Q_Indexer.v
theories/Properties_Indexer.v
theories/M_Broadcast.v
theories/M_Reshape.v
theories/P_Broadcast.v
theories/Q_Broadcast.v
theories/P_Reshape.v
theories/Q_Reshape.v
theories/Properties_Broadcast.v
theories/M_Rearr.v
theories/M_Iter.v
theories/P_Iter.v
theories/Q_Iter.v
theories/Properties_Iter.v
theories/P_Rearr.v
theories/P_BinOp.v
theories/Q_Rearr.v
theories/Properties_Rearr.v
theories/M_Kernel.v
theories/P_Kernel.v
theories/M_Tensor.v
theories/Q_Kernel.v
theories/P_Tensor.v
theories/P_Reshape2.v
theories/Q_Tensor.v
theories/Q_Copy.v
theories/Properties_Tensor.v
theories/M_Reduce.v
theories/P_Reduce.v
theories/P_Arg.v
theories/P_Axes.v
theories/Q_Reduce.v
theories/Properties_Reduce.v
theories/M_Manip.v
theories/Spec_Views.v
theories/P_Manip.v
theories/P_Views.v
theories/P_Views2.v
theories/Q_Manip.v
theories/Properties_Manip.v
theories/Spec_Matmul.v
theories/M_Matmul.v
theories/P_Matmul.v
theories/P_Matmul2.v
theories/P_Matmul3.v
theories/P_Matmul4.v
theories/Q_Matmul.v
theories/Properties_Matmul.v
theories/Spec_Tri.v
theories/M_Tri.v
theories/P_Tri.v
theories/P_Tri2.v
theories/P_Tri3.v
theories/P_Tri4.v
theories/Q_Tri.v
theories/Properties_Tri.v
theories/M_Concat.v
theories/Spec_Concat.v
theories/P_Concat.v
theories/P_Concat2.v
theories/Q_Concat.v
theories/Properties_Concat.v
theories/Spec_Creation.v
theories/M_Creation.v
theories/P_Creation.v
theories/Q_Creation.v
theories/Properties_Creation.v
theories/Spec_Arange.v
theories/M_Arange.v
theories/P_Arange.v
theories/P_Arange2.v
theories/Q_Arange.v
theories/Properties_Arange.v
theories/Spec_Select.v
theories/M_Select.v
theories/P_Select.v
theories/Q_Select.v
theories/Properties_Select.v
theories/Spec_Tensordot.v
theories/M_Tensordot.v
theories/P_Tensordot.v
theories/Q_Tensordot.v
theories/Properties_Tensordot.v
theories/Spec_Pack.v
theories/M_Pack.v
theories/P_Pack.v
theories/Q_Pack.v
theories/Properties_Pack.v
theories/Spec_Vecdot.v
theories/M_Vecdot.v
theories/P_Vecdot.v
theories/P_Vecdot2.v
theories/P_Vecdot3.v
theories/Q_Vecdot.v
theories/Properties_Vecdot.v
theories/Spec_Mesh.v
theories/M_Mesh.v
theories/Q_Mesh.v
theories/Properties_Mesh.v
theories/M_Binary.v
theories/P_Binary.v
theories/Q_Binary.v
theories/Properties_Binary.v
theories/M_Shared.v
theories/Spec_Shared.v
theories/P_Shared.v
theories/Q_Shared.v
theories/Properties_Shared.v
theories/M_Fast.v
theories/P_Fast.v
theories/P_Fast2.v
theories/P_Fast3.v
theories/Q_Fast.v
theories/Properties_Fast.v
theories/Spec_Blas.v
theories/M_Blas.v
theories/Spec_BlasApi.v
theories/P_Blas.v
theories/P_Blas2.v
theories/P_Blas3.v
theories/P_Blas4.v
theories/Q_Blas.v
theories/Properties_Blas.v
theories/Spec_Dist.v
theories/M_Dist.v
theories/P_Dist.v
theories/Q_Dist.v
theories/Properties_Dist.v
theories/Spec_IterElem.v
theories/M_IterElem.v
theories/Q_IterElem.v
theories/Properties_IterElem.v
theories/Spec_Stats.v
theories/M_Stats.v
theories/Q_Stats.v
theories/Properties_Stats.v
theories/Spec_Format.v
theories/M_Format.v
theories/Q_Format.v
theories/Properties_Format.v
theories/P_Reshape3.v
theories/M_Compat.v
theories/Q_Compat.v
theories/Properties_Compat.v
theories/Spec_DType.v
theories/M_DType.v
theories/P_Float.v
theories/Q_DType.v
theories/Properties_DType.v
theories/Spec_Linalg.v
theories/M_Linalg.v
theories/P_Linalg.v
theories/P_Linalg2.v
theories/P_Linalg3.v
theories/Q_Linalg.v
theories/Properties_Linalg.v
theories/P_Linalg4.v
theories/P_Linalg5.v
theories/P_Linalg6.v
theories/Q_Linalg2.v
theories/Properties_Linalg2.v
theories/M_Faer.v
theories/Spec_Faer.v
theories/P_Faer.v
theories/P_Faer2.v
theories/P_Faer3.v
theories/P_Faer4.v
theories/P_Faer5.v
theories/P_Faer6.v
theories/P_Faer7.v
theories/P_Faer8.v
theories/Q_Faer.v
theories/Properties_Faer.v
theories/M_Lebedev.v
theories/Spec_Lebedev.v
theories/P_Lebedev.v
theories/P_Lebedev2.v
theories/P_Lebedev3.v
theories/P_Lebedev4.v
theories/P_Lebedev5.v
theories/Q_Lebedev.v
theories/Properties_Lebedev.v
theories/M_Device.v
theories/Spec_Device.v
theories/Q_Device.v
theories/Properties_Device.v
theories/M_Tblis.v
theories/Spec_Tblis.v
theories/P_Tblis.v
theories/P_Tblis2.v
theories/Q_Tblis.v
theories/Properties_Tblis.v
theories/P_ArangeFloat.v
theories/M_Float.v
theories/Spec_Float.v
theories/P_FloatOps.v
theories/P_FloatArange.v
theories/P_FloatLinspace.v
theories/Q_Float.v
theories/Properties_Float.v
theories/P_Param.v
theories/M_FloatReduce.v
theories/Spec_FloatReduce.v
theories/P_Shadow.v
theories/P_FloatSum.v
theories/Q_FloatReduce.v
theories/P_FloatMin.v
theories/Q_FloatMin.v
theories/Properties_FloatReduce.v
theories/Spec_FloatMatmul.v
theories/M_FloatMatmul.v
theories/P_FloatDot.v
theories/P_FloatDot2.v
theories/Q_FloatMatmul.v
theories/Properties_FloatMatmul.v
theories/Spec_FloatClose.v
theories/M_FloatClose.v
theories/P_FloatClose.v
theories/Q_FloatClose.v
theories/Properties_FloatClose.v
theories/Spec_NextAfter.v
theories/M_NextAfter.v
theories/Q_NextAfter.v
theories/Properties_NextAfter.v
theories/P_ParamDot.v
theories/M_FloatVecdot.v
theories/Spec_FloatVecdot.v
theories/Q_FloatVecdot.v
theories/Properties_FloatVecdot.v
theories/Spec_FloatProd.v
theories/M_FloatProd.v
theories/P_FloatProd.v
theories/Q_FloatProd.v
theories/Properties_FloatProd.v
theories/Spec_FloatVar.v
theories/M_FloatVar.v
theories/P_FloatVar.v
theories/Q_FloatVar.v
theories/Properties_FloatVar.v
theories/Spec_FloatDist.v
theories/M_FloatDist.v
theories/P_FloatDist.v
theories/Q_FloatDist.v
theories/Properties_FloatDist.v
theories/M_FloatComplex.v
theories/Spec_FloatComplex.v
theories/P_DotShadow.v
theories/P_FloatComplex.v
theories/Q_FloatComplex.v
theories/Properties_FloatComplex.v
theories/P_KOrder.v
theories/M_MapMut.v
theories/Spec_MapMut.v
theories/P_MapMut.v
theories/Q_MapMut.v
theories/Properties_MapMut.v
theories/M_IterPar.v
theories/Q_IterPar.v
theories/Properties_IterPar.v
theories/Q_ArgRavel.v
theories/Properties_ArgRavel.v
theories/Q_FloatArg.v
theories/Properties_FloatArg.v
theories/Q_AxesEmpty.v
theories/Properties_AxesEmpty.v
theories/Q_MatmulChecks.v
theories/Properties_MatmulChecks.v
theories/M_FloatComplexMatmul.v
theories/Spec_FloatComplexMatmul.v
theories/Q_FloatComplexMatmul.v
theories/Q_FloatComplexExact.v
theories/Properties_FloatComplexMatmul.v
theories/Q_TriOrder.v
theories/Properties_TriOrder.v
theories/M_FloatComplexLin.v
theories/Spec_FloatComplexLin.v
theories/P_FloatComplexLin.v
theories/Properties_FloatComplexLin.v
theories/Spec_Debug.v
theories/M_Debug.v
theories/Q_Debug.v
theories/Properties_Debug.v
theories/Spec_Range.v
theories/M_Range.v
theories/Q_Range.v
theories/Properties_Range.v
theories/Spec_Alloc.v
theories/M_Alloc.v
theories/Q_Alloc.v
theories/Properties_Alloc.v
theories/Spec_Dim.v
theories/M_Dim.v
theories/Q_Dim.v
theories/Properties_Dim.v
theories/Spec_Fast.v
theories/Q_Fast2.v
theories/Spec_Unary.v
theories/M_Unary.v
theories/Q_Unary.v
theories/Properties_Unary.v
theories/M_Solve.v
theories/Q_Solve.v
theories/Properties_Solve.v
theories/M_SolveFaer.v
theories/Q_SolveFaer.v
theories/Properties_SolveFaer.v
