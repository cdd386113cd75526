-Q theories Verif
theories/Spec.v
theories/M_Base.v
theories/M_Expr.v
theories/M_Ply.v
theories/L_Spec.v
theories/L_Expr.v
theories/Spec_Ply.v
theories/L_Ply.v
theories/L_Stl.v
theories/Spec_Expr.v
theories/L_Agree.v
theories/L_Run.v
theories/P_Ply.v
theories/M_Nested.v
theories/P_Nested.v
theories/M_Val.v
theories/Spec_Val.v
theories/L_Val.v
theories/P_Reduce.v
theories/M_View.v
theories/L_View.v
theories/Spec_View.v
theories/P_View.v
theories/M_Slice.v
theories/Spec_Slice.v
theories/L_Slice.v
theories/P_Slice.v
theories/M_Frame.v
theories/Spec_Frame.v
theories/L_Frame.v
theories/P_Frame.v
theories/M_Mat.v
theories/Spec_Mat.v
theories/P_Mat.v
theories/M_Opt.v
theories/P_Opt.v
theories/M_Overflow.v
theories/P_Overflow.v
theories/M_Cell.v
theories/P_Cell.v
theories/M_Array.v
theories/P_Array.v
theories/M_Fill.v
theories/Spec_Fill.v
theories/P_Fill.v
theories/M_Wedge.v
theories/Spec_Wedge.v
theories/L_Wedge.v
theories/P_Wedge.v
theories/M_Scalar.v
theories/Spec_Scalar.v
theories/P_Scalar.v
theories/M_Static.v
theories/Spec_Static.v
theories/P_Static.v
theories/M_Text.v
theories/Spec_Text.v
theories/L_Text.v
theories/P_Text.v
theories/M_Access.v
theories/P_Access.v
theories/M_Test.v
theories/Spec_Test.v
theories/P_Test.v
theories/Spec_Overlap.v
theories/P_Overlap.v
theories/M_Range.v
theories/P_Range.v
theories/M_Whole.v
theories/P_Whole.v
theories/M_List.v
theories/Spec_List.v
theories/P_List.v
theories/M_Zero.v
theories/P_Zero.v
theories/Spec_Nan.v
theories/P_Nan.v
theories/M_Shape.v
theories/Spec_Shape.v
theories/P_Shape.v
theories/P_Outer.v
theories/P_Unb.v
theories/M_Vec.v
theories/P_Vec.v
theories/M_Ref.v
theories/P_Ref.v
theories/M_Hodge.v
theories/P_Hodge.v
theories/M_Deep.v
theories/P_Deep.v
theories/P_Compose.v
theories/M_Path.v
theories/Spec_Path.v
theories/L_Path.v
theories/P_Path.v
theories/P_Laws.v
theories/M_Inner.v
theories/P_Inner.v
theories/M_Cells.v
theories/P_Cells.v
theories/M_Small.v
theories/P_Small.v
theories/M_Ext.v
theories/P_Ext.v
theories/M_Doc.v
theories/P_Doc.v
theories/M_Stencil.v
theories/P_Stencil.v
theories/M_Roll.v
theories/P_Roll.v
theories/M_Total.v
theories/P_Total.v
theories/T_Base.v
theories/T_From.v
theories/T_View.v
theories/T_Red.v
theories/T_Checks.v
theories/T_Text.v
theories/T_Wedge.v
theories/T_Frame.v
theories/T_Array.v
theories/T_Ply.v
theories/T_Small.v
theories/M_Elem.v
theories/P_Elem.v
theories/Spec_Cg.v
theories/L_Cg.v
theories/M_Cg.v
theories/P_Cg.v
theories/M_Poisson.v
theories/P_Poisson.v
theories/M_Gemm.v
theories/P_Gemm.v
theories/M_Assembly.v
theories/P_Assembly.v
theories/M_Mesh.v
theories/P_Mesh.v
theories/M_Wave.v
theories/P_Wave.v
theories/M_Laplace.v
theories/P_Laplace.v
theories/M_Newton.v
theories/P_Newton.v
theories/M_Sums.v
theories/P_Sums.v
theories/M_Fma.v
theories/Spec_Float.v
theories/L_Float.v
theories/P_Fma.v
theories/M_Order.v
theories/P_Order.v
theories/M_Merge.v
theories/P_Merge.v
theories/M_Deriv.v
theories/P_Deriv.v
theories/M_Pack.v
theories/P_Pack.v
theories/M_Zip.v
theories/P_Zip.v
theories/M_Own.v
theories/Spec_Own.v
theories/P_Own.v
theories/M_Feed.v
theories/P_Feed.v
theories/M_Accum.v
theories/P_Accum.v
theories/M_Indirect.v
theories/P_Indirect.v
theories/M_Readme.v
theories/P_Readme.v
theories/M_Manual.v
theories/P_Manual.v
theories/M_Select.v
theories/P_Select.v
theories/M_Bench.v
theories/P_Bench.v
theories/M_Ravel.v
theories/P_Ravel.v
theories/M_Examples.v
theories/P_Examples.v
theories/T_Genfrom.v
theories/M_Heat.v
theories/P_Heat.v
theories/M_Leap.v
theories/P_Leap.v
theories/M_Choose.v
theories/P_Choose.v
theories/M_Blocks.v
theories/P_Blocks.v
theories/T_Ra0.v
theories/M_Vecs.v
theories/P_Vecs.v
theories/M_Reflect.v
theories/P_Reflect.v
theories/M_Sb.v
theories/P_Sb.v
theories/P_Same.v
theories/M_Ra1.v
theories/P_Ra1.v
