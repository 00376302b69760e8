-Q theories Verif
theories/ASurf_Model.v
theories/ASurf_Proofs.v
theories/ASurf_Proofs2.v
theories/ASurf_Proofs3.v
theories/ASurf_Proofs4.v
theories/ASurf_Proofs5.v
theories/ASurf_Props.v
theories/ASurf_Spec.v
theories/Accept_Model.v
theories/Accept_Proofs.v
theories/Accept_Props.v
theories/Accept_Spec.v
theories/Alias_Model.v
theories/Alias_Proofs.v
theories/Alias_Proofs2.v
theories/Alias_Props.v
theories/Alias_Spec.v
theories/Asm_Model.v
theories/Asm_Proofs.v
theories/Asm_Props.v
theories/Asm_Spec.v
theories/Ast.v
theories/Ast_Ind.v
theories/Back_Model.v
theories/Back_Props.v
theories/Brep_Model.v
theories/Brep_Proofs.v
theories/Brep_Proofs2.v
theories/Brep_Proofs3.v
theories/Brep_Proofs4.v
theories/Brep_Proofs5.v
theories/Brep_Proofs6.v
theories/Brep_Props.v
theories/Brep_Spec.v
theories/Builtin_Model.v
theories/Builtin_Proofs.v
theories/Cache_Model.v
theories/Cache_Proofs.v
theories/Cache_Props.v
theories/Cache_Spec.v
theories/Check_Model.v
theories/Check_Proofs.v
theories/Check_Proofs2.v
theories/Check_Proofs3.v
theories/Check_Props.v
theories/Check_Spec.v
theories/Coll_Model.v
theories/Coll_Proofs.v
theories/Coll_Proofs2.v
theories/Coll_Proofs3.v
theories/Coll_Props.v
theories/Coll_Spec.v
theories/Compile_Model.v
theories/Constr_Model.v
theories/Constr_Proofs.v
theories/Constr_Props.v
theories/Constr_Spec.v
theories/Cycle_Model.v
theories/Cycle_Proofs.v
theories/Cycle_Props.v
theories/Cycle_Spec.v
theories/DReg_Model.v
theories/DReg_Proofs.v
theories/DReg_Props.v
theories/DReg_Spec.v
theories/Datum_Model.v
theories/Datum_Proofs.v
theories/Datum_Props.v
theories/Datum_Spec.v
theories/Dict.v
theories/Extr_Model.v
theories/Extr_Proofs.v
theories/Extr_Proofs2.v
theories/Extr_Proofs3.v
theories/Extr_Proofs4.v
theories/Extr_Proofs5.v
theories/Extr_Proofs6.v
theories/Extr_Proofs7.v
theories/Extr_Props.v
theories/Extr_Spec.v
theories/Fig_Model.v
theories/Fig_Proofs.v
theories/Fig_Proofs2.v
theories/Fig_Proofs3.v
theories/Fig_Props.v
theories/Fits_Props.v
theories/GCheck_Model.v
theories/GCheck_Proofs.v
theories/GCheck_Props.v
theories/GCheck_Spec.v
theories/GJson_Model.v
theories/GJson_Proofs.v
theories/GJson_Proofs2.v
theories/GJson_Proofs3.v
theories/GJson_Proofs4.v
theories/GJson_Props.v
theories/GJson_Spec.v
theories/Glist_Model.v
theories/Glist_Proofs.v
theories/Glist_Proofs2.v
theories/Glist_Proofs3.v
theories/Glist_Proofs4.v
theories/Glist_Proofs5.v
theories/Glist_Props.v
theories/Glist_Spec.v
theories/Hint_Proofs.v
theories/Hint_Proofs2.v
theories/Hint_Props.v
theories/Hint_Spec.v
theories/Interp_Model.v
theories/Interp_Proofs.v
theories/Interp_Proofs2.v
theories/Interp_Proofs3.v
theories/Interp_Proofs4.v
theories/Interp_Proofs5.v
theories/Interp_Proofs6.v
theories/Interp_Proofs7.v
theories/Interp_Proofs8.v
theories/Interp_Props.v
theories/Interp_Ref.v
theories/Interp_Spec.v
theories/Isect_Model.v
theories/Isect_Proofs.v
theories/Isect_Proofs2.v
theories/Isect_Proofs3.v
theories/Isect_Proofs4.v
theories/Isect_Proofs5.v
theories/Isect_Props.v
theories/Isect_Spec.v
theories/Json_Model.v
theories/Json_Proofs.v
theories/Json_Spec.v
theories/Kin_Model.v
theories/Kin_Proofs.v
theories/Kin_Proofs2.v
theories/Kin_Proofs3.v
theories/Kin_Proofs4.v
theories/Kin_Props.v
theories/Kin_Spec.v
theories/Lex_Model.v
theories/Lex_Proofs.v
theories/Lex_Proofs2.v
theories/Lex_Proofs3.v
theories/Lex_Proofs4.v
theories/Lex_Props.v
theories/Lex_Spec.v
theories/Lib_Model.v
theories/Load_Model.v
theories/Load_Proofs.v
theories/Load_Props.v
theories/Load_Spec.v
theories/Manu_Model.v
theories/Manu_Proofs.v
theories/Manu_Proofs2.v
theories/Manu_Proofs3.v
theories/Manu_Props.v
theories/Manu_Spec.v
theories/Mate_Model.v
theories/Mate_Proofs.v
theories/Mate_Props.v
theories/Mate_Spec.v
theories/Meas_Model.v
theories/Meas_Proofs.v
theories/Meas_Proofs2.v
theories/Meas_Proofs3.v
theories/Meas_Proofs4.v
theories/Meas_Props.v
theories/Meas_Spec.v
theories/Mesh_Model.v
theories/Mesh_Proofs.v
theories/Mesh_Props.v
theories/Mesh_Spec.v
theories/Meta_Model.v
theories/Meta_Proofs.v
theories/Meta_Proofs2.v
theories/Meta_Proofs3.v
theories/Meta_Proofs4.v
theories/Meta_Props.v
theories/Meta_Spec.v
theories/Oct_Model.v
theories/Oct_Proofs.v
theories/Oct_Proofs2.v
theories/Oct_Proofs3.v
theories/Oct_Props.v
theories/Oct_Spec.v
theories/Parse_Model.v
theories/Parse_Proofs.v
theories/Parse_Proofs2.v
theories/Parse_Proofs3.v
theories/Parse_Proofs4.v
theories/Parse_Proofs5.v
theories/Parse_Proofs6.v
theories/Parse_Props.v
theories/Parse_Spec.v
theories/Path_Model.v
theories/Path_Proofs.v
theories/Path_Proofs2.v
theories/Path_Proofs3.v
theories/Path_Props.v
theories/Path_Spec.v
theories/Pkg_Host.v
theories/Pkg_Model.v
theories/Pkg_Proofs.v
theories/Pkg_Proofs2.v
theories/Pkg_Proofs3.v
theories/Pkg_Props.v
theories/Pkg_Spec.v
theories/Plan_Model.v
theories/Plan_Proofs.v
theories/Plan_Proofs2.v
theories/Plan_Proofs3.v
theories/Plan_Proofs4.v
theories/Plan_Props.v
theories/Plan_Spec.v
theories/Prim_Lab.v
theories/Prim_Model.v
theories/Prim_Proofs.v
theories/Prim_Proofs2.v
theories/Prim_Proofs3.v
theories/Prim_Proofs4.v
theories/Prim_Proofs5.v
theories/Prim_Proofs6.v
theories/Prim_Props.v
theories/Prim_Spec.v
theories/Prov_Model.v
theories/Prov_Proofs.v
theories/Prov_Props.v
theories/Prov_Spec.v
theories/Ref_Props.v
theories/Resolver_Model.v
theories/Resolver_Proofs.v
theories/Resolver_Props.v
theories/Resolver_Spec.v
theories/Sign_Model.v
theories/Sign_Proofs.v
theories/Sign_Proofs2.v
theories/Sign_Props.v
theories/Sign_Spec.v
theories/Solid_Demo.v
theories/Solid_Model.v
theories/Solid_Proofs.v
theories/Solid_Proofs2.v
theories/Solid_Proofs3.v
theories/Solid_Proofs4.v
theories/Solid_Proofs5.v
theories/Solid_Proofs6.v
theories/Solid_Proofs7.v
theories/Solid_Props.v
theories/Solid_Spec.v
theories/Solver_Model.v
theories/Solver_Proofs.v
theories/Solver_Proofs2.v
theories/Solver_Proofs3.v
theories/Solver_Props.v
theories/Solver_Spec.v
theories/Sphere_Model.v
theories/Sphere_Proofs.v
theories/Sphere_Proofs2.v
theories/Sphere_Proofs3.v
theories/Sphere_Proofs4.v
theories/Sphere_Proofs5.v
theories/Sphere_Proofs6.v
theories/Sphere_Props.v
theories/Sphere_Spec.v
theories/Spline_Model.v
theories/Spline_Proofs.v
theories/Spline_Proofs2.v
theories/Spline_Proofs3.v
theories/Spline_Proofs4.v
theories/Spline_Props.v
theories/Spline_Spec.v
theories/Stl_Model.v
theories/Stl_Proofs.v
theories/Stl_Proofs2.v
theories/Stl_Props.v
theories/Stl_Spec.v
theories/Tree_Model.v
theories/Tree_Proofs.v
theories/Tree_Props.v
theories/Tree_Spec.v
theories/Types_Model.v
theories/Types_Proofs.v
theories/Types_Props.v
theories/Types_Spec.v
theories/View_Model.v
theories/View_Proofs.v
theories/View_Props.v
theories/View_Spec.v
theories/Xform_Model.v
theories/Xform_Proofs.v
theories/Xform_Props.v
