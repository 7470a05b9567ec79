-Q theories Verif
theories/Prelude.v
theories/Vec.v
theories/ZMap.v
theories/Mesh_Model.v
theories/Mesh_Spec.v
theories/Mesh_Proofs.v
theories/Mesh_Props.v
theories/Box_Model.v
theories/Box_Spec.v
theories/Box_Proofs.v
theories/Box_Props.v
theories/HashGrid_Model.v
theories/HashGrid_Spec.v
theories/HashGrid_Proofs.v
theories/HashGrid_Props.v
theories/Mesh_Check.v
theories/Merge_Model.v
theories/Merge_Spec.v
theories/Merge_Proofs.v
theories/Merge_Props.v
theories/Face_Model.v
theories/Face_Spec.v
theories/Face_Proofs.v
theories/Face_Float.v
theories/Face_Props.v
theories/Grid_Model.v
theories/Grid_Spec.v
theories/Grid_Proofs.v
theories/Grid_Mesh.v
theories/Grid_Fill.v
theories/Grid_Props.v
theories/Adt_Model.v
theories/Adt_Spec.v
theories/Adt_Proofs.v
theories/Oct_Model.v
theories/Oct_Proofs.v
theories/Adt_Props.v
theories/Oct_Props.v
theories/Seg_Model.v
theories/Seg_Spec.v
theories/Seg_Proofs.v
theories/Seg_Lists.v
theories/Seg_Props.v
theories/Poly_Model.v
theories/Poly_Spec.v
theories/Poly_Proofs.v
theories/Poly_Tri.v
theories/Poly_Clip.v
theories/Poly_Hedra.v
theories/Cell_Model.v
theories/Cell_Proofs.v
theories/Poly_Props.v
theories/Cell_Props.v
theories/Csg_Model.v
theories/Csg_Spec.v
theories/Csg_Hull.v
theories/Csg_Ring.v
theories/Csg_Split.v
theories/Csg_Proofs.v
theories/Csg_Bool.v
theories/Csg_Cube.v
theories/Csg_Props.v
theories/Lin_Sum.v
theories/Lin_Model.v
theories/Lin_Spec.v
theories/Lin_Proofs.v
theories/Lin_Props.v
theories/Fdm_Model.v
theories/Fdm_Proofs.v
theories/Fdm_Props.v
theories/Lin_Exist.v
theories/Fvm_Model.v
theories/Fvm_Spec.v
theories/Fvm_Proofs.v
theories/Fvm_Set.v
theories/Fvm_Props.v
theories/Lbm_Model.v
theories/Lbm_Props.v
theories/Root_Model.v
theories/Root_Proofs.v
theories/Root_Props.v
theories/Int_Model.v
theories/Int_Props.v
theories/Sph_Model.v
theories/Sph_Props.v
theories/Fem_Model.v
theories/Fem_Spec.v
theories/Fem_Proofs.v
theories/Fem_Props.v
theories/Fem_Cells.v
theories/Fem_Struct.v
theories/Asm_Model.v
theories/Asm_Props.v
theories/Stl_Model.v
theories/Stl_Props.v
theories/Piso_Model.v
theories/Piso_Props.v
theories/Vof_Props.v
theories/Post_Model.v
theories/Post_Props.v
theories/Ana_Model.v
theories/Ana_Props.v
theories/Query_Model.v
theories/Query_Props.v
theories/Struct_Model.v
theories/Struct_Props.v
theories/Prim_Model.v
theories/Prim_Props.v
theories/Store_Props.v
theories/Surf_Model.v
theories/Surf_Spec.v
theories/Surf_Proofs.v
theories/Split_Proofs.v
theories/Split_Props.v
theories/Conn_Props.v
theories/Orient_Proofs.v
theories/Orient_Props.v
theories/Weld_Proofs.v
theories/Weld_Props.v
theories/Memo_Model.v
theories/Memo_Props.v
theories/Clean_Model.v
theories/Clean_Props.v
theories/Front_Model.v
theories/Front_Spec.v
theories/Front_Proofs.v
theories/Front_Finish.v
theories/Front_Props.v
theories/Tune_Model.v
theories/Tune_Spec.v
theories/Tune_Proofs.v
theories/Tune_Relax.v
theories/Tune_Faces.v
theories/Tune_Props.v
theories/Heat_Model.v
theories/Heat_Proofs.v
theories/Heat_Props.v
theories/Stream_Model.v
theories/Stream_Proofs.v
theories/Stream_Props.v
theories/Collapse_Model.v
theories/Collapse_Spec.v
theories/Collapse_Proofs.v
theories/Collapse_Props.v
theories/Frac_Model.v
theories/Frac_Props.v
theories/Hull_Model.v
theories/Hull_Proofs.v
theories/Hull_Props.v
theories/Hull_Spec.v
theories/Search_Model.v
theories/Search_Props.v
theories/Tet_Model.v
theories/Tet_Spec.v
theories/Tet_Walls.v
theories/Tet_Proofs.v
theories/Tet_Faces.v
theories/Tet_Relax.v
theories/Tet_Props.v
theories/Tet_Ring.v
theories/Tet_Edge.v
theories/Tet_Edge_Props.v
theories/Quad_Model.v
theories/Quad_Spec.v
theories/Quad_Proofs.v
theories/Quad_Faces.v
theories/Quad_Relax.v
theories/Quad_Props.v
theories/Remesh_Model.v
theories/Remesh_Spec.v
theories/Remesh_Proofs.v
theories/Remesh_Props.v
theories/Relax_Proofs.v
theories/Relax_Props.v
theories/Rate_Model.v
theories/Rate_Spec.v
theories/Rate_Proofs.v
theories/Rate_Props.v
theories/Resize_Model.v
theories/Resize_Spec.v
theories/Resize_Proofs.v
theories/Resize_Props.v
theories/Resize_Beams.v
theories/Field_Model.v
theories/Field_Spec.v
theories/Field_Proofs.v
theories/Field_Props.v
theories/Fix_Model.v
theories/Fix_Spec.v
theories/Fix_Proofs.v
theories/Fix_Props.v
theories/Naked_Model.v
theories/Naked_Spec.v
theories/Naked_Proofs.v
theories/Naked_Props.v
theories/Inside_Model.v
theories/Inside_Spec.v
theories/Inside_Proofs.v
theories/Inside_Props.v
theories/Cross_Model.v
theories/Cross_Spec.v
theories/Cross_Proofs.v
theories/Cross_Props.v
theories/Cent_Model.v
theories/Cent_Props.v
theories/Meet_Model.v
theories/Meet_Props.v
