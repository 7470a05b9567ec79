(** Model of CGeoBoundingBox (geometry/GeoBoundingBox_Imp.hpp) and of the mesh functions that build
    one (mesh/MshMesh_Imp.hpp:1060-1090). *)
From Coq Require Import ZArith List Bool QArith.
From Verif Require Import Prelude Vec ZMap Mesh_Model.
Import ListNotations.
Open Scope Q_scope.

(** GeoBoundingBox.hpp: m_min, m_max, m_center. *)
Record box : Type := Box { b_min : coord; b_max : coord; b_center : coord }.

Definition centre (lo hi : coord) : coord := vscale (1#2) (vadd lo hi).

(** GeoBoundingBox_Imp.hpp:23-35. *)
Definition box_of (lo hi : coord) : box := Box lo hi (centre lo hi).

(** GeoBoundingBox_Imp.hpp:43-54, :17-20. *)
Definition box_reset : box :=
  Box (Coord real_max real_max real_max) (Coord (- real_max) (- real_max) (- real_max)) vzero.

(** GeoBoundingBox_Imp.hpp:57-69. *)
Definition box_add (b : box) (c : coord) : box :=
  box_of (Coord (qmin (cx (b_min b)) (cx c)) (qmin (cy (b_min b)) (cy c)) (qmin (cz (b_min b)) (cz c)))
         (Coord (qmax (cx (b_max b)) (cx c)) (qmax (cy (b_max b)) (cy c)) (qmax (cz (b_max b)) (cz c))).

(** GeoBoundingBox_Imp.hpp:84-89. *)
Definition box_intersects (self other : box) (tol : Q) : bool :=
  Qle_bool (cx (b_min self) - tol) (cx (b_max other)) && Qle_bool (cx (b_min other)) (cx (b_max self) + tol) &&
  Qle_bool (cy (b_min self) - tol) (cy (b_max other)) && Qle_bool (cy (b_min other)) (cy (b_max self) + tol) &&
  Qle_bool (cz (b_min self) - tol) (cz (b_max other)) && Qle_bool (cz (b_min other)) (cz (b_max self) + tol).

(** GeoBoundingBox_Imp.hpp:92-95. *)
Definition box_contains (self : box) (c : coord) (tol : Q) : bool :=
  Qle_bool (cx (b_min self) - tol) (cx c) && Qle_bool (cx c) (cx (b_max self) + tol) &&
  Qle_bool (cy (b_min self) - tol) (cy c) && Qle_bool (cy c) (cy (b_max self) + tol) &&
  Qle_bool (cz (b_min self) - tol) (cz c) && Qle_bool (cz c) (cz (b_max self) + tol).

(** GeoBoundingBox_Imp.hpp:98-101. *)
Definition box_contains_box (self other : box) (tol : Q) : bool :=
  Qle_bool (cx (b_min self) - tol) (cx (b_min other)) && Qle_bool (cx (b_max other)) (cx (b_max self) + tol) &&
  Qle_bool (cy (b_min self) - tol) (cy (b_min other)) && Qle_bool (cy (b_max other)) (cy (b_max self) + tol) &&
  Qle_bool (cz (b_min self) - tol) (cz (b_min other)) && Qle_bool (cz (b_max other)) (cz (b_max self) + tol).

(** GeoBoundingBox_Imp.hpp:104-108: the centre is left as it is. *)
Definition box_grow (b : box) (a : Q) : box :=
  Box (vsub (b_min b) (Coord a a a)) (vadd (b_max b) (Coord a a a)) (b_center b).

(** GeoBoundingBox_Imp.hpp:111-121. *)
Definition box_grow3 (b : box) (x y z : Q) : box :=
  Box (vsub (b_min b) (Coord x y z)) (vadd (b_max b) (Coord x y z)) (b_center b).

(** GeoBoundingBox_Imp.hpp:124-128. *)
Definition box_shrink (b : box) (a : Q) : box :=
  Box (vadd (b_min b) (Coord a a a)) (vsub (b_max b) (Coord a a a)) (b_center b).

Definition box_add_all (cs : list coord) : box := fold_left box_add cs box_reset.

(** MshMesh_Imp.hpp:1060-1074. *)
Definition elem_box (m : mesh) (id : Z) : outcome box :=
  e <- t_get (m_elems m) id ;;
  foldM (fun b n => c <- t_get (m_nodes m) n ;; Ok (box_add b c)) (e_nodes e) box_reset.

(** MshMesh_Imp.hpp:1076-1090: the loop bound is the size of the node map. *)
Definition mesh_box (m : mesh) : outcome box :=
  foldM (fun b i => id <- t_id (m_nodes m) i ;; c <- t_get (m_nodes m) id ;; Ok (box_add b c))
        (zrange (length (t_map (m_nodes m)))) box_reset.

(** MshMesh_Imp.hpp:476-483 (scale): every stored node, in key order. *)
Definition mesh_scale (m : mesh) (k : Q) : mesh :=
  let t := m_nodes m in
  Mesh (Table (t_ids t) (map (fun p => (fst p, vscale k (snd p))) (t_map t)) (t_idx t) (t_ctr t))
       (m_faces m) (m_elems m).
