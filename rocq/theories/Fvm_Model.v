(** Finite volumes: the control-volume mesh (fvm/FvmMesh_Imp.hpp, fvm/FvmFace_Imp.hpp, fvm/FvmControlVolume_Imp.hpp) and
    the operators (pde/fvm/generic/FvmGenericOperators_Imp.hpp; pde/fvm/thermal/FvmThermalOperators_Imp.hpp has the same
    ddt and laplacian), function by function. Paths are relative to /repo/trunk/src. *)
From Coq Require Import QArith ZArith List Bool.
From Verif Require Import Prelude Vec ZMap Mesh_Model Poly_Model Lin_Sum Lin_Model Fdm_Model.
Import ListNotations.
Open Scope Z_scope.

(** ** The control-volume mesh *)

(** fvm/FvmFace.hpp: polyline, hasPair, controlVolumeId, neighborId (0 when never set); the boundary type is left out. *)
Record fvface : Type := FvFace { ff_poly : list coord; ff_haspair : bool; ff_cv : Z; ff_nb : Z }.

(** fvm/FvmFace_Imp.hpp 89-96: neighborId(cv). *)
Definition neighbor_id (f : fvface) (cv : Z) : Z := if ff_cv f =? cv then ff_nb f else ff_cv f.

(** fvm/FvmControlVolume.hpp: controlVolumeId and the polyhedron of the faces (no clipping). *)
Record cvol : Type := CVol { cv_id : Z; cv_poly : polyhedron }.

(** fvm/FvmMesh.hpp: both tables are kept like the tables of CMshMesh (addFace 186-193, addControlVolume 213-220). *)
Record fvmesh : Type := FvMesh { fm_faces : table fvface; fm_cvs : table cvol }.

(** State of the face loop of set(): m_faces, newFaceIds, faceAdded, aNewFaceId. *)
Record fvstate : Type := FvState { fs_faces : table fvface; fs_new : zmap Z; fs_added : zmap bool; fs_next : Z }.

(** fvm/FvmMesh_Imp.hpp 45-46. *)
Definition added_init (m : mesh) : zmap bool := fold_left (fun a id => zinsert id false a) (t_ids (m_faces m)) zempty.

(** fvm/FvmMesh_Imp.hpp 51-87: one pass of the face loop; [fid] is aMesh.faceId(i). *)
Definition set_face (m : mesh) (st : fvstate) (fid : Z) : outcome fvstate :=
  b <- zat (fs_added st) fid ;;
  if b then Ok st else
  f <- t_get (m_faces m) fid ;;
  vs <- mapM (t_get (m_nodes m)) (f_nodes f) ;;
  nb <- (if f_haspair f then g <- t_get (m_faces m) (f_pair f) ;; Ok (f_elem g) else Ok 0) ;;
  let k := fs_next st in
  let faces := t_add (fs_faces st) k (FvFace (pl_close vs 0) (f_haspair f) (f_elem f) nb) in
  let added := zinsert fid true (fs_added st) in
  let new := zinsert fid k (fs_new st) in
  Ok (if f_haspair f then FvState faces (zinsert (f_pair f) k new) (zinsert (f_pair f) true added) (k + 1)
      else FvState faces new added (k + 1)).

(** fvm/FvmMesh_Imp.hpp 102-115: one face of one element. *)
Definition set_cv_face (st : fvstate) (id : Z) (p : polyhedron) (fid : Z) : outcome polyhedron :=
  k <- zat (fs_new st) fid ;;
  f <- zat (t_map (fs_faces st)) k ;;
  Ok (ph_add p k (if ff_cv f =? id then ff_poly f else rev (ff_poly f))).

(** fvm/FvmMesh_Imp.hpp 90-118: one element. *)
Definition set_cv (m : mesh) (st : fvstate) (t : table cvol) (id : Z) : outcome (table cvol) :=
  e <- t_get (m_elems m) id ;;
  p <- foldM (set_cv_face st id) (e_faces e) ph_empty ;;
  Ok (t_add t id (CVol id p)).

(** fvm/FvmMesh_Imp.hpp 36-119: set(). *)
Definition fvm_set (m : mesh) : outcome fvmesh :=
  st <- foldM (set_face m) (t_ids (m_faces m)) (FvState t_empty zempty (added_init m) 0) ;;
  cvs <- foldM (set_cv m st) (t_ids (m_elems m)) t_empty ;;
  Ok (FvMesh (fs_faces st) cvs).

(** ** Operators *)

(** What the operators take from the geometry: area and normal of a face as the polygon of its nodes, volume of the
    polyhedron of an element, norm of the difference of two element centroids, and of a face and an element centroid.
    They are parameters here: norms are not rational. For the measures themselves see Poly_Model. *)
Record geometry : Type := Geo {
  g_area : Z -> Q; g_normal : Z -> coord; g_volume : Z -> Q; g_cells : Z -> Z -> Q; g_wall : Z -> Z -> Q
}.

(** faceHasBC(id), faceBC(id) with type BT_GENERIC_FIXED_VALUE; other condition types are ignored by these operators. *)
Definition bcs : Type := Z -> option Q.

(** Start of all operators: zero matrix and vector of size nbElements(). *)
Definition fvm_start (m : mesh) : sys := Sys MT_SPARSE (length (t_ids (m_elems m))) (fun _ _ => 0%Q) (fun _ => 0%Q).

(** FvmGenericOperators_Imp.hpp 41-56: the value of the first face with a fixed value, else the field. *)
Fixpoint first_fixed (bc : bcs) (l : list Z) : option Q :=
  match l with
  | [] => None
  | fid :: l' => match bc fid with Some v => Some v | None => first_fixed bc l' end
  end.

(** FvmGenericOperators_Imp.hpp 35-60: ddt; [u] is the field. *)
Definition ddt_cell (m : mesh) (bc : bcs) (u : vec) (s : sys) (el : nat) : outcome sys :=
  id <- t_id (m_elems m) (Z.of_nat el) ;;
  e <- t_get (m_elems m) id ;;
  s <- addA s el el 1 ;;
  addB s el (match first_fixed bc (e_faces e) with Some v => v | None => u el end).
Definition fvm_ddt (m : mesh) (bc : bcs) (u : vec) : outcome sys :=
  foldM (ddt_cell m bc u) (seq 0 (length (t_ids (m_elems m)))) (fvm_start m).

(** coeffRef with the index of an element: an int. *)
Definition addA_at (s : sys) (el : nat) (nl : Z) (x : Q) : outcome sys := if nl <? 0 then UB else addA s el (Z.to_nat nl) x.

(** FvmGenericOperators_Imp.hpp 84-96: collecting the faces of the element. *)
Definition check_face (m : mesh) (_ : unit) (fid : Z) : outcome unit :=
  f <- t_get (m_faces m) fid ;; _ <- mapM (t_get (m_nodes m)) (f_nodes f) ;; Ok tt.

(** FvmGenericOperators_Imp.hpp 103-142: one face of laplacian. *)
Definition lap_face (m : mesh) (g : geometry) (bc : bcs) (el : nat) (id : Z) (s : sys) (fid : Z) : outcome sys :=
  let a := g_area g fid in
  let v := g_volume g id in
  f <- t_get (m_faces m) fid ;;
  if f_haspair f then
    p <- t_get (m_faces m) (f_pair f) ;;
    let nid := f_elem p in
    nl <- t_index (m_elems m) nid ;;
    let d := g_cells g nid id in
    s <- addA s el el (- a / d / v)%Q ;;
    addA_at s el nl (a / d / v)%Q
  else match bc fid with
  | Some w =>
    let d := g_wall g fid id in
    s <- addA s el el (- a / d / v)%Q ;;
    addB s el (- a / d / v * w)%Q
  | None => Ok s
  end.

(** FvmGenericOperators_Imp.hpp 76-146: laplacian. *)
Definition lap_cell (m : mesh) (g : geometry) (bc : bcs) (s : sys) (el : nat) : outcome sys :=
  id <- t_id (m_elems m) (Z.of_nat el) ;;
  e <- t_get (m_elems m) id ;;
  _ <- foldM (check_face m) (e_faces e) tt ;;
  foldM (lap_face m g bc el id) (e_faces e) s.
Definition fvm_laplacian (m : mesh) (g : geometry) (bc : bcs) : outcome sys :=
  foldM (lap_cell m g bc) (seq 0 (length (t_ids (m_elems m)))) (fvm_start m).

(** FvmGenericOperators_Imp.hpp 190-222: one face of divergence. *)
Definition flow_sum (n : coord) : Q := (cx n + cy n + cz n)%Q.
Definition div_face (m : mesh) (g : geometry) (bc : bcs) (el : nat) (id : Z) (s : sys) (fid : Z) : outcome sys :=
  let a := g_area g fid in
  let v := g_volume g id in
  let n := flow_sum (g_normal g fid) in
  f <- t_get (m_faces m) fid ;;
  if f_haspair f then
    p <- t_get (m_faces m) (f_pair f) ;;
    nl <- t_index (m_elems m) (f_elem p) ;;
    s <- addA s el el ((1 # 2) * a / v * n)%Q ;;
    addA_at s el nl ((1 # 2) * a / v * n)%Q
  else match bc fid with
  | Some w => addB s el (a / v * n * w)%Q
  | None => Ok s
  end.
Definition div_cell (m : mesh) (g : geometry) (bc : bcs) (s : sys) (el : nat) : outcome sys :=
  id <- t_id (m_elems m) (Z.of_nat el) ;;
  e <- t_get (m_elems m) id ;;
  _ <- foldM (check_face m) (e_faces e) tt ;;
  foldM (div_face m g bc el id) (e_faces e) s.
Definition fvm_divergence (m : mesh) (g : geometry) (bc : bcs) : outcome sys :=
  foldM (div_cell m g bc) (seq 0 (length (t_ids (m_elems m)))) (fvm_start m).

(** (1/dt) ddt(u) - alpha laplacian(u) = 0 as users write it (examples/fvmheat/main.cpp); c = 1/dt. *)
Definition fvm_heat (c alpha : Q) (m : mesh) (g : geometry) (bc : bcs) (u : vec) : outcome sys :=
  d <- fvm_ddt m bc u ;; l <- fvm_laplacian m g bc ;; s <- sys_sub (sys_scale c d) (sys_scale alpha l) ;; Ok (assign_real s 0).
