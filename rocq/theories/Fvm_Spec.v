(** Vocabulary for finite volumes. *)
From Coq Require Import QArith ZArith List Bool Permutation.
From Verif Require Import Prelude Vec ZMap Mesh_Model Mesh_Spec Face_Model Face_Spec Poly_Model Lin_Model Lin_Spec Fvm_Model.
Import ListNotations.
Open Scope Z_scope.

(** A mesh with faces as generateFaces leaves it (C13): every face is listed once, by the element it names, and the pairing is
    mutual. *)
Definition cells_ok (m : mesh) : Prop :=
  wf_mesh m /\ indexed (m_elems m) /\ refs_ok m /\
  Permutation (flat_map (faces_listed (m_elems m)) (t_ids (m_elems m))) (t_ids (m_faces m)) /\
  (forall id fid f, In id (t_ids (m_elems m)) -> In fid (faces_listed (m_elems m) id) -> t_get (m_faces m) fid = Ok f -> f_elem f = id) /\
  (forall a b, has_pair (m_faces m) a b -> a <> b /\ has_pair (m_faces m) b a).

(** The element on the other side of a paired face; the element that lists a face. *)
Definition pair_of (m : mesh) (fid : Z) : option Z :=
  match t_get (m_faces m) fid with Ok f => if f_haspair f then Some (f_pair f) else None | _ => None end.
Definition owner (m : mesh) (fid : Z) : Z := match t_get (m_faces m) fid with Ok f => f_elem f | _ => 0 end.

(** A field given by its value in every element, in the order of the unknowns. *)
Definition field (m : mesh) (U : Z -> Q) : vec := fun i => U (nth i (t_ids (m_elems m)) 0).

(** Matrix times field minus right-hand side, row i. *)
Definition residual (s : sys) (u : vec) (i : nat) : Q := (row s u i - s_b s i)%Q.

(** Diffusive flow into the owner of a face. *)
Definition inflow (m : mesh) (g : geometry) (bc : bcs) (U : Z -> Q) (fid : Z) : Q :=
  match pair_of m fid with
  | Some b => (g_area g fid / g_cells g (owner m b) (owner m fid) * (U (owner m b) - U (owner m fid)))%Q
  | None => match bc fid with Some w => (g_area g fid / g_wall g fid (owner m fid) * (w - U (owner m fid)))%Q | None => 0%Q end
  end.

(** Both sides of a face measure the same; volumes, areas and distances are positive. *)
Definition matching (m : mesh) (g : geometry) : Prop :=
  (forall a b, has_pair (m_faces m) a b -> (g_area g a == g_area g b)%Q) /\ (forall i j, (g_cells g i j == g_cells g j i)%Q).
Definition positive (m : mesh) (g : geometry) : Prop :=
  (forall id, In id (t_ids (m_elems m)) -> (0 < g_volume g id)%Q) /\
  (forall a, In a (t_ids (m_faces m)) -> (0 < g_area g a)%Q /\ (0 < g_wall g a (owner m a))%Q) /\
  (forall a b, has_pair (m_faces m) a b -> (0 < g_cells g (owner m b) (owner m a))%Q).

(** What the divergence operator counts as flow out of the owner of a face: the mean of the two sides times the area times
    the sum of the components of the normal; a prescribed value counts with the opposite sign (see C71). *)
Definition outflow (m : mesh) (g : geometry) (bc : bcs) (U : Z -> Q) (fid : Z) : Q :=
  match pair_of m fid with
  | Some b => (g_area g fid * flow_sum (g_normal g fid) * ((1 # 2) * (U (owner m b) + U (owner m fid))))%Q
  | None => match bc fid with Some w => (- (g_area g fid * flow_sum (g_normal g fid) * w))%Q | None => 0%Q end
  end.

(** The two sides of a face look in opposite directions. *)
Definition opposite_normals (m : mesh) (g : geometry) : Prop :=
  forall a b, has_pair (m_faces m) a b -> (g_area g a * flow_sum (g_normal g a) == - (g_area g b * flow_sum (g_normal g b)))%Q.

(** The area vectors of a cell sum to zero, as those of any closed polyhedron do. *)
Definition closed_cell (m : mesh) (g : geometry) (id : Z) : Prop :=
  (rsum (map (fun fid => g_area g fid * flow_sum (g_normal g fid)) (faces_listed (m_elems m) id)) == 0)%Q.

(** The closed polygon of the nodes of a face. *)
Definition outline (m : mesh) (fid : Z) : list coord :=
  match t_get (m_faces m) fid with
  | Ok f => match mapM (t_get (m_nodes m)) (f_nodes f) with Ok vs => pl_close vs 0 | _ => [] end
  | _ => []
  end.
