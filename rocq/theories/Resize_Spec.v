(** Words used in the statements about remesh (Resize_Props.v). *)
From Coq Require Import ZArith List Bool QArith.
From Verif Require Import Prelude Vec ZMap Mesh_Model Mesh_Spec Front_Spec Tune_Spec.
Import ListNotations.
Open Scope Z_scope.

(** The faces listed by an element exist, are lines and belong to it. *)
Definition listed (m : mesh) : Prop :=
  forall id e fid, t_get (m_elems m) id = Ok e -> In fid (e_faces e) ->
  exists f, t_get (m_faces m) fid = Ok f /\ f_elem f = id /\ f_type f = FT_LINE.
(** The ids of the elements are among 0, ..., number of elements - 1. *)
Definition numbered_from_zero (m : mesh) : Prop := forall id, In id (t_ids (m_elems m)) -> 0 <= id < t_size (m_elems m).
(** Every element is a triangle. *)
Definition all_triangles (m : mesh) : Prop := forall id e, t_get (m_elems m) id = Ok e -> e_type e = ET_TRIANGLE.
(** The distance of the nodes is more than one and a half times [size]. *)
Definition long (size : Q) (m : mesh) (a b : Z) : Prop :=
  exists pa pb, t_get (m_nodes m) a = Ok pa /\ t_get (m_nodes m) b = Ok pb /\ ((3 # 2) * size * ((3 # 2) * size) < norm2 (vsub pb pa))%Q.
(** The point in the middle of two nodes. *)
Definition middle (m : mesh) (a b : Z) (c : coord) : Prop :=
  exists pa pb, t_get (m_nodes m) a = Ok pa /\ t_get (m_nodes m) b = Ok pb /\
    (cx c + cx c == cx pa + cx pb)%Q /\ (cy c + cy c == cy pa + cy pb)%Q /\ (cz c + cz c == cz pa + cz pb)%Q.
(** The element has the same corners in both meshes. *)
Definition same_corners (m m' : mesh) (id : Z) : Prop :=
  exists e e', t_get (m_elems m) id = Ok e /\ t_get (m_elems m') id = Ok e' /\ e_nodes e' = e_nodes e.
(** The element has a corner that is no node of [m]. *)
Definition cut_open (m m' : mesh) (id : Z) : Prop :=
  exists e' n, t_get (m_elems m') id = Ok e' /\ In n (e_nodes e') /\ ~ In n (t_ids (m_nodes m)).
(** All faces are lines. *)
Definition only_lines (m : mesh) : Prop := forall fid f, t_get (m_faces m) fid = Ok f -> f_type f = FT_LINE.
(** A mesh of counter-clockwise triangles, no two of which run the same way along a side. *)
Definition triangulation (tol : Q) (m : mesh) : Prop :=
  wf_mesh m /\ refs_ok m /\ all_triangles m /\ proper m /\ all_upright tol m /\ once m /\ t_ids (m_elems m) <> [] /\ numbered_from_zero m.
(** ... and its faces. *)
Definition with_its_faces (m : mesh) : Prop := linked m /\ owned m /\ listed m /\ only_lines m.

(** ** Beams *)
Definition beam (m : mesh) (id a b : Z) : Prop := exists faces, t_get (m_elems m) id = Ok (Element ET_BEAM [a; b] faces).
Definition all_beams (m : mesh) : Prop := forall id, In id (t_ids (m_elems m)) -> exists a b, beam m id a b.
(** The node is at the [i]-th of [n] equal steps from [pa] to [pb]. *)
Definition at_step (m : mesh) (k : Z) (pa pb : coord) (i n : nat) : Prop :=
  exists c, t_get (m_nodes m) k = Ok c /\ c =v= vadd pa (vscale (inject_Z (Z.of_nat i) / inject_Z (Z.of_nat n)) (vsub pb pa)).
(** The beams [ids] lead from [a] to [b] in equal steps. *)
Definition divided (m : mesh) (a b : Z) (pa pb : coord) (ids : list Z) : Prop :=
  exists l, length l = S (length ids) /\ nth 0 l 0 = a /\ nth (length ids) l 0 = b /\
    (forall i, (i < length ids)%nat -> beam m (nth i ids 0) (nth i l 0) (nth (S i) l 0)) /\
    (forall i, (i <= length ids)%nat -> at_step m (nth i l 0) pa pb i (length ids)).
(** [n] is the distance by the size, rounded to the nearest number (halves upwards), but at least one. *)
Definition nearest (size : Q) (pa pb : coord) (n : nat) : Prop :=
  (1 <= n)%nat /\ (norm2 (vsub pb pa) < (inject_Z (Z.of_nat n) + (1 # 2)) * size * ((inject_Z (Z.of_nat n) + (1 # 2)) * size))%Q /\
  (n = 1%nat \/ (inject_Z (Z.of_nat n) - (1 # 2)) * size * ((inject_Z (Z.of_nat n) - (1 # 2)) * size) <= norm2 (vsub pb pa))%Q.
