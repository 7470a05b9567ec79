(** Specification vocabulary for structured meshes. *)
From Coq Require Import ZArith List Bool QArith Qround Permutation.
From Verif Require Import Prelude Vec ZMap Mesh_Model Mesh_Spec Face_Model Face_Spec Grid_Model.
Import ListNotations.
Open Scope Z_scope.

(** The number of the grid point (i, j, k) when i runs fastest and k slowest. *)
Definition point_id (nu nv i j k : Z) : Z := i + (nu + 1) * (j + (nv + 1) * k).

(** The point at the fractions [a], [b], [c] of three edge vectors. *)
Definition at_fractions (o u v w : coord) (a b c : Q) : coord :=
  vadd o (vadd (vscale a u) (vadd (vscale b v) (vscale c w))).

(** The fraction i/n. *)
Definition frac (i n : Z) : Q := (inject_Z i / inject_Z n)%Q.

(** The eight corners of a parallelepiped in the order of CGeoHexahedron. *)
Definition corners (o u v w : coord) : list coord :=
  [o; vadd o u; vadd o (vadd u v); vadd o v; vadd o w; vadd o (vadd u w); vadd o (vadd u (vadd v w)); vadd o (vadd v w)].

Definition parallelepiped (vs : list coord) (o u v w : coord) : Prop := Forall2 veq vs (corners o u v w).

(** The four corners of a parallelogram in the order of CGeoQuadrilateral. *)
Definition parallelogram (vs : list coord) (o u v : coord) : Prop :=
  Forall2 veq vs [o; vadd o u; vadd o (vadd u v); vadd o v].

(** All elements of a mesh are of one type, have the nodes their type needs, without repetition, and
    these nodes exist. *)
Definition proper (m : mesh) (t : etype) : Prop :=
  forall id e, t_get (m_elems m) id = Ok e ->
    e_type e = t /\ length (e_nodes e) = node_count t /\ NoDup (e_nodes e) /\ incl (e_nodes e) (t_ids (m_nodes m)).

(** All the given nodes lie on one of the six sides of the index box. *)
Definition on_box_side (nu nv nw : Z) (l : list Z) : Prop :=
  (exists i, (i = 0 \/ i = nu) /\ forall n, In n l -> exists j k, 0 <= j <= nv /\ 0 <= k <= nw /\ n = point_id nu nv i j k) \/
  (exists j, (j = 0 \/ j = nv) /\ forall n, In n l -> exists i k, 0 <= i <= nu /\ 0 <= k <= nw /\ n = point_id nu nv i j k) \/
  (exists k, (k = 0 \/ k = nw) /\ forall n, In n l -> exists i j, 0 <= i <= nu /\ 0 <= j <= nv /\ n = point_id nu nv i j k).

(** All the given nodes lie on one of the four sides of a plane grid. *)
Definition on_plane_side (nu nv : Z) (l : list Z) : Prop :=
  (exists i, (i = 0 \/ i = nu) /\ forall n, In n l -> exists j, 0 <= j <= nv /\ n = point_id nu nv i j 0) \/
  (exists j, (j = 0 \/ j = nv) /\ forall n, In n l -> exists i, 0 <= i <= nu /\ n = point_id nu nv i j 0).

(** All the given nodes are one end of a line grid. *)
Definition on_line_end (nu : Z) (l : list Z) : Prop := (forall n, In n l -> n = 0) \/ (forall n, In n l -> n = nu).

(** Every face is shared by exactly two different cells that see it from opposite sides, or by none
    and then lies where [side] says; pairing is mutual. *)
Definition conforming (t : table face) (side : list Z -> Prop) : Prop :=
  at_most_two t /\
  (forall a b, mates t a b -> has_pair t a b) /\
  (forall a b f g, mates t a b -> t_get t a = Ok f -> t_get t b = Ok g ->
     f_elem f <> f_elem g /\ forall p q, edge_count [f_nodes f] (p, q) = edge_count [f_nodes g] (q, p)) /\
  (forall a f, t_get t a = Ok f -> (unpaired t a <-> side (f_nodes f)) /\ (unpaired t a <-> forall b, ~ mates t a b)).

(** The corner coordinates of element [id]. *)
Definition elem_coords (m : mesh) (id : Z) : list coord :=
  match t_get (m_elems m) id with
  | Ok e => map (fun n => match t_get (m_nodes m) n with Ok c => c | _ => vzero end) (e_nodes e)
  | _ => []
  end.

Definition qsum (l : list Q) : Q := fold_right Qplus 0%Q l.
Definition vsum (l : list coord) : coord := fold_right vadd vzero l.

(** [p] is a weighted mean, with weights that are not negative, of the points [cs]. *)
Definition in_hull (cs : list coord) (p : coord) : Prop :=
  exists ws, length ws = length cs /\ (forall x, In x ws -> (0 <= x)%Q) /\ (qsum ws == 1)%Q /\
    p =v= vsum (map (fun wc => vscale (fst wc) (snd wc)) (combine ws cs)).

(** The nodes [ids] of [m] lie at the points [cs], in this order. *)
Definition nodes_at (m : mesh) (ids : list Z) (cs : list coord) : Prop :=
  Forall2 (fun n c => exists c', t_get (m_nodes m) n = Ok c' /\ c' =v= c) ids cs.

(** The volume and the normal vector (twice the area) the library computes for a cell of a plain or of
    a split grid. *)
Definition vol (split : bool) (cs : list coord) : Q := if split then geo_tet_volume cs else geo_hex_volume cs.
Definition area (split : bool) (cs : list coord) : coord := if split then geo_tri_normal cs else geo_quad_normal cs.

(** The number of whole cells of size [h] in a length. *)
Definition whole (x h : Q) : Z := Qfloor (x / h).

(** A box with a positive extent in every direction and a positive cell size. *)
Definition boxed (lo hi : coord) (h : Q) : Prop :=
  (0 < h)%Q /\ (cx lo < cx hi)%Q /\ (cy lo < cy hi)%Q /\ (cz lo < cz hi)%Q.
