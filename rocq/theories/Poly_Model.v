(** Polylines, polygons, polyhedra, and the cells that use them.
    Paths are relative to /repo/trunk/src/geometry. Real is Q (no rounding). A polygon is its polyline:
    the cached normal, area and centroid (GeoArea.hpp) are left out, that is, every measure is computed
    from the current vertices. *)
From Coq Require Import QArith Qabs ZArith List Bool.
From Verif Require Import Prelude Vec ZMap Seg_Model Grid_Model.
Import ListNotations.
Open Scope Q_scope.

(** GeoVertexList_Imp.hpp 65-74: vertex(i), indices taken modulo the number of vertices. Only used on
    non-empty lists. *)
Definition vtx (vs : list coord) (i : nat) : coord := nth (Nat.modulo i (length vs)) vs vzero.

(** ** Polylines (GeoPolyline_Imp.hpp) *)

(** 111-121: close(): append the first vertex unless the ends are within the tolerance. *)
Definition pl_close (vs : list coord) (tol : Q) : list coord :=
  if Nat.ltb 2 (length vs) then
    if norm_le (vsub (vtx vs (length vs - 1)) (vtx vs 0)) tol then vs else vs ++ [vtx vs 0]
  else vs.

(** 79-100: nbLines(), line(i). *)
Definition pl_line (vs : list coord) (i : nat) : segment :=
  set_end (set_start line_default (vtx vs i)) (vtx vs (i + 1)).
Definition pl_lines (vs : list coord) : list segment := map (pl_line vs) (seq 0 (length vs - 1)).

(** length() > 0 of a line. *)
Definition line_long (s : segment) : bool := negb (Qle_bool (norm2 (s_vec s)) 0).

(** 65-74 of set(): a vertex within the tolerance of its predecessor (after that one was treated) is
    replaced by it. *)
Fixpoint fuse_from (tol : Q) (prev : coord) (vs : list coord) : list coord :=
  match vs with
  | [] => []
  | v :: vs' => let v' := if norm_le (vsub v prev) tol then prev else v in v' :: fuse_from tol v' vs'
  end.
Definition fuse (tol : Q) (vs : list coord) : list coord :=
  match vs with [] => [] | v :: vs' => v :: fuse_from tol v vs' end.

(** 41-77: set(). *)
Definition pl_set (ls : list segment) (sort : bool) (tol : Q) : list coord :=
  let ls' := if sort then line_sort tol ls else ls in
  let raw := flat_map (fun s => if line_long s then [s_start s; s_end s] else []) ls' in
  vl_remove_duplicates (fuse tol raw).

(** 145-168: clip(). *)
Definition pl_clip (vs : list coord) (h : plane) (tol : Q) : list segment :=
  filter line_long (map (fun i => clip (pl_line vs i) h tol) (seq 0 (length vs - 1))).

(** ** Polygons (GeoPolygon_Imp.hpp) *)

(** 64-91: calculateNormal() before normalising: the corner normals, of which the first one longer than
    the machine epsilon is taken. *)
Definition corner (vs : list coord) (i : nat) : coord :=
  cross (vsub (vtx vs i) (vtx vs (i - 1))) (vsub (vtx vs (i + 1)) (vtx vs (i - 1))).
Definition pg_normal (vs : list coord) : option coord :=
  find (fun n => negb (norm_le n real_eps)) (map (corner vs) (seq 1 (length vs - 2))).

(** 106-115: the coordinate that is dropped. *)
Inductive axis : Type := AX | AY | AZ.
Definition drop_axis (n : coord) : axis :=
  if Qlt_bool (Qabs (cy n)) (Qabs (cx n)) then
    if Qlt_bool (Qabs (cz n)) (Qabs (cx n)) then AX else AZ
  else if Qlt_bool (Qabs (cz n)) (Qabs (cy n)) then AY else AZ.
Definition comp (a : axis) (v : coord) : Q := match a with AX => cx v | AY => cy v | AZ => cz v end.
Definition next_axis (a : axis) : axis := match a with AX => AY | AY => AZ | AZ => AX end.

(** Accumulation of Real terms. *)
Definition rsum (l : list Q) : Q := fold_right Qplus 0 l.

(** 117-133: the sum over i = 1 .. nbVertices() with cyclic indices. *)
Definition shoelace (a : axis) (vs : list coord) : Q :=
  rsum (map (fun i => comp (next_axis a) (vtx vs i) *
                      (comp (next_axis (next_axis a)) (vtx vs (i + 1)) - comp (next_axis (next_axis a)) (vtx vs (i - 1))))
            (seq 1 (length vs))).

(** 93-153: area() divided by the length of the corner normal n found by calculateNormal(). With
    normal = n / |n| the code computes area = shoelace * |normal| / (2 normal_a) = |n| * shoelace / (2 n_a);
    the square root in |n| is left to the caller. Without a corner normal longer than epsilon the area
    is 0. *)
Definition pg_area_ratio (vs : list coord) : Q :=
  match pg_normal vs with
  | None => 0
  | Some n => shoelace (drop_axis n) vs / (2 * comp (drop_axis n) n)
  end.

(** normal() * area(): |n| cancels. *)
Definition pg_vector (vs : list coord) : coord :=
  match pg_normal vs with None => vzero | Some n => vscale (pg_area_ratio vs) n end.

(** 161-175: clip(); the polyline is clipped with the default tolerance 0. *)
Definition pg_clip (vs : list coord) (h : plane) (tol : Q) : list coord :=
  pl_close (pl_set (pl_clip vs h 0) false tol) tol.

(** 216-265: triangulate(). [angle] stands for |v1.angle(v2)| (an arc cosine, not modelled). The state of
    the scan is (minAngle, p1, p2, p3, wi). *)
Definition ear_scan (angle : coord -> coord -> Q) (vs : list coord) (chain : list nat)
    (st : Q * (nat * nat * nat) * nat) (i : nat) : Q * (nat * nat * nat) * nat :=
  let '(best, p, wi) := st in
  let ii := nth i chain 0%nat in
  let im := if Nat.eqb i 0 then nth (length chain - 1) chain 0%nat else nth (i - 1) chain 0%nat in
  let ip := if Nat.eqb i 0 then nth 1 chain 0%nat else nth (Nat.modulo (i + 1) (length chain)) chain 0%nat in
  let a := angle (vsub (vtx vs im) (vtx vs ii)) (vsub (vtx vs ip) (vtx vs ii)) in
  if Qlt_bool a best then (a, (ii, ip, im), i) else st.

(** The while loop; every pass removes one entry of the chain, so [fuel] = size of the chain suffices.
    2 * 3.142 is the start value of minAngle. *)
Fixpoint ears (angle : coord -> coord -> Q) (vs : list coord) (fuel : nat) (chain : list nat)
    (p : nat * nat * nat) : list (list coord) :=
  match fuel with
  | O => []
  | S fuel' =>
    if Nat.ltb 2 (length chain) then
      let '(_, p', wi) := fold_left (ear_scan angle vs chain) (seq 0 (length chain)) (6284 # 1000, p, 0%nat) in
      let '(p1, p2, p3) := p' in
      [vtx vs p1; vtx vs p2; vtx vs p3] :: ears angle vs fuel' (firstn wi chain ++ skipn (S wi) chain) p'
    else []
  end.

(** 203-268: the chain is 0 .. nbVertices() - 2. *)
Definition triangulate (angle : coord -> coord -> Q) (vs : list coord) : list (list coord) :=
  ears angle vs (length vs) (seq 0 (length vs - 1)) (0, 1, 2)%nat.

(** ** Polyhedra (GeoPolyhedron_Imp.hpp) *)

(** m_polygons and m_polygonIds. *)
Record polyhedron : Type := Polyhedron { ph_map : zmap (list coord); ph_ids : list Z }.
Definition ph_empty : polyhedron := Polyhedron zempty [].

(** 241-246: addPolygon(): the id is appended even when it is already there. *)
Definition ph_add (p : polyhedron) (id : Z) (vs : list coord) : polyhedron :=
  Polyhedron (zinsert id vs (ph_map p)) (ph_ids p ++ [id]).

(** m_polygons[id]: an unknown id would insert an empty polygon. *)
Definition ph_polygon (p : polyhedron) (id : Z) : list coord :=
  match zlookup id (ph_map p) with Some vs => vs | None => [] end.

(** 343-377: calculateVolume(). *)
Definition ph_volume (p : polyhedron) : Q :=
  (if Nat.leb 4 (length (ph_map p)) then
     match ph_ids p with
     | [] => 0
     | id0 :: rest =>
       match ph_polygon p id0 with
       | [] => 0
       | v0 :: _ =>
         rsum (map (fun id => match ph_polygon p id with
                              | [] => 0
                              | v :: _ => dot (vsub v v0) (pg_vector (ph_polygon p id))
                              end) rest)
       end
     end
   else 0) / 3.

(** 21-214: the constructors: faces as lists of vertex numbers, each closed with tolerance 0 (the default
    of close(), GeoPolyline.hpp). *)
Definition tet_faces : list (list Z) := [[0; 1; 2]; [1; 0; 3]; [3; 0; 2]; [3; 2; 1]]%Z.
Definition prism_faces : list (list Z) :=
  [[0; 1; 2]; [5; 4; 3]; [1; 0; 3; 4]; [2; 1; 4; 5]; [0; 2; 5; 3]]%Z.
Definition hex_faces : list (list Z) :=
  [[0; 1; 2; 3]; [7; 6; 5; 4]; [3; 2; 6; 7]; [5; 1; 0; 4]; [6; 2; 1; 5]; [3; 7; 4; 0]]%Z.
Definition ph_of_faces (pos : Z -> coord) (faces : list (list Z)) : polyhedron :=
  fold_left (fun p f => ph_add p (fst f) (pl_close (map pos (snd f)) 0))
            (combine (zrange (length faces)) faces) ph_empty.
Definition cell_vertex (vs : list coord) (k : Z) : coord := nth (Z.to_nat k) vs vzero.
Definition ph_of_tet (vs : list coord) : polyhedron := ph_of_faces (cell_vertex vs) tet_faces.
Definition ph_of_prism (vs : list coord) : polyhedron := ph_of_faces (cell_vertex vs) prism_faces.
Definition ph_of_hex (vs : list coord) : polyhedron := ph_of_faces (cell_vertex vs) hex_faces.

(** GeoTriangularPrism_Imp.hpp 46-60: calculateVolume(). *)
Definition geo_prism_volume (vs : list coord) : Q :=
  match vs with
  | p0 :: p1 :: p2 :: p3 :: _ => (1 # 2) * dot (vsub p3 p0) (cross (vsub p2 p0) (vsub p1 p0))
  | _ => 0
  end.

(** GeoPlane_Imp.hpp 66-71: |n.p - d|. *)
Definition plane_distance (h : plane) (p : coord) : Q := Qabs (dot (p_normal h) p - p_d h).

(** normal() of a polygon for the sign test of line 299, with any positive factor: the normal that was
    found, else the last corner normal (zero when there is no corner). *)
Definition pg_normal_any (vs : list coord) : coord :=
  match pg_normal vs with
  | Some n => n
  | None => last (map (corner vs) (seq 1 (length vs - 2))) vzero
  end.

(** 266-304: close(): the lines lying in the plane are collected, in the order of the ids, and joined to
    a new polygon. Returns the polyhedron and aNewPolygon. *)
Definition ph_close (p : polyhedron) (newp : list coord) (newid : Z) (h : plane) (tol : Q) : polyhedron * list coord :=
  let ls := filter (fun s => Qle_bool (plane_distance h (s_start s)) tol && Qle_bool (plane_distance h (s_end s)) tol)
                   (flat_map (fun e => pl_lines (snd e)) (ph_map p)) in
  if Nat.ltb 2 (length ls) then
    let vs := pl_set ls true tol in
    let vs' := if Qlt_bool (dot (p_normal h) (pg_normal_any vs)) 0 then vl_invert vs else vs in
    (ph_add p newid vs', vs')
  else (p, newp).

(** 398-414: clip(). *)
Definition ph_clip (p : polyhedron) (newp : list coord) (newid : Z) (h : plane) (tol : Q) : polyhedron * list coord :=
  let q := fold_left (fun q e => let vs := pg_clip (snd e) h tol in
                                 if Nat.ltb 3 (length vs) then ph_add q (fst e) vs else q)
                     (ph_map p) ph_empty in
  ph_close q newp newid h tol.

(** 556-561: cut(): (returned polyhedron, aNewPolyhedron, aNewPolygon). *)
Definition ph_cut (p : polyhedron) (newp : list coord) (newid : Z) (h : plane) (tol : Q)
  : polyhedron * polyhedron * list coord :=
  let '(q1, np1) := ph_clip p newp newid h tol in
  let '(q2, np2) := ph_clip p np1 newid h tol in
  (q2, q1, np2).

(** 574-585: set(). *)
Definition ph_set (p : polyhedron) : polyhedron :=
  fold_left (fun q id => ph_add q id (ph_polygon p id)) (ph_ids p) ph_empty.
