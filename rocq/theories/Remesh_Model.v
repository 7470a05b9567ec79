(** Improving triangulated surfaces in STL files: CStlUtils::flipEdges and CStlUtils::relaxVertices (stl/StlUtils_Imp.hpp). Surfaces, links and the quality of a facet are those of Surf_Model.
    Facets remember their normal and area once these are calculated (geometry/GeoTriangle_Imp.hpp 60-81), and copies of facets remember them too: this is represented here. *)
From Coq Require Import ZArith List Bool QArith Reals Qreals.
From Verif Require Import Prelude Vec ZMap Mesh_Model HashGrid_Model Surf_Model.
Import ListNotations.
Open Scope Z_scope.

(** geometry/GeoTriangle_Imp.hpp 60-75: the normal before it is divided by its length; the area is half of its length. *)
Definition raw_normal (f : sfacet) : coord := cross (vsub (tget (sf_v f) 1) (tget (sf_v f) 0)) (vsub (tget (sf_v f) 2) (tget (sf_v f) 0)).
Definition half_length (n : coord) : R := (len n / 2)%R.
(** GeoTriangle_Imp.hpp 60-81, calculateNormal() and calculateArea() with bReCalculate = false: what is remembered, if anything, otherwise calculated from the vertices. *)
Definition recall (memo : option coord) (f : sfacet) : coord := match memo with Some n => n | None => raw_normal f end.
(** geometry/GeoVector_Imp.hpp 16-32 (angle) for normals: these have length 1 or, if the area is 0, length 0; in the latter case the cosine is taken to be 0. *)
Definition normal_angle (a b : coord) : R :=
  if Qeq_bool (norm2 a) 0 || Qeq_bool (norm2 b) 0 then acos 0
  else acos (Rmin (Rmax (Q2R (dot a b) / sqrt (Q2R (norm2 a) * Q2R (norm2 b))) (-1)) 1).
Definition is_done (l : list Z) (id : Z) : bool := existsb (Z.eqb id) l.

(** ** stl/StlUtils_Imp.hpp 1103-1262, flipEdges *)
(** The surface, the remembered normals, and the facets whose extra[0] is 'c' (1106-1111: none at first). *)
Record flip_state : Type := FState { f_surf : surf; f_memo : zmap coord; f_done : list Z }.
(** 1174-1217: the vertices of the two new facets, [p3] being the vertex of the neighbour not on the edge. insertVertex puts them before the old ones
    (geometry/GeoVertexList_Imp.hpp 47-51), which stay behind them and are not represented: all accesses are to vertices 0, 1 and 2. *)
Definition swapped (j : Z) (p0 p1 p2 p3 : coord) : (coord * coord * coord) * (coord * coord * coord) :=
  if j =? 0 then ((p0, p3, p2), (p1, p2, p3)) else if j =? 1 then ((p0, p1, p3), (p0, p3, p2)) else ((p0, p1, p3), (p1, p2, p3)).
(** 1159-1257: two facets [f], [g] with the remembered normals [ni], [nj] are replaced if the worse quality improves and normals and total area change little. newFacet_i and newFacet_j are copies of
    facets whose normals have been calculated (1124, 1143, 1165, 1170), so that calculateNormal and calculateArea (1222, 1227, 1234-1235) leave what was copied. *)
Definition flip_pair (id nb : Z) (f g : sfacet) (ni nj : coord) (new : (coord * coord * coord) * (coord * coord * coord)) (st : flip_state) : outcome flip_state :=
  let fi := SFacet (fst new) (sf_nb f) (sf_vn f) in let fj := SFacet (snd new) (sf_nb g) (sf_vn g) in
  let qmini := Rmin (quality f) (quality g) in let qminf := Rmin (quality fi) (quality fj) in
  let mi := recall (Some ni) fi in let mj := recall (Some nj) fj in
  let areai := (half_length ni + half_length nj)%R in let areaf := (half_length mi + half_length mj)%R in
  if Rlt_dec qmini qminf then
    let cangi := if Rlt_dec (1 / 10 ^ 15) qmini then normal_angle ni mi else 0%R in let cangj := normal_angle nj mj in
    if Rlt_dec (Rabs cangi) (5 / 2) then if Rlt_dec (Rabs cangj) (5 / 2) then if Rlt_dec (Rabs (areai - areaf)) (areai * (1 / 100)) then
      Ok (FState (u_put (u_put (f_surf st) id fi) nb fj) (f_memo st) (id :: nb :: f_done st))
    else Ok st else Ok st else Ok st
  else Ok st.
(** 1128-1258: edge [j] of facet [id]. A flip ends the loop over the edges, which here is the test whether the facet is done. [tiny] is numeric_limits<Real>::min(). *)
Definition flip_edge (swap tiny : R) (id : Z) (st : flip_state) (j : Z) : outcome flip_state :=
  let s := f_surf st in
  if is_done (f_done st) id then Ok st else
  f <- u_get s id ;;
  let nb := tget (sf_nb f) j in let v := tget (sf_vn f) j in
  if nb =? -1 then Ok st else
  g <- u_get s nb ;;
  if is_done (f_done st) nb then Ok st else
  if (v <? 0) || (2 <? v) then Ok st else
  let p3 := tget (sf_v g) v in
  let ni := recall (zlookup id (f_memo st)) f in let nj := recall (zlookup nb (f_memo st)) g in
  let st1 := FState s (zinsert nb nj (f_memo st)) (f_done st) in
  if Rlt_dec (Rabs (normal_angle ni nj)) swap then
    flip_pair id nb f g ni nj (swapped j (tget (sf_v f) 0) (tget (sf_v f) 1) (tget (sf_v f) 2) p3) st1
  else if Rlt_dec (half_length ni) tiny then
    flip_pair id nb f g ni nj (swapped j (tget (sf_v f) 0) (tget (sf_v f) 1) (tget (sf_v f) 2) p3) st1
  else Ok st1.
(** 1113-1260: facet [id]; 1124 calculates its normal. *)
Definition flip_facet (swap tiny : R) (st : flip_state) (id : Z) : outcome flip_state :=
  f <- u_get (f_surf st) id ;;
  if is_done (f_done st) id then Ok st else
  foldM (flip_edge swap tiny id) [0; 1; 2] (FState (f_surf st) (zinsert id (recall (zlookup id (f_memo st)) f) (f_memo st)) (f_done st)).
(** The surface and the remembered normals after the call; [memo] are those remembered before. *)
Definition flip_edges (swap tiny : R) (memo : zmap coord) (s : surf) : outcome (surf * zmap coord) :=
  st <- foldM (flip_facet swap tiny) (u_ids s) (FState s memo []) ;; Ok (f_surf st, f_memo st).

(** ** 941-1063, relaxVertices *)
(** 978-1017: the facets around the start of edge [edge] of facet [fac], each with its vertex opposite to the edge over which it is entered; the walk ends at the facet whose id is the position [i] of
    the facet started from. None: fixedNode. [out]: the edges whose outline flag is set. At most nMaxSize = 100 turns, the last of which is not used. *)
Fixpoint fan (turns : nat) (out : Z -> Z -> bool) (s : surf) (i fac edge : Z) : outcome (option (list (Z * Z))) :=
  match turns with
  | O => Ok None
  | S k =>
    f <- u_get s fac ;;
    if out fac edge then Ok None else
    let nb := tget (sf_nb f) edge in let v := tget (sf_vn f) edge in
    if nb =? -1 then Ok None else
    _ <- u_get s nb ;;
    if v <? 0 then UB else
    match k with
    | O => Ok None
    | _ => if nb =? i then Ok (Some [(nb, v)]) else r <- fan k out s i nb (Z.rem (v + 2) 3) ;; Ok (option_map (cons (nb, v)) r)
    end
  end.
(** 1022-1030: the mean. *)
Definition mean (l : list coord) : coord := vscale (/ inject_Z (zlen l)) (fold_left vadd l vzero).
(** 1034-1049: whether the normal of facet [e] would turn by more than 0.5 when its vertex is moved to [q]. Copies of facets remember the normal; what is calculated here is not kept in the file. *)
Definition turns_over (memo : zmap coord) (s : surf) (q : coord) (e : Z * Z) : outcome bool :=
  g <- u_get s (fst e) ;;
  let m := zlookup (fst e) memo in
  Ok (if Rlt_dec (1 / 2) (Rabs (normal_angle (recall m (set_v g (snd e + 2) q)) (recall m g))) then true else false).
(** 964-1058: corner [j] of the facet [id] at position [i]. *)
Definition relax_corner (out : Z -> Z -> bool) (memo : zmap coord) (i id : Z) (s : surf) (j : Z) : outcome surf :=
  _ <- u_get s id ;;
  if out id j then Ok s else
  ring <- fan 100 out s i id j ;;
  match ring with
  | None => Ok s
  | Some l =>
    ps <- mapM (fun e => g <- u_get s (fst e) ;; Ok (tget (sf_v g) (snd e))) l ;;
    bad <- mapM (turns_over memo s (mean ps)) l ;;
    if existsb (fun b => b) bad then Ok s
    else foldM (fun s e => g <- u_get s (fst e) ;; Ok (u_put s (fst e) (set_v g (snd e + 2) (mean ps)))) l s
  end.
Definition relax_vertices (out : Z -> Z -> bool) (memo : zmap coord) (s : surf) : outcome surf :=
  foldM (fun s i => id <- u_id s i ;; foldM (relax_corner out memo i id) [0; 1; 2] s) (zrange (length (u_ids s))) s.
