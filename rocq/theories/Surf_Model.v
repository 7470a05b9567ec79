(** Triangulated surfaces in STL files (stl/StlFile_Imp.hpp, stl/StlUtils_Imp.hpp): connectivity of facets, splitting, inversion, orientation, conversion from and to meshes,
    bounding box. Coordinates are exact rationals; lengths, angles and the quality of a facet are real numbers. Normals, areas and the flags of edges (outline, naked) are
    not represented. Vertex and edge numbers are taken modulo 3 where the code writes % 3 or uses 0, 1, 2. *)
From Coq Require Import ZArith List Bool QArith Reals Qreals.
From Verif Require Import Prelude Vec ZMap Mesh_Model HashGrid_Model Merge_Model.
Import ListNotations.
Open Scope Z_scope.

(** Three values, by index modulo 3. *)
Definition tget {A} (t : A * A * A) (k : Z) : A := if k mod 3 =? 0 then fst (fst t) else if k mod 3 =? 1 then snd (fst t) else snd t.
Definition tset {A} (t : A * A * A) (k : Z) (x : A) : A * A * A :=
  if k mod 3 =? 0 then (x, snd (fst t), snd t) else if k mod 3 =? 1 then (fst (fst t), x, snd t) else (fst (fst t), snd (fst t), x).
(** StlFile.hpp 28-68: vertices, and for the edges (edge j joins vertices j and j+1) the neighbor and whichVertexNot, both -1 for none. *)
Record sfacet : Type := SFacet { sf_v : coord * coord * coord; sf_nb : Z * Z * Z; sf_vn : Z * Z * Z }.
Definition set_v (f : sfacet) (k : Z) (p : coord) : sfacet := SFacet (tset (sf_v f) k p) (sf_nb f) (sf_vn f).
Definition set_link (f : sfacet) (k nb vn : Z) : sfacet := SFacet (sf_v f) (tset (sf_nb f) k nb) (tset (sf_vn f) k vn).
(** StlFile_Imp.hpp 95-134. *)
Record surf : Type := Surf { u_ids : list Z; u_map : zmap sfacet }.
Definition u_empty : surf := Surf [] zempty.
Definition u_size (s : surf) : Z := zlen (u_ids s).
Definition u_id (s : surf) (i : Z) : outcome Z := vec_at (u_ids s) i.
Definition u_get (s : surf) (id : Z) : outcome sfacet := zat (u_map s) id.
Definition u_put (s : surf) (id : Z) (f : sfacet) : surf := Surf (u_ids s) (zinsert id f (u_map s)).
Definition u_add (s : surf) (id : Z) (f : sfacet) : surf := Surf (u_ids s ++ [id]) (zinsert id f (u_map s)).
Definition u_next (s : surf) : Z := match zlast_key (u_map s) with Some k => k + 1 | None => 0 end.

(** StlUtils_Imp.hpp 419-457 (calculateStatistics): maximum and minimum of the coordinates; [old] is what was there before (left alone by an empty file). *)
Definition widen (b : coord * coord) (p : coord) : coord * coord :=
  (Coord (qmax (cx (fst b)) (cx p)) (qmax (cy (fst b)) (cy p)) (qmax (cz (fst b)) (cz p)), Coord (qmin (cx (snd b)) (cx p)) (qmin (cy (snd b)) (cy p)) (qmin (cz (snd b)) (cz p))).
Definition statistics (s : surf) (old : coord * coord) : outcome (coord * coord) :=
  match u_ids s with
  | [] => Ok old
  | first :: _ =>
    f0 <- u_get s first ;;
    foldM (fun b id => f <- u_get s id ;; Ok (fold_left (fun b j => widen b (tget (sf_v f) j)) [0; 1; 2] b)) (u_ids s) (tget (sf_v f0) 0, tget (sf_v f0) 0)
  end.

(** ** 548-617, generateConnectivity *)
Definition edge_middle (f : sfacet) (j : Z) : coord := vscale (1 # 2) (vadd (tget (sf_v f) j) (tget (sf_v f) (j + 1))).
(** 558-574: the middles of all edges, under the number 3 * facet + edge. *)
Definition edge_objs (s : surf) : outcome (list (Z * coord)) :=
  ls <- mapM (fun id => f <- u_get s id ;; Ok (map (fun j => (id * 3 + j, edge_middle f j)) [0; 1; 2])) (u_ids s) ;; Ok (concat ls).
(** 576-586. *)
Definition unlink (s : surf) (id : Z) : outcome surf := f <- u_get s id ;; Ok (u_put s id (SFacet (sf_v f) (-1, -1, -1) (-1, -1, -1))).
Fixpoint first_other (e : Z) (l : list Z) : option Z := match l with [] => None | x :: r => if x =? e then first_other e r else Some x end.
(** 588-614: the first other edge found is taken (C++ quotient and remainder truncate). *)
Definition link_edge (g : grid) (tol : Q) (id : Z) (s : surf) (j : Z) : outcome surf :=
  f <- u_get s id ;; found <- grid_find g [] (edge_middle f j) tol ;;
  Ok (match first_other (id * 3 + j) found with Some e => u_put s id (set_link f j (Z.quot e 3) (Z.rem (Z.rem e 3 + 2) 3)) | None => s end).
(** [n]: cells per axis of the hash grid. *)
Definition connectivity (n : Z) (tol : Q) (s : surf) : outcome surf :=
  objs <- edge_objs s ;; g <- grid_of n objs ;; s1 <- foldM unlink (u_ids s) s ;;
  foldM (fun s id => foldM (link_edge g tol id) [0; 1; 2] s) (u_ids s1) s1.

(** ** 794-939, splitFacets *)
(** 738-792, getFacetQuality; GeoVector_Imp.hpp 16-32 (angle). *)
Definition len (v : coord) : R := sqrt (Q2R (norm2 v)).
Definition angle (a b : coord) : R :=
  let rad := if Qlt_bool real_eps (norm2 a) && Qlt_bool real_eps (norm2 b) then (Q2R (dot a b) / sqrt (Q2R (norm2 a) * Q2R (norm2 b)))%R else 0%R in
  acos (Rmin (Rmax rad (-1)) 1).
Definition side (f : sfacet) (k : Z) : coord := vsub (tget (sf_v f) (k + 1)) (tget (sf_v f) k).
Definition big_edge (f : sfacet) : Z * R :=
  let d0 := len (side f 0) in let d1 := len (side f 1) in let d2 := len (side f 2) in
  let m := if Rlt_dec d0 d1 then (1, d1) else (0, d0) in if Rlt_dec (snd m) d2 then (2, d2) else m.
Definition small_edge (f : sfacet) : Z * R :=
  let d0 := len (side f 0) in let d1 := len (side f 1) in let d2 := len (side f 2) in
  let m := if Rlt_dec d1 d0 then (1, d1) else (0, d0) in if Rlt_dec d2 (snd m) then (2, d2) else m.
Definition quality (f : sfacet) : R :=
  let a := sin (angle (side f 0) (vopp (side f 2))) in let b := sin (angle (side f 1) (vopp (side f 0))) in let c := sin (angle (side f 2) (vopp (side f 1))) in
  if Rlt_dec (Q2R real_eps) (a + b + c) then (4 * a * b * c / (a + b + c))%R else 0%R.
(** 817-837: the edge to split and where, if any. The quotient is truncated as in (Integer)(dmax / splitSize) for positive sizes; 0.5f - 0.5f / ai is exact here. *)
Definition split_choice (size fq : R) (f : sfacet) : option (Z * Q) :=
  let '(b, dmax) := big_edge f in
  if Rle_dec fq (quality f) then
    if Rlt_dec size dmax then
      let ai := Int_part (dmax / size) in
      Some (b, if (1 <? ai) && (ai <? 10) && Z.odd ai then (1 # 2) - (1 # 2) / inject_Z ai else 1 # 2)%Q
    else None
  else None.
(** 811-935: the facet at position [i]. The code uses nbFacets() and i as ids where noted. *)
Definition split_at (choice : sfacet -> option (Z * Q)) (s : surf) (i : Z) : outcome surf :=
  id <- u_id s i ;; f <- u_get s id ;;
  match choice f with
  | None => Ok s
  | Some (b, fr) =>
    let p k := tget (sf_v f) k in
    let pn := vadd (p b) (vscale fr (vsub (p (b + 1)) (p b))) in
    let nb := tget (sf_nb f) b in let v := tget (sf_vn f) b in
    if (2 <? v) || (v <? 0) then Ok s else
    let id1 := u_next s in let id2 := u_next s + 1 in
    let nc := tget (sf_nb f) (b + 1) in let vc := tget (sf_vn f) (b + 1) in
    (* 853-876; 872: i instead of the id *)
    let new1 := SFacet (pn, p (b + 1), p (b + 2)) (if nb =? -1 then -1 else id2, nc, i) (1, vc, b mod 3) in
    (* 878-886: nbFacets() instead of the id *)
    s1 <- (if nc =? -1 then Ok s else g <- u_get s nc ;; Ok (u_put s nc (set_link g (vc + 1) (u_size s) 0))) ;;
    (* 888-894 *)
    f1 <- u_get s1 id ;;
    let s3 := u_add (u_put s1 id (set_link (set_v f1 (b + 1) pn) (b + 1) (u_size s1) 1)) id1 new1 in
    if nb =? -1 then Ok s3 else
    (* 896-934 *)
    g <- u_get s3 nb ;;
    let gn := tget (sf_nb g) v in let gv := tget (sf_vn g) v in
    let new2 := SFacet (pn, tget (sf_v g) v, p (b + 1)) (nb, gn, id1) ((v + 2) mod 3, gv, 2) in
    s4 <- (if gn =? -1 then Ok s3 else h <- u_get s3 gn ;; Ok (u_put s3 gn (set_link h (gv + 1) (u_size s3) 0))) ;;
    g4 <- u_get s4 nb ;;
    Ok (u_add (u_put s4 nb (set_link (set_v g4 (v + 1) pn) v (u_size s4) 2)) id2 new2)
  end.
(** 809-936: the loop over a growing number of facets; [None] when the given number of turns does not suffice. *)
Fixpoint split_loop (turns : nat) (choice : sfacet -> option (Z * Q)) (s : surf) (i : Z) : outcome (option surf) :=
  match turns with
  | O => Ok None
  | S k => if i <? u_size s then s' <- split_at choice s i ;; split_loop k choice s' (i + 1) else Ok (Some s)
  end.
Definition split_facets (turns : nat) (size fq : R) (s : surf) : outcome (option surf) := split_loop turns (split_choice size fq) s 0.

(** ** 1399-1437, invertFacet *)
Definition bump (s : surf) (nb vn k : Z) : outcome surf :=
  if vn =? -1 then Ok s else f <- u_get s nb ;;
  Ok (u_put s nb (SFacet (sf_v f) (sf_nb f) (tset (sf_vn f) (vn + 1) (if nb =? -1 then -1 else Z.rem (tget (sf_vn f) (vn + 1) + k) 3)))).
Definition invert (s : surf) (id v : Z) : outcome surf :=
  f <- u_get s id ;;
  let s1 := u_put s id (SFacet (tset (tset (sf_v f) (v + 2) (tget (sf_v f) (v + 1))) (v + 1) (tget (sf_v f) (v + 2))) (sf_nb f) (sf_vn f)) in
  let n2 := tget (sf_nb f) (v + 2) in let n3 := tget (sf_nb f) (v + 3) in let w2 := tget (sf_vn f) (v + 2) in let w3 := tget (sf_vn f) (v + 3) in
  s2 <- bump s1 n2 w2 4 ;; s3 <- bump s2 n3 w3 2 ;;
  f3 <- u_get s3 id ;;
  Ok (u_put s3 id (set_link (set_link f3 (v + 2) n3 w3) (v + 3) n2 w2)).
(** ** 1439-1472, setOrientation(aPivotFacetId): the list of facets reached and the file. *)
Definition orient_edge (tol : Q) (id : Z) (st : list Z * surf) (j : Z) : outcome (list Z * surf) :=
  f <- u_get (snd st) id ;;
  let nb := tget (sf_nb f) j in let v := tget (sf_vn f) j in
  if nb =? -1 then Ok st else if existsb (Z.eqb nb) (fst st) then Ok st else
  g <- u_get (snd st) nb ;;
  if norm_le (vsub (tget (sf_v g) (v + 1)) (tget (sf_v f) j)) tol && norm_le (vsub (tget (sf_v g) (v + 2)) (tget (sf_v f) (j + 1))) tol
  then s' <- invert (snd st) nb v ;; Ok (fst st ++ [nb], s') else Ok (fst st ++ [nb], snd st).
(** The loop ends when all listed facets are done; running out of turns is UB here (C93 shows it does not happen). *)
Fixpoint orient_loop (turns : nat) (tol : Q) (i : nat) (st : list Z * surf) : outcome surf :=
  match turns with
  | O => UB
  | S k => match nth_error (fst st) i with
           | None => Ok (snd st)
           | Some id => st' <- foldM (orient_edge tol id) [0; 1; 2] st ;; orient_loop k tol (S i) st'
           end
  end.
Definition orient (tol : Q) (pivot : Z) (s : surf) : outcome surf := orient_loop (length (u_ids s) + 2) tol 0 ([pivot], s).
(** 1474-1509, setOrientation(bPointOut): aFacet is a reference to the first facet, so that the assignments in the loop overwrite the first facet; the argument bPointOut is not
    used. [hit] is whether the ray meets a facet. *)
Definition orient_all (tol : Q) (hit : sfacet -> bool) (s : surf) : outcome surf :=
  first <- u_id s 0 ;; _ <- u_get s first ;;
  st <- foldM (fun st id => f <- u_get (fst (fst st)) id ;; Ok (u_put (fst (fst st)) first f, snd (fst st) + (if hit f then 1 else 0), id)) (tl (u_ids s)) (s, 0, first) ;;
  let '(s', hits, last) := st in
  s2 <- (if Z.odd hits then invert s' last 0 else Ok s') ;; orient tol last s2.

(** ** 619-736, mesh *)
(** 671-729: the walk around a vertex: at most [k] facets. [dir] is aDirection = 1, [rev] bReversed. *)
Fixpoint walk (k : nat) (s : surf) (first j node : Z) (dir rev : bool) (fac vn : Z) (t : table element) : outcome (table element) :=
  match k with
  | O => Ok t
  | S k' =>
    let '(pivot, edge, dir) :=
      if 2 <? vn then (if dir then ((vn + 1) mod 3, vn mod 3, false) else ((vn + 2) mod 3, (vn + 2) mod 3, true))
      else (if dir then ((vn + 2) mod 3, (vn + 2) mod 3, dir) else ((vn + 1) mod 3, vn, dir)) in
    e <- t_get t fac ;; l <- vec_set (e_nodes e) pivot node ;;
    let t := t_set t fac (set_e_nodes e l) in
    f <- u_get s fac ;;
    if edge <? 0 then UB else
    let nx := tget (sf_nb f) edge in
    if nx =? -1 then (if rev then Ok t else walk k' s first j node true true first ((j + 1) mod 3) t)
    else if nx =? first then Ok t
    else walk k' s first j node dir rev nx (tget (sf_vn f) edge) t
  end.
(** 645-733: one corner; the state is the nodes, the elements and the next node id. aMaxNodeId is the largest Integer. *)
Definition mesh_corner (s : surf) (id : Z) (st : table coord * table element * Z) (j : Z) : outcome (table coord * table element * Z) :=
  let '(nodes, elems, k) := st in
  e <- t_get elems id ;; n <- vec_at (e_nodes e) j ;;
  if negb (n =? int_max) then Ok st else
  f <- u_get s id ;;
  elems' <- walk 100 s id j k false false id ((j + 2) mod 3) elems ;; Ok (t_add nodes k (tget (sf_v f) j), elems', k + 1).
Definition to_mesh (s : surf) : outcome mesh :=
  let elems := fold_left (fun t id => t_add t id (Element ET_TRIANGLE [int_max; int_max; int_max] [])) (u_ids s) t_empty in
  st <- foldM (fun st id => foldM (mesh_corner s id) [0; 1; 2] st) (u_ids s) (t_empty, elems, 0) ;;
  Ok (Mesh (fst (fst st)) t_empty (snd (fst st))).
(** 49-78, set: the triangles of a mesh as facets without links (edges are constructed with -1). Only the first three vertices of a facet are represented. *)
Definition of_mesh (m : mesh) : outcome surf :=
  foldM (fun s id =>
    e <- t_get (m_elems m) id ;;
    match e_type e with
    | ET_TRIANGLE =>
      ps <- mapM (t_get (m_nodes m)) (e_nodes e) ;;
      Ok (u_add s id (SFacet (nth 0 ps vzero, nth 1 ps vzero, nth 2 ps vzero) (-1, -1, -1) (-1, -1, -1)))
    | _ => Ok s
    end) (t_ids (m_elems m)) u_empty.
