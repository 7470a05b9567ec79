(** Model of the improvement of meshes of quadrilaterals and triangles: flipEdges and relaxNodes of CMshQuadrilateralMesher
    (mesh/MshQuadrilateralMesher_Imp.hpp 882-1266).
    Simplifications:
    - The qualities of a triangle (mesh/MshTriangle_Imp.hpp 28-45) and of a quadrilateral (mesh/MshQuadrilateral_Imp.hpp 26-39) are arbitrary
      functions of the corners with rational values (every finite double is one).
    - Coordinates are exact rationals; normal().z() > aTolerance is decided exactly.
    - Loops over positions are loops over the ids in order (the id vectors do not change while the loops run). *)
From Coq Require Import ZArith List Bool QArith.
From Verif Require Import Prelude Vec ZMap Mesh_Model HashGrid_Model Face_Model Query_Model Merge_Model Front_Model Tune_Model Tet_Model.
Import ListNotations.
Open Scope Z_scope.

Definition is_quad (e : element) : bool := match e_type e with ET_QUADRILATERAL => true | _ => false end.
(** geometry/GeoQuadrilateral_Imp.hpp 53-70: normal().z() > aTolerance, the normal being the cross product of the diagonals divided by its length (left
    zero if its length is zero), for a tolerance >= 0 as in [upright]. *)
Definition upright4 (tol : Q) (p1 p2 p3 p4 : coord) : bool :=
  let n := cross (vsub p3 p1) (vsub p4 p2) in
  if Qle_bool 0 tol
  then Qlt_bool 0 (cz n) && Qlt_bool (tol * tol * norm2 n) (cz n * cz n)
  else Qle_bool 0 (cz n) || Qlt_bool (cz n * cz n) (tol * tol * norm2 n).
(** 1011-1029, 1070-1088: at all four corners the way turns left. *)
Definition left_turn (p q r : coord) : bool := Qlt_bool 0 (cz (cross (vsub q p) (vsub r q))).
Definition convex4 (p1 p2 p3 p4 : coord) : bool :=
  left_turn p1 p2 p3 && left_turn p2 p3 p4 && left_turn p3 p4 p1 && left_turn p4 p1 p2.
(** 946-960: wIndex, the position j with node j being [b] and node j + 1 being [a]. *)
Definition find_side (l : list Z) (a b : Z) : outcome (option Z) :=
  foldM (fun st j => match st with
    | Some _ => Ok st
    | None => x <- vec_at l ((j + 1) mod 4) ;; if x =? a then y <- vec_at l (j mod 4) ;; Ok (if y =? b then Some j else None) else Ok None end)
    (zrange (length l)) None.
(** 1032-1043, 1091-1102: setNodeId of both elements and sFlipped. *)
Definition swap_pair (st : table element * zmap bool) (i1 i2 : Z) (a b c : Z) (w x y z : Z) : outcome (table element * zmap bool) :=
  e1 <- t_get (fst st) i1 ;; e1' <- set_corners e1 a b c ;;
  let t1 := t_set (fst st) i1 e1' in
  e2 <- t_get t1 i2 ;; e2' <- set_four e2 w x y z ;;
  Ok (t_set t1 i2 e2', zinsert i2 true (zinsert i1 true (snd st))).

(** 893-1106: body of the loop over the faces; state: the elements and sFlipped. *)
Definition flipq_step (quality3 : coord -> coord -> coord -> Q) (quality4 : coord -> coord -> coord -> coord -> Q) (tol : Q) (m : mesh)
  (st : table element * zmap bool) (fid : Z) : outcome (table element * zmap bool) :=
  f <- t_get (m_faces m) fid ;;
  match f_type f with
  | FT_LINE =>
    if flagged (snd st) (f_elem f) then Ok st else
    e <- t_get (fst st) (f_elem f) ;;
    if negb (is_triangle e) then Ok st else
    n1 <- vec_at (f_nodes f) 0 ;; n2 <- vec_at (f_nodes f) 1 ;;
    match third e n1 n2 with
    | None => Ok st
    | Some n3 =>
      if negb (f_haspair f) then Ok st else
      g <- t_get (m_faces m) (f_pair f) ;;
      if flagged (snd st) (f_elem g) then Ok st else
      e' <- t_get (fst st) (f_elem g) ;;
      if negb (is_quad e') then Ok st else
      w <- find_side (e_nodes e') n1 n2 ;;
      match w with
      | None => Ok st
      | Some j =>
        n4 <- vec_at (e_nodes e') ((j + 3) mod 4) ;; n5 <- vec_at (e_nodes e') ((j + 2) mod 4) ;;
        p1 <- t_get (m_nodes m) n1 ;; p2 <- t_get (m_nodes m) n2 ;; p3 <- t_get (m_nodes m) n3 ;;
        p4 <- t_get (m_nodes m) n4 ;; p5 <- t_get (m_nodes m) n5 ;;
        let old := qmin (quality3 p1 p2 p3) (quality4 p2 p1 p5 p4) in
        if Qlt_bool old (qmin (quality3 p2 p3 p4) (quality4 p1 p5 p4 p3)) && upright tol p2 p3 p4 && upright4 tol p1 p5 p4 p3 && convex4 p1 p5 p4 p3
        then swap_pair st (f_elem f) (f_elem g) n2 n3 n4 n1 n5 n4 n3
        else if Qlt_bool old (qmin (quality4 p3 p5 p4 p2) (quality3 p1 p5 p3)) && upright tol p1 p5 p3 && upright4 tol p3 p5 p4 p2 && convex4 p3 p5 p4 p2
        then swap_pair st (f_elem f) (f_elem g) n1 n5 n3 n3 n5 n4 n2
        else Ok st
      end
    end
  | _ => Ok st
  end.
(** 885-1107. *)
Definition flipq_all (quality3 : coord -> coord -> coord -> Q) (quality4 : coord -> coord -> coord -> coord -> Q) (tol : Q) (m : mesh)
  : outcome (table element * zmap bool) :=
  foldM (flipq_step quality3 quality4 tol m) (t_ids (m_faces m)) (m_elems m, none_flipped (t_ids (m_elems m))).
(** 882-1110: flipEdges; [n] is the number of cells of the hash grid used by generateFaces. *)
Definition flipQuads (n : Z) (quality3 : coord -> coord -> coord -> Q) (quality4 : coord -> coord -> coord -> coord -> Q) (tol : Q) (m : mesh) : outcome mesh :=
  st <- flipq_all quality3 quality4 tol m ;;
  r <- generateFaces n tol (Mesh (m_nodes m) (m_faces m) (fst st)) ;;
  Ok (fst r).

(** ** relaxNodes *)
Definition is_flat (e : element) : bool := is_triangle e || is_quad e.
(** 1175-1182: the face following [fid] in the element, counted modulo three whatever the element is; [first] if the element does not list [fid]. *)
Definition face_after (l : list Z) (fid first : Z) : outcome Z :=
  match find (fun k => match nth_error l (Z.to_nat k) with Some x => x =? fid | None => false end) (zrange (length l)) with
  | Some k => vec_at l ((k + 1) mod 3)
  | None => Ok first end.
(** 1142-1189: the loop around the node; [fuel] is 1001 less the value of iter; None: iter > 1000, relaxNodes returns. An element that is neither
    triangle nor quadrilateral ends the loop at its first turn, and makes it endless (UB here) at a later one. *)
Fixpoint walk (fuel : nat) (m : mesh) (first next : Z) (ns es : list Z) : outcome (option (list Z * list Z)) :=
  match fuel with
  | O => Ok None
  | S k =>
    f <- t_get (m_faces m) next ;;
    if negb (f_haspair f) then Ok (Some ([], [])) else
    g <- t_get (m_faces m) (f_pair f) ;;
    e <- t_get (m_elems m) (f_elem g) ;;
    if negb (is_flat e) then (if next =? first then Ok (Some (ns, es)) else UB) else
    next' <- face_after (e_faces e) (f_pair f) first ;;
    match k with
    | O => Ok None
    | _ => let ns' := fold_left note_new (f_nodes g) ns in let es' := es ++ [f_elem g] in
           if next' =? first then Ok (Some (ns', es')) else walk k m first next' ns' es'
    end
  end.
(** 1254: normal().z() < aTolerance. *)
Definition tilted (tol : Q) (p1 p2 p3 : coord) : bool :=
  let n := cross (vsub p2 p1) (vsub p3 p1) in
  if Qle_bool 0 tol
  then Qlt_bool (cz n) 0 || Qlt_bool (cz n * cz n) (tol * tol * norm2 n) || (Qeq_bool (norm2 n) 0 && Qlt_bool 0 tol)
  else Qlt_bool (cz n) 0 && Qlt_bool (tol * tol * norm2 n) (cz n * cz n).
(** 1207-1259: body of the loop over the elements; state: sumq1, sumq2, bMoveNode (once false the loop has ended). Only the first three nodes
    of an element are looked at. *)
Definition weighq (quality3 : coord -> coord -> coord -> Q) (tol : Q) (elems : table element) (nodes : table coord) (n : Z) (p : coord)
  (st : Q * Q * bool) (el : Z) : outcome (Q * Q * bool) :=
  if negb (snd st) then Ok st else
  e <- t_get elems el ;;
  a <- vec_at (e_nodes e) 0 ;; b <- vec_at (e_nodes e) 1 ;; c <- vec_at (e_nodes e) 2 ;;
  pa <- t_get nodes a ;; pb <- t_get nodes b ;; pc <- t_get nodes c ;;
  let va := if a =? n then p else pa in let vb := if b =? n then p else pb in let vc := if c =? n then p else pc in
  Ok (fst (fst st) + quality3 pa pb pc, snd (fst st) + quality3 va vb vc, negb (tilted tol va vb vc))%Q.
(** 1125-1263: body of the loop over the nodes of an element; state: the nodes and whether relaxNodes has returned. *)
Definition relaxq_corner (quality3 : coord -> coord -> coord -> Q) (tol : Q) (m : mesh) (e : element) (st : table coord * bool) (j : Z)
  : outcome (table coord * bool) :=
  if snd st then Ok st else
  n <- vec_at (e_nodes e) j ;; fid <- vec_at (e_faces e) j ;;
  c <- t_get (fst st) n ;;
  w <- walk 1001 m fid fid [n] [] ;;
  match w with
  | None => Ok (fst st, true)
  | Some (ns, es) =>
    if 1 <? zlen ns then
      p <- mean_of (fst st) ns ;;
      r <- foldM (weighq quality3 tol (m_elems m) (fst st) n p) es (0%Q, 0%Q, true) ;;
      Ok (if snd r && Qlt_bool (fst (fst r)) (snd (fst r)) then t_set (fst st) n p else fst st, false)
    else Ok st
  end.
(** 1112-1265: relaxNodes. *)
Definition relaxQuads (quality3 : coord -> coord -> coord -> Q) (tol : Q) (m : mesh) : outcome mesh :=
  r <- foldM (fun st id => e <- t_get (m_elems m) id ;;
         if negb (is_flat e) then Ok st else foldM (relaxq_corner quality3 tol m e) (zrange (length (e_nodes e))) st)
       (t_ids (m_elems m)) (m_nodes m, false) ;;
  Ok (Mesh (fst r) (m_faces m) (m_elems m)).
