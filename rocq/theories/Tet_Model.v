(** Model of the improvement of tetrahedral meshes: relaxNodes, flipEdges23 and flipEdges32 of CMshTetrahedronMesher
    (mesh/MshTetrahedronMesher_Imp.hpp 1345-1905).
    Simplifications:
    - The quality of a tetrahedron (mesh/MshTetrahedron_Imp.hpp 25-50) is an arbitrary function of its four corners with rational values
      (every finite double is one).
    - Coordinates are exact rationals.
    - Loops over positions are loops over the ids in order (the id vectors of nodes and faces do not change while the loops run; that of the
      elements is read before the loops of relaxNodes and flipEdges32, and not read by that of flipEdges23). *)
From Coq Require Import ZArith List Bool QArith.
From Verif Require Import Prelude Vec ZMap Mesh_Model HashGrid_Model Face_Model Query_Model Merge_Model Front_Model Tune_Model.
Import ListNotations.
Open Scope Z_scope.

Definition is_tet (e : element) : bool := match e_type e with ET_TETRAHEDRON => true | _ => false end.

(** geometry/GeoTetrahedron_Imp.hpp 78-94: a sixth of the determinant of the matrix with the columns (x, y, z, 1) of the corners (expanded
    along its last row). It is positive if, seen from the fourth corner, the first three run clockwise. *)
Definition triple (a b c : coord) : Q := dot a (cross b c).
Definition volume (p q r s : coord) : Q := ((triple p q r - triple p q s + triple p r s - triple q r s) / 6)%Q.

(** 1546-1556, 1578-1588: the first node of the element that is none of the three. *)
Definition fourth (e : element) (a b c : Z) : option Z :=
  find (fun n => negb (n =? a) && negb (n =? b) && negb (n =? c)) (e_nodes e).
(** setNodeId(0..3), m_nodeIds[i] unchecked (MshElement_Imp.hpp 56-59). *)
Definition set_four (e : element) (a b c d : Z) : outcome element :=
  match e_nodes e with
  | _ :: _ :: _ :: _ :: l => Ok (set_e_nodes e (a :: b :: c :: d :: l))
  | _ => UB end.
(** element(id).setNodeId(0..3). *)
Definition rewrite_four (t : table element) (id a b c d : Z) : outcome (table element) :=
  e <- t_get t id ;; e1 <- set_four e a b c d ;; Ok (t_set t id e1).
(** sFlipped[id]: a missing key is inserted with false. *)
Definition flagged (s : zmap bool) (id : Z) : bool := match zlookup id s with Some b => b | None => false end.
Definition cube (t : Q) : Q := (t * t * t)%Q.

(** ** flipEdges23 *)
(** 1530-1687: body of the loop over the faces; state: the elements and sFlipped. *)
Definition flip23_step (quality : coord -> coord -> coord -> coord -> Q) (tol : Q) (m : mesh) (st : table element * zmap bool) (fid : Z)
  : outcome (table element * zmap bool) :=
  f <- t_get (m_faces m) fid ;;
  match f_type f with
  | FT_TRIANGLE =>
    if flagged (snd st) (f_elem f) then Ok st else
    e <- t_get (fst st) (f_elem f) ;;
    if negb (is_tet e) then Ok st else
    n1 <- vec_at (f_nodes f) 0 ;; n2 <- vec_at (f_nodes f) 1 ;; n3 <- vec_at (f_nodes f) 2 ;;
    match fourth e n1 n2 n3 with
    | None => Ok st
    | Some n4 =>
      if negb (f_haspair f) then Ok st else
      g <- t_get (m_faces m) (f_pair f) ;;
      if flagged (snd st) (f_elem g) then Ok st else
      e' <- t_get (fst st) (f_elem g) ;;
      if negb (is_tet e') then Ok st else
      match fourth e' n1 n2 n3 with
      | None => Ok st
      | Some n5 =>
        p1 <- t_get (m_nodes m) n1 ;; p2 <- t_get (m_nodes m) n2 ;; p3 <- t_get (m_nodes m) n3 ;;
        p4 <- t_get (m_nodes m) n4 ;; p5 <- t_get (m_nodes m) n5 ;;
        if Qlt_bool (qmin (quality p1 p2 p3 p4) (quality p3 p2 p1 p5))
                    (qmin (quality p1 p2 p5 p4) (qmin (quality p2 p3 p5 p4) (quality p1 p3 p4 p5)))
           && Qlt_bool (cube tol) (volume p1 p2 p5 p4) && Qlt_bool (cube tol) (volume p2 p3 p5 p4) && Qlt_bool (cube tol) (volume p1 p3 p4 p5)
        then
          t1 <- rewrite_four (fst st) (f_elem f) n1 n2 n5 n4 ;;
          t2 <- rewrite_four t1 (f_elem g) n2 n3 n5 n4 ;;
          let id := t_next t2 in
          Ok (t_add t2 id (Element ET_TETRAHEDRON [n1; n3; n4; n5] []),
              zinsert id true (zinsert (f_elem g) true (zinsert (f_elem f) true (snd st))))
        else Ok st
      end
    end
  | _ => Ok st
  end.
(** 1522-1688. *)
Definition flip23_all (quality : coord -> coord -> coord -> coord -> Q) (tol : Q) (m : mesh) : outcome (table element * zmap bool) :=
  foldM (flip23_step quality tol m) (t_ids (m_faces m)) (m_elems m, none_flipped (t_ids (m_elems m))).
(** 1519-1691: flipEdges23; [n] is the number of cells of the hash grid used by generateFaces. *)
Definition flipEdges23 (n : Z) (quality : coord -> coord -> coord -> coord -> Q) (tol : Q) (m : mesh) : outcome mesh :=
  st <- flip23_all quality tol m ;;
  r <- generateFaces n tol (Mesh (m_nodes m) (m_faces m) (fst st)) ;;
  Ok (fst r).

(** ** flipEdges32 *)
Record state32 : Type := State32 { s_elems : table element; s_flipped : zmap bool; s_delete : zmap bool }.
(** 1784-1811: the first node, in the elements in turn, that is none of the four. *)
Fixpoint fifth (t : table element) (els : list Z) (a b c d : Z) : outcome (option Z) :=
  match els with
  | [] => Ok None
  | el :: els' =>
    e <- t_get t el ;;
    if negb (is_tet e) then fifth t els' a b c d else
    match find (fun n => negb (n =? a) && negb (n =? b) && negb (n =? c) && negb (n =? d)) (e_nodes e) with
    | Some n => Ok (Some n)
    | None => fifth t els' a b c d end
  end.
(** 1778-1897: what happens at one edge of a face of the element with the nodes n1 .. n4, if the elements sharing it are [els]. *)
Definition flip32_edge (quality : coord -> coord -> coord -> coord -> Q) (tol : Q) (nodes : table coord) (n1 n2 n3 n4 : Z) (els : list Z)
  (st : state32) : outcome state32 :=
  match els with
  | [i1; i2; i3] =>
    o <- fifth (s_elems st) els n1 n2 n3 n4 ;;
    match o with
    | None => Ok st
    | Some n5 =>
      p1 <- t_get nodes n1 ;; p2 <- t_get nodes n2 ;; p3 <- t_get nodes n3 ;; p4 <- t_get nodes n4 ;; p5 <- t_get nodes n5 ;;
      if Qlt_bool (qmin (quality p1 p2 p3 p4) (qmin (quality p1 p5 p4 p3) (quality p5 p2 p4 p3)))
                  (qmin (quality p1 p2 p5 p4) (quality p1 p2 p3 p5))
         && Qlt_bool (cube tol) (volume p1 p2 p5 p4) && Qlt_bool (cube tol) (volume p1 p2 p3 p5)
      then
        t1 <- rewrite_four (s_elems st) i1 n1 n2 n5 n4 ;;
        t2 <- rewrite_four t1 i2 n1 n2 n3 n5 ;;
        t3 <- rewrite_four t2 i3 n1 n1 n1 n1 ;;
        Ok (State32 t3 (zinsert i3 true (zinsert i2 true (zinsert i1 true (s_flipped st)))) (zinsert i3 true (s_delete st)))
      else Ok st
    end
  | _ => Ok st
  end.
(** 1768-1777: bBoundaryNode.at(a) && bBoundaryNode.at(b). *)
Definition both_at (s : zmap bool) (a b : Z) : outcome bool := x <- zat s a ;; if x : bool then zat s b else Ok false.
(** 1766-1898: body of the loop over the edges of a face. *)
Definition flip32_corner (quality : coord -> coord -> coord -> coord -> Q) (tol : Q) (m : mesh) (fixed : zmap bool) (q : query)
  (id n1 n2 n3 n4 : Z) (f : face) (st : state32) (k : Z) : outcome state32 :=
  done <- zat (s_flipped st) id ;;
  if done : bool then Ok st else
  a <- vec_at (f_nodes f) (k mod 3) ;; b <- vec_at (f_nodes f) ((k + 1) mod 3) ;;
  skip <- both_at fixed a b ;;
  if skip : bool then Ok st else flip32_edge quality tol (m_nodes m) n1 n2 n3 n4 (sharing2 q a b) st.
(** 1751-1899: body of the loop over the faces of an element. *)
Definition flip32_face (quality : coord -> coord -> coord -> coord -> Q) (tol : Q) (m : mesh) (fixed : zmap bool) (q : query)
  (id n1 n2 n3 n4 : Z) (st : state32) (fid : Z) : outcome state32 :=
  done <- zat (s_flipped st) id ;;
  if done : bool then Ok st else
  f <- t_get (m_faces m) fid ;;
  match f_type f with
  | FT_TRIANGLE => foldM (flip32_corner quality tol m fixed q id n1 n2 n3 n4 f) (zrange (length (f_nodes f))) st
  | _ => Ok st end.
(** 1734-1900: body of the loop over the elements. *)
Definition flip32_step (quality : coord -> coord -> coord -> coord -> Q) (tol : Q) (m : mesh) (fixed : zmap bool) (q : query)
  (st : state32) (id : Z) : outcome state32 :=
  e <- t_get (s_elems st) id ;;
  if negb (is_tet e) then Ok st else
  done <- zat (s_flipped st) id ;;
  if done : bool then Ok st else
  n1 <- vec_at (e_nodes e) 0 ;; n2 <- vec_at (e_nodes e) 1 ;; n3 <- vec_at (e_nodes e) 2 ;; n4 <- vec_at (e_nodes e) 3 ;;
  foldM (flip32_face quality tol m fixed q id n1 n2 n3 n4) (e_faces e) st.
(** 1697-1900. *)
Definition flip32_all (quality : coord -> coord -> coord -> coord -> Q) (tol : Q) (m : mesh) : outcome state32 :=
  fixed <- border m ;;
  q <- query_of (m_elems m) ;;
  foldM (flip32_step quality tol m fixed q) (t_ids (m_elems m))
        (State32 (m_elems m) (none_flipped (t_ids (m_elems m))) (none_flipped (t_ids (m_elems m)))).
(** 1902-1908: the loop over bDeleteElement. *)
Definition remove_marked (del : zmap bool) (t : table element) : outcome (table element) :=
  foldM (fun t d => if snd d : bool then t_remove t (fst d) else Ok t) del t.
(** 1694-1911: flipEdges32. *)
Definition flipEdges32 (n : Z) (quality : coord -> coord -> coord -> coord -> Q) (tol : Q) (m : mesh) : outcome mesh :=
  st <- flip32_all quality tol m ;;
  t <- remove_marked (s_delete st) (s_elems st) ;;
  r <- generateFaces n tol (Mesh (m_nodes m) (m_faces m) t) ;;
  Ok (fst r).

(** ** relaxNodes *)
(** 1390-1419: body of the first loop over the elements of the node; state: aNewNode and aTotalVolume. The whole of aNewNode, not only what the
    element adds to it, is divided by four and multiplied by the volume. *)
Definition gather (elems : table element) (nodes : table coord) (st : coord * Q) (el : Z) : outcome (coord * Q) :=
  e <- t_get elems el ;;
  if negb (is_tet e) then Ok st else
  a <- vec_at (e_nodes e) 0 ;; b <- vec_at (e_nodes e) 1 ;; c <- vec_at (e_nodes e) 2 ;; d <- vec_at (e_nodes e) 3 ;;
  pa <- t_get nodes a ;; pb <- t_get nodes b ;; pc <- t_get nodes c ;; pd <- t_get nodes d ;;
  let v := volume pa pb pc pd in
  Ok (vscale v (vscale (1 # 4) (vadd (vadd (vadd (vadd (fst st) pa) pb) pc) pd)), snd st + v)%Q.
(** 1421-1428: the two places tried. *)
Definition places (factor : Q) (c : coord) (st : coord * Q) : list coord :=
  let t := if Qlt_bool 0 (snd st) then vscale (/ snd st) (fst st) else fst st in
  let v := vsub t c in [vadd c (vscale factor v); vsub c (vscale factor v)].
(** 1439-1500: body of the second loop over the elements of the node; state: minq1, minq2, bMoveNode (once false the loop has ended). *)
Definition weigh4 (quality : coord -> coord -> coord -> coord -> Q) (tol : Q) (elems : table element) (nodes : table coord) (n : Z) (p : coord)
  (st : Q * Q * bool) (el : Z) : outcome (Q * Q * bool) :=
  if negb (snd st) then Ok st else
  e <- t_get elems el ;;
  if negb (is_tet e) then Ok st else
  a <- vec_at (e_nodes e) 0 ;; b <- vec_at (e_nodes e) 1 ;; c <- vec_at (e_nodes e) 2 ;; d <- vec_at (e_nodes e) 3 ;;
  pa <- t_get nodes a ;; pb <- t_get nodes b ;; pc <- t_get nodes c ;; pd <- t_get nodes d ;;
  let va := if a =? n then p else pa in let vb := if b =? n then p else pb in
  let vc := if c =? n then p else pc in let vd := if d =? n then p else pd in
  Ok (qmin (fst (fst st)) (quality pa pb pc pd), qmin (snd (fst st)) (quality va vb vc vd), negb (Qlt_bool (volume va vb vc vd) (cube tol))).
(** 1430-1511: the loop over the places; it ends with the first that is taken. *)
Fixpoint try_places (quality : coord -> coord -> coord -> coord -> Q) (tol : Q) (elems : table element) (nodes : table coord) (n : Z) (els : list Z)
  (ps : list coord) : outcome (table coord) :=
  match ps with
  | [] => Ok nodes
  | p :: ps' =>
    r <- foldM (weigh4 quality tol elems nodes n p) els (1%Q, 1%Q, true) ;;
    if snd r && negb (Qlt_bool (snd (fst r)) (fst (fst r))) then Ok (t_set nodes n p) else try_places quality tol elems nodes n els ps'
  end.
(** 1377-1512: body of the loop over the nodes. *)
Definition relax_tet (quality : coord -> coord -> coord -> coord -> Q) (factor tol : Q) (m : mesh) (fixed : zmap bool) (q : query)
  (nodes : table coord) (n : Z) : outcome (table coord) :=
  c <- t_get nodes n ;;
  stay <- zat fixed n ;;
  if stay : bool then Ok nodes else
  g <- foldM (gather (m_elems m) nodes) (sharing q n) (vzero, 0%Q) ;;
  try_places quality tol (m_elems m) nodes n (sharing q n) (places factor c g).
(** 1345-1513: relaxNodes. *)
Definition relaxTets (quality : coord -> coord -> coord -> coord -> Q) (factor tol : Q) (m : mesh) : outcome mesh :=
  fixed <- border m ;;
  q <- query_of (m_elems m) ;;
  nodes <- foldM (relax_tet quality factor tol m fixed q) (t_ids (m_nodes m)) (m_nodes m) ;;
  Ok (Mesh nodes (m_faces m) (m_elems m)).
