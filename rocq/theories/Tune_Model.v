(** Model of the improvement of triangulations: flipEdges and relaxNodes of CMshTriangleMesher
    (mesh/MshTriangleMesher_Imp.hpp 1218-1501).
    Simplifications:
    - The quality of a triangle (mesh/MshTriangle_Imp.hpp 28-45) is an arbitrary function of its three corners with rational values
      (every finite double is one).
    - Coordinates are exact rationals; normal().z() > aTolerance is decided exactly ([upright] of Front_Model).
    - Loops over positions are loops over the ids in order (the id vectors do not change while the loops run). *)
From Coq Require Import ZArith List Bool QArith.
From Verif Require Import Prelude Vec ZMap Mesh_Model HashGrid_Model Face_Model Query_Model Merge_Model Front_Model.
Import ListNotations.
Open Scope Z_scope.

Definition is_triangle (e : element) : bool := match e_type e with ET_TRIANGLE => true | _ => false end.

(** 1249-1262, 1279-1291: the first node of the element that is neither of the two. *)
Definition third (e : element) (a b : Z) : option Z := find (fun n => negb (n =? a) && negb (n =? b)) (e_nodes e).
(** 1337-1343: setNodeId(0..2), m_nodeIds[i] unchecked (MshElement_Imp.hpp 56-59). *)
Definition set_corners (e : element) (a b c : Z) : outcome element :=
  match e_nodes e with
  | _ :: _ :: _ :: l => Ok (set_e_nodes e (a :: b :: c :: l))
  | _ => UB end.
(** std::min. *)
Definition qmin (a b : Q) : Q := if Qlt_bool b a then b else a.

(** 1229-1349: body of the loop over the faces; state: the elements and sFlipped. *)
Definition flip_step (quality : coord -> coord -> coord -> Q) (tol : Q) (m : mesh) (st : table element * zmap bool) (fid : Z)
  : outcome (table element * zmap bool) :=
  f <- t_get (m_faces m) fid ;;
  match f_type f with
  | FT_LINE =>
    done <- zat (snd st) (f_elem f) ;;
    if done : bool then Ok st else
    e <- t_get (fst st) (f_elem f) ;;
    if negb (is_triangle e) then Ok st else
    n1 <- vec_at (f_nodes f) 0 ;; n2 <- vec_at (f_nodes f) 1 ;;
    match third e n1 n2 with
    | None => Ok st
    | Some n3 =>
      if negb (f_haspair f) then Ok st else
      g <- t_get (m_faces m) (f_pair f) ;;
      done' <- zat (snd st) (f_elem g) ;;
      if done' : bool then Ok st else
      e' <- t_get (fst st) (f_elem g) ;;
      if negb (is_triangle e') then Ok st else
      match third e' n1 n2 with
      | None => Ok st
      | Some n4 =>
        p1 <- t_get (m_nodes m) n1 ;; p2 <- t_get (m_nodes m) n2 ;; p3 <- t_get (m_nodes m) n3 ;; p4 <- t_get (m_nodes m) n4 ;;
        if Qlt_bool (qmin (quality p1 p2 p3) (quality p2 p1 p4)) (qmin (quality p3 p4 p2) (quality p4 p3 p1))
           && upright tol p3 p4 p2 && upright tol p4 p3 p1
        then
          e1 <- set_corners e n3 n4 n2 ;;
          let t1 := t_set (fst st) (f_elem f) e1 in
          e2 <- t_get t1 (f_elem g) ;;
          e3 <- set_corners e2 n4 n3 n1 ;;
          Ok (t_set t1 (f_elem g) e3, zinsert (f_elem g) true (zinsert (f_elem f) true (snd st)))
        else Ok st
      end
    end
  | _ => Ok st
  end.

(** 1221-1227: sFlipped at the start. *)
Definition none_flipped (ids : list Z) : zmap bool := fold_left (fun s id => zinsert id false s) ids zempty.
(** 1229-1350: the loop. *)
Definition flip_all (quality : coord -> coord -> coord -> Q) (tol : Q) (m : mesh) : outcome (table element * zmap bool) :=
  foldM (flip_step quality tol m) (t_ids (m_faces m)) (m_elems m, none_flipped (t_ids (m_elems m))).
(** 1218-1354: flipEdges; [n] is the number of cells of the hash grid used by generateFaces. *)
Definition flipEdges (n : Z) (quality : coord -> coord -> coord -> Q) (tol : Q) (m : mesh) : outcome mesh :=
  st <- flip_all quality tol m ;;
  r <- generateFaces n tol (Mesh (m_nodes m) (m_faces m) (fst st)) ;;
  Ok (fst r).

(** 1359-1382: bBoundaryNode. *)
Definition border (m : mesh) : outcome (zmap bool) :=
  foldM (fun s fid => f <- t_get (m_faces m) fid ;;
           Ok (if f_haspair f then s else fold_left (fun s n => zinsert n true s) (f_nodes f) s))
        (t_ids (m_faces m)) (fold_left (fun s n => zinsert n false s) (t_ids (m_nodes m)) zempty).

(** 1413-1430: sNodeIds, without repetition. *)
Definition note_new (l : list Z) (n : Z) : list Z := if existsb (Z.eqb n) l then l else l ++ [n].
Definition ring (elems : table element) (n : Z) (els : list Z) : outcome (list Z) :=
  foldM (fun acc el => e <- t_get elems el ;; Ok (if is_triangle e then fold_left note_new (e_nodes e) acc else acc)) els [n].
(** 1434-1439: their mean. *)
Definition mean_of (nodes : table coord) (l : list Z) : outcome coord :=
  s <- foldM (fun s k => c <- t_get nodes k ;; Ok (vadd s c)) l vzero ;; Ok (vscale (/ inject_Z (zlen l)) s).

(** 1446-1495: body of the loop over the elements of the node; state: sumq1, sumq2, bMoveNode (once false the loop has ended). *)
Definition weigh (quality : coord -> coord -> coord -> Q) (tol : Q) (elems : table element) (nodes : table coord) (n : Z) (p : coord)
  (st : Q * Q * bool) (el : Z) : outcome (Q * Q * bool) :=
  if negb (snd st) then Ok st else
  e <- t_get elems el ;;
  if negb (is_triangle e) then Ok st else
  a <- vec_at (e_nodes e) 0 ;; b <- vec_at (e_nodes e) 1 ;; c <- vec_at (e_nodes e) 2 ;;
  pa <- t_get nodes a ;; pb <- t_get nodes b ;; pc <- t_get nodes c ;;
  let va := if a =? n then p else pa in let vb := if b =? n then p else pb in let vc := if c =? n then p else pc in
  Ok (fst (fst st) + quality pa pb pc, snd (fst st) + quality va vb vc, upright tol va vb vc)%Q.

(** 1398-1500: body of the loop over the nodes. *)
Definition relax_step (quality : coord -> coord -> coord -> Q) (tol : Q) (m : mesh) (fixed : zmap bool) (q : query)
  (nodes : table coord) (n : Z) : outcome (table coord) :=
  c <- t_get nodes n ;;
  stay <- zat fixed n ;;
  if stay : bool then Ok nodes else
  l <- ring (m_elems m) n (sharing q n) ;;
  if 1 <? zlen l then
    p <- mean_of nodes l ;;
    r <- foldM (weigh quality tol (m_elems m) nodes n p) (sharing q n) (0%Q, 0%Q, true) ;;
    Ok (if snd r && Qlt_bool (fst (fst r)) (snd (fst r)) then t_set nodes n p else nodes)
  else Ok nodes.
(** 1356-1501: relaxNodes. *)
Definition relaxNodes (quality : coord -> coord -> coord -> Q) (tol : Q) (m : mesh) : outcome mesh :=
  fixed <- border m ;;
  q <- query_of (m_elems m) ;;
  nodes <- foldM (relax_step quality tol m fixed q) (t_ids (m_nodes m)) (m_nodes m) ;;
  Ok (Mesh nodes (m_faces m) (m_elems m)).
