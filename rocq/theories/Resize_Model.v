(** Model of CMshTriangleMesher::remesh (mesh/MshTriangleMesher_Imp.hpp 467-693): beams are cut in pieces of about the wanted size,
    and sides shared by two triangles that are longer than one and a half times that size are cut at their middle.
    Simplifications:
    - Coordinates are exact rationals; the rounding of length / size to the nearest number and the comparison of lengths are decided
      exactly from the squares; (j + 1) * de * n is the exact multiple (j + 1) / ne of the vector from end to end.
    - The faces kept for beams (490-501, 535-558, 566-570) and the loop over all faces at the end (667-679) are left out: they concern
      only faces of beams and numbers of partners, and generateFaces (681) then makes all faces anew without looking at them.
    - Ids that are -1 (no third node) are [None]. *)
From Coq Require Import ZArith List Bool QArith Qround.
From Verif Require Import Prelude Vec ZMap Mesh_Model HashGrid_Model Face_Model Query_Model Merge_Model Front_Model Tune_Model.
Import ListNotations.
Open Scope Z_scope.

(** 511: floor(v.norm() / localMeshSize + 0.5), from the squared length; the cast of an infinite value is undefined. *)
Definition pieces (size : Q) (v : coord) : outcome Z :=
  if Qeq_bool size 0 then UB
  else if Qlt_bool size 0 then Ok 0
  else Ok ((Z.sqrt (Qfloor (4 * norm2 v / (size * size))) + 1) / 2).
(** 598: v.norm() > localMeshSize * 1.5. *)
Definition too_long (size : Q) (v : coord) : bool := Qlt_bool size 0 || Qlt_bool ((9 # 4) * (size * size)) (norm2 v).

(** 562-563: setNodeId(0..1), unchecked (MshElement_Imp.hpp 56-59). *)
Definition set_ends (e : element) (a b : Z) : outcome element :=
  match e_nodes e with
  | _ :: _ :: l => Ok (set_e_nodes e (a :: b :: l))
  | _ => UB end.
(** 525-571: body of the loop over the pieces of a beam; state: the mesh and aPrevNodeId. *)
Definition cut_piece (id n2 : Z) (p1 v : coord) (ne : Z) (st : mesh * Z) (j : Z) : outcome (mesh * Z) :=
  let m := fst st in
  let new := t_next (m_nodes m) in
  let nodes := t_add (m_nodes m) new (vadd p1 (vscale (inject_Z (j + 1) / inject_Z ne) v)) in
  let elems := t_add (m_elems m) (t_next (m_elems m)) (Element ET_BEAM [snd st; new] []) in
  e <- t_get elems id ;;
  e' <- set_ends e new n2 ;;
  Ok (Mesh nodes (m_faces m) (t_set elems id e'), new).
(** 484-573: a beam. *)
Definition cut_beam (size : Q) (m : mesh) (id : Z) (e : element) : outcome mesh :=
  n1 <- vec_at (e_nodes e) 0 ;; n2 <- vec_at (e_nodes e) 1 ;;
  p1 <- t_get (m_nodes m) n1 ;; p2 <- t_get (m_nodes m) n2 ;;
  ne <- pieces size (vsub p2 p1) ;;
  st <- foldM (cut_piece id n2 p1 (vsub p2 p1) ne) (zrange (Z.to_nat (ne - 1))) (m, n1) ;;
  Ok (fst st).

(** 471-475: sRemeshed has one entry for each element there is at the start and is indexed by element ids without check
    (std::vector<bool>): [total] entries, those of [done] are true. *)
Definition remeshed (total : Z) (done : list Z) (id : Z) : outcome bool :=
  if (0 <=? id) && (id <? total) then Ok (existsb (Z.eqb id) done) else UB.
(** 641-645: setNodeId(0..1) of a face, unchecked (MshFace_Imp.hpp 68-71). *)
Definition set_line (f : face) (a b : Z) : outcome face :=
  match f_nodes f with
  | _ :: _ :: l => Ok (set_f_nodes f (a :: b :: l))
  | _ => UB end.

(** 629-660: the cut; [mid] is the middle. *)
Definition halve (m : mesh) (id fid n1 n2 n3 n4 : Z) (f g : face) (mid : coord) : outcome mesh :=
  let new := t_next (m_nodes m) in
  let nodes := t_add (m_nodes m) new mid in
  e <- t_get (m_elems m) id ;;
  e1 <- set_corners e n3 n1 new ;;
  let t1 := t_set (m_elems m) id e1 in
  e' <- t_get t1 (f_elem g) ;;
  e2 <- set_corners e' n1 n4 new ;;
  let t2 := t_set t1 (f_elem g) e2 in
  f1 <- set_line f n1 new ;;
  let u1 := t_set (m_faces m) fid f1 in
  g0 <- t_get u1 (f_pair f) ;;
  g1 <- set_line g0 new n1 ;;
  let u2 := t_set u1 (f_pair f) g1 in
  let t3 := t_add t2 (t_next t2) (Element ET_TRIANGLE [n2; n3; new] []) in
  let t4 := t_add t3 (t_next t3) (Element ET_TRIANGLE [n4; n2; new] []) in
  Ok (Mesh nodes u2 t4).
(** 580-664: body of the loop over the faces of a triangle; state: the mesh and sRemeshed. *)
Definition cut_side (size : Q) (total id : Z) (st : mesh * list Z) (fid : Z) : outcome (mesh * list Z) :=
  let m := fst st in
  f <- t_get (m_faces m) fid ;;
  if negb (f_haspair f) then Ok st else
  g <- t_get (m_faces m) (f_pair f) ;;
  e' <- t_get (m_elems m) (f_elem g) ;;
  n1 <- vec_at (f_nodes f) 0 ;; n2 <- vec_at (f_nodes f) 1 ;;
  p1 <- t_get (m_nodes m) n1 ;; p2 <- t_get (m_nodes m) n2 ;;
  if negb (too_long size (vsub p2 p1)) then Ok st else
  e <- t_get (m_elems m) id ;;
  match third e n1 n2, third e' n1 n2 with
  | Some n3, Some n4 =>
    d <- remeshed total (snd st) id ;;
    if d : bool then Ok st else
    d' <- remeshed total (snd st) (f_elem g) ;;
    if d' : bool then Ok st else
    m' <- halve m id fid n1 n2 n3 n4 f g (vscale (1 # 2) (vadd p1 p2)) ;;
    Ok (m', f_elem g :: id :: snd st)
  | _, _ => Ok st
  end.

(** 478-665: body of the loop over the elements. *)
Definition resize_step (size : Q) (total : Z) (st : mesh * list Z) (id : Z) : outcome (mesh * list Z) :=
  e <- t_get (m_elems (fst st)) id ;;
  match e_type e with
  | ET_BEAM => m' <- cut_beam size (fst st) id e ;; Ok (m', snd st)
  | ET_TRIANGLE => foldM (cut_side size total id) (e_faces e) st
  | _ => Ok st
  end.
(** 478: the loop over the elements, which also visits those added meanwhile; [None]: not finished after [turns] elements. *)
Fixpoint resize_loop (turns : nat) (size : Q) (total i : Z) (st : mesh * list Z) : outcome (option (mesh * list Z)) :=
  if i <? t_size (m_elems (fst st)) then
    match turns with
    | O => Ok None
    | S k => id <- t_id (m_elems (fst st)) i ;; st' <- resize_step size total st id ;; resize_loop k size total (i + 1) st'
    end
  else Ok (Some st).
(** 467-684: remesh; [n] is the number of cells of the hash grid used by generateFaces. *)
Definition remesh (turns : nat) (n : Z) (size tol : Q) (m : mesh) : outcome (option mesh) :=
  r <- resize_loop turns size (t_size (m_elems m)) 0 (m, []) ;;
  match r with
  | None => Ok None
  | Some st => x <- generateFaces n tol (fst st) ;; Ok (Some (fst x))
  end.
