(** Model of the mesh clean-up operations: mergeNodes, mergeElements, removeInvalidElements,
    removeDanglingNodes (mesh/MshMesh_Imp.hpp:512-808).

    The proximity search is the hash grid of HashGrid_Model; its number of cells per axis is the
    parameter [n] (the code derives it from the number of points). *)
From Coq Require Import ZArith List Bool QArith.
From Verif Require Import Prelude Vec ZMap Mesh_Model HashGrid_Model.
Import ListNotations.
Open Scope Z_scope.

(** The deletion loops MshMesh_Imp.hpp:599-605, 685-691, 719-725, 801-807: in key order, every
    flagged id is passed to removeNode/removeElement. *)
Definition remove_flagged {A : Type} (flags : zmap bool) (t : table A) : outcome (table A) :=
  foldM (fun t kb => if snd kb : bool then t_remove t (fst kb) else Ok t) flags t.

(** for every id: flags[id] = b (MshMesh_Imp.hpp:531-537, 640-645, 766-771). *)
Definition flag_all (b : bool) (ids : list Z) (flags : zmap bool) : zmap bool :=
  fold_left (fun fl id => zinsert id b fl) ids flags.

(** Hash grid of identified points (MshMesh_Imp.hpp:515-526 and 614-637). *)
Definition grid_of (n : Z) (objs : list (Z * coord)) : outcome grid :=
  grid_build n (fold_left (fun g o => grid_add g (fst o) (snd o)) objs grid_new).

(** [x.at(id)] for every id in order, paired with the id. *)
Definition with_ids {A : Type} (f : Z -> outcome A) (ids : list Z) : outcome (list (Z * A)) :=
  mapM (fun id => v <- f id ;; Ok (id, v)) ids.

(** ** removeInvalidElements *)

(** std::sort on a vector of ids (MshMesh_Imp.hpp:712). *)
Fixpoint sort_insert (x : Z) (l : list Z) : list Z :=
  match l with
  | [] => [x]
  | y :: l' => if x <=? y then x :: l else y :: sort_insert x l'
  end.
Definition zsort (l : list Z) : list Z := fold_right sort_insert [] l.

(** std::adjacent_find(...) != end() (MshMesh_Imp.hpp:714). *)
Fixpoint adjacent_equal (l : list Z) : bool :=
  match l with
  | x :: ((y :: _) as l') => (x =? y) || adjacent_equal l'
  | _ => false
  end.

(** MshMesh_Imp.hpp:694-726. *)
Definition removeInvalidElements (m : mesh) : outcome mesh :=
  flags <- foldM (fun fl id =>
             e <- t_get (m_elems m) id ;;
             Ok (let fl := zinsert id false fl in
                 if adjacent_equal (zsort (e_nodes e)) then zinsert id true fl else fl))
           (t_ids (m_elems m)) zempty ;;
  e <- remove_flagged flags (m_elems m) ;;
  Ok (Mesh (m_nodes m) (m_faces m) e).

(** MshMesh_Imp.hpp:728-760. *)
Definition rebuildIndices (m : mesh) : mesh :=
  Mesh (t_rebuild (m_nodes m)) (t_rebuild (m_faces m)) (t_rebuild (m_elems m)).

(** ** removeDanglingNodes: MshMesh_Imp.hpp:762-808. *)
Definition removeDanglingNodes (m : mesh) : outcome mesh :=
  let f0 := flag_all true (t_ids (m_nodes m)) zempty in
  f1 <- foldM (fun fl id => f <- t_get (m_faces m) id ;; Ok (flag_all false (f_nodes f) fl))
        (t_ids (m_faces m)) f0 ;;
  f2 <- foldM (fun fl id => e <- t_get (m_elems m) id ;; Ok (flag_all false (e_nodes e) fl))
        (t_ids (m_elems m)) f1 ;;
  n <- remove_flagged f2 (m_nodes m) ;;
  Ok (Mesh n (m_faces m) (m_elems m)).

(** ** mergeNodes *)

(** One iteration of the loop MshMesh_Imp.hpp:539-564; state = (bDeleteNode, sNewNodeIds). *)
Definition merge_step (g : grid) (nodes : table coord) (tol : Q) (st : zmap bool * zmap Z) (a : Z)
  : outcome (zmap bool * zmap Z) :=
  d <- zat (fst st) a ;;
  if d : bool then Ok st else
  c <- t_get nodes a ;;
  found <- grid_find g [] c tol ;;
  Ok (if 1 <? zlen found
      then fold_left (fun st k => if a <? k then (zinsert k true (fst st), zinsert k a (snd st)) else st)
                     found st
      else st).

(** In-place rewriting of every entry, MshMesh_Imp.hpp:567-580 and 583-596. *)
Definition rewrite_all {A : Type} (f : A -> outcome A) (t : table A) : outcome (table A) :=
  foldM (fun acc id => v <- t_get acc id ;; v' <- f v ;; Ok (t_set acc id v')) (t_ids t) t.

(** MshMesh_Imp.hpp:511-610. *)
Definition mergeNodes (n : Z) (tol : Q) (m : mesh) : outcome mesh :=
  objs <- with_ids (t_get (m_nodes m)) (t_ids (m_nodes m)) ;;
  g <- grid_of n objs ;;
  let del0 := flag_all false (t_ids (m_nodes m)) zempty in
  let new0 := fold_left (fun mp id => zinsert id id mp) (t_ids (m_nodes m)) zempty in
  st <- foldM (merge_step g (m_nodes m) tol) (t_ids (m_nodes m)) (del0, new0) ;;
  elems <- rewrite_all (fun e => l <- remap (snd st) (e_nodes e) ;; Ok (set_e_nodes e l)) (m_elems m) ;;
  faces <- rewrite_all (fun f => l <- remap (snd st) (f_nodes f) ;; Ok (set_f_nodes f l)) (m_faces m) ;;
  nodes <- remove_flagged (fst st) (m_nodes m) ;;
  m' <- removeInvalidElements (Mesh nodes faces elems) ;;
  Ok (rebuildIndices m').

(** ** mergeElements *)

(** MshMesh_Imp.hpp:623-633 and 658-668: arithmetic mean of the nodes, the origin if there are none. *)
Definition elem_centroid (m : mesh) (id : Z) : outcome coord :=
  e <- t_get (m_elems m) id ;;
  s <- foldM (fun s nd => c <- t_get (m_nodes m) nd ;; Ok (vadd s c)) (e_nodes e) vzero ;;
  Ok (if 0 <? zlen (e_nodes e) then vscale (/ inject_Z (zlen (e_nodes e))) s else s).

(** One iteration of MshMesh_Imp.hpp:649-682. *)
Definition mergeElements_step (g : grid) (m : mesh) (tol : Q) (del : zmap bool) (a : Z)
  : outcome (zmap bool) :=
  d <- zat del a ;;
  if d : bool then Ok del else
  c <- elem_centroid m a ;;
  found <- grid_find g [] c tol ;;
  Ok (if 1 <? zlen found then flag_all true found del else del).

(** MshMesh_Imp.hpp:612-692. *)
Definition mergeElements (n : Z) (tol : Q) (m : mesh) : outcome mesh :=
  objs <- with_ids (elem_centroid m) (t_ids (m_elems m)) ;;
  g <- grid_of n objs ;;
  let del0 := flag_all false (t_ids (m_elems m)) zempty in
  del <- foldM (mergeElements_step g m tol) (t_ids (m_elems m)) del0 ;;
  e <- remove_flagged del (m_elems m) ;;
  Ok (Mesh (m_nodes m) (m_faces m) e).
