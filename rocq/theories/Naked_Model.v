(** Model of collapseNakedEdges (mesh/MshMesh_Imp.hpp 810-864), which moves nodes along the shortest edges of the boundary.
    Reals are rationals; lengths are compared through their squares, without roots. *)
From Coq Require Import ZArith List Bool QArith.
From Verif Require Import Prelude Vec ZMap Mesh_Model Face_Model Clean_Model.
Import ListNotations.
Open Scope Z_scope.

(** Whether sqrt a < sqrt b + t, for any t, without roots. *)
Definition root_less (a b t : Q) : bool :=
  if Qlt_bool 0 t then root_below a b t
  else let d := (b - a - t * t)%Q in Qlt_bool 0 d && Qlt_bool (4 * (t * t) * a)%Q (d * d)%Q.

(** The two nodes of a face and the square of the distance from the first to the second (829-835 and 849-855). *)
Definition ends (nodes : table coord) (f : face) : outcome (Z * coord * Q) :=
  a <- vec_at (f_nodes f) 0 ;; b <- vec_at (f_nodes f) 1 ;;
  p <- t_get nodes a ;; q <- t_get nodes b ;;
  Ok (a, q, norm2 (vsub q p)).

(** std::min of the least length so far; [None] is the largest number, which no length exceeds. *)
Definition least (l : option Q) (x : Q) : option Q :=
  match l with None => Some x | Some y => Some (if Qlt_bool x y then x else y) end.

(** 818-838: the lines without pair, and the square of the least length. *)
Definition naked_step (m : mesh) (s : list Z * option Q) (id : Z) : outcome (list Z * option Q) :=
  f <- t_get (m_faces m) id ;;
  if negb (ftype_eqb (f_type f) FT_LINE) then Ok s
  else if f_haspair f then Ok s
  else e <- ends (m_nodes m) f ;; Ok (fst s ++ [id], least (snd s) (snd e)).

(** 842-863: one edge; [mn] is the square of the least length at the beginning. *)
Definition collapse_step (faces : table face) (mn tol : Q) (nodes : table coord) (id : Z) : outcome (table coord) :=
  f <- t_get faces id ;;
  e <- ends nodes f ;;
  Ok (if root_less (snd e) mn tol then t_set nodes (fst (fst e)) (snd (fst e)) else nodes).

(** 810-864. *)
Definition collapseNakedEdges (tol : Q) (m : mesh) : outcome mesh :=
  s <- foldM (naked_step m) (t_ids (m_faces m)) ([], None) ;;
  match snd s with
  | None => Ok m
  | Some mn => nodes <- foldM (collapse_step (m_faces m) mn tol) (fst s) (m_nodes m) ;; Ok (Mesh nodes (m_faces m) (m_elems m))
  end.
