(** Words used in the statements about triangulations (Front_Props.v). *)
From Coq Require Import ZArith List Bool QArith.
From Verif Require Import Prelude Vec ZMap Mesh_Model.
Import ListNotations.
Open Scope Z_scope.

(** The three sides of a triangle, each running in the sense of the list of corners. *)
Definition sides_of (l : list Z) : list (Z * Z) :=
  match l with [p; q; r] => [(p, q); (q, r); (r, p)] | _ => [] end.
Definition element_sides (t : table element) (id : Z) : list (Z * Z) :=
  match t_get t id with Ok e => sides_of (e_nodes e) | _ => [] end.
(** All sides of all triangles of a mesh. *)
Definition all_sides (t : table element) : list (Z * Z) := flat_map (element_sides t) (t_ids t).

(** The beams of a mesh, from first to second node. *)
Definition beam_of (t : table element) (id : Z) : list (Z * Z) :=
  match t_get t id with
  | Ok e => match e_type e, e_nodes e with ET_BEAM, [a; b] => [(a, b)] | _, _ => [] end
  | _ => [] end.
Definition beams (em : mesh) : list (Z * Z) := flat_map (beam_of (m_elems em)) (t_ids (m_elems em)).

(** How many of the segments run from [a] to [b]; how many join [a] and [b]. *)
Definition running (l : list (Z * Z)) (a b : Z) : nat := length (filter (fun d => (fst d =? a) && (snd d =? b)) l).
Definition joining (l : list (Z * Z)) (a b : Z) : nat := (running l a b + running l b a)%nat.

(** [m] is bounded by the beams of [em]: [origin] tells which node of [em] a node of [m] is (if any). *)
Definition bounded_by (em m : mesh) (origin : Z -> Z) : Prop :=
  (forall p q, In p (t_ids (m_nodes m)) -> In q (t_ids (m_nodes m)) -> origin p = origin q -> p = q) /\
  (forall p c c', t_get (m_nodes m) p = Ok c -> t_get (m_nodes em) (origin p) = Ok c' -> c' = c) /\
  (forall p q, In p (t_ids (m_nodes m)) -> In q (t_ids (m_nodes m)) -> p <> q ->
     Nat.even (joining (all_sides (m_elems m)) p q + joining (beams em) (origin p) (origin q)) = true) /\
  (forall a b, a <> b -> Nat.odd (joining (beams em) a b) = true ->
     exists p q, In p (t_ids (m_nodes m)) /\ In q (t_ids (m_nodes m)) /\ origin p = a /\ origin q = b).

(** Twice the signed area of a triangle seen from above. *)
Definition area2 (p q r : coord) : Q := ((cx q - cx p) * (cy r - cy p) - (cx r - cx p) * (cy q - cy p))%Q.
Definition where_ (t : table coord) (n : Z) : coord := match t_get t n with Ok c => c | _ => vzero end.
Definition sum (l : list Q) : Q := fold_right Qplus 0%Q l.
(** Twice the sum of the areas of all triangles. *)
Definition total_area2 (m : mesh) : Q :=
  sum (map (fun id => match t_get (m_elems m) id with
                      | Ok (Element _ [p; q; r] _) => area2 (where_ (m_nodes m) p) (where_ (m_nodes m) q) (where_ (m_nodes m) r)
                      | _ => 0%Q end) (t_ids (m_elems m))).
(** Twice the area enclosed by the beams (each beam with the origin of coordinates is a triangle). *)
Definition enclosed_area2 (em : mesh) : Q :=
  sum (map (fun d => area2 vzero (where_ (m_nodes em) (fst d)) (where_ (m_nodes em) (snd d))) (beams em)).
(** The segments, their ends being named by [f]. *)
Definition named (f : Z -> Z) (l : list (Z * Z)) : list (Z * Z) := map (fun d => (f (fst d), f (snd d))) l.
