(** Model of CGeoAdtree6 and CGeoAdtree (geometry/GeoAdtree_Imp.hpp, geometry/GeoAdtree.hpp).
    [Real] is Q.  The tree starts with a call of set(); calling set() a second time on the same object
    (which leaks the first tree) is not modelled.  The counter nbChildren is written but never read and
    is left out.  Nodes are never moved, so a node pointer is modelled by the path from the root. *)
From Coq Require Import ZArith List Bool QArith.
From Verif Require Import Prelude Vec Box_Model.
Import ListNotations.
Open Scope Z_scope.

(** Real[6]: the lower corner in components 0-2, the upper corner in components 3-5. *)
Definition vec6 : Type := (coord * coord)%type.

(** p[dir]. *)
Definition at6 (p : vec6) (dir : nat) : Q :=
  match dir with
  | 0%nat => cx (fst p) | 1%nat => cy (fst p) | 2%nat => cz (fst p)
  | 3%nat => cx (snd p) | 4%nat => cy (snd p) | _ => cz (snd p)
  end.

(** p[dir] = v. *)
Definition upd6 (p : vec6) (dir : nat) (v : Q) : vec6 :=
  let (a, b) := p in
  match dir with
  | 0%nat => (Coord v (cy a) (cz a), b) | 1%nat => (Coord (cx a) v (cz a), b) | 2%nat => (Coord (cx a) (cy a) v, b)
  | 3%nat => (a, Coord v (cy b) (cz b)) | 4%nat => (a, Coord (cx b) v (cz b)) | _ => (a, Coord (cx b) (cy b) v)
  end.

(** GeoAdtree_Imp.hpp:125-128 and :207. *)
Definition next_dir (dir : nat) : nat := match dir with 5%nat => 0%nat | _ => S dir end.

(** GeoAdtree.hpp:21-40: id, data, sep, leftNode, rightNode; [Nil] is the null pointer. *)
Inductive tree : Type :=
| Nil
| Node (id : Z) (data : vec6) (sep : Q) (left right : tree).

(** A node pointer: [false] = left, [true] = right, read from the root. *)
Definition path : Type := list bool.

Record adt : Type := Adt {
  a_box : box;           (* m_boundingBox, which also gives m_cmin and m_cmax *)
  a_root : tree;         (* m_root *)
  a_nodes : list path    (* m_nodes *)
}.

(** The mean of two numbers, in lowest terms (the value is the same). *)
Definition middle (a b : Q) : Q := Qred ((a + b) / 2).

(** GeoAdtree_Imp.hpp:255-273: m_cmin, m_cmax. *)
Definition cmin (b : box) : vec6 := (b_min b, b_min b).
Definition cmax (b : box) : vec6 := (b_max b, b_max b).

(** GeoAdtree_Imp.hpp:18-28, 54-61: an empty root. The data of an empty node is never looked at. *)
Definition empty_root (b : box) : tree :=
  Node (-1) (vzero, vzero) (middle (at6 (cmin b) 0) (at6 (cmax b) 0)) Nil Nil.

(** GeoAdtree_Imp.hpp:255-273 on a new object. *)
Definition adt_set (b : box) : adt := Adt b (empty_root b) [].

(** GeoAdtree_Imp.hpp:64-71, 274-279. *)
Definition adt_reset (t : adt) : adt := Adt (a_box t) (empty_root (a_box t)) [].

(** GeoAdtree_Imp.hpp:81-151: the first empty node on the way down is reused, otherwise a new leaf is
    hung in. Returns the new tree and the pointer appended to m_nodes. *)
Fixpoint tree_insert (t : tree) (dir : nat) (bmin bmax p : vec6) (id : Z) : tree * path :=
  match t with
  | Nil => (Node id p (middle (at6 bmin dir) (at6 bmax dir)) Nil Nil, [])
  | Node i d sep l r =>
    if i =? -1 then (Node id p sep l r, [])
    else if Qlt_bool (at6 p dir) sep
         then let (l', w) := tree_insert l (next_dir dir) bmin (upd6 bmax dir sep) p id in
              (Node i d sep l' r, false :: w)
         else let (r', w) := tree_insert r (next_dir dir) (upd6 bmin dir sep) bmax p id in
              (Node i d sep l r', true :: w)
  end.

(** GeoAdtree_Imp.hpp:282-294: addGeometricObject. *)
Definition adt_insert (t : adt) (id : Z) (b : box) : adt :=
  let (r, w) := tree_insert (a_root t) 0 (cmin (a_box t)) (cmax (a_box t)) (b_min b, b_max b) id in
  Adt (a_box t) r (a_nodes t ++ [w]).

(** node->id = -1 (GeoAdtree_Imp.hpp:158). *)
Fixpoint clear_at (t : tree) (w : path) : tree :=
  match t, w with
  | Nil, _ => Nil
  | Node i d sep l r, [] => Node (-1) d sep l r
  | Node i d sep l r, false :: w' => Node i d sep (clear_at l w') r
  | Node i d sep l r, true :: w' => Node i d sep l (clear_at r w')
  end.

(** GeoAdtree_Imp.hpp:154-167, 297-300: removeGeometricObject; m_nodes[anId] is unchecked. *)
Definition adt_remove (t : adt) (id : Z) : outcome adt :=
  w <- vec_get (a_nodes t) id ;; Ok (Adt (a_box t) (clear_at (a_root t) w) (a_nodes t)).

(** GeoAdtree_Imp.hpp:198. *)
Definition hit (bmin bmax data : vec6) : bool :=
  Qle_bool (at6 data 0) (at6 bmax 0) && Qle_bool (at6 data 1) (at6 bmax 1) && Qle_bool (at6 data 2) (at6 bmax 2) &&
  Qle_bool (at6 bmin 3) (at6 data 3) && Qle_bool (at6 bmin 4) (at6 data 4) && Qle_bool (at6 bmin 5) (at6 data 5).

(** GeoAdtree_Imp.hpp:172. *)
Definition max_depth : nat := Pos.to_nat 1024.

(** GeoAdtree_Imp.hpp:209-232: push a child unless it is null or pruned; [None] when the stack is full. *)
Definition push_child (st : list (tree * nat)) (c : tree) (dir : nat) (go : bool) : option (list (tree * nat)) :=
  match c with
  | Nil => Some st
  | Node _ _ _ _ _ =>
    if go then if Nat.leb max_depth (length st) then None else Some ((c, dir) :: st) else Some st
  end.

(** GeoAdtree_Imp.hpp:187-233: the loop; the head of the list is the top of the stack. The result is
    the list of ids and whether the message "max depth reached" was printed. [None]: out of fuel. *)
Fixpoint search (fuel : nat) (bmin bmax : vec6) (st : list (tree * nat)) (out : list Z) : option (list Z * bool) :=
  match st with
  | [] => Some (out, false)
  | (Nil, _) :: _ => None
  | (Node i d sep l r, dir) :: rest =>
    match fuel with
    | O => None
    | S fuel' =>
      let out' := if negb (i =? -1) && hit bmin bmax d then out ++ [i] else out in
      match push_child rest l (next_dir dir) (Qle_bool (at6 bmin dir) sep) with
      | None => Some (out', true)
      | Some st1 =>
        match push_child st1 r (next_dir dir) (Qle_bool sep (at6 bmax dir)) with
        | None => Some (out', true)
        | Some st2 => search fuel' bmin bmax st2 out'
        end
      end
    end
  end.

(** The number of nodes. *)
Fixpoint size (t : tree) : nat :=
  match t with Nil => 0 | Node _ _ _ l r => S (size l + size r) end.

(** GeoAdtree_Imp.hpp:308-335: find; the previous content of the output vector is cleared and the
    tolerance is not used. *)
Definition adt_find (t : adt) (out : list Z) (q : box) (tol : Q) : option (list Z * bool) :=
  search (size (a_root t)) (b_min (a_box t), b_min q) (b_max q, b_max (a_box t)) [(a_root t, 0%nat)] [].
