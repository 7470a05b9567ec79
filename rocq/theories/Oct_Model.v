(** Model of CGeoOctree (geometry/GeoOctree_Imp.hpp, GeoOctreeNode_Imp.hpp, GeoContainer_Imp.hpp).
    [Real] is Q. *)
From Coq Require Import ZArith List Bool QArith.
From Verif Require Import Prelude Vec Box_Model.
Import ListNotations.
Open Scope Z_scope.

(** GeoOctreeNode.hpp:19-44: the limits (xmin, ...), (xmax, ...), (xmid, ...), m_coordinateList,
    m_isLeaf and the vector of children. *)
Inductive onode : Type :=
| ONode (lo hi mid : coord) (coords : list Z) (leaf : bool) (nodes : list onode).

Definition on_coords (n : onode) : list Z := let (_, _, _, cs, _, _) := n in cs.
Definition on_nodes (n : onode) : list onode := let (_, _, _, _, _, ns) := n in ns.

(** GeoOctreeNode_Imp.hpp:17-21: a new node; its limits are not initialised, they are assigned before
    they are read. *)
Definition onode_new : onode := ONode vzero vzero vzero [] true [].

(** GeoContainer.hpp: stored points with their ids; GeoOctree.hpp: m_root and m_boundingBox. *)
Record octree : Type := Octree { o_objs : list (Z * coord); o_root : onode; o_box : box }.

Definition oct_new : octree := Octree [] onode_new box_reset.

(** GeoContainer_Imp.hpp:34-38. *)
Definition oct_add (t : octree) (id : Z) (c : coord) : octree := Octree (o_objs t ++ [(id, c)]) (o_root t) (o_box t).

(** GeoOctree_Imp.hpp:27-31: the root and the bounding box are kept. *)
Definition oct_reset (t : octree) : octree := Octree [] (o_root t) (o_box t).

(** GeoOctree_Imp.hpp:111-115, reduced to lowest terms. *)
Definition half_way (a b : coord) : coord :=
  Coord (Qred ((cx a + cx b) * (1 # 2))) (Qred ((cy a + cy b) * (1 # 2))) (Qred ((cz a + cz b) * (1 # 2))).

(** GeoOctree_Imp.hpp:33-116: the limits of child [i] (numbering GeoOctree.hpp:24-34), the list of
    coordinates is untouched. *)
Definition create_node (n : onode) (lo hi mid : coord) (i : Z) : onode :=
  let (_, _, _, cs, lf, ns) := n in
  let right := Z.testbit i 0 in let front := Z.testbit i 1 in let top := Z.testbit i 2 in
  let lo' := Coord (if right then cx mid else cx lo) (if front then cy mid else cy lo) (if top then cz mid else cz lo) in
  let hi' := Coord (if right then cx hi else cx mid) (if front then cy hi else cy mid) (if top then cz hi else cz mid) in
  ONode lo' hi' (half_way lo' hi') cs lf ns.

(** GeoOctree_Imp.hpp:119-159; line 139 returns OL_BACK_TOP_LEFT for the front-top-left octant. *)
Definition dispatch (mid : coord) (x y z : Q) : Z :=
  if Qlt_bool x (cx mid)
  then if Qlt_bool y (cy mid)
       then if Qlt_bool z (cz mid) then 0 else 4
       else if Qlt_bool z (cz mid) then 2 else 4
  else if Qlt_bool y (cy mid)
       then if Qlt_bool z (cz mid) then 1 else 5
       else if Qlt_bool z (cz mid) then 3 else 7.

(** GeoOctree_Imp.hpp:182-222: the children that receive a point. *)
Definition targets (mid p : coord) : list Z :=
  flat_map (fun x => flat_map (fun y => map (fun z => dispatch mid x y z)
    [cz p - real_eps; cz p + real_eps]%Q) [cy p - real_eps; cy p + real_eps]%Q) [cx p - real_eps; cx p + real_eps]%Q.

Definition onode_add (n : onode) (i : Z) : onode :=
  let (lo, hi, mid, cs, lf, ns) := n in ONode lo hi mid (cs ++ [i]) lf ns.

(** std::vector<...>::resize(8). *)
Definition resize8 (l : list onode) : list onode := firstn 8 l ++ repeat onode_new (8 - length l).

(** GeoOctree_Imp.hpp:174-232: hand one coordinate down; [m_geometricObjects[i]] is unchecked. *)
Definition hand_down (objs : list (Z * coord)) (mid : coord) (ns : list onode) (i : Z) : outcome (list onode) :=
  o <- vec_get objs i ;;
  let ok := targets mid (snd o) in
  Ok (map (fun c => if existsb (Z.eqb (fst c)) ok then onode_add (snd c) i else snd c) (combine (zrange 8) ns)).

(** GeoOctree.hpp:21. *)
Definition max_per_node : Z := 1000.

(** The loop GeoOctree_Imp.hpp:235-246 over the children: the state is (children done, m_coordinateList
    of this node, m_isLeaf); [None] inside [Ok] means out of fuel. *)
Fixpoint each_child (create : onode -> outcome (option onode)) (todo done : list onode) (cs : list Z) (lf : bool)
  : outcome (option (list onode * list Z * bool)) :=
  match todo with
  | [] => Ok (Some (done, cs, lf))
  | c :: rest =>
    if negb (zlen (on_coords c) =? zlen cs) && (zlen (on_coords c) >? max_per_node)
    then r <- create c ;;
         match r with
         | None => Ok None
         | Some c' => each_child create rest (done ++ [c']) [] false
         end
    else each_child create rest (done ++ [c]) cs lf
  end.

(** GeoOctree_Imp.hpp:162-246. [fuel] bounds the depth of the recursion. *)
Fixpoint create_recursive (fuel : nat) (objs : list (Z * coord)) (n : onode) : outcome (option onode) :=
  match fuel with
  | O => Ok None
  | S fuel' =>
    let (lo, hi, mid, cs, lf, ns) := n in
    let ns0 := map (fun c => create_node (snd c) lo hi mid (fst c)) (combine (zrange 8) (resize8 ns)) in
    ns1 <- foldM (hand_down objs mid) cs ns0 ;;
    r <- each_child (create_recursive fuel' objs) ns1 [] cs lf ;;
    match r with
    | None => Ok None
    | Some (ns2, cs', lf') => Ok (Some (ONode lo hi mid cs' lf' ns2))
    end
  end.

(** GeoOctree_Imp.hpp:249-276. The limits of the root are the lower corner on both sides. *)
Definition oct_build (fuel : nat) (t : octree) : outcome (option octree) :=
  let b := fold_left box_add (map snd (o_objs t)) (o_box t) in
  let e := Coord real_eps real_eps real_eps in
  let (_, _, _, cs, lf, ns) := o_root t in
  let root := ONode (vsub (b_min b) e) (vadd (b_min b) e) (half_way (b_min b) (b_max b))
                    (cs ++ zrange (length (o_objs t))) lf ns in
  r <- create_recursive fuel (o_objs t) root ;;
  match r with None => Ok None | Some root' => Ok (Some (Octree (o_objs t) root' b)) end.

(** GeoOctree_Imp.hpp:279-287: the deeper search is made but its result is dropped, so the node
    returned is always a child of the root. [nodes[octreeLocation]] is unchecked. The recursion follows
    the tree, so it ends. *)
Fixpoint find_recursive (n : onode) (q : coord) : outcome onode :=
  match n with
  | ONode _ _ mid _ lf ns =>
    let loc := dispatch mid (cx q) (cy q) (cz q) in
    (* the recursive call is undefined where nodes[...] is *)
    deeper <- (if lf then Ok tt
               else nth (Z.to_nat loc) (map (fun c => r <- find_recursive c q ;; Ok tt) ns) UB) ;;
    vec_get ns loc
  end.

(** GeoOctree_Imp.hpp:290-303: m_geometricObjects[...] is unchecked; results are appended. (An index
    in range always has an entry in m_geometricObjectIds.) *)
Definition oct_find (t : octree) (out : list Z) (q : coord) (tol : Q) : outcome (list Z) :=
  n <- find_recursive (o_root t) q ;;
  foldM (fun out i => o <- vec_get (o_objs t) i ;;
           Ok (if norm_le (vsub (snd o) q) tol then out ++ [fst o] else out)) (on_coords n) out.

Definition oct_fill (t : octree) (objs : list (Z * coord)) : octree :=
  fold_left (fun t o => oct_add t (fst o) (snd o)) objs t.
