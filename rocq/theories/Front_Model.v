(** Model of the triangulation of a region by an advancing front (mesh/MshTriangleMesher_Imp.hpp): generate and all it calls.
    Simplifications.
    - The front (std::vector m_anAdvFront) is a list, the id of an edge is its position; the fields elementId, nodeNotId3,
      boundary and line are left out: they serve only the geometric tests below.
    - The R-tree (m_tree) is the list of the ids it stores; find() returns those stored ids that an arbitrary function of the
      state picks (boxes and the search in the tree are not modelled).
    - Which existing node is near enough, the quality of a triangle, the tests for crossing edges (edgeOk) and for nodes in a
      triangle (triangleContainsNode), the place of a new node, checkDelaunay, the bounding box and the stop flag are arbitrary
      functions of the whole state, collected in [judge]; so the theorems hold whatever these tests answer.
    - The test for upright triangles, normal().z() > aTolerance, is exact over the rationals.
    - The loop over the growing front is given a number of turns; running out of them is [None] (not finished).
    - The state an object is left in by an exception is not modelled. *)
From Coq Require Import ZArith List Bool QArith.
From Verif Require Import Prelude Vec ZMap Mesh_Model HashGrid_Model Face_Model Merge_Model.
Import ListNotations.
Open Scope Z_scope.

(** MshTriangleMesher.hpp:25-50 (SMshAdvancingFrontEdge). *)
Record fedge : Type := FEdge { fe_off : bool; fe_a : Z; fe_b : Z; fe_prev : Z; fe_next : Z }.

(** MshTriangleMesher.hpp:53-90: m_anAdvFront, m_tree, the nodes and elements of m_surfaceMesh, and m_interiorNodes (node id and
    flag remove). *)
Record mesher : Type := Mesher {
  ms_front : list fedge; ms_tree : list Z; ms_nodes : table coord; ms_elems : table element; ms_inner : list (Z * bool) }.

(** The tests and measures that are not modelled; see the head of the file. *)
Record judge : Type := Judge {
  j_stop : mesher -> Z -> bool;                       (* 882-885: checkUpdate, m_bStop *)
  j_near : mesher -> Z -> list Z;                     (* 939-941: m_tree.find *)
  j_hole : mesher -> Z -> list Z -> bool;             (* 968: edgeOk, edgeOk, !triangleContainsNode *)
  j_close : mesher -> Z -> list Z -> Z -> bool;       (* 990-1012: d < ... *)
  j_quality : mesher -> Z -> list Z -> Z -> Q;        (* 1023-1025 *)
  j_ok : mesher -> Z -> list Z -> Z -> nat -> bool;   (* 1027-1037: the three tests *)
  j_place : mesher -> Z -> list Z -> coord;           (* 929-930, 1066-1074 *)
  j_accept : mesher -> Z -> list Z -> coord -> bool;  (* 1085-1105: q2 > 1.5 * minQuality *)
  j_inside : mesher -> coord -> bool }.               (* 1114: m_boundingBox.contains *)

(** ** The front *)
Fixpoint upd {A : Type} (l : list A) (n : nat) (x : A) : list A :=
  match l, n with
  | [], _ => []
  | _ :: l', O => x :: l'
  | y :: l', S n' => y :: upd l' n' x
  end.

(** Writing to m_anAdvFront[i] through the reference obtained from .at(i). *)
Definition put (s : mesher) (i : Z) (e : fedge) : mesher :=
  Mesher (upd (ms_front s) (Z.to_nat i) e) (ms_tree s) (ms_nodes s) (ms_elems s) (ms_inner s).

Definition edge_at (s : mesher) (i : Z) : outcome fedge := vec_at (ms_front s) i.

Definition switch_off (e : fedge) : fedge := FEdge true (fe_a e) (fe_b e) (fe_prev e) (fe_next e).
Definition set_prev (e : fedge) (k : Z) : fedge := FEdge (fe_off e) (fe_a e) (fe_b e) k (fe_next e).
Definition set_next (e : fedge) (k : Z) : fedge := FEdge (fe_off e) (fe_a e) (fe_b e) (fe_prev e) k.

(** 66-71, 90-102 (removeEdge, removeEdgeFromRtree). *)
Definition drop_edge (s : mesher) (i : Z) : outcome mesher :=
  e <- edge_at s i ;;
  _ <- t_get (ms_nodes s) (fe_a e) ;; _ <- t_get (ms_nodes s) (fe_b e) ;;
  let s' := put s i (switch_off e) in
  Ok (Mesher (ms_front s') (filter (fun k => negb (k =? i)) (ms_tree s')) (ms_nodes s') (ms_elems s') (ms_inner s')).

(** 109-128: comparing the sorted pairs of node ids. *)
Definition same_nodes (e f : fedge) : bool :=
  ((fe_a e =? fe_a f) && (fe_b e =? fe_b f)) || ((fe_a e =? fe_b f) && (fe_b e =? fe_a f)).

(** 104-137 (edgeExists). *)
Fixpoint edge_exists (s : mesher) (i : Z) (e : fedge) (near : list Z) : outcome (option Z) :=
  match near with
  | [] => Ok None
  | w :: near' =>
      if w =? i then edge_exists s i e near'
      else f <- edge_at s w ;;
           if same_nodes e f then Ok (Some w) else edge_exists s i e near'
  end.

(** 325-345: body of the inner loop of adjustConnectivity. *)
Definition rewire (i : Z) (s : mesher) (w : Z) : outcome mesher :=
  if w =? i then Ok s
  else e <- edge_at s i ;; f <- edge_at s w ;;
       if fe_off f then Ok s
       else if fe_a e =? fe_b f then Ok (put (put s i (set_prev e w)) w (set_next f i))
       else if fe_b e =? fe_a f then Ok (put (put s i (set_next e w)) w (set_prev f i))
       else Ok s.

(** 297-347: body of the outer loop. *)
Definition adjust_step (near : list Z) (s : mesher) (i : Z) : outcome mesher :=
  e <- edge_at s i ;;
  if fe_off e then Ok s
  else if fe_a e =? fe_b e then Ok (put s i (switch_off e))
  else if (zlen (ms_front s) <=? fe_prev e) || (zlen (ms_front s) <=? fe_next e) then Throw
  else p <- edge_at s (fe_prev e) ;; n <- edge_at s (fe_next e) ;;
       if fe_off p || fe_off n then foldM (rewire i) near s else Ok s.

(** 295-349 (adjustConnectivity). *)
Definition adjust (s : mesher) (near : list Z) : outcome mesher :=
  foldM (adjust_step near) (zrange (length (ms_front s))) s.

(** 359-379: body of the loop of cleanDuplicateEdges; the second component is bAdjustConnectivity. *)
Definition clean_step (near : list Z) (st : mesher * bool) (i : Z) : outcome (mesher * bool) :=
  let s := fst st in
  e <- edge_at s i ;;
  if fe_off e then Ok st
  else d <- edge_exists s i e near ;;
       match d with
       | None => Ok st
       | Some w => s1 <- drop_edge s i ;; s2 <- drop_edge s1 w ;; Ok (s2, true)
       end.

(** 351-384 (cleanDuplicateEdges): the last two edges, the last one first. *)
Definition clean (s : mesher) (near : list Z) : outcome mesher :=
  let k := zlen (ms_front s) in
  if k <? 2 then Ok s
  else r <- foldM (clean_step near) [k - 1; k - 2] (s, false) ;;
       if snd r then adjust (fst r) near else Ok (fst r).

(** 386-464 (addTriangle). *)
Definition add_triangle (s : mesher) (i n3 : Z) (near : list Z) : outcome mesher :=
  e <- edge_at s i ;;
  let n1 := fe_a e in let n2 := fe_b e in
  if (n3 =? n1) || (n3 =? n2) then Ok s
  else
    let elems := t_add (ms_elems s) (t_next (ms_elems s)) (Element ET_TRIANGLE [n1; n2; n3] []) in
    p <- edge_at s (fe_prev e) ;; _ <- edge_at s (fe_next e) ;;
    let k := zlen (ms_front s) in
    _ <- t_get (ms_nodes s) n1 ;; _ <- t_get (ms_nodes s) n2 ;; _ <- t_get (ms_nodes s) n3 ;;
    let e1 := FEdge false n1 n3 (fe_prev e) (k + 1) in
    let s1 := put s (fe_prev e) (set_next p k) in
    e' <- edge_at s1 i ;;
    let e2 := FEdge false n3 n2 k (fe_next e') in
    nx <- edge_at s1 (fe_next e) ;;
    let s2 := put s1 (fe_next e) (set_prev nx (k + 1)) in
    s3 <- drop_edge s2 i ;;
    clean (Mesher (ms_front s3 ++ [e1; e2]) (ms_tree s3 ++ [k; k + 1]) (ms_nodes s3) elems (ms_inner s3)) near.

(** ** Candidates *)
Definition insert_new (l : list Z) (n : Z) : list Z := if existsb (Z.eqb n) l then l else l ++ [n].

(** 174-203 (findClosestNodes). *)
Definition find_nodes (s : mesher) (near : list Z) : outcome (list Z) :=
  l <- foldM (fun (l : list Z) w => e <- edge_at s w ;;
                         Ok (if fe_off e then l else insert_new (insert_new l (fe_a e)) (fe_b e))) near [] ;;
  Ok (fold_left (fun (l : list Z) (x : Z * bool) => if snd x then l else insert_new l (fst x)) (ms_inner s) l).

(** 961-965, 1016-1021, 1077-1083: normal().z() > aTolerance, the normal being the cross product divided by its length (left
    zero if its length is zero): for a tolerance >= 0 this is 0 < z and tolerance^2 |cross|^2 < z^2. *)
Definition upright (tol : Q) (p1 p2 p3 : coord) : bool :=
  let n := cross (vsub p2 p1) (vsub p3 p1) in
  if Qle_bool 0 tol
  then Qlt_bool 0 (cz n) && Qlt_bool (tol * tol * norm2 n) (cz n * cz n)
  else Qle_bool 0 (cz n) || Qlt_bool (cz n * cz n) (tol * tol * norm2 n).

(** 1027-1037: a test that fails costs 2, and is made only while the quality exceeds the best one so far. *)
Definition penalty (best : Q) (q : Q) (ok : bool) : Q :=
  if Qlt_bool best q then if ok then q else (q - 2)%Q else q.

(** 983-1047: body of the loop over the nodes; state: qmax and anExistingNodeId. *)
Definition candidate (j : judge) (tol : Q) (s : mesher) (i : Z) (near : list Z) (n1 n2 : Z) (p1 p2 : coord)
  (st : Q * Z) (n : Z) : outcome (Q * Z) :=
  if (n =? n1) || (n =? n2) then Ok st
  else p <- t_get (ms_nodes s) n ;;
       if j_close j s i near n && upright tol p1 p2 p
       then let q := fold_left (penalty (fst st)) (map (j_ok j s i near n) [0; 1; 2]%nat) (j_quality j s i near n) in
            if Qlt_bool (fst st) q then Ok (q, n) else Ok st
       else Ok st.

(** 1051-1058: using an interior node. *)
Definition use_inner (s : mesher) (n : Z) : mesher :=
  Mesher (ms_front s) (ms_tree s) (ms_nodes s) (ms_elems s)
    (map (fun x => if fst x =? n then (fst x, true) else x) (ms_inner s)).

(** 877-1124: body of the loop over the front; the second component tells that meshing was stopped (884-885). *)
Definition turn (j : judge) (tol : Q) (limit : Z) (adding : bool) (minq : Q) (s : mesher) (i : Z) : outcome (mesher * bool) :=
  e <- edge_at s i ;;
  if fe_off e then Ok (s, false)
  else if j_stop j s i then Ok (s, true)
  else if (0 <? limit) && (limit <=? t_size (ms_elems s)) then Throw
  else
    let n1 := fe_a e in let n2 := fe_b e in
    p1 <- t_get (ms_nodes s) n1 ;; p2 <- t_get (ms_nodes s) n2 ;;
    ep <- edge_at s (fe_prev e) ;; en <- edge_at s (fe_next e) ;;
    let n3 := fe_a ep in let n4 := fe_b en in
    let near := filter (fun k => negb (k =? i)) (filter (fun k => existsb (Z.eqb k) (ms_tree s)) (j_near j s i)) in
    nodes <- find_nodes s near ;;
    closing <- (if n3 =? n4 then p3 <- t_get (ms_nodes s) n3 ;; Ok (upright tol p1 p2 p3 && j_hole j s i near) else Ok false) ;;
    if closing : bool then s' <- add_triangle s i n3 near ;; Ok (s', false)
    else
      best <- foldM (candidate j tol s i near n1 n2 p1 p2) nodes (0%Q, int_max) ;;
      if Qlt_bool minq (fst best)
      then s' <- add_triangle (use_inner s (snd best)) i (snd best) near ;; Ok (s', false)
      else if adding
      then let p := j_place j s i near in
           if upright tol p1 p2 p && j_accept j s i near p
           then let n := t_next (ms_nodes s) in
                s' <- add_triangle (Mesher (ms_front s) (ms_tree s) (t_add (ms_nodes s) n p) (ms_elems s) (ms_inner s)) i n near ;;
                if j_inside j s p then Ok (s', false) else Throw
           else Ok (s, false)
      else Ok (s, false).

(** 855-1131 (advancingFrontTriMeshing): the loop visits positions 0, 1, ... of the front, which grows meanwhile; at most [fuel]
    turns. *)
Fixpoint advance (j : judge) (tol : Q) (limit : Z) (adding : bool) (minq : Q) (fuel : nat) (i : Z) (s : mesher)
  : outcome (option mesher) :=
  if zlen (ms_front s) <=? i then Ok (Some s)
  else match fuel with
       | O => Ok None
       | S fuel' => r <- turn j tol limit adding minq s i ;;
                    if snd r then Ok (Some (fst r)) else advance j tol limit adding minq fuel' (i + 1) (fst r)
       end.

(** 841-853 (frontSize). *)
Definition front_size (s : mesher) : Z := zlen (filter (fun e => negb (fe_off e)) (ms_front s)).

(** ** generate *)
(** 705-714. *)
Definition given_nodes (em : mesh) : outcome (table coord) :=
  foldM (fun t id => c <- t_get (m_nodes em) id ;; Ok (t_add t id c)) (t_ids (m_nodes em)) t_empty.

Definition is_beam (e : element) : bool := match e_type e with ET_BEAM => true | _ => false end.

(** 725-737: newEdgeIds: the position of a beam among all the elements (not among the beams). *)
Definition edge_ids (em : mesh) : outcome (zmap Z) :=
  foldM (fun (mp : zmap Z) i => id <- t_id (m_elems em) i ;; e <- t_get (m_elems em) id ;;
                   Ok (if is_beam e then zinsert id i mp else mp))
    (zrange (length (t_ids (m_elems em)))) zempty.

(** 765-789: the neighbour across one face (an end) of a beam; INT_MAX if the other element is not a beam. *)
Definition neighbour (em : mesh) (ids : zmap Z) (fid : Z) : outcome Z :=
  f <- t_get (m_faces em) fid ;;
  if f_haspair f
  then g <- t_get (m_faces em) (f_pair f) ;;
       Ok (match zlookup (f_elem g) ids with Some k => k | None => int_max end)
  else Throw.

(** 744-803: one element of the given mesh.  A beam has room for two nodes and two neighbours (arrays of size 2). *)
Definition add_beam (em : mesh) (ids : zmap Z) (s : mesher) (id : Z) : outcome mesher :=
  e <- t_get (m_elems em) id ;;
  if is_beam e
  then match e_nodes e, e_faces e with
       | [a; b], [fa; fb] =>
           _ <- t_get (m_nodes em) a ;; _ <- t_get (m_nodes em) b ;;
           pr <- neighbour em ids fa ;; nx <- neighbour em ids fb ;;
           _ <- t_get (ms_nodes s) a ;; _ <- t_get (ms_nodes s) b ;;
           Ok (Mesher (ms_front s ++ [FEdge false a b pr nx]) (ms_tree s ++ [zlen (ms_front s)])
                 (ms_nodes s) (ms_elems s) (ms_inner s))
       | _, _ => UB
       end
  else Ok s.

(** 806-820: one interior point. *)
Definition add_inner (s : mesher) (c : coord) : mesher :=
  let n := t_next (ms_nodes s) in
  Mesher (ms_front s) (ms_tree s) (t_add (ms_nodes s) n c) (ms_elems s) (ms_inner s ++ [(n, false)]).

(** 695-820: everything up to the first pass.  [old] is m_interiorNodes as the calls before left it: it is never cleared. *)
Definition prepare (old : list (Z * bool)) (em : mesh) (points : list coord) : outcome mesher :=
  nodes <- given_nodes em ;;
  ids <- edge_ids em ;;
  s <- foldM (add_beam em ids) (t_ids (m_elems em)) (Mesher [] [] nodes t_empty old) ;;
  Ok (fold_left add_inner points s).

(** 822-833: the three passes (the factors of 825-827 are part of the judges), then the front must be empty. *)
Definition fill (j1 j2 j3 : judge) (tol : Q) (limit : Z) (fuel : nat) (s : mesher) : outcome (option mesher) :=
  r1 <- advance j1 tol limit false (2 # 100) fuel 0 s ;;
  match r1 with None => Ok None | Some s1 =>
  r2 <- advance j2 tol limit true (1 # 100) fuel 0 s1 ;;
  match r2 with None => Ok None | Some s2 =>
  r3 <- advance j3 tol limit true 0 fuel 0 s2 ;;
  match r3 with None => Ok None | Some s3 => if 0 <? front_size s3 then Throw else Ok (Some s3) end end end.

(** 695-839 (generate); the result is m_surfaceMesh and m_interiorNodes.  [n] is the number of cells of the hash grid used by
    generateFaces (see Face_Model). *)
Definition generate (n : Z) (j1 j2 j3 : judge) (tol : Q) (limit : Z) (fuel : nat) (old : list (Z * bool)) (em : mesh)
  (points : list coord) : outcome (option (mesh * list (Z * bool))) :=
  s <- prepare old em points ;;
  r <- fill j1 j2 j3 tol limit fuel s ;;
  match r with
  | None => Ok None
  | Some s' =>
      m1 <- removeDanglingNodes (Mesh (ms_nodes s') t_empty (ms_elems s')) ;;
      m2 <- renumber m1 ;;
      m3 <- generateFaces n tol m2 ;;
      Ok (Some (fst m3, ms_inner s'))
  end.
