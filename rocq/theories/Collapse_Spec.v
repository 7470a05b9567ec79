(** Words used in the statements about the coarsening of triangulations (Collapse_Props.v). *)
From Coq Require Import ZArith List Bool QArith.
From Verif Require Import Prelude Vec ZMap Mesh_Model Front_Spec Tune_Spec.
Import ListNotations.
Open Scope Z_scope.

(** The distance of two points is below three quarters of [size]. *)
Definition near (size : Q) (a b : coord) : Prop := (0 < size /\ norm2 (vsub a b) < (3 # 4) * size * ((3 # 4) * size))%Q.
(** One gets from the first to the second point in hops below three quarters of [size] that land on places of nodes. *)
Inductive hops (size : Q) (m : mesh) : coord -> coord -> Prop :=
| no_hop c : hops size m c c
| one_more a b c n : hops size m a b -> t_get (m_nodes m) n = Ok c -> near size c b -> hops size m a c.
(** A side of a triangle ends in a node that is not on the border and is shorter than three quarters of [size]. *)
Definition shrinking (size : Q) (m : mesh) (id : Z) : Prop :=
  exists e a b ca cb, t_get (m_elems m) id = Ok e /\ In (a, b) (sides_of (e_nodes e)) /\ ~ on_border m b /\
    t_get (m_nodes m) a = Ok ca /\ t_get (m_nodes m) b = Ok cb /\ near size ca cb.
(** The same at places reached by hops. *)
Definition shrank (size : Q) (m : mesh) (id : Z) : Prop :=
  exists e a b ca cb ca' cb', t_get (m_elems m) id = Ok e /\ In (a, b) (sides_of (e_nodes e)) /\ ~ on_border m b /\
    t_get (m_nodes m) a = Ok ca /\ t_get (m_nodes m) b = Ok cb /\ hops size m ca ca' /\ hops size m cb cb' /\ near size ca' cb'.

(** [m1] is what collapsing leaves of [m] before the faces are made: node [a] of [m] goes to [place a] and becomes node [name a];
    [left] are the elements that remain. *)
Record collapsed (size tol : Q) (m m1 : mesh) (place : Z -> coord) (name : Z -> Z) (left : list Z) : Prop := {
  (** nodes move in short hops from node to node, those of the border not at all; *)
  co_place : forall a c, t_get (m_nodes m) a = Ok c -> hops size m c (place a);
  co_border : forall a c, on_border m a -> t_get (m_nodes m) a = Ok c -> place a = c;
  (** a node is represented by one within the tolerance of its place; the nodes of the result are at such places and further apart than the tolerance; *)
  co_name : forall a, In a (t_ids (m_nodes m)) -> exists c, t_get (m_nodes m1) (name a) = Ok c /\ norm_le (vsub (place a) c) tol = true;
  co_nodes : forall k c, t_get (m_nodes m1) k = Ok c -> exists a, In a (t_ids (m_nodes m)) /\ name a = k /\ place a = c;
  co_apart : forall k l c d, k <> l -> t_get (m_nodes m1) k = Ok c -> t_get (m_nodes m1) l = Ok d -> norm_le (vsub c d) tol = false;
  (** ids are positions; *)
  co_node_ids : exists n, t_ids (m_nodes m1) = zrange n;
  co_elem_ids : t_ids (m_elems m1) = zrange (length left);
  (** the elements that remain do so in their order, with the same corners under their new names, which are different; *)
  co_left : exists keep, left = filter keep (t_ids (m_elems m));
  co_elems : forall k id p q r, nth_error left k = Some id -> triangle m id p q r -> triangle m1 (Z.of_nat k) (name p) (name q) (name r);
  co_proper : forall id e, t_get (m_elems m1) id = Ok e -> e_type e = ET_TRIANGLE /\ exists p q r, e_nodes e = [p; q; r] /\ p <> q /\ r <> p /\ r <> q;
  (** an element goes only if corners fall together or a side of it became short at some time. *)
  co_gone : forall id p q r, triangle m id p q r -> ~ In id left -> ~ NoDup [name p; name q; name r] \/ shrank size m id }.

(** Twice the sum of the areas of the triangles [ids] with their nodes at the given places. *)
Definition areas2 (place : Z -> coord) (elems : table element) (ids : list Z) : Q :=
  sum (map (fun id => match t_get elems id with Ok (Element _ [p; q; r] _) => area2 (place p) (place q) (place r) | _ => 0%Q end) ids).
