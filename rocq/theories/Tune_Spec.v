(** Words used in the statements about the improvement of triangulations (Tune_Props.v). *)
From Coq Require Import ZArith List Bool QArith.
From Verif Require Import Prelude Vec ZMap Mesh_Model Front_Spec.
Import ListNotations.
Open Scope Z_scope.

(** The element [id] is a triangle with these corners. *)
Definition triangle (m : mesh) (id p q r : Z) : Prop :=
  exists faces, t_get (m_elems m) id = Ok (Element ET_TRIANGLE [p; q; r] faces).
(** All triangles have three different nodes of the mesh as corners. *)
Definition proper (m : mesh) : Prop :=
  forall id e, t_get (m_elems m) id = Ok e -> e_type e = ET_TRIANGLE -> exists p q r, e_nodes e = [p; q; r] /\ p <> q /\ r <> p /\ r <> q.
(** All triangles are counter-clockwise and the z of their unit normal is above [tol]. *)
Definition all_upright (tol : Q) (m : mesh) : Prop :=
  forall id p q r, triangle m id p q r -> exists cp cq cr,
    t_get (m_nodes m) p = Ok cp /\ t_get (m_nodes m) q = Ok cq /\ t_get (m_nodes m) r = Ok cr /\
    (0 < area2 cp cq cr)%Q /\ (tol * tol * norm2 (cross (vsub cq cp) (vsub cr cp)) < area2 cp cq cr * area2 cp cq cr)%Q.
(** All triangles have at least this quality. *)
Definition at_least (quality : coord -> coord -> coord -> Q) (b : Q) (m : mesh) : Prop :=
  forall id p q r, triangle m id p q r -> (b <= quality (where_ (m_nodes m) p) (where_ (m_nodes m) q) (where_ (m_nodes m) r))%Q.
(** The sum of the qualities of all triangles. *)
Definition total_quality (quality : coord -> coord -> coord -> Q) (m : mesh) : Q :=
  sum (map (fun id => match t_get (m_elems m) id with
                      | Ok (Element ET_TRIANGLE [p; q; r] _) => quality (where_ (m_nodes m) p) (where_ (m_nodes m) q) (where_ (m_nodes m) r)
                      | _ => 0%Q end) (t_ids (m_elems m))).
(** How many more sides run from [a] to [b] than back: 0 inside, 1 or -1 on the boundary of a region. *)
Definition net (m : mesh) (a b : Z) : Z :=
  Z.of_nat (running (all_sides (m_elems m)) a b) - Z.of_nat (running (all_sides (m_elems m)) b a).
(** The line faces of triangles are their sides, and paired faces run in opposite senses. *)
Definition linked (m : mesh) : Prop :=
  forall fid f e, t_get (m_faces m) fid = Ok f -> f_type f = FT_LINE -> t_get (m_elems m) (f_elem f) = Ok e -> e_type e = ET_TRIANGLE ->
  exists a b, f_nodes f = [a; b] /\ In (a, b) (sides_of (e_nodes e)) /\
    (f_haspair f = true -> exists g e', t_get (m_faces m) (f_pair f) = Ok g /\ t_get (m_elems m) (f_elem g) = Ok e' /\
       (e_type e' = ET_TRIANGLE -> In (b, a) (sides_of (e_nodes e')))).
(** The elements of faces exist. *)
Definition owned (m : mesh) : Prop := forall fid f, t_get (m_faces m) fid = Ok f -> In (f_elem f) (t_ids (m_elems m)).
(** A node of a face without partner. *)
Definition on_border (m : mesh) (n : Z) : Prop :=
  exists fid f, t_get (m_faces m) fid = Ok f /\ f_haspair f = false /\ In n (f_nodes f).
(** Wherever sides do not cancel there is a face without partner. *)
Definition fitted (m : mesh) : Prop := forall a b, net m a b <> 0 -> on_border m a /\ on_border m b.
(** No two sides run the same way between the same nodes. *)
Definition once (m : mesh) : Prop := forall a b, (running (all_sides (m_elems m)) a b <= 1)%nat.
