(** Vocabulary for properties of triangulated surfaces: which edges know each other, and how their ends lie. *)
From Coq Require Import ZArith List Bool QArith.
From Verif Require Import Prelude Vec ZMap Surf_Model.
Import ListNotations.
Open Scope Z_scope.

(** The facet with an id (any other facet if there is none). *)
Definition facet (s : surf) (id : Z) : sfacet := match zlookup id (u_map s) with Some f => f | None => SFacet (vzero, vzero, vzero) (-1, -1, -1) (-1, -1, -1) end.
(** Vertex [k] of a facet, and neighbor and whichVertexNot of edge [k], which runs from vertex [k] to vertex [k + 1]; all modulo 3. *)
Definition corner (s : surf) (id k : Z) : coord := tget (sf_v (facet s id)) k.
Definition across (s : surf) (id k : Z) : Z := tget (sf_nb (facet s id)) k.
Definition apart (s : surf) (id k : Z) : Z := tget (sf_vn (facet s id)) k.
(** Every listed id has a facet and vice versa, no id is listed twice or negative. *)
Definition well_stored (s : surf) : Prop :=
  NoDup (u_ids s) /\ zsorted (u_map s) /\ (forall id, In id (u_ids s) <-> zlookup id (u_map s) <> None) /\ (forall id, In id (u_ids s) -> 0 <= id).
(** An edge without neighbour. *)
Definition free (s : surf) (id k : Z) : Prop := across s id k = -1 /\ apart s id k = -1.
(** Edge [k] of facet [id] and edge [l] of the facet [nb] name each other; the vertex of [nb] not on the edge is [l + 2]. *)
Definition linked (s : surf) (id k nb l : Z) : Prop :=
  In nb (u_ids s) /\ nb <> id /\ across s id k = nb /\ apart s id k = (l + 2) mod 3 /\ across s nb l = id /\ apart s nb l = (k + 2) mod 3.
(** The two edges have the same ends, run through in opposite or in the same direction. *)
Definition opposite (s : surf) (id k nb l : Z) : Prop := corner s nb l =v= corner s id (k + 1) /\ corner s nb (l + 1) =v= corner s id k.
Definition alike (s : surf) (id k nb l : Z) : Prop := corner s nb l =v= corner s id k /\ corner s nb (l + 1) =v= corner s id (k + 1).
(** A surface whose facets are connected along common edges and consistently oriented. *)
Definition glued (s : surf) : Prop :=
  well_stored s /\ forall id k, In id (u_ids s) -> free s id k \/ exists nb l, linked s id k nb l /\ opposite s id k nb l.
(** The same with any orientation of the facets. *)
Definition joined (s : surf) : Prop :=
  well_stored s /\ forall id k, In id (u_ids s) -> free s id k \/ exists nb l, linked s id k nb l /\ (opposite s id k nb l \/ alike s id k nb l).
